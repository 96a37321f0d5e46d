(** Proofs about signed distance functions. *)
From Coq Require Import List Arith Bool Lia ZArith QArith Lqa.
From Verif Require Import M_Base M_Sdf S_Sdf Util.
Import ListNotations.
Open Scope Q_scope.

Lemma npmin_lt a b c : npmin a b < c <-> a < c \/ b < c.
Proof.
  unfold npmin. destruct (Qle_bool a b) eqn:E.
  - apply Qle_bool_iff in E. split; [auto|]. intros [H|H]; lra.
  - assert (b < a). { apply Qnot_le_lt. rewrite <- Qle_bool_iff. congruence. } split; [auto|]. intros [H'|H']; lra.
Qed.
Lemma npmin_gt a b c : c < npmin a b <-> c < a /\ c < b.
Proof.
  unfold npmin. destruct (Qle_bool a b) eqn:E.
  - apply Qle_bool_iff in E. split; [intros; split; lra|]. intros [H H']; lra.
  - assert (b < a). { apply Qnot_le_lt. rewrite <- Qle_bool_iff. congruence. } split; [intros; split; lra|]. intros [H1 H2]; lra.
Qed.
Lemma npmax_lt a b c : npmax a b < c <-> a < c /\ b < c.
Proof.
  unfold npmax. destruct (Qle_bool a b) eqn:E.
  - apply Qle_bool_iff in E. split; [intros; split; lra|]. intros [H H']; lra.
  - assert (b < a). { apply Qnot_le_lt. rewrite <- Qle_bool_iff. congruence. } split; [intros; split; lra|]. intros [H1 H2]; lra.
Qed.

(** * Reductions *)
Lemma mapM_map {A B} (f : A -> res B) (g : A -> B) l : (forall x, In x l -> f x = Ok (g x)) -> mapM f l = Ok (map g l).
Proof. induction l as [|x l IH]; intros H; cbn; auto. rewrite H by now left. rewrite IH; [reflexivity|]. intros y Hy. apply H. now right. Qed.
Lemma zip_with_map {A} op (f g : A -> Q) xs : zip_with op (map f xs) (map g xs) = map (fun x => op (f x) (g x)) xs.
Proof. unfold zip_with. induction xs as [|x xs IH]; simpl; auto. now rewrite IH. Qed.
Lemma np_reduce_map {A} op (gs : list (A -> Q)) g0 xs :
  np_reduce op (map (fun g => map g xs) (g0 :: gs)) = Ok (map (fun x => fold_left (fun m g => op m (g x)) gs (g0 x)) xs).
Proof.
  unfold np_reduce. cbn [map]. assert (same_lengths (map g0 xs :: map (fun g => map g xs) gs) = true) as ->.
  { unfold same_lengths. apply forallb_forall. intros s [<-|Hs]; [now rewrite Nat.eqb_refl|].
    apply in_map_iff in Hs. destruct Hs as (g & <- & _). rewrite !map_length. apply Nat.eqb_refl. }
  f_equal. revert g0. induction gs as [|g gs IH]; intros g0; cbn [map fold_left]; [reflexivity|].
  rewrite zip_with_map. apply IH.
Qed.

Definition list_min (g0 : Q) (gs : list Q) : Q := fold_left npmin gs g0.
Definition list_max (g0 : Q) (gs : list Q) : Q := fold_left npmax gs g0.
Lemma list_min_lt gs : forall g0 c, list_min g0 gs < c <-> exists g, In g (g0 :: gs) /\ g < c.
Proof.
  unfold list_min. induction gs as [|g gs IH]; intros g0 c; cbn [fold_left].
  - split; [intros H; exists g0; simpl; auto|intros (g & [<-|[]] & H); auto].
  - rewrite IH. split.
    + intros (a & [<-|Ha] & H); [apply npmin_lt in H; destruct H as [H|H]; eauto with datatypes|exists a; simpl; auto].
    + intros (a & [<-|[<-|Ha]] & H).
      * exists (npmin g0 g). split; [now left|apply npmin_lt; auto].
      * exists (npmin g0 g). split; [now left|apply npmin_lt; auto].
      * exists a. split; [now right|auto].
Qed.
Lemma list_max_lt gs : forall g0 c, list_max g0 gs < c <-> forall g, In g (g0 :: gs) -> g < c.
Proof.
  unfold list_max. induction gs as [|g gs IH]; intros g0 c; cbn [fold_left].
  - split; [intros H g [<-|[]]; auto|intros H; apply H; now left].
  - rewrite IH. split.
    + intros H a [<-|[<-|Ha]]; [apply (npmax_lt g0 g c), H; now left|apply (npmax_lt g0 g c), H; now left|apply H; now right].
    + intros H a [<-|Ha]; [apply npmax_lt; split; apply H; simpl; auto|apply H; simpl; auto].
Qed.
Lemma fold_op_map {A} op (gs : list (A -> Q)) (x : A) : forall a : Q, fold_left (fun m g => op m (g x)) gs a = fold_left op (map (fun g => g x) gs) a.
Proof. induction gs as [|g gs IH]; intros a; simpl; auto. Qed.

Lemma rows_map ds gs xs : Forall2 evaluates ds gs -> mapM (fun d => d_eval d xs) ds = Ok (map (fun g => map g xs) gs).
Proof. induction 1 as [|d g ds gs H HF IH]; cbn; auto. rewrite H. cbn. now rewrite IH. Qed.

Lemma union_evaluates ds gs u : Forall2 evaluates ds gs -> Union ds = Ok u ->
  exists h, evaluates u h /\ forall x, h x < 0 <-> exists g, In g gs /\ g x < 0.
Proof.
  intros HF HU. unfold Union, combined in HU. destruct (compute_bbox ds) as [b| |] eqn:Eb; cbn in HU; try discriminate. injection HU as <-.
  destruct HF as [|d g ds gs H HF]; [discriminate Eb|].
  exists (fun x => fold_left (fun m g => npmin m (g x)) gs (g x)). split.
  - intros xs. cbn [d_eval]. unfold union_eval. rewrite (rows_map (d :: ds) (g :: gs)) by now constructor. cbn [bind]. apply np_reduce_map.
  - intros x. rewrite fold_op_map. unfold list_min in *. pose proof (list_min_lt (map (fun g => g x) gs) (g x) 0) as G. unfold list_min in G. rewrite G.
    split.
    + intros (v & [<-|Hv] & Hlt); [exists g; simpl; auto|]. apply in_map_iff in Hv. destruct Hv as (g' & <- & Hg'). exists g'. simpl; auto.
    + intros (g' & [<-|Hg'] & Hlt); [exists (g x); simpl; auto|]. exists (g' x). split; [right; apply in_map_iff; eauto|auto].
Qed.
Lemma intersection_evaluates ds gs u : Forall2 evaluates ds gs -> Intersection ds = Ok u ->
  exists h, evaluates u h /\ forall x, h x < 0 <-> forall g, In g gs -> g x < 0.
Proof.
  intros HF HU. unfold Intersection, combined in HU. destruct (compute_bbox ds) as [b| |] eqn:Eb; cbn in HU; try discriminate. injection HU as <-.
  destruct HF as [|d g ds gs H HF]; [discriminate Eb|].
  exists (fun x => fold_left (fun m g => npmax m (g x)) gs (g x)). split.
  - intros xs. cbn [d_eval]. unfold intersection_eval. rewrite (rows_map (d :: ds) (g :: gs)) by now constructor. cbn [bind]. apply np_reduce_map.
  - intros x. rewrite fold_op_map. pose proof (list_max_lt (map (fun g => g x) gs) (g x) 0) as G. unfold list_max in G. rewrite G.
    split.
    + intros HH g' [<-|Hg']; [apply HH; now left|]. apply HH. right. apply in_map_iff. eauto.
    + intros HH v [<-|Hv]; [apply HH; now left|]. apply in_map_iff in Hv. destruct Hv as (g' & <- & Hg'). apply HH. now right.
Qed.
Lemma diff_rows_tail ds gs xs : Forall2 evaluates ds gs -> forall n, (0 < n)%nat ->
  mapM (fun nd => let! v := d_eval (snd nd) xs in Ok (if Nat.ltb 0 (fst nd) then map Qopp v else v)) (combine (seq n (length ds)) ds)
  = Ok (map (fun g => map g xs) (map (fun g x => - g x) gs)).
Proof.
  induction 1 as [|d g ds gs H HF IH]; intros n Hn; cbn [length seq combine mapM map]; auto. cbn [fst snd]. rewrite H. cbn [bind].
  rewrite (proj2 (Nat.ltb_lt 0 n) Hn). rewrite IH by lia. cbn [bind]. rewrite map_map. reflexivity.
Qed.
Lemma difference_evaluates d ds g gs u : evaluates d g -> Forall2 evaluates ds gs -> Difference (d :: ds) = Ok u ->
  exists h, evaluates u h /\ forall x, h x < 0 <-> g x < 0 /\ forall g', In g' gs -> 0 < g' x.
Proof.
  intros H HF HU. unfold Difference, combined in HU. destruct (compute_bbox (d :: ds)) as [b| |] eqn:Eb; cbn in HU; try discriminate. injection HU as <-.
  exists (fun x => fold_left (fun m g => npmax m (g x)) (map (fun g x => - g x) gs) (g x)). split.
  - intros xs. cbn [d_eval]. unfold difference_eval. cbn [length seq combine mapM]. cbn [fst snd]. rewrite H. cbn [bind]. change (Nat.ltb 0 0) with false. cbv iota.
    rewrite (diff_rows_tail ds gs xs HF 1%nat) by lia. cbn [bind]. exact (np_reduce_map npmax (map (fun g x => - g x) gs) g xs).
  - intros x. rewrite fold_op_map. pose proof (list_max_lt (map (fun g => g x) (map (fun g x => - g x) gs)) (g x) 0) as G. unfold list_max in G. rewrite G.
    rewrite map_map. split.
    + intros HH. split; [apply HH; now left|]. intros g' Hg'. assert (- g' x < 0); [|lra]. apply HH. right. apply in_map_iff. exists g'. auto.
    + intros [H1 H2] v [<-|Hv]; auto. apply in_map_iff in Hv. destruct Hv as (g' & <- & Hg'). specialize (H2 g' Hg'). lra.
Qed.

(** * Bounding boxes *)
Lemma py_min_spec l m : py_min l = Ok m -> forall x, In x l -> m <= x.
Proof.
  destruct l as [|a r]; [discriminate|]. cbn. intros E. injection E as <-. revert a.
  induction r as [|b r IH]; intros a x Hx; cbn [fold_left].
  - destruct Hx as [->|[]]. apply Qle_refl.
  - destruct (Qle_bool a b) eqn:E.
    + apply Qle_bool_iff in E. destruct Hx as [->|[->|Hx]]; [apply IH; now left|eapply Qle_trans; [apply (IH a a); now left|auto]|apply IH; now right].
    + assert (b < a). { apply Qnot_le_lt. rewrite <- Qle_bool_iff. congruence. }
      destruct Hx as [->|[->|Hx]]; [eapply Qle_trans; [apply (IH b b); now left|lra]|apply IH; now left|apply IH; now right].
Qed.
Lemma py_max_spec l m : py_max l = Ok m -> forall x, In x l -> x <= m.
Proof.
  destruct l as [|a r]; [discriminate|]. cbn. intros E. injection E as <-. revert a.
  induction r as [|b r IH]; intros a x Hx; cbn [fold_left].
  - destruct Hx as [->|[]]. apply Qle_refl.
  - destruct (Qle_bool b a) eqn:E.
    + apply Qle_bool_iff in E. destruct Hx as [->|[->|Hx]]; [apply IH; now left|eapply Qle_trans; [eassumption|apply (IH a a); now left]|apply IH; now right].
    + assert (a < b). { apply Qnot_le_lt. rewrite <- Qle_bool_iff. congruence. }
      destruct Hx as [->|[->|Hx]]; [eapply Qle_trans; [|apply (IH b b); now left]; lra|apply IH; now left|apply IH; now right].
Qed.
Lemma compute_bbox_contains ds b d x y : compute_bbox ds = Ok b -> In d ds -> in_closed_box (d_bbox d) x y -> in_closed_box b x y.
Proof.
  unfold compute_bbox. intros E Hd.
  destruct (py_min (map (fun d => b0 (d_bbox d)) ds)) eqn:E0; cbn in E; try discriminate.
  destruct (py_max (map (fun d => b1 (d_bbox d)) ds)) eqn:E1; cbn in E; try discriminate.
  destruct (py_min (map (fun d => b2 (d_bbox d)) ds)) eqn:E2; cbn in E; try discriminate.
  destruct (py_max (map (fun d => b3 (d_bbox d)) ds)) eqn:E3; cbn in E; try discriminate. injection E as <-.
  pose proof (py_min_spec _ _ E0 _ (in_map (fun d => b0 (d_bbox d)) _ _ Hd)) as G0.
  pose proof (py_max_spec _ _ E1 _ (in_map (fun d => b1 (d_bbox d)) _ _ Hd)) as G1.
  pose proof (py_min_spec _ _ E2 _ (in_map (fun d => b2 (d_bbox d)) _ _ Hd)) as G2.
  pose proof (py_max_spec _ _ E3 _ (in_map (fun d => b3 (d_bbox d)) _ _ Hd)) as G3.
  destruct (d_bbox d) as [[[p q] r] s]. cbn in *. intros [[? ?] [? ?]]. repeat split; lra.
Qed.
Lemma combined_bbox ev ds u : combined ev ds = Ok u -> forall d x y, In d ds -> in_closed_box (d_bbox d) x y -> in_closed_box (d_bbox u) x y.
Proof.
  unfold combined. destruct (compute_bbox ds) as [b| |] eqn:E; cbn; try discriminate. intros G. injection G as <-. intros d x y. cbn. now apply compute_bbox_contains.
Qed.
Lemma combined_ok ev ds : ds <> [] -> exists u, combined ev ds = Ok u.
Proof. destruct ds as [|d ds]; [congruence|]. intros _. unfold combined, compute_bbox. cbn. eauto. Qed.
Lemma Forall2_In_l {A B} (R : A -> B -> Prop) l l' x : Forall2 R l l' -> In x l' -> exists y, In y l /\ R y x.
Proof. induction 1 as [|a b l l' H HF IH]; intros Hx; [contradiction|]. destruct Hx as [<-|Hx]; [exists a; simpl; auto|]. destruct (IH Hx) as (y & Hy & HR). exists y. simpl; auto. Qed.

Lemma union_bbox_sound ds gs u h : Forall2 evaluates ds gs -> Forall2 bbox_sound ds gs -> Union ds = Ok u -> evaluates u h -> bbox_sound u h.
Proof.
  intros HE HB HU Hh x y Hlt. destruct (union_evaluates ds gs u HE HU) as (h' & Hh' & Hspec).
  assert (h (Fin x, Fin y) = h' (Fin x, Fin y)) as E. { specialize (Hh [(Fin x, Fin y)]). rewrite Hh' in Hh. cbn in Hh. injection Hh as E. auto. }
  rewrite E in Hlt. apply Hspec in Hlt. destruct Hlt as (g & Hg & Hlt). destruct (Forall2_In_l _ _ _ _ HB Hg) as (d & Hd & HS).
  apply (combined_bbox _ _ _ HU d x y Hd). now apply HS.
Qed.
Lemma intersection_bbox_sound ds gs u h : Forall2 evaluates ds gs -> Forall2 bbox_sound ds gs -> Intersection ds = Ok u -> evaluates u h -> bbox_sound u h.
Proof.
  intros HE HB HU Hh x y Hlt. destruct (intersection_evaluates ds gs u HE HU) as (h' & Hh' & Hspec).
  assert (h (Fin x, Fin y) = h' (Fin x, Fin y)) as E. { specialize (Hh [(Fin x, Fin y)]). rewrite Hh' in Hh. cbn in Hh. injection Hh as E. auto. }
  rewrite E in Hlt. rewrite Hspec in Hlt. destruct HB as [|d g ds gs HS HB]; [discriminate HU|].
  apply (combined_bbox _ _ _ HU d x y (or_introl eq_refl)). apply HS, Hlt. now left.
Qed.
Lemma difference_bbox_sound d ds g gs u h : evaluates d g -> Forall2 evaluates ds gs -> bbox_sound d g -> Difference (d :: ds) = Ok u -> evaluates u h -> bbox_sound u h.
Proof.
  intros H1 HE HB HU Hh x y Hlt. destruct (difference_evaluates d ds g gs u H1 HE HU) as (h' & Hh' & Hspec).
  assert (h (Fin x, Fin y) = h' (Fin x, Fin y)) as E. { specialize (Hh [(Fin x, Fin y)]). rewrite Hh' in Hh. cbn in Hh. injection Hh as E. auto. }
  rewrite E in Hlt. apply Hspec in Hlt. apply (combined_bbox _ _ _ HU d x y (or_introl eq_refl)). now apply HB.
Qed.

(** * Rectangle *)
Lemma bbox_value_neg x0 xN y0 yN x y : bbox_value x0 xN y0 yN x y < 0 <-> in_open_box (x0, xN, y0, yN) x y.
Proof.
  unfold bbox_value, in_open_box. split.
  - intros H. assert (G : 0 < npmin (npmin (npmin (- y0 + y) (yN - y)) (- x0 + x)) (xN - x)) by lra.
    rewrite !npmin_gt in G. lra.
  - intros H. assert (G : 0 < npmin (npmin (npmin (- y0 + y) (yN - y)) (- x0 + x)) (xN - x)); [|lra]. rewrite !npmin_gt. lra.
Qed.
Lemma bbox_value_pos x0 xN y0 yN x y : 0 < bbox_value x0 xN y0 yN x y <-> ~ in_closed_box (x0, xN, y0, yN) x y.
Proof.
  unfold bbox_value, in_closed_box. split.
  - intros H G. assert (K : npmin (npmin (npmin (- y0 + y) (yN - y)) (- x0 + x)) (xN - x) < 0) by lra.
    rewrite !npmin_lt in K. lra.
  - intros H. assert (K : npmin (npmin (npmin (- y0 + y) (yN - y)) (- x0 + x)) (xN - x) < 0); [|lra]. rewrite !npmin_lt.
    destruct (Qlt_le_dec y y0); [left; left; left; lra|]. destruct (Qlt_le_dec yN y); [left; left; right; lra|].
    destruct (Qlt_le_dec x x0); [left; right; lra|]. destruct (Qlt_le_dec xN x); [right; lra|]. exfalso. apply H. lra.
Qed.
Lemma bbox_value_zero x0 xN y0 yN x y : bbox_value x0 xN y0 yN x y == 0 <-> on_box_side (x0, xN, y0, yN) x y.
Proof.
  pose proof (bbox_value_neg x0 xN y0 yN x y) as HN. pose proof (bbox_value_pos x0 xN y0 yN x y) as HP. split.
  - intros E. assert (C : in_closed_box (x0, xN, y0, yN) x y).
    { unfold in_closed_box in *. destruct (Qlt_le_dec y y0); [exfalso; assert (0 < bbox_value x0 xN y0 yN x y) by (apply HP; lra); lra|].
      destruct (Qlt_le_dec yN y); [exfalso; assert (0 < bbox_value x0 xN y0 yN x y) by (apply HP; lra); lra|].
      destruct (Qlt_le_dec x x0); [exfalso; assert (0 < bbox_value x0 xN y0 yN x y) by (apply HP; lra); lra|].
      destruct (Qlt_le_dec xN x); [exfalso; assert (0 < bbox_value x0 xN y0 yN x y) by (apply HP; lra); lra|]. lra. }
    split; auto. unfold in_closed_box, in_open_box in *.
    destruct (Qeq_dec x x0); auto. destruct (Qeq_dec x xN); auto. destruct (Qeq_dec y y0); auto. destruct (Qeq_dec y yN); auto.
    exfalso. assert (bbox_value x0 xN y0 yN x y < 0); [|lra]. apply HN.
    assert (forall a b : Q, a <= b -> ~ b == a -> a < b) as K. { intros a b H1 H2. apply Qle_lteq in H1. destruct H1 as [H1|H1]; auto. exfalso. apply H2. now symmetry. }
    assert (forall a b : Q, a <= b -> ~ a == b -> a < b) as K'. { intros a b H1 H2. apply Qle_lteq in H1. destruct H1 as [H1|H1]; auto. contradiction. }
    destruct C as [[? ?] [? ?]]. repeat split; auto.
  - intros [C D]. unfold in_closed_box, in_open_box in *.
    assert (~ 0 < bbox_value x0 xN y0 yN x y) by (rewrite HP; tauto).
    assert (~ bbox_value x0 xN y0 yN x y < 0) by (rewrite HN; lra). lra.
Qed.
Lemma bbox_func_eval b xs : d_eval (create_bbox b) (map (fun p => (Fin (fst p), Fin (snd p))) xs)
  = Ok (map (fun p => bbox_value (b0 b) (b1 b) (b2 b) (b3 b) (fst p) (snd p)) xs).
Proof.
  destruct b as [[[x0 xN] y0] yN]. cbn. unfold bbox_func. induction xs as [|p xs IH]; cbn [map mapM]; auto. cbn [bind fst snd]. rewrite IH. reflexivity.
Qed.

(** * Multiscale *)
Lemma cover_evaluates d c : covers_by d c -> evaluates (cover_domain d) c.
Proof. intros (f & E & H) xs. cbn. rewrite E. apply H. Qed.
(** nest i is negative iff its domain is and all later coverings are positive *)
Lemma nests_spec ds gcs ns : Forall2 scale ds gcs -> nests_of ds = Ok ns ->
  exists hs, Forall2 evaluates ns hs /\ length hs = length gcs /\
    forall i x, (i < length gcs)%nat -> forall dflt dg, (nth i hs dflt x < 0 <->
      fst (nth i gcs dg) x < 0 /\ forall j, (i < j < length gcs)%nat -> 0 < snd (nth j gcs dg) x).
Proof.
  intros HF. revert ns. induction HF as [|d gc ds gcs [H1 H2] HF IH]; intros ns E; cbn [nests_of] in E.
  - injection E as <-. exists []. split; [constructor|]. split; auto. intros i x Hi. simpl in Hi. lia.
  - destruct (Difference (d :: map cover_domain ds)) as [n| |] eqn:ED; cbn [bind] in E; try discriminate.
    destruct (nests_of ds) as [ns'| |] eqn:EN; cbn [bind] in E; try discriminate. injection E as <-.
    destruct (IH ns' eq_refl) as (hs & A & B & C).
    assert (HC : Forall2 evaluates (map cover_domain ds) (map snd gcs)).
    { clear -HF. induction HF as [|d gc ds gcs [H1 H2] HF IH]; simpl; constructor; auto. now apply cover_evaluates. }
    destruct (difference_evaluates _ _ _ _ _ H1 HC ED) as (h & Hh & Hs).
    exists (h :: hs). split; [now constructor|]. split; [simpl; lia|]. intros [|i] x Hi dflt dg.
    + cbn [nth]. rewrite Hs. split; intros [P1 P2]; split; auto.
      * intros [|j] Hj; [lia|]. cbn [nth]. apply P2. apply in_map. apply nth_In. simpl in Hj. lia.
      * intros g' Hg'. apply in_map_iff in Hg'. destruct Hg' as (gc' & <- & Hgc'). apply (In_nth _ _ dg) in Hgc'.
        destruct Hgc' as (j & Hj & <-). apply (P2 (S j)). simpl. lia.
    + cbn [nth length] in *. rewrite (C i x ltac:(lia) dflt dg). split; intros [P1 P2]; split; auto.
      * intros [|j] Hj; [lia|]. cbn [nth]. apply P2. lia.
      * intros j Hj. apply (P2 (S j)). lia.
Qed.
Lemma nests_of_ok ds : exists ns, nests_of ds = Ok ns /\ length ns = length ds.
Proof.
  induction ds as [|d ds (ns & E & L)]; cbn [nests_of]; [exists []; auto|].
  unfold Difference. destruct (combined_ok (difference_eval (d :: map cover_domain ds)) (d :: map cover_domain ds)) as [u ->]; [congruence|].
  rewrite E. cbn. exists (u :: ns). simpl. auto.
Qed.
Lemma multiscale_ok ds : (1 < length ds)%nat -> exists u ns, multiscale ds = Ok (u, ns) /\ nests_of ds = Ok ns /\ length ns = length ds /\ Union ns = Ok u.
Proof.
  intros H. unfold multiscale. rewrite (proj2 (Nat.ltb_lt _ _) H). destruct (nests_of_ok ds) as (ns & E & L). rewrite E. cbn [bind].
  unfold Union. destruct (combined_ok (union_eval ns) ns) as [u Eu]; [destruct ns; [simpl in L; lia|congruence]|]. rewrite Eu. cbn. exists u, ns. auto.
Qed.

Lemma multiscale_disjoint ds gcs u ns : Forall2 scale ds gcs -> multiscale ds = Ok (u, ns) ->
  (forall gc x, In gc gcs -> fst gc x < 0 -> snd gc x <= 0) ->
  exists hs, Forall2 evaluates ns hs /\ forall x i j dflt, (i < j < length hs)%nat -> ~ (nth i hs dflt x < 0 /\ nth j hs dflt x < 0).
Proof.
  intros HF E Hin. assert (L : (1 < length ds)%nat). { unfold multiscale in E. destruct (Nat.ltb_spec 1 (length ds)); auto. discriminate. }
  destruct (multiscale_ok ds L) as (u' & ns' & E' & EN & LN & EU). rewrite E in E'. injection E' as <- <-.
  destruct (nests_spec ds gcs ns HF EN) as (hs & A & B & C). exists hs. split; auto.
  intros x i j dflt Hij [P1 P2]. rewrite B in Hij.
  assert (dg : (pt -> Q) * (pt -> Q)) by (exact (fun _ => 0, fun _ => 0)).
  apply (C i x ltac:(lia) dflt dg) in P1. apply (C j x ltac:(lia) dflt dg) in P2. destruct P1 as [_ P1]. destruct P2 as [P2 _].
  specialize (P1 j Hij). specialize (Hin (nth j gcs dg) x (nth_In _ _ (proj2 Hij)) P2). lra.
Qed.
Lemma multiscale_union ds gcs u ns : Forall2 scale ds gcs -> multiscale ds = Ok (u, ns) ->
  exists h, evaluates u h /\ forall x dg, h x < 0 <-> exists i, (i < length gcs)%nat /\ fst (nth i gcs dg) x < 0 /\
     forall j, (i < j < length gcs)%nat -> 0 < snd (nth j gcs dg) x.
Proof.
  intros HF E. assert (L : (1 < length ds)%nat). { unfold multiscale in E. destruct (Nat.ltb_spec 1 (length ds)); auto. discriminate. }
  destruct (multiscale_ok ds L) as (u' & ns' & E' & EN & LN & EU). rewrite E in E'. injection E' as <- <-.
  destruct (nests_spec ds gcs ns HF EN) as (hs & A & B & C).
  destruct (union_evaluates ns hs u A EU) as (h & Hh & Hs). exists h. split; auto. intros x dg. rewrite Hs. split.
  - intros (g & Hg & Hlt). apply (In_nth _ _ (fun _ => 0)) in Hg. destruct Hg as (i & Hi & <-). rewrite B in Hi. exists i. split; auto.
    now apply (C i x Hi (fun _ => 0) dg).
  - intros (i & Hi & HC). exists (nth i hs (fun _ => 0)). split; [apply nth_In; lia|]. now apply (C i x Hi (fun _ => 0) dg).
Qed.
(** the last covering that touches x decides *)
Lemma multiscale_last ds gcs u ns h x k dg : Forall2 scale ds gcs -> multiscale ds = Ok (u, ns) -> evaluates u h ->
  (forall gc x, In gc gcs -> fst gc x < 0 -> snd gc x <= 0) ->
  (k < length gcs)%nat -> snd (nth k gcs dg) x <= 0 -> (forall j, (k < j < length gcs)%nat -> 0 < snd (nth j gcs dg) x) ->
  (h x < 0 <-> fst (nth k gcs dg) x < 0).
Proof.
  intros HF E Hh Hin Hk Hc Hl. destruct (multiscale_union ds gcs u ns HF E) as (h' & Hh' & Hs).
  assert (h x = h' x) as -> by (specialize (Hh [x]); rewrite Hh' in Hh; cbn in Hh; injection Hh as Q; auto).
  rewrite (Hs x dg). split.
  - intros (i & Hi & P1 & P2). destruct (Nat.lt_trichotomy i k) as [D|[->|D]]; auto.
    + specialize (P2 k ltac:(lia)). lra.
    + specialize (Hl i ltac:(lia)). specialize (Hin (nth i gcs dg) x (nth_In _ _ Hi) P1). lra.
  - intros Hlt. exists k. auto.
Qed.

(** A later domain without covering makes every evaluation fail. *)
Lemma mapM_raise {A B} (f : A -> res B) l e : (forall x, In x l -> (exists v, f x = Ok v) \/ f x = Raise e) -> (exists x, In x l /\ f x = Raise e) -> mapM f l = Raise e.
Proof.
  induction l as [|a l IH]; intros H (x & Hx & E); [contradiction|]. cbn.
  destruct (H a (or_introl eq_refl)) as [(v & Ev)|Ev]; rewrite Ev; cbn; auto.
  destruct Hx as [<-|Hx]; [congruence|]. rewrite IH; auto. - intros y Hy. apply H. now right. - eauto.
Qed.
Lemma multiscale_no_covering d0 d ds u ns xs : (forall s, In s (d0 :: d :: ds) -> exists v, d_eval s xs = Ok v) ->
  (forall s, In s (d :: ds) -> d_covering s = None \/ exists f v, d_covering s = Some f /\ f xs = Ok v) ->
  (exists s, In s (d :: ds) /\ d_covering s = None) ->
  multiscale (d0 :: d :: ds) = Ok (u, ns) -> d_eval u xs = Raise TypeError.
Proof.
  intros HE HC (s & Hs & Hn) E.
  destruct (multiscale_ok (d0 :: d :: ds)) as (u' & ns' & E' & EN & LN & EU); [simpl; lia|]. rewrite E in E'. injection E' as <- <-.
  cbn [nests_of] in EN. destruct (Difference (d0 :: map cover_domain (d :: ds))) as [n| |] eqn:ED; cbn [bind] in EN; try discriminate.
  destruct (nests_of (d :: ds)) as [ns'| |] eqn:EN'; cbn [nests_of bind] in EN', EN; rewrite ?EN' in EN; cbn [bind] in EN; try discriminate.
  injection EN as <-.
  assert (Hev : d_eval n xs = Raise TypeError).
  { unfold Difference, combined in ED. destruct (compute_bbox (d0 :: map cover_domain (d :: ds))); cbn [bind] in ED; try discriminate. injection ED as <-.
    cbn [d_eval]. unfold difference_eval. erewrite mapM_raise; [reflexivity| |].
    - intros [k t] Hin. apply in_combine_r in Hin. cbn [snd]. destruct Hin as [<-|Hin].
      + left. destruct (HE d0 (or_introl eq_refl)) as (v & ->). cbn. eauto.
      + change (In t (map cover_domain (d :: ds))) in Hin. apply in_map_iff in Hin. destruct Hin as (t' & <- & Ht'). cbn [d_eval cover_domain call_opt].
        destruct (HC t' Ht') as [->|(f & v & -> & Ef)]; [right; reflexivity|left]. cbn [call_opt]. rewrite Ef. cbn. eauto.
    - apply (In_nth _ _ d0) in Hs. destruct Hs as (i & Hi & Es). exists (S i, cover_domain s). split.
      + cbn [length seq combine map]. right.
        rewrite <- Es. change (cover_domain (nth i (d :: ds) d0)) with (cover_domain (nth i (d :: ds) d0)).
        assert (G : forall k l (dd : domain), (k < length l)%nat -> forall b, In ((b + k)%nat, nth k l dd) (combine (seq b (length l)) l)).
        { clear. induction k as [|k IH]; intros [|a l] dd Hk b; simpl in *; try lia; [left; f_equal; lia|]. right. replace (b + S k)%nat with (S b + k)%nat by lia. apply IH. lia. }
        specialize (G i (map cover_domain (d :: ds)) (cover_domain d0) ltac:(rewrite map_length; exact Hi) 1%nat). rewrite map_nth in G. exact G.
      + cbn [snd d_eval cover_domain]. rewrite Hn. reflexivity. }
  unfold Union, combined in EU. destruct (compute_bbox (n :: ns')); cbn [bind] in EU; try discriminate. injection EU as <-.
  cbn [d_eval]. unfold union_eval. cbn [mapM]. rewrite Hev. reflexivity.
Qed.

(** * Shoreline domains *)
Definition finite_pt (p : pt) : bool := is_finite (fst p) && is_finite (snd p).
Lemma mask_select_map x : mask_select (finite_mask x) x = filter finite_pt x.
Proof. unfold finite_mask, finite_pt. induction x as [|p x IH]; cbn; auto. destruct (is_finite (fst p) && is_finite (snd p)); rewrite IH; auto. Qed.
Lemma mask_assign_map {A} (f : pt -> A) a x : mask_assign (repeat a (length x)) (finite_mask x) (map f (filter finite_pt x))
  = Ok (map (fun p => if finite_pt p then f p else a) x).
Proof.
  unfold finite_mask, finite_pt. induction x as [|p x IH]; cbn [length repeat map filter mask_assign]; auto.
  destruct (is_finite (fst p) && is_finite (snd p)); cbn [map mask_assign]; rewrite IH; reflexivity.
Qed.
Lemma no_finite x : existsb (fun b => b) (finite_mask x) = false -> forall p, In p x -> finite_pt p = false.
Proof.
  intros H p Hp. destruct (finite_pt p) eqn:E; auto. exfalso. assert (existsb (fun b => b) (finite_mask x) = true); [|congruence].
  apply existsb_exists. exists true. split; auto. unfold finite_mask. apply in_map_iff. exists p. auto.
Qed.
Lemma combine_map_same {A B C} (f : A -> B) (g : A -> C) l : combine (map f l) (map g l) = map (fun a => (f a, g a)) l.
Proof. induction l as [|a l IH]; simpl; auto. now rewrite IH. Qed.
Lemma repeat_map_false {A B} (f : A -> bool) (g : A -> B) b x : (forall p, In p x -> f p = false) -> repeat b (length x) = map (fun p => if f p then g p else b) x.
Proof. induction x as [|p x IH]; intros H; simpl; auto. rewrite (H p (or_introl eq_refl)), IH; auto. intros q Hq. apply H. now right. Qed.

Definition shore_value (inb ins : pt -> bool) (near : pt -> Q) (invert : bool) (p : pt) : Q :=
  let v := if finite_pt p then sign_of (ins p && inb p) * near p else sign_of false * far in
  if invert then v * - (1) else v.
Lemma shore_func_eval inb ins near invert x :
  shore_func (map inb) (map ins) (map near) invert x = Ok (map (shore_value inb ins near invert) x).
Proof.
  unfold shore_func. destruct (existsb (fun b => b) (finite_mask x)) eqn:E.
  - rewrite mask_select_map, !mask_assign_map. cbn [bind]. 
    repeat first [rewrite combine_map_same | rewrite map_map | progress (cbn [fst snd])].
    unfold shore_value. f_equal. destruct invert; apply map_ext; intros p; destruct (finite_pt p); auto.
  - cbn [bind]. rewrite (repeat_map_false finite_pt inb false x (no_finite x E)). rewrite (repeat_map_false finite_pt near far x (no_finite x E)).
    repeat first [rewrite combine_map_same | rewrite map_map | progress (cbn [fst snd])].
    unfold shore_value. f_equal. destruct invert; apply map_ext_in; intros p Hp; rewrite (no_finite x E p Hp); auto.
Qed.
Lemma shore_covering_eval inb near x :
  shore_covering (map inb) (map near) x = Ok (map (fun p => if finite_pt p then sign_of (inb p) * near p else sign_of false * far) x).
Proof.
  unfold shore_covering. destruct (existsb (fun b => b) (finite_mask x)) eqn:E.
  - rewrite mask_select_map, !mask_assign_map. cbn [bind]. rewrite combine_map_same, map_map. cbn [fst snd]. f_equal. apply map_ext; intros p; destruct (finite_pt p); auto.
  - cbn [bind]. rewrite (repeat_map_false finite_pt inb false x (no_finite x E)). rewrite (repeat_map_false finite_pt near far x (no_finite x E)).
    rewrite combine_map_same, map_map. cbn [fst snd]. f_equal. apply map_ext; intros p; destruct (finite_pt p); auto.
Qed.

Lemma eval_unique d g h x : evaluates d g -> evaluates d h -> g x = h x.
Proof. intros H1 H2. specialize (H1 [x]). rewrite H2 in H1. cbn in H1. injection H1 as E. auto. Qed.
Lemma shore_nonfinite inb ins near near2 b crs st invert d h p :
  d = shore_domain (map inb) (map ins) (map near) (map near2) b crs st invert -> evaluates d h ->
  ~ finite_point p -> h p == if invert then -1000000000000 else 1000000000000.
Proof.
  intros -> Hh Hp'. assert (Hp : finite_pt p = false).
  { destruct p as [[x| |] [y| |]]; auto. exfalso. apply Hp'. exists x, y. reflexivity. }
  rewrite (eval_unique _ h (shore_value inb ins near invert) p Hh) by (intros xs; apply shore_func_eval).
  unfold shore_value. rewrite Hp. destruct invert; reflexivity.
Qed.
Lemma shore_sign inb ins near near2 b crs st invert : (forall p, 0 <= near p) ->
  exists h, evaluates (shore_domain (map inb) (map ins) (map near) (map near2) b crs st invert) h /\
  forall x y, let p := (Fin x, Fin y) in
    (h p < 0 <-> 0 < near p /\ if invert then ins p && inb p = false else ins p && inb p = true) /\
    (h p == 0 <-> near p == 0).
Proof.
  intros Hn. exists (shore_value inb ins near invert). split; [intros xs; apply shore_func_eval|]. intros x y p.
  unfold shore_value. change (finite_pt p) with true. cbv iota. specialize (Hn p).
  destruct (ins p && inb p), invert; cbn [sign_of]; (split; [split; [intros H; split; [lra|reflexivity || lra]|intros [H1 H2]; try discriminate; lra]|split; intros; lra]).
Qed.
Lemma shore_in_covering inb ins near near2 b crs st : (forall p, 0 <= near p <= near2 p) ->
  exists h c, evaluates (shore_domain (map inb) (map ins) (map near) (map near2) b crs st false) h /\
    covers_by (shore_domain (map inb) (map ins) (map near) (map near2) b crs st false) c /\ forall p, h p < 0 -> c p < 0.
Proof.
  intros Hn. exists (shore_value inb ins near false), (fun p => if finite_pt p then sign_of (inb p) * near2 p else sign_of false * far).
  split; [intros xs; apply shore_func_eval|]. split; [eexists; split; [reflexivity|]; intros xs; apply shore_covering_eval|].
  intros p. unfold shore_value. destruct (finite_pt p); [|intros H; exact H]. specialize (Hn p).
  destruct (ins p), (inb p); cbn [andb sign_of]; lra.
Qed.

(** Two inverted copies of the unit square: both nests contain the point (5, 5). *)
Definition sq_in (p : pt) : bool :=
  match p with (Fin x, Fin y) => Qle_bool 0 x && Qle_bool x 1 && Qle_bool 0 y && Qle_bool y 1 | _ => false end.
Definition sq_near (p : pt) : Q := match p with (Fin x, Fin y) => (x - 1) * (x - 1) + (y - 1) * (y - 1) | _ => 0 end.
Definition sq (invert : bool) : domain := shore_domain (map sq_in) (map sq_in) (map sq_near) (map sq_near) (0, 1, 0, 1) None false invert.
Definition value_at (d : domain) (p : pt) : res (list Q) := d_eval d [p].
Lemma inverted_overlap : exists d1 d2 u n1 n2 p v1 v2, d1 = sq true /\ d2 = sq true /\
  multiscale [d1; d2] = Ok (u, [n1; n2]) /\ d_eval n1 [p] = Ok [v1] /\ d_eval n2 [p] = Ok [v2] /\ v1 < 0 /\ v2 < 0.
Proof.
  exists (sq true), (sq true). do 3 eexists. exists (Fin 5, Fin 5). do 2 eexists. split; [reflexivity|]. split; [reflexivity|].
  split; [reflexivity|]. split; [vm_compute; reflexivity|]. split; [vm_compute; reflexivity|]. split; reflexivity.
Qed.
Lemma bbox_multiscale_crash d b xs : (exists v, d_eval d xs = Ok v) -> (exists v, d_eval (create_bbox b) xs = Ok v) ->
  exists u ns, multiscale [d; create_bbox b] = Ok (u, ns) /\ d_eval u xs = Raise TypeError.
Proof.
  intros H1 H2. destruct (multiscale_ok [d; create_bbox b]) as (u & ns & E & _); [simpl; lia|]. exists u, ns. split; auto.
  apply (multiscale_no_covering d (create_bbox b) [] u ns); auto.
  - intros s [<-|[<-|[]]]; auto.
  - intros s [<-|[]]. left. now destruct b as [[[? ?] ?] ?].
  - exists (create_bbox b). split; [now left|]. now destruct b as [[[? ?] ?] ?].
Qed.
Lemma union_ok ds : ds <> [] -> exists u, Union ds = Ok u. Proof. apply combined_ok. Qed.

Lemma T_union ds gs : ds <> [] -> Forall2 evaluates ds gs ->
  exists u h, Union ds = Ok u /\ evaluates u h /\ forall x, h x < 0 <-> exists g, In g gs /\ g x < 0.
Proof. intros Hne HF. destruct (combined_ok (union_eval ds) ds Hne) as [u E]. destruct (union_evaluates ds gs u HF E) as (h & A & B). exists u, h. auto. Qed.
Lemma T_intersection ds gs : ds <> [] -> Forall2 evaluates ds gs ->
  exists u h, Intersection ds = Ok u /\ evaluates u h /\ forall x, h x < 0 <-> forall g, In g gs -> g x < 0.
Proof. intros Hne HF. destruct (combined_ok (intersection_eval ds) ds Hne) as [u E]. destruct (intersection_evaluates ds gs u HF E) as (h & A & B). exists u, h. auto. Qed.
Lemma T_difference d ds g gs : evaluates d g -> Forall2 evaluates ds gs ->
  exists u h, Difference (d :: ds) = Ok u /\ evaluates u h /\ forall x, h x < 0 <-> g x < 0 /\ forall g', In g' gs -> 0 < g' x.
Proof.
  intros H HF. destruct (combined_ok (difference_eval (d :: ds)) (d :: ds)) as [u E]; [congruence|].
  destruct (difference_evaluates d ds g gs u H HF E) as (h & A & B). exists u, h. auto.
Qed.
Lemma Forall2_length {A B} (R : A -> B -> Prop) l l' : Forall2 R l l' -> length l = length l'.
Proof. induction 1; simpl; auto. Qed.
Lemma T_multiscale ds gcs : (1 < length ds)%nat -> Forall2 scale ds gcs -> (forall gc x, In gc gcs -> fst gc x < 0 -> snd gc x <= 0) ->
  exists u ns h hs, multiscale ds = Ok (u, ns) /\ evaluates u h /\ Forall2 evaluates ns hs /\ length hs = length ds /\
    (forall x i j dflt, (i < j < length ds)%nat -> ~ (nth i hs dflt x < 0 /\ nth j hs dflt x < 0)) /\
    (forall x, h x < 0 <-> exists g, In g hs /\ g x < 0) /\
    (forall x k dg, (k < length ds)%nat -> snd (nth k gcs dg) x <= 0 -> (forall j, (k < j < length ds)%nat -> 0 < snd (nth j gcs dg) x) ->
       (h x < 0 <-> fst (nth k gcs dg) x < 0)) /\
    (forall x dg, (forall k, (k < length ds)%nat -> 0 < snd (nth k gcs dg) x) -> ~ h x < 0).
Proof.
  intros L HF Hin. destruct (multiscale_ok ds L) as (u & ns & E & EN & LN & EU).
  destruct (multiscale_disjoint ds gcs u ns HF E Hin) as (hs & A & B). destruct (union_evaluates ns hs u A EU) as (h & Hh & Hs).
  pose proof (Forall2_length _ _ _ HF) as LG. pose proof (Forall2_length _ _ _ A) as LA.
  exists u, ns, h, hs. split; auto. split; auto. split; auto. split; [lia|]. split; [|split; [|split]].
  - intros x i j dflt Hij. apply B. lia.
  - exact Hs.
  - intros x k dg Hk Hc Hl. apply (multiscale_last ds gcs u ns h x k dg); auto; rewrite <- LG; auto.
  - intros x dg Hall Hlt. destruct (multiscale_union ds gcs u ns HF E) as (h' & Hh' & Hs').
    rewrite (eval_unique u h h' x Hh Hh') in Hlt. apply (Hs' x dg) in Hlt. destruct Hlt as (i & Hi & P1 & _).
    specialize (Hin (nth i gcs dg) x (nth_In _ _ Hi) P1). specialize (Hall i ltac:(lia)). lra.
Qed.
Lemma T_bbox b x y : exists v, d_eval (create_bbox b) [(Fin x, Fin y)] = Ok [v] /\
  (v < 0 <-> in_open_box b x y) /\ (v == 0 <-> on_box_side b x y) /\ (0 < v <-> ~ in_closed_box b x y).
Proof.
  pose proof (bbox_func_eval b [(x, y)]) as E. cbn [map fst snd] in E. eexists. split; [exact E|].
  destruct b as [[[x0 xN] y0] yN]. cbn [b0 b1 b2 b3]. split; [apply bbox_value_neg|split; [apply bbox_value_zero|apply bbox_value_pos]].
Qed.
Lemma T_bbox_batch b xs : exists vs, d_eval (create_bbox b) (map (fun p => (Fin (fst p), Fin (snd p))) xs) = Ok vs /\
  Forall2 (fun p v => d_eval (create_bbox b) [(Fin (fst p), Fin (snd p))] = Ok [v]) xs vs.
Proof.
  eexists. split; [apply bbox_func_eval|]. induction xs as [|p xs IH]; simpl; constructor; auto.
  pose proof (bbox_func_eval b [p]) as E. cbn [map] in E. exact E.
Qed.
Lemma inverted_nan : exists d v, d = sq true /\ d_eval d [(NaN, Fin 0)] = Ok [v] /\ v < 0.
Proof. exists (sq true). eexists. split; [reflexivity|]. split; [vm_compute; reflexivity|reflexivity]. Qed.
Lemma Qsq_nn (a : Q) : 0 <= a * a. Proof. nra. Qed.
Lemma sq_near_ok p : 0 <= sq_near p <= sq_near p.
Proof. split; [|apply Qle_refl]. destruct p as [[x| |] [y| |]]; cbn; try apply Qle_refl. pose proof (Qsq_nn (x - 1)). pose proof (Qsq_nn (y - 1)). lra. Qed.
Lemma sq_sound : evaluates (sq false) (shore_value sq_in sq_in sq_near false) /\ bbox_sound (sq false) (shore_value sq_in sq_in sq_near false).
Proof.
  split; [intros xs; apply shore_func_eval|]. intros x y H. cbn.
  unfold shore_value in H. change (finite_pt (Fin x, Fin y)) with true in H. cbv iota in H.
  destruct (sq_in (Fin x, Fin y)) eqn:E.
  - cbn in E. rewrite !andb_true_iff, !Qle_bool_iff in E. tauto.
  - cbn [andb sign_of] in H. unfold sq_near in H.
    pose proof (Qsq_nn (x - 1)). pose proof (Qsq_nn (y - 1)). lra.
Qed.
