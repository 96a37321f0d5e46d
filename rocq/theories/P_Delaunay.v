(** Proofs for the triangulation wrapper. *)
From Coq Require Import List Arith ZArith Permutation Lia Bool.
From Verif Require Import M_Base M_Delaunay S_Delaunay.
Import ListNotations.

(** * Arrays filled in a loop *)
Lemma upd_skip : forall A (a b : list A) k v, upd (a ++ b) (length a + k) v = a ++ upd b k v.
Proof. induction a; intros; cbn; [reflexivity|]. now rewrite IHa. Qed.

Lemma NoDup_app_l : forall A (a b : list A), NoDup (a ++ b) -> NoDup a.
Proof. induction a as [|x a IH]; intros b H; [constructor|]. cbn in H. inversion H; subst. constructor; [|eauto]. intros X. apply H2, in_app_iff. auto. Qed.
Lemma NoDup_app_sep : forall A (a b : list A) x, NoDup (a ++ b) -> In x b -> ~ In x a.
Proof.
  induction a as [|y a IH]; intros b x H B X; [destruct X|]. cbn in H. inversion H; subst. destruct X as [->|X]; [|eapply IH; eauto].
  apply H2, in_app_iff. auto.
Qed.
Lemma NoDup_app_i : forall A (a b : list A), NoDup a -> NoDup b -> (forall x, In x a -> ~ In x b) -> NoDup (a ++ b).
Proof.
  induction a as [|y a IH]; intros b N M D; [exact M|]. inversion N; subst. cbn. constructor.
  - rewrite in_app_iff. intros [X|X]; [auto|]. exact (D y (or_introl eq_refl) X).
  - apply IH; auto. intros x X. apply D. now right.
Qed.

Section Wrapper.
  Context {C : Type} (zero : C).
  Notation point := (C * C)%type.

  Fixpoint renum (i : nat) (vs : list (vertex C)) : list (vertex C) :=
    match vs with [] => [] | v :: r => Vertex (hd v) (at_ v) i :: renum (i + 1) r end.

  Lemma vertices_loop_eq : forall (vs : list (vertex C)) i pre, length pre = i * 2 ->
    vertices_loop i vs (pre ++ repeat zero (length vs * 2)) = (renum i vs, pre ++ flat_map (fun v => [fst (at_ v); snd (at_ v)]) vs).
  Proof.
    induction vs as [|v r IH]; intros i pre L; [cbn; now rewrite app_nil_r|].
    cbn [vertices_loop length Nat.mul Nat.add repeat renum flat_map].
    replace (i * 2) with (length pre + 0) by lia. rewrite upd_skip.
    replace (length pre + 0 + 1) with (length pre + 1) by lia. rewrite upd_skip. cbn [upd].
    change (fst (at_ v) :: snd (at_ v) :: repeat zero (length r * 2)) with ([fst (at_ v); snd (at_ v)] ++ repeat zero (length r * 2)).
    rewrite app_assoc, IH by (rewrite app_length; cbn [length]; lia).
    now rewrite <- app_assoc.
  Qed.

  Lemma rows2_flat : forall vs : list (vertex C), rows2 (flat_map (fun v => [fst (at_ v); snd (at_ v)]) vs) = map at_ vs.
  Proof. induction vs as [|v r IH]; [reflexivity|]. cbn. rewrite IH. now destruct (at_ v). Qed.

  Lemma get_finite_vertices_eq : forall d : dt C, get_finite_vertices zero d = (DT (renum 0 (verts d)) (faces d), map at_ (verts d)).
  Proof.
    intros d. unfold get_finite_vertices. pose proof (vertices_loop_eq (verts d) 0 [] eq_refl) as E. cbn [app] in E. rewrite E. now rewrite rows2_flat.
  Qed.

  Lemma renum_hd : forall vs i, map hd (renum i vs) = map hd vs.
  Proof. induction vs; intros; cbn; congruence. Qed.
  Lemma renum_at : forall vs i, map at_ (renum i vs) = map at_ vs.
  Proof. induction vs; intros; cbn; congruence. Qed.
  Lemma renum_places : forall vs i, map (fun v => (hd v, at_ v)) (renum i vs) = map (fun v : vertex C => (hd v, at_ v)) vs.
  Proof. induction vs; intros; cbn; congruence. Qed.
  Lemma renum_info : forall vs i v, In v (renum i vs) -> i <= vinfo v /\ nth_error (map at_ vs) (vinfo v - i) = Some (at_ v).
  Proof.
    induction vs as [|w r IH]; intros i v H; [destruct H|]. destruct H as [<-|H]; cbn [vinfo at_].
    - split; [lia|]. now rewrite Nat.sub_diag.
    - apply IH in H as [A B]. split; [lia|]. replace (vinfo v - i) with (S (vinfo v - (i + 1))) by lia. exact B.
  Qed.

  (** * Cells *)
  Fixpoint renumf (i : nat) (fs : list face) : list face :=
    match fs with [] => [] | f :: r => Face (fid f) (corners f) (nbrs f) i :: renumf (i + 1) r end.

  Definition row (vs : list (vertex C)) (f : face) : res (nat * nat * nat) :=
    let '(a, b, c) := corners f in
    let! x := info_of vs a in let! y := info_of vs b in let! z := info_of vs c in Ok (x, y, z).

  Lemma rows3_flat : forall A (l : list (A * A * A)), rows3 (flat_map entries l) = l.
  Proof. induction l as [|[[a b] c] r IH]; [reflexivity|]. cbn. now rewrite IH. Qed.

  Lemma fill3 : forall A (pre : list A) i n x y z d, length pre = i * 3 ->
    upd (upd (upd (pre ++ repeat d (3 + n)) (i * 3) x) (i * 3 + 1) y) (i * 3 + 2) z = (pre ++ [x; y; z]) ++ repeat d n.
  Proof.
    intros A pre i n x y z d L. rewrite <- L. replace (length pre) with (length pre + 0) at 1 by lia. rewrite !upd_skip.
    cbn. now rewrite <- app_assoc.
  Qed.

  Lemma cells_loop_eq : forall vs fs i pre, length pre = i * 3 ->
    cells_loop vs i fs (pre ++ repeat 0 (length fs * 3)) = (let! t := mapM (row vs) fs in Ok (renumf i fs, pre ++ flat_map entries t)).
  Proof.
    induction fs as [|f r IH]; intros i pre L; [cbn; now rewrite app_nil_r|].
    cbn [cells_loop length mapM]. unfold row at 1. destruct (corners f) as [[a b] c] eqn:E.
    destruct (info_of vs a) as [x| |]; cbn [bind]; try reflexivity.
    destruct (info_of vs b) as [y| |]; cbn [bind]; try reflexivity.
    destruct (info_of vs c) as [z| |]; cbn [bind]; try reflexivity.
    change (S (length r) * 3) with (3 + length r * 3). rewrite (fill3 _ pre i _ x y z 0 L).
    rewrite IH by (rewrite app_length; cbn [length]; lia).
    destruct (mapM (row vs) r) as [t| |]; cbn [bind fst snd]; try reflexivity.
    cbn [renumf flat_map]. rewrite E. cbn [entries]. now rewrite <- !app_assoc.
  Qed.

  Lemma get_finite_cells_eq : forall d : dt C, get_finite_cells d = (let! t := mapM (row (verts d)) (faces d) in Ok (DT (verts d) (renumf 0 (faces d)), t)).
  Proof.
    intros d. unfold get_finite_cells. pose proof (cells_loop_eq (verts d) (faces d) 0 [] eq_refl) as E. cbn [app] in E. rewrite E.
    destruct (mapM (row (verts d)) (faces d)); cbn [bind fst snd app]; try reflexivity. now rewrite rows3_flat.
  Qed.

  Lemma renumf_fid : forall fs i, map fid (renumf i fs) = map fid fs.
  Proof. induction fs; intros; cbn; congruence. Qed.
  Lemma renumf_corners : forall fs i, map corners (renumf i fs) = map corners fs.
  Proof. induction fs; intros; cbn; congruence. Qed.
  Lemma renumf_nbrs : forall fs i, map nbrs (renumf i fs) = map nbrs fs.
  Proof. induction fs; intros; cbn; congruence. Qed.
  Lemma renumf_length : forall fs i, length (renumf i fs) = length fs.
  Proof. induction fs; intros; cbn; congruence. Qed.
  Lemma renumf_nth : forall fs i k f, nth_error (renumf i fs) k = Some f -> exists f', nth_error fs k = Some f' /\ fid f = fid f' /\ corners f = corners f' /\ nbrs f = nbrs f' /\ finfo f = i + k.
  Proof.
    induction fs as [|g r IH]; intros i k f H; [destruct k; discriminate|]. destruct k; cbn in H |- *.
    - injection H as <-. exists g. cbn. rewrite Nat.add_0_r. auto.
    - apply IH in H as (f' & A & B & D & E & F). exists f'. rewrite F. repeat split; auto. lia.
  Qed.
  Lemma renumf_in : forall fs i f, In f (renumf i fs) -> exists f', In f' fs /\ fid f = fid f' /\ corners f = corners f' /\ nbrs f = nbrs f'.
  Proof.
    intros fs i f H. apply In_nth_error in H as [k H]. apply renumf_nth in H as (f' & A & B & D & E & _).
    exists f'. split; [eapply nth_error_In; eauto|auto].
  Qed.

  (** * What the wrapper's own numbering keeps *)
  Lemma sound_renum : forall (d : dt C) i, sound d -> sound (DT (renum i (verts d)) (faces d)).
  Proof.
    intros d i []. constructor; cbn [verts faces]; try rewrite renum_hd; try rewrite renum_at; auto.
  Qed.
  Lemma sound_renumf : forall (d : dt C) i, sound d -> sound (DT (verts d) (renumf i (faces d))).
  Proof.
    intros d i []. constructor; cbn [verts faces]; try rewrite renumf_fid; auto.
    - intros f h H. apply renumf_in in H as (f' & A & _ & B & _). rewrite B. eauto.
    - intros f g H. apply renumf_in in H as (f' & A & _ & _ & B). rewrite B. eauto.
  Qed.

  Lemma info_of_found : forall (vs : list (vertex C)) h, In h (map hd vs) -> exists v, In v vs /\ hd v = h /\ info_of vs h = Ok (vinfo v).
  Proof.
    intros vs h H. unfold info_of. destruct (find _ vs) as [v|] eqn:E.
    - apply find_some in E as [A B]. apply Nat.eqb_eq in B. eauto.
    - apply in_map_iff in H as (v & A & B). apply find_none with (x := v) in E; auto. apply Nat.eqb_neq in E. contradiction.
  Qed.

  Lemma mapM_total : forall A B (f : A -> res B) l, (forall x, In x l -> exists y, f x = Ok y) -> exists t, mapM f l = Ok t.
  Proof.
    induction l as [|x l IH]; intros H; [cbn; eauto|]. destruct (H x (or_introl eq_refl)) as [y E]. destruct IH as [t F]; [intros; apply H; now right|].
    exists (y :: t). cbn. now rewrite E, F.
  Qed.
  Lemma mapM_nth : forall A B (f : A -> res B) l t, mapM f l = Ok t -> length t = length l /\ forall k x, nth_error l k = Some x -> exists y, nth_error t k = Some y /\ f x = Ok y.
  Proof.
    induction l as [|x l IH]; intros t H; cbn in H.
    - injection H as <-. split; [reflexivity|]. intros [|k] y; discriminate.
    - destruct (f x) as [y| |] eqn:E; cbn [bind] in H; try discriminate. destruct (mapM f l) as [t'| |] eqn:F; cbn [bind] in H; try discriminate.
      injection H as <-. destruct (IH t' eq_refl) as [L N]. split; [cbn; now rewrite L|]. intros [|k] z Hz; cbn in *; [injection Hz as <-; eauto|auto].
  Qed.

  Lemma row_total : forall (d : dt C) f, sound d -> In f (faces d) -> exists r, row (verts d) f = Ok r.
  Proof.
    intros d f S H. unfold row. pose proof (snd_corners d S f) as K. destruct (corners f) as [[a b] c]. cbn [entries] in K.
    destruct (info_of_found (verts d) a) as (va & _ & _ & ->); [apply K; cbn; auto|].
    destruct (info_of_found (verts d) b) as (vb & _ & _ & ->); [apply K; cbn; auto|].
    destruct (info_of_found (verts d) c) as (vc & _ & _ & ->); [apply K; cbn; auto|]. cbn [bind]. eauto.
  Qed.
  Lemma cells_ok : forall d : dt C, sound d -> exists t, mapM (row (verts d)) (faces d) = Ok t /\ get_finite_cells d = Ok (DT (verts d) (renumf 0 (faces d)), t).
  Proof.
    intros d S. destruct (mapM_total _ _ (row (verts d)) (faces d)) as [t E]; [intros; apply row_total; auto|].
    exists t. split; [exact E|]. rewrite get_finite_cells_eq, E. reflexivity.
  Qed.

  (** Rows describe the faces over [ps] as soon as numbers are positions in [ps]. *)
  Lemma rows_describe : forall (d : dt C) ps t, sound d -> (forall v, In v (verts d) -> nth_error ps (vinfo v) = Some (at_ v)) ->
    mapM (row (verts d)) (faces d) = Ok t -> describes (DT (verts d) (renumf 0 (faces d))) ps t.
  Proof.
    intros d ps t S N E. apply mapM_nth in E as [L K]. split; [cbn [faces]; now rewrite renumf_length|].
    cbn [faces]. intros k r f Hr Hf j i h Hi Hh. apply renumf_nth in Hf as (f' & A & _ & B & _).
    destruct (K k f' A) as (r' & R1 & R2). rewrite Hr in R1. injection R1 as <-. rewrite B in Hh.
    assert (G : info_of (verts d) h = Ok i).
    { unfold row in R2. destruct (corners f') as [[a b] c]. cbn [entries] in Hh.
      destruct (info_of (verts d) a) as [x| |] eqn:Ea; cbn [bind] in R2; try discriminate.
      destruct (info_of (verts d) b) as [y| |] eqn:Eb; cbn [bind] in R2; try discriminate.
      destruct (info_of (verts d) c) as [z| |] eqn:Ec; cbn [bind] in R2; try discriminate. injection R2 as <-. cbn [entries] in Hi.
      destruct j as [|[|[|[|j]]]]; cbn in Hi, Hh; congruence. }
    assert (Hin : In h (map hd (verts d))).
    { apply (snd_corners d S f'); [eapply nth_error_In; eauto|]. eapply nth_error_In; eauto. }
    destruct (info_of_found (verts d) h Hin) as (v & V1 & V2 & V3). rewrite G in V3. injection V3 as ->.
    exists (at_ v). split; [auto|]. unfold point_of, places. cbn [verts]. apply in_map_iff. exists v. now rewrite V2.
  Qed.

  Variable cg : engine C.
  Hypothesis OB : obeys cg.

  Lemma existsb_In : forall l h, existsb (Nat.eqb h) l = true <-> In h l.
  Proof. intros. rewrite existsb_exists. split; [intros (x & A & B); apply Nat.eqb_eq in B; congruence|]. intros H. exists h. split; auto. apply Nat.eqb_refl. Qed.

  Lemma with_live_ok : forall (d : dt C) h f d', with_live d h f = Ok d' -> In h (map hd (verts d)) /\ d' = f.
  Proof. intros d h f d' H. unfold with_live in H. destruct (existsb _ _) eqn:E; [|discriminate]. apply existsb_In in E. injection H as <-. auto. Qed.

  Lemma remove_loop_sound : forall l hs d d', sound d -> remove_loop cg hs l d = Ok d' -> sound d'.
  Proof.
    induction l as [|i l IH]; intros hs d d' S H; cbn [remove_loop] in H; [congruence|].
    destruct (handle_at hs i) as [h| |]; cbn [bind] in H; try discriminate.
    destruct (with_live d h _) as [d1| |] eqn:E; cbn [bind] in H; try discriminate. apply with_live_ok in E as [A ->].
    eapply IH; [|exact H]. now apply (rem_sound cg OB).
  Qed.
  Lemma move_loop_sound : forall l hs d d', sound d -> move_loop cg hs l d = Ok d' -> sound d'.
  Proof.
    induction l as [|[i q] l IH]; intros hs d d' S H; cbn [move_loop] in H; [congruence|].
    destruct (handle_at hs i) as [h| |]; cbn [bind] in H; try discriminate.
    destruct (with_live d h _) as [d1| |] eqn:E; cbn [bind] in H; try discriminate. apply with_live_ok in E as [A ->].
    eapply IH; [|exact H]. now apply (mov_sound cg OB).
  Qed.

  Lemma step_sound : forall d c d', sound d -> step zero cg d c = Ok d' -> sound d'.
  Proof.
    intros d c d' S H. destruct c; cbn [step] in H.
    - injection H as <-. now apply (ins_sound cg OB).
    - eapply remove_loop_sound; eauto.
    - unfold move in H. destruct (mapM _ _); cbn [bind] in H; try discriminate. eapply move_loop_sound; eauto.
    - rewrite get_finite_vertices_eq in H. cbn [fst] in H. injection H as <-. now apply sound_renum.
    - destruct (cells_ok d S) as (t & _ & E). rewrite E in H. cbn [bind fst] in H. injection H as <-. now apply sound_renumf.
    - destruct (get_finite_face_neighbors d); cbn [bind] in H; congruence.
  Qed.
  Lemma empty_sound : sound (@empty C).
  Proof. constructor; cbn; try constructor; contradiction. Qed.
  Lemma run_sound : forall h d d', sound d -> run zero cg d h = Ok d' -> sound d'.
  Proof.
    induction h as [|c h IH]; intros d d' S H; cbn [run] in H; [congruence|].
    destruct (step zero cg d c) as [d1| |] eqn:E; cbn [bind] in H; try discriminate. eapply IH; [|exact H]. eapply step_sound; eauto.
  Qed.

  (** * C54 *)
  Lemma topology : forall h d, run zero cg empty h = Ok d ->
    exists d' t, get_topology zero d = Ok (d', map at_ (verts d), t) /\ places d' = places d /\ map corners (faces d') = map corners (faces d) /\ describes d' (map at_ (verts d)) t.
  Proof.
    intros h d R. assert (S : sound d) by (eapply run_sound; [apply empty_sound|exact R]).
    unfold get_topology. rewrite get_finite_vertices_eq.
    set (d1 := DT (renum 0 (verts d)) (faces d)). assert (S1 : sound d1) by (now apply sound_renum).
    destruct (cells_ok d1 S1) as (t & A & B). rewrite B. cbn [bind fst snd]. do 2 eexists. split; [reflexivity|].
    split; [unfold places; cbn [verts d1]; apply renum_places|]. split.
    - apply renumf_corners.
    - apply rows_describe; auto. cbn [verts d1]. intros v V. apply renum_info in V as [_ V]. now rewrite Nat.sub_0_r in V.
  Qed.

  (** * Neighbours *)
  Lemma neighbours_loop_eq : forall all fs i pre, length pre = i * 3 ->
    neighbours_loop all i fs (pre ++ repeat 0%Z (length fs * 3)) =
    (let! t := mapM (fun f => let '(a, b, c) := nbrs f in let! x := neighbour_number all a in let! y := neighbour_number all b in let! z := neighbour_number all c in Ok (x, y, z)) fs in Ok (pre ++ flat_map entries t)).
  Proof.
    induction fs as [|f r IH]; intros i pre L; [cbn; now rewrite app_nil_r|].
    cbn [neighbours_loop length mapM]. destruct (nbrs f) as [[a b] c] eqn:E.
    destruct (neighbour_number all a) as [x| |]; cbn [bind]; try reflexivity.
    destruct (neighbour_number all b) as [y| |]; cbn [bind]; try reflexivity.
    destruct (neighbour_number all c) as [z| |]; cbn [bind]; try reflexivity.
    change (S (length r) * 3) with (3 + length r * 3). rewrite Nat.add_0_r. rewrite (fill3 _ pre i _ x y z 0%Z L).
    rewrite IH by (rewrite app_length; cbn [length]; lia).
    destruct (mapM _ r) as [t| |]; cbn [bind]; try reflexivity. cbn [flat_map entries]. now rewrite <- app_assoc.
  Qed.

  Lemma neighbours_after_cells : forall h d, run zero cg empty h = Ok d ->
    exists d' c t, get_finite_cells d = Ok (d', c) /\ map fid (faces d') = map fid (faces d) /\ map nbrs (faces d') = map nbrs (faces d) /\ get_finite_face_neighbors d' = Ok t /\ lists_neighbours d' t.
  Proof.
    intros h d R. assert (S : sound d) by (eapply run_sound; [apply empty_sound|exact R]).
    destruct (cells_ok d S) as (c & _ & B). set (d' := DT (verts d) (renumf 0 (faces d))) in *.
    assert (S' : sound d') by (exact (sound_renumf d 0 S)).
    assert (NN : forall g, In g (map fid (faces d')) -> exists m f', neighbour_number (faces d') (Some g) = Ok (Z.of_nat m) /\ nth_error (faces d') m = Some f' /\ fid f' = g).
    { intros g Hg. unfold neighbour_number. destruct (find _ (faces d')) as [f|] eqn:E.
      - apply find_some in E as [X Y]. apply Nat.eqb_eq in Y. apply In_nth_error in X as [m X]. pose proof X as X0. apply renumf_nth in X0 as (f0 & _ & _ & _ & _ & F). exists m, f. cbn in F. now rewrite F.
      - apply in_map_iff in Hg as (f & X & Y). apply find_none with (x := f) in E; auto. apply Nat.eqb_neq in E. contradiction. }
    set (nrow := fun f => let '(a, b, c) := nbrs f in let! x := neighbour_number (faces d') a in let! y := neighbour_number (faces d') b in let! z := neighbour_number (faces d') c in Ok (x, y, z)).
    assert (T : exists t, mapM nrow (faces d') = Ok t).
    { apply mapM_total. intros f Hf. unfold nrow. pose proof (snd_nbrs d' S' f) as K. destruct (nbrs f) as [[a b] e]. cbn [entries] in K.
      assert (G : forall o, In o [a; b; e] -> exists x, neighbour_number (faces d') o = Ok x).
      { intros [g|] Ho; [|cbn; eauto]. destruct (NN g) as (m & _ & -> & _); [eapply K; eauto|eauto]. }
      destruct (G a) as [? ->]; [cbn; auto|]. destruct (G b) as [? ->]; [cbn; auto|]. destruct (G e) as [? ->]; [cbn; auto|]. cbn [bind]. eauto. }
    destruct T as [t T]. exists d', c, t. split; [exact B|]. split; [apply renumf_fid|]. split.
    { apply renumf_nbrs. }
    split.
    { unfold get_finite_face_neighbors. pose proof (neighbours_loop_eq (faces d') (faces d') 0 [] eq_refl) as E. cbn [app] in E. rewrite E. fold nrow. rewrite T. cbn [bind app]. now rewrite rows3_flat. }
    apply mapM_nth in T as [L K]. split; [exact L|]. intros k r f Hr Hf j n Hn.
    destruct (K k f Hf) as (r' & R1 & R2). rewrite Hr in R1. injection R1 as <-.
    assert (G : exists x, nth_error (entries r) j = Some x /\ neighbour_number (faces d') n = Ok x).
    { unfold nrow in R2. destruct (nbrs f) as [[a b] e]. cbn [entries] in Hn.
      destruct (neighbour_number (faces d') a) as [x| |] eqn:Ea; cbn [bind] in R2; try discriminate.
      destruct (neighbour_number (faces d') b) as [y| |] eqn:Eb; cbn [bind] in R2; try discriminate.
      destruct (neighbour_number (faces d') e) as [z| |] eqn:Ec; cbn [bind] in R2; try discriminate. injection R2 as <-. cbn [entries].
      destruct j as [|[|[|[|j]]]]; cbn in Hn |- *; try discriminate; injection Hn as <-; eauto. }
    destruct G as (x & G1 & G2). destruct n as [g|]; [|cbn in G2; congruence].
    assert (Hg : In g (map fid (faces d'))).
    { apply (snd_nbrs d' S' f); [eapply nth_error_In; eauto|]. eapply nth_error_In; eauto. }
    destruct (NN g Hg) as (m & f' & N1 & N2 & N3). exists m, f'. split; [congruence|auto].
  Qed.

  (** * Insertions only *)
  Lemma flat_numbers : forall (p : list C) ps, flat p ps -> forall s, number_points p s = combine ps (seq s (length ps)).
  Proof. induction 1; intros s; cbn; [reflexivity|]. rewrite IHflat. now rewrite Nat.add_1_r. Qed.
  Lemma combine_fst : forall (ps : list point) s, map fst (combine ps (seq s (length ps))) = ps.
  Proof. induction ps; intros; cbn; [reflexivity|]. now rewrite IHps. Qed.
  Lemma combine_in : forall (ps : list point) s p n, In (p, n) (combine ps (seq s (length ps))) -> s <= n /\ nth_error ps (n - s) = Some p.
  Proof.
    induction ps as [|x ps IH]; intros s p n H; [destruct H|]. destruct H as [H|H].
    - injection H as <- <-. split; [lia|]. now rewrite Nat.sub_diag.
    - apply IH in H as [A B]. split; [lia|]. replace (n - s) with (S (n - S s)) by lia. exact B.
  Qed.

  (** Numbers are positions in the rows inserted so far. *)
  Definition numbered_by (d : dt C) (ps : list point) : Prop := sound d /\ (forall p, In p (map at_ (verts d)) <-> In p ps) /\ forall v, In v (verts d) -> nth_error ps (vinfo v) = Some (at_ v).

  Lemma insert_one : forall d ps p qs, flat p qs -> numbered_by d ps -> length (verts d) = length ps -> (forall x, In x qs -> ~ In x ps) \/ ps = [] -> numbered_by (insert cg d p) (ps ++ qs).
  Proof.
    intros d ps p qs F (S & P & N) L D. unfold insert. rewrite (flat_numbers _ _ F). set (l := combine qs _).
    split; [now apply (ins_sound cg OB)|]. split.
    - intros x. rewrite (ins_points cg OB d l x S), P, in_app_iff. unfold l. now rewrite combine_fst.
    - intros v V. assert (X : In (at_ v, vinfo v) (numbered (cg_insert cg d l))) by (apply in_map_iff; eauto).
      apply (ins_numbers cg OB) in X as [X|[X Y]]; auto.
      + apply combine_in in X as [A B]. rewrite nth_error_app2 by lia. rewrite <- L. exact B.
      + apply in_map_iff in Y as (w & E & W). injection E as E1 E2. rewrite <- E1, <- E2. pose proof (N w W) as G.
        rewrite nth_error_app1; auto. apply nth_error_Some. congruence.
  Qed.

  Lemma count_points : forall d ps, numbered_by d ps -> NoDup ps -> length (verts d) = length ps.
  Proof.
    intros d ps (S & P & _) N. rewrite <- (map_length at_). apply Permutation_length. apply NoDup_Permutation; auto. now apply snd_points.
  Qed.

  Lemma run_app : forall a b d, run zero cg d (a ++ b) = (let! d' := run zero cg d a in run zero cg d' b).
  Proof. induction a as [|c a IH]; intros; [reflexivity|]. cbn [app run]. destruct (step zero cg d c); cbn [bind]; auto. Qed.

  Lemma inserts_numbered : forall h ps, inserts h ps -> NoDup ps -> exists d, run zero cg empty h = Ok d /\ numbered_by d ps.
  Proof.
    induction 1 as [|h ps p qs H IH F]; intros N.
    - exists empty. split; [reflexivity|]. split; [apply empty_sound|]. split; [cbn; tauto|]. cbn. tauto.
    - assert (N1 : NoDup ps) by (eapply NoDup_app_l; eauto). destruct (IH N1) as (d & R & B).
      exists (insert cg d p). split; [rewrite run_app, R; reflexivity|]. apply insert_one; auto; [now apply count_points|].
      left. intros x Hx. eapply NoDup_app_sep; eauto.
  Qed.

  Lemma fresh_cells : forall h ps, inserts h ps -> NoDup ps -> exists d d' t, run zero cg empty h = Ok d /\ get_finite_cells d = Ok (d', t) /\ length (verts d) = length ps /\ places d' = places d /\ describes d' ps t.
  Proof.
    intros h ps H N. destruct (inserts_numbered h ps H N) as (d & R & B). pose proof (count_points _ _ B N) as L. destruct B as (S & P & M).
    destruct (cells_ok d S) as (t & A & E). exists d, (DT (verts d) (renumf 0 (faces d))), t.
    split; [exact R|]. split; [exact E|]. split; [exact L|]. split; [reflexivity|]. apply rows_describe; auto.
  Qed.

  Lemma single_insert_cells : forall p ps, flat p ps -> exists d' t, get_finite_cells (insert cg empty p) = Ok (d', t) /\ places d' = places (insert cg empty p) /\ describes d' ps t.
  Proof.
    intros p ps F. assert (B : numbered_by (insert cg empty p) ([] ++ ps)).
    { apply insert_one; auto. split; [apply empty_sound|]. split; [cbn; tauto|]. cbn; tauto. }
    destruct B as (S & _ & M). destruct (cells_ok _ S) as (t & A & E). do 2 eexists. split; [exact E|]. split; [reflexivity|]. apply rows_describe; auto.
  Qed.

  (** * Removal *)
  Lemma handle_at_ok : forall hs i h, handle_at hs i = Ok h <-> nth_error hs i = Some h.
  Proof. intros. unfold handle_at. destruct (nth_error hs i); split; congruence. Qed.

  Lemma filter_eq : forall A (f g : A -> bool) l, (forall x, In x l -> f x = g x) -> filter f l = filter g l.
  Proof. induction l as [|x l IH]; intros H; [reflexivity|]. cbn. rewrite (H x (or_introl eq_refl)), IH; auto. intros; apply H; now right. Qed.
  Lemma filter_perm : forall A (f : A -> bool) l l', Permutation l l' -> Permutation (filter f l) (filter f l').
  Proof.
    induction 1; cbn; auto; try (destruct (f x)); try (destruct (f y)); auto; try constructor; eauto using Permutation.
  Qed.
  Lemma filter_filter : forall A (f g : A -> bool) l, filter f (filter g l) = filter (fun x => g x && f x) l.
  Proof. induction l as [|x l IH]; [reflexivity|]. cbn. destruct (g x); cbn; [destruct (f x)|]; now rewrite IH. Qed.

  Definition kept (hs : list nat) (idx : list nat) (v : vertex C) : bool := negb (existsb (fun i => match nth_error hs i with Some h => hd v =? h | None => false end) idx).

  Lemma remove_loop_exact : forall idx hs d, NoDup hs -> sound d ->
    (forall i h, In i idx -> nth_error hs i = Some h -> In h (map hd (verts d))) -> (forall i, In i idx -> i < length hs) -> NoDup idx ->
    exists d', remove_loop cg hs idx d = Ok d' /\ Permutation (verts d') (filter (kept hs idx) (verts d)).
  Proof.
    induction idx as [|i idx IH]; intros hs d NH S Lv Rg N; cbn [remove_loop].
    - exists d. split; [reflexivity|]. cbn. replace (filter _ _) with (verts d); [reflexivity|]. generalize (verts d) as l. induction l as [|v l IH]; [reflexivity|]. cbn. f_equal. exact IH.
    - assert (Li : i < length hs) by (apply Rg; now left). destruct (nth_error hs i) as [h|] eqn:Eh; [|apply nth_error_None in Eh; lia].
      pose proof (Lv i h (or_introl eq_refl) Eh) as HL. rewrite (proj2 (handle_at_ok hs i h) Eh). cbn [bind].
      unfold with_live, handles. rewrite (proj2 (existsb_In _ _) HL). cbn [bind]. inversion N; subst.
      pose proof (rem_verts cg OB d h S HL) as PV. destruct (IH hs (cg_remove cg d h)) as (d' & R & P); auto.
      + now apply (rem_sound cg OB).
      + intros k g Hk Eg. apply (Permutation_in g (Permutation_map hd (Permutation_sym PV))).
        pose proof (Lv k g (or_intror Hk) Eg) as G. apply in_map_iff in G as (v & V1 & V2). apply in_map_iff. exists v. split; auto. apply filter_In. split; auto.
        apply negb_true_iff, Nat.eqb_neq. intros X. assert (g = h) by congruence. subst g. assert (i = k); [|congruence].
        apply (NoDup_nth_error hs); auto; congruence.
      + intros; apply Rg; now right.
      + exists d'. split; [exact R|]. etransitivity; [exact P|]. etransitivity; [apply filter_perm; exact PV|]. rewrite filter_filter.
        erewrite filter_eq; [reflexivity|]. intros v _. unfold kept. cbn [existsb]. rewrite Eh. now rewrite negb_orb.
  Qed.

  Lemma remove_loop_needs : forall idx hs d d', NoDup hs -> sound d -> remove_loop cg hs idx d = Ok d' ->
    (forall i, In i idx -> exists h, nth_error hs i = Some h /\ In h (map hd (verts d))) /\ NoDup idx.
  Proof.
    induction idx as [|i idx IH]; intros hs d d' NH S H; [split; [contradiction|constructor]|]. cbn [remove_loop] in H.
    destruct (handle_at hs i) as [h| |] eqn:Eh; cbn [bind] in H; try discriminate. apply handle_at_ok in Eh.
    destruct (with_live d h _) as [d1| |] eqn:E; cbn [bind] in H; try discriminate. apply with_live_ok in E as [A ->].
    apply IH in H as [B N]; auto; [|now apply (rem_sound cg OB)].
    assert (G : forall k, In k idx -> exists g, nth_error hs k = Some g /\ In g (map hd (verts d)) /\ g <> h).
    { intros k Hk. destruct (B k Hk) as (g & G1 & G2). exists g. apply (Permutation_in g (Permutation_map hd (rem_verts cg OB d h S A))) in G2.
      apply in_map_iff in G2 as (v & V1 & V2). apply filter_In in V2 as [V2 V3]. apply negb_true_iff, Nat.eqb_neq in V3. split; auto. split; [|congruence]. apply in_map_iff; eauto. }
    split.
    - intros k [<-|Hk]; [eauto|]. destruct (G k Hk) as (g & ? & ? & ?). eauto.
    - constructor; auto. intros Hk. destruct (G i Hk) as (g & G1 & _ & G3). congruence.
  Qed.

  Lemma nth_of_kept : forall (vs : list (vertex C)) idx, NoDup (map hd vs) -> (forall i, In i idx -> i < length vs) -> NoDup idx ->
    others vs idx (filter (kept (map hd vs) idx) vs).
  Proof.
    intros vs idx NH Rg N. exists (filter (fun i => negb (existsb (Nat.eqb i) idx)) (seq 0 (length vs))). split.
    - apply NoDup_Permutation.
      + apply NoDup_app_i; auto; [apply NoDup_filter, seq_NoDup|]. intros a A B. apply filter_In in B as [_ B]. apply negb_true_iff in B. apply (proj2 (existsb_In _ _)) in A. congruence.
      + apply seq_NoDup.
      + intros i. rewrite in_app_iff, filter_In, in_seq, negb_true_iff. split.
        * intros [H|[H _]]; [apply Rg in H; lia|auto].
        * intros H. destruct (existsb (Nat.eqb i) idx) eqn:E; [left; now apply existsb_In|right; auto].
    - assert (G : forall l s, (forall k, nth_error l k = nth_error vs (s + k)) -> map (nth_error vs) (filter (fun i => negb (existsb (Nat.eqb i) idx)) (seq s (length l))) = map Some (filter (kept (map hd vs) idx) l)).
      { induction l as [|v l IH]; intros s E; [reflexivity|]. cbn [length seq filter].
        pose proof (E 0) as E0. cbn in E0. rewrite Nat.add_0_r in E0.
        assert (K : kept (map hd vs) idx v = negb (existsb (Nat.eqb s) idx)).
        { unfold kept. f_equal. apply eq_true_iff_eq. rewrite !existsb_exists. split; intros (i & I1 & I2); exists i; split; auto.
          - destruct (nth_error (map hd vs) i) as [h|] eqn:Eh; [|discriminate]. apply Nat.eqb_eq in I2. apply Nat.eqb_eq.
            apply (NoDup_nth_error (map hd vs)); auto; [rewrite map_length; apply nth_error_Some; congruence|]. rewrite Eh, nth_error_map, <- E0. cbn. congruence.
          - apply Nat.eqb_eq in I2. subst i. rewrite nth_error_map, <- E0. cbn. apply Nat.eqb_refl. }
        rewrite K. assert (IH' : map (nth_error vs) (filter (fun i => negb (existsb (Nat.eqb i) idx)) (seq (S s) (length l))) = map Some (filter (kept (map hd vs) idx) l)).
        { apply IH. intros k. specialize (E (S k)). cbn in E. rewrite E. f_equal. lia. }
        destruct (negb (existsb (Nat.eqb s) idx)); cbn [map]; [rewrite IH', <- E0; reflexivity|exact IH']. }
      now apply (G vs 0).
  Qed.

  Lemma others_map : forall A B (f : A -> B) l idx r, others l idx r -> others (map f l) idx (map f r).
  Proof.
    intros A B f l idx r (keep & P & E). exists keep. rewrite map_length. split; auto.
    revert r E. clear. induction keep as [|k keep IH]; intros [|x r] E; cbn in E |- *; try discriminate; [reflexivity|]. injection E as E1 E2. rewrite (IH _ E2), nth_error_map, E1. reflexivity.
  Qed.

  Lemma remove_exact : forall h d idx, run zero cg empty h = Ok d ->
    ((exists d', remove cg d idx = Ok d') <-> NoDup idx /\ forall i, In i idx -> i < length (verts d)) /\
    forall d', remove cg d idx = Ok d' -> exists l, others (places d) idx l /\ Permutation (places d') l.
  Proof.
    intros h d idx R. assert (S : sound d) by (eapply run_sound; [apply empty_sound|exact R]). pose proof (snd_handles d S) as NH.
    assert (FW : forall d', remove cg d idx = Ok d' -> NoDup idx /\ forall i, In i idx -> i < length (verts d)).
    { intros d' H. apply remove_loop_needs in H as [A B]; auto. split; auto. intros i Hi. destruct (A i Hi) as (x & X & _). rewrite <- (map_length hd). apply nth_error_Some. unfold handles in X. congruence. }
    assert (BW : NoDup idx /\ (forall i, In i idx -> i < length (verts d)) -> exists d', remove cg d idx = Ok d' /\ Permutation (verts d') (filter (kept (map hd (verts d)) idx) (verts d))).
    { intros [N Rg]. apply remove_loop_exact; auto; [|intros i Hi; unfold handles; rewrite map_length; auto]. intros i x _ X. eapply nth_error_In. exact X. }
    split; [split|].
    - intros (d' & H). eauto.
    - intros H. destruct (BW H) as (d' & E & _). eauto.
    - intros d' H. pose proof (FW d' H) as [N Rg]. destruct (BW (conj N Rg)) as (d2 & E & P). rewrite H in E. injection E as <-.
      exists (map (fun v => (hd v, at_ v)) (filter (kept (map hd (verts d)) idx) (verts d))). split; [unfold places; apply others_map, nth_of_kept; auto|]. unfold places. now apply Permutation_map.
  Qed.

  (** * Displacement *)
  Lemma positions_flat : forall (p : list C) ps, flat p ps -> forall i q, nth_error ps i = Some q -> position p i = Ok q.
  Proof.
    intros p ps F. induction F; intros i q H; [destruct i; discriminate|]. destruct i as [|i]; cbn in H.
    - injection H as <-. reflexivity.
    - apply IHF in H. unfold position in *. replace (2 * S i) with (S (S (2 * i))) by lia. replace (S (S (2 * i)) + 1) with (S (S (2 * i + 1))) by lia. exact H.
  Qed.
  Lemma positions_all : forall (p : list C) ps m, flat p ps -> m = length ps -> mapM (position p) (seq 0 m) = Ok ps.
  Proof.
    intros p ps m F ->. pose proof (positions_flat p ps F) as G.
    assert (K : forall l s, (forall k, nth_error l k = nth_error ps (s + k)) -> mapM (position p) (seq s (length l)) = Ok l).
    { induction l as [|q l IH]; intros s E; [reflexivity|]. cbn [length seq mapM]. pose proof (E 0) as E0. cbn in E0. rewrite Nat.add_0_r in E0. rewrite (G s q) by congruence. cbn [bind].
      rewrite IH; [reflexivity|]. intros k. specialize (E (S k)). cbn in E. rewrite E. f_equal. lia. }
    now apply (K ps 0).
  Qed.

  (** Positions after the jobs. *)
  Definition target (hs : list nat) (jobs : list (nat * point)) (x : nat * point) : nat * point :=
    match find (fun j => match nth_error hs (fst j) with Some h => fst x =? h | None => false end) jobs with Some j => (fst x, snd j) | None => x end.

  Lemma map_ext_in' : forall A B (f g : A -> B) l, (forall x, In x l -> f x = g x) -> map f l = map g l.
  Proof. intros; now apply map_ext_in. Qed.

  Lemma places_hd : forall d : dt C, map fst (places d) = map hd (verts d).
  Proof. intros. unfold places. rewrite map_map. reflexivity. Qed.
  Lemma places_at : forall d : dt C, map snd (places d) = map at_ (verts d).
  Proof. intros. unfold places. rewrite map_map. reflexivity. Qed.

  Lemma move_loop_free : forall jobs hs d, NoDup hs -> sound d -> NoDup (map fst jobs) -> (forall j, In j jobs -> fst j < length hs) ->
    (forall i h, In i (map fst jobs) -> nth_error hs i = Some h -> In h (map hd (verts d))) ->
    NoDup (map snd jobs) -> (forall q, In q (map snd jobs) -> ~ In q (map at_ (verts d))) ->
    exists d', move_loop cg hs jobs d = Ok d' /\ Permutation (places d') (map (target hs jobs) (places d)).
  Proof.
    induction jobs as [|[i q] jobs IH]; intros hs d NH S N Rg Lv NP FR; cbn [move_loop].
    - exists d. split; [reflexivity|]. unfold target. cbn. now rewrite map_id.
    - cbn in N, NP. inversion N; subst. inversion NP; subst. assert (Li : i < length hs) by (apply (Rg (i, q)); now left).
      destruct (nth_error hs i) as [h|] eqn:Eh; [|apply nth_error_None in Eh; lia].
      pose proof (Lv i h (or_introl eq_refl) Eh) as HL. rewrite (proj2 (handle_at_ok hs i h) Eh). cbn [bind].
      unfold with_live, handles. rewrite (proj2 (existsb_In _ _) HL). cbn [bind].
      pose proof (mov_free cg OB d h q S HL (FR q (or_introl eq_refl))) as PV.
      destruct (IH hs (cg_move cg d h q)) as (d' & R & P); auto.
      + now apply (mov_sound cg OB).
      + intros; apply Rg; now right.
      + intros k g Hk Eg. rewrite <- places_hd. apply (Permutation_in g (Permutation_map fst (Permutation_sym PV))).
        pose proof (Lv k g (or_intror Hk) Eg) as G. rewrite <- places_hd in G. apply in_map_iff in G as (x & X1 & X2). rewrite map_map. apply in_map_iff. exists x. split; auto.
        destruct (fst x =? h) eqn:E; auto. apply Nat.eqb_eq in E. cbn. congruence.
      + intros r Hr X. rewrite <- places_at in X. apply (Permutation_in r (Permutation_map snd PV)) in X. rewrite map_map in X. apply in_map_iff in X as (x & X1 & X2).
        destruct (fst x =? h); cbn in X1; [subst; contradiction|]. apply (FR r (or_intror Hr)). rewrite <- places_at. apply in_map_iff; eauto.
      + exists d'. split; [exact R|]. etransitivity; [exact P|]. etransitivity; [apply Permutation_map; exact PV|]. rewrite map_map.
        erewrite map_ext_in'; [reflexivity|]. intros x _. unfold target. cbn [find fst snd]. rewrite Eh. destruct (fst x =? h) eqn:E; [|reflexivity].
        apply Nat.eqb_eq in E. cbn [fst]. replace (find _ jobs) with (@None (nat * point)); [now rewrite E|]. symmetry.
        destruct (find _ jobs) as [[k r]|] eqn:F; [|reflexivity]. apply find_some in F as [F1 F2]. cbn in F2. destruct (nth_error hs k) as [g|] eqn:Ek; [|discriminate]. apply Nat.eqb_eq in F2. subst g.
        exfalso. apply H1. assert (i = k); [apply (NoDup_nth_error hs); auto; congruence|]. subst k. apply in_map_iff. exists (i, r). auto.
  Qed.

  Lemma target_nth : forall hs jobs (d : dt C) k x, NoDup hs -> map hd (verts d) = hs -> NoDup (map fst jobs) -> nth_error (places d) k = Some x ->
    (forall q, In (k, q) jobs -> target hs jobs x = (fst x, q)) /\ (~ In k (map fst jobs) -> target hs jobs x = x).
  Proof.
    intros hs jobs d k x NH E N Hk.
    assert (Hh : nth_error hs k = Some (fst x)) by (rewrite <- E, <- places_hd, nth_error_map, Hk; reflexivity).
    split.
    - intros q Hq. unfold target. destruct (find _ jobs) as [[i r]|] eqn:F.
      + apply find_some in F as [F1 F2]. cbn in F2. destruct (nth_error hs i) as [g|] eqn:Ei; [|discriminate]. apply Nat.eqb_eq in F2. subst g.
        assert (i = k) by (apply (NoDup_nth_error hs); auto; [apply nth_error_Some|]; congruence). subst i. cbn.
        f_equal. clear - N F1 Hq. induction jobs as [|j l IH]; [destruct F1|]. cbn in N. inversion N; subst.
        destruct F1 as [->|F1], Hq as [Hq|Hq]; auto; try congruence.
        * exfalso. apply H1. apply in_map_iff. exists (k, q). auto.
        * subst j. exfalso. apply H1. apply in_map_iff. exists (k, r). auto.
      + apply find_none with (x := (k, q)) in F; auto. cbn in F. rewrite Hh, Nat.eqb_refl in F. discriminate.
    - intros Hn. unfold target. destruct (find _ jobs) as [[i r]|] eqn:F; [|reflexivity]. exfalso.
      apply find_some in F as [F1 F2]. cbn in F2. destruct (nth_error hs i) as [g|] eqn:Ei; [|discriminate]. apply Nat.eqb_eq in F2. subst g.
      assert (i = k) by (apply (NoDup_nth_error hs); auto; [apply nth_error_Some|]; congruence). subst i. apply Hn. apply in_map_iff. exists (k, r). auto.
  Qed.

  Lemma move_free_all : forall h d idx p qs, run zero cg empty h = Ok d -> flat p qs -> length qs = length idx -> NoDup idx -> (forall i, In i idx -> i < length (verts d)) ->
    NoDup qs -> (forall q, In q qs -> ~ In q (map at_ (verts d))) ->
    exists d' l, move cg d idx p = Ok d' /\ Permutation (places d') l /\ length l = length (places d) /\
      forall k g a, nth_error (places d) k = Some (g, a) ->
        (forall j, nth_error idx j = Some k -> exists q, nth_error qs j = Some q /\ nth_error l k = Some (g, q)) /\ (~ In k idx -> nth_error l k = Some (g, a)).
  Proof.
    intros h d idx p qs R F L N Rg NQ FR. assert (S : sound d) by (eapply run_sound; [apply empty_sound|exact R]). pose proof (snd_handles d S) as NH.
    unfold move. rewrite (positions_all p qs (length idx)) by auto. cbn [bind].
    assert (M1 : map fst (combine idx qs) = idx) by (clear - L; revert qs L; induction idx; intros [|q qs] L; cbn in *; try discriminate; [reflexivity|]; rewrite IHidx; auto).
    assert (M2 : map snd (combine idx qs) = qs) by (clear - L; revert qs L; induction idx; intros [|q qs] L; cbn in *; try discriminate; [reflexivity|]; rewrite IHidx; auto).
    destruct (move_loop_free (combine idx qs) (handles d) d) as (d' & M & P); auto.
    - now rewrite M1.
    - intros [i q] H. unfold handles. rewrite map_length. apply Rg. rewrite <- M1. apply in_map_iff. exists (i, q). auto.
    - intros i x _ X. eapply nth_error_In. exact X.
    - now rewrite M2.
    - now rewrite M2.
    - exists d', (map (target (handles d) (combine idx qs)) (places d)). split; [exact M|]. split; [exact P|]. split; [apply map_length|].
      intros k g a Hk. destruct (target_nth (handles d) (combine idx qs) d k (g, a)) as [T1 T2]; auto; [now rewrite M1|]. rewrite M1 in T2. cbn [fst] in T1. split.
      + intros j Hj. assert (Hl : j < length qs) by (rewrite L; apply nth_error_Some; congruence). destruct (nth_error qs j) as [q|] eqn:Eq; [|apply nth_error_None in Eq; lia].
        exists q. split; auto. rewrite nth_error_map, Hk. cbn. rewrite (T1 q); auto.
        clear - Hj Eq. revert idx qs Hj Eq. induction j; intros [|i idx] [|r qs] Hj Eq; cbn in *; try discriminate; [left; congruence|right; eauto].
      + intros Hn. rewrite nth_error_map, Hk. cbn. now rewrite (T2 Hn).
  Qed.
End Wrapper.

(** * The requirements on the engine can be met *)
Lemma fan_from_fid : forall hs h0 i, map fid (fan_from h0 i hs) = seq i (length hs - 1).
Proof.
  induction hs as [|a t IH]; intros h0 i; [reflexivity|]. destruct t as [|b r]; [reflexivity|].
  change (fan_from h0 i (a :: b :: r)) with (fan_face h0 i a b (match r with [] => false | _ => true end) :: fan_from h0 (i + 1) (b :: r)).
  cbn [map]. rewrite IH. cbn [length]. replace (S (S (length r)) - 1) with (S (S (length r) - 1)) by lia. cbn [seq]. now rewrite Nat.add_1_r.
Qed.
Lemma fan_from_corners : forall hs h0 i f h, In f (fan_from h0 i hs) -> In h (entries (corners f)) -> In h (h0 :: hs).
Proof.
  induction hs as [|a t IH]; intros h0 i f h; [cbn; contradiction|]. destruct t as [|b r]; [cbn; contradiction|].
  change (fan_from h0 i (a :: b :: r)) with (fan_face h0 i a b (match r with [] => false | _ => true end) :: fan_from h0 (i + 1) (b :: r)).
  intros [<-|H] K.
  - cbn in K. cbn. tauto.
  - apply (IH h0 (i + 1) f h H) in K. cbn in K |- *. tauto.
Qed.
Lemma fan_from_nbrs : forall hs h0 i f g, In f (fan_from h0 i hs) -> In (Some g) (entries (nbrs f)) -> (i <= g \/ S g = i) /\ g < i + (length hs - 1).
Proof.
  induction hs as [|a t IH]; intros h0 i f g; [cbn; contradiction|]. destruct t as [|b r]; [cbn; contradiction|].
  change (fan_from h0 i (a :: b :: r)) with (fan_face h0 i a b (match r with [] => false | _ => true end) :: fan_from h0 (i + 1) (b :: r)).
  intros [<-|H] K.
  - cbn [fan_face nbrs entries] in K. destruct K as [K|[K|[K|[]]]]; [discriminate| |].
    + destruct r; [discriminate|]. injection K as <-. cbn [length]. lia.
    + destruct i; [discriminate|]. injection K as <-. cbn [length]. lia.
  - apply (IH h0 (i + 1) f g H) in K. cbn [length] in *. lia.
Qed.
Lemma with_fan_sound : forall vs, NoDup (map hd vs) -> NoDup (map at_ vs) -> sound (with_fan vs).
Proof.
  intros vs A B. unfold with_fan. constructor; cbn [verts faces]; auto; destruct (map hd vs) as [|h0 hs] eqn:E; cbn [fan]; try (cbn; contradiction).
  - constructor.
  - rewrite fan_from_fid. apply seq_NoDup.
  - intros f h. apply fan_from_corners.
  - intros f g H K. rewrite fan_from_fid. pose proof (fan_from_nbrs hs h0 0 f g H K). apply in_seq. lia.
Qed.

Lemma same_point_iff : forall p q, same_point p q = true <-> p = q.
Proof. intros [a b] [c d]. unfold same_point. cbn. rewrite andb_true_iff, !Nat.eqb_eq. split; [intros [-> ->]; auto|intros H; injection H as -> ->; auto]. Qed.
Lemma holds_point : forall (vs : list (vertex nat)) p, existsb (fun v => same_point (at_ v) p) vs = true <-> In p (map at_ vs).
Proof.
  intros. rewrite existsb_exists, in_map_iff. split; intros (v & A & B); exists v; [apply same_point_iff in B|split; auto; apply same_point_iff]; auto.
Qed.

Lemma insert1_facts : forall vs x, NoDup (map hd vs) -> NoDup (map at_ vs) ->
  NoDup (map hd (fan_insert1 vs x)) /\ NoDup (map at_ (fan_insert1 vs x)) /\
  (forall p, In p (map at_ (fan_insert1 vs x)) <-> In p (map at_ vs) \/ p = fst x) /\
  (forall h p, In (h, p) (map (fun v => (hd v, at_ v)) vs) -> In (h, p) (map (fun v => (hd v, at_ v)) (fan_insert1 vs x))) /\
  (forall v, In v (fan_insert1 vs x) -> (at_ v, vinfo v) = x \/ (at_ v <> fst x /\ In (at_ v, vinfo v) (map (fun v => (at_ v, vinfo v)) vs))).
Proof.
  intros vs [q n] A B. unfold fan_insert1. cbn [fst snd]. destruct (existsb _ vs) eqn:E.
  - assert (M1 : map hd (map (fun v => if same_point (at_ v) q then Vertex (hd v) (at_ v) n else v) vs) = map hd vs) by (rewrite map_map; apply map_ext; intros v; destruct (same_point _ _); reflexivity).
    assert (M2 : map at_ (map (fun v => if same_point (at_ v) q then Vertex (hd v) (at_ v) n else v) vs) = map at_ vs) by (rewrite map_map; apply map_ext; intros v; destruct (same_point _ _); reflexivity).
    apply holds_point in E. rewrite M1, M2. split; auto. split; auto. split; [|split].
    + intros p. split; [auto|]. intros [H|H]; [auto|congruence].
    + intros h p H. rewrite map_map. apply in_map_iff in H as (v & V1 & V2). apply in_map_iff. exists v. split; auto. destruct (same_point _ _); auto.
    + intros v H. apply in_map_iff in H as (w & W1 & W2). destruct (same_point (at_ w) q) eqn:F.
      * left. subst v. cbn. apply same_point_iff in F. congruence.
      * right. subst v. split; [intros X; apply same_point_iff in X; congruence|]. apply in_map_iff. eauto.
  - assert (E' : ~ In q (map at_ vs)) by (intros X; apply holds_point in X; congruence).
    rewrite !map_app. cbn [map hd at_]. split; [|split; [|split; [|split]]].
    + apply NoDup_app_i; auto; [constructor; [auto|constructor]|]. intros h H [K|[]]. 
      assert (h <= list_max (map hd vs)); [|lia]. pose proof (proj1 (list_max_le (map hd vs) (list_max (map hd vs))) (le_n _)) as G. rewrite Forall_forall in G. auto.
    + apply NoDup_app_i; auto; [constructor; [auto|constructor]|]. intros p H [K|[]]. congruence.
    + intros p. rewrite in_app_iff. cbn. intuition congruence.
    + intros h p H. apply in_app_iff. auto.
    + intros v H. apply in_app_iff in H as [H|[<-|[]]]; [|left; reflexivity]. right. split; [|apply in_map_iff; eauto]. intros X. apply E'. rewrite <- X. apply in_map_iff. eauto.
Qed.

Lemma inserts_facts : forall l vs, NoDup (map hd vs) -> NoDup (map at_ vs) ->
  NoDup (map hd (fold_left fan_insert1 l vs)) /\ NoDup (map at_ (fold_left fan_insert1 l vs)) /\
  (forall p, In p (map at_ (fold_left fan_insert1 l vs)) <-> In p (map at_ vs) \/ In p (map fst l)) /\
  (forall x, In x (map (fun v => (hd v, at_ v)) vs) -> In x (map (fun v => (hd v, at_ v)) (fold_left fan_insert1 l vs))) /\
  (forall p n, In (p, n) (map (fun v => (at_ v, vinfo v)) (fold_left fan_insert1 l vs)) -> In (p, n) l \/ (~ In p (map fst l) /\ In (p, n) (map (fun v => (at_ v, vinfo v)) vs))).
Proof.
  induction l as [|x l IH]; intros vs A B; cbn [fold_left map].
  - split; auto. split; auto. split; [cbn; tauto|]. split; auto.
  - destruct (insert1_facts vs x A B) as (A1 & B1 & P1 & Q1 & R1). destruct (IH _ A1 B1) as (A2 & B2 & P2 & Q2 & R2).
    split; auto. split; auto. split; [|split].
    + intros p. rewrite P2, P1. cbn. intuition.
    + intros [h p] H. auto.
    + intros p n H. apply R2 in H as [H|[H K]]; [left; now right|]. apply in_map_iff in K as (v & V1 & V2). injection V1 as <- <-.
      apply R1 in V2 as [V2|[V2 V3]]; [left; left; auto|]. right. split; auto. cbn. intros [X|X]; auto.
Qed.

Lemma NoDup_map_filter : forall A B (f : A -> B) g l, NoDup (map f l) -> NoDup (map f (filter g l)).
Proof.
  induction l as [|x l IH]; intros H; [constructor|]. cbn in H. inversion H; subst. cbn. destruct (g x); [|auto]. cbn. constructor; [|auto].
  intros X. apply H2. apply in_map_iff in X as (y & Y1 & Y2). apply filter_In in Y2 as [Y2 _]. apply in_map_iff. eauto.
Qed.
Lemma filter_map_comm : forall A B (f : A -> B) g l, map f (filter (fun x => g (f x)) l) = filter g (map f l).
Proof. induction l as [|x l IH]; [reflexivity|]. cbn. destruct (g (f x)); cbn; now rewrite IH. Qed.

Lemma fan_obeys : obeys fan_engine.
Proof.
  constructor; cbn [fan_engine cg_insert cg_remove cg_move with_fan verts].
  - intros d l [A B _ _ _]. destruct (inserts_facts l (verts d) A B) as (A1 & B1 & _). now apply with_fan_sound.
  - intros d l p [A B _ _ _]. apply (inserts_facts l (verts d) A B).
  - intros d l x [A B _ _ _]. apply (inserts_facts l (verts d) A B).
  - intros d l p n [A B _ _ _]. apply (inserts_facts l (verts d) A B).
  - intros d h [A B _ _ _] _. apply with_fan_sound; now apply NoDup_map_filter.
  - intros. reflexivity.
  - intros d h p [A B _ _ _] Hh. destruct (existsb (fun v => same_point (at_ v) p) (verts d)) eqn:E.
    + clear E. destruct (existsb (fun v => same_point (at_ v) p && (hd v =? h)) (verts d)); apply with_fan_sound; try assumption; apply NoDup_map_filter; assumption.
    + assert (E' : ~ In p (map at_ (verts d))) by (intros X; apply holds_point in X; congruence).
      apply with_fan_sound.
      * rewrite map_map. erewrite map_ext; [exact A|]. intros v. destruct (hd v =? h) eqn:F; auto. apply Nat.eqb_eq in F. auto.
      * revert A B E'. clear. induction (verts d) as [|v l IH]; intros A B E'; [constructor|]. cbn in A, B, E'. inversion A; subst. inversion B; subst. cbn. constructor; [|auto].
        intros X. apply in_map_iff in X as (y & Y1 & Y2). apply in_map_iff in Y2 as (z & Z1 & Z2). destruct (hd v =? h) eqn:F.
        -- apply Nat.eqb_eq in F. cbn in Y1. destruct (hd z =? h) eqn:G; subst y.
           ++ apply Nat.eqb_eq in G. apply H1. rewrite F, <- G. apply in_map_iff. eauto.
           ++ apply E'. right. rewrite <- Y1. apply in_map_iff. eauto.
        -- destruct (hd z =? h) eqn:G; subst y; cbn in Y1; [apply E'; left; auto|]. apply H3. rewrite <- Y1. apply in_map_iff. eauto.
  - intros d h p S H. apply in_map_iff in H as (v & V1 & V2). injection V1 as V1 V3.
    assert (E1 : existsb (fun v => same_point (at_ v) p) (verts d) = true) by (apply holds_point, in_map_iff; eauto).
    assert (E2 : existsb (fun v => same_point (at_ v) p && (hd v =? h)) (verts d) = true) by (apply existsb_exists; exists v; split; auto; apply andb_true_iff; split; [now apply same_point_iff|now apply Nat.eqb_eq]).
    unfold places. cbn [verts]. now rewrite E1, E2.
  - intros d h g p [A B _ _ _] Hh H N. apply in_map_iff in H as (v & V1 & V2). injection V1 as V1 V3.
    assert (E1 : existsb (fun v => same_point (at_ v) p) (verts d) = true) by (apply holds_point, in_map_iff; eauto).
    assert (E2 : existsb (fun v => same_point (at_ v) p && (hd v =? h)) (verts d) = false).
    { destruct (existsb (fun v => same_point (at_ v) p && (hd v =? h)) (verts d)) eqn:X; [|reflexivity]. apply existsb_exists in X as (w & W1 & W2). apply andb_true_iff in W2 as [W2 W3]. apply same_point_iff in W2. apply Nat.eqb_eq in W3. exfalso. apply N.
      apply In_nth_error in V2 as [i Hi]. apply In_nth_error in W1 as [j Hj]. assert (i = j); [|congruence].
      apply (NoDup_nth_error (map at_ (verts d))); auto; [rewrite map_length; apply nth_error_Some; congruence|]. rewrite !nth_error_map, Hi, Hj. cbn. congruence. }
    unfold places. cbn [verts]. rewrite E1, E2. now rewrite <- filter_map_comm.
  - intros d h p S Hh H. assert (E1 : existsb (fun v => same_point (at_ v) p) (verts d) = false) by (destruct (existsb _ _) eqn:X; auto; apply holds_point in X; contradiction).
    unfold places. cbn [verts]. rewrite E1. cbn [with_fan verts]. rewrite !map_map. erewrite map_ext; [reflexivity|]. intros v. cbn. destruct (hd v =? h) eqn:F; auto.
Qed.

(** * What goes wrong *)
Definition square : list nat := [0; 0; 1; 0; 1; 1; 0; 1].

Lemma stale : exists h d d' t row i, obeys fan_engine /\ run 0 fan_engine empty h = Ok d /\ get_finite_cells d = Ok (d', t) /\ In row t /\ In i (entries row) /\ length (verts d) <= i.
Proof.
  exists [CInsert square; CVertices; CRemove [0]]. do 3 eexists. exists (1, 2, 3), 3. split; [exact fan_obeys|]. split; [vm_compute; reflexivity|]. split; [vm_compute; reflexivity|]. cbn. split; auto.
Qed.

Lemma repeated_rows : exists p q d d' t, obeys fan_engine /\ run 0 fan_engine empty [CInsert p; CInsert q] = Ok d /\ get_finite_cells d = Ok (d', t) /\
  ~ describes d' (rows2 (p ++ q)) t.
Proof.
  exists [0; 0; 0; 0; 1; 0], [1; 1]. do 3 eexists. split; [exact fan_obeys|]. split; [vm_compute; reflexivity|]. split; [vm_compute; reflexivity|].
  intros [_ H]. destruct (H 0 (1, 2, 2) _ eq_refl eq_refl 2 2 3 eq_refl eq_refl) as (p & A & B). cbn in A. injection A as <-.
  vm_compute in B. destruct B as [B|[B|[B|[]]]]; discriminate.
Qed.

Lemma chain_lost : exists d idx p d', obeys fan_engine /\ run 0 fan_engine empty [CInsert square; CVertices] = Ok d /\ flat p (rows2 p) /\ NoDup (rows2 p) /\ NoDup idx /\
  length (rows2 p) = length idx /\ (forall k x, ~ In k idx -> nth_error (map at_ (verts d)) k = Some x -> ~ In x (rows2 p)) /\ move fan_engine d idx p = Ok d' /\ length (verts d') < length (verts d).
Proof.
  eexists. exists [0; 1], [1; 0; 2; 0]. eexists. split; [exact fan_obeys|]. split; [vm_compute; reflexivity|]. split; [repeat constructor|]. split; [|split; [|split; [|split; [|split]]]].
  - cbn. repeat constructor; cbn; intuition discriminate.
  - repeat constructor; cbn; intuition discriminate.
  - reflexivity.
  - intros k x H K. destruct k as [|[|[|[|k]]]]; cbn in *; try (exfalso; apply H; auto; fail); try (injection K as <-; intuition discriminate). destruct k; discriminate.
  - vm_compute; reflexivity.
  - cbn. lia.
Qed.

Lemma stale_neighbours : exists d t, obeys fan_engine /\ run 0 fan_engine empty [CInsert square; CVertices] = Ok d /\ get_finite_face_neighbors d = Ok t /\ ~ lists_neighbours d t.
Proof.
  do 2 eexists. split; [exact fan_obeys|]. split; [vm_compute; reflexivity|]. split; [vm_compute; reflexivity|].
  intros [_ H]. specialize (H 0 _ _ eq_refl eq_refl 1 _ eq_refl). cbn in H. destruct H as (m & f & A & B & D). destruct m; cbn in *; [|discriminate]. injection B as <-. discriminate.
Qed.
