(** Rings stay shut from the file to the signed distance function. *)
From Coq Require Import List Arith Bool ZArith QArith Qabs Lia Lqa.
From Verif Require Import M_Base M_Inpoly M_Shore M_Clip M_Read S_Shore S_Inpoly S_Signed Util P_Shore P_Signed.
Import ListNotations.
Open Scope Q_scope.

Definition shut_rows (rows : list row) : Prop := exists ls, rows = rows_of ls /\ Forall shut ls.

Lemma bind_Ok {A B} (r : res A) (f : A -> res B) b : bind r f = Ok b -> exists a, r = Ok a /\ f a = Ok b.
Proof. destruct r; cbn; intros H; try discriminate. eauto. Qed.
Lemma mapM_Forall2 {A B} (f : A -> res B) l : forall out, mapM f l = Ok out -> Forall2 (fun x y => f x = Ok y) l out.
Proof.
  induction l as [|x l IH]; intros out H; [injection H as <-; constructor|]. cbn [mapM] in H.
  apply bind_Ok in H. destruct H as (y & Hy & H). apply bind_Ok in H. destruct H as (ys & Hys & H). injection H as <-. constructor; auto.
Qed.
Lemma rows_of_cons l ls : rows_of (l :: ls) = (map Some l ++ [None]) ++ rows_of ls.
Proof. reflexivity. Qed.
Lemma concat_rows ls : concat (map (fun l : list xy => map Some l ++ [None]) ls) = rows_of ls.
Proof. unfold rows_of. symmetry. apply flat_map_concat_map. Qed.
Lemma to_list_rows ls : Forall (fun l => l <> []) ls -> convert_to_list (rows_of ls) = map (fun l : list xy => map Some l ++ [None]) ls.
Proof.
  intros H. destruct ls as [|l0 ls0]; [reflexivity|]. set (ls := l0 :: ls0) in *.
  destruct (to_list_to_array (map (fun l : list xy => map Some l ++ [None]) ls)) as (arr & A1 & A2).
  - discriminate.
  - clear -H. induction H as [|l ls Hl H IH]; [constructor|]. cbn [map]. constructor; auto. destruct l as [|a l]; [congruence|]. exists a, l. reflexivity.
  - unfold convert_to_array in A1. cbn [map ls] in A1. injection A1 as <-. unfold ls in *. rewrite <- concat_rows. exact A2.
Qed.
Lemma shut_app a b : shut_rows a -> shut_rows b -> shut_rows (a ++ b).
Proof.
  intros (la & -> & Ha) (lb & -> & Hb). exists (la ++ lb). rewrite rows_of_app. split; auto. apply Forall_app. auto.
Qed.
Lemma shut_concat l : Forall shut_rows l -> shut_rows (concat l).
Proof.
  induction 1 as [|r l Hr H IH]; [exists []; split; [reflexivity|constructor]|]. cbn [concat]. now apply shut_app.
Qed.
Lemma shut_one l : shut l -> shut_rows (map Some l ++ [None]).
Proof. intros H. exists [l]. rewrite rows_of_cons. cbn. rewrite app_nil_r. split; auto. Qed.
Lemma shut_parts rows : shut_rows rows -> Forall (fun p => exists l, p = map Some l ++ [None] /\ shut l) (convert_to_list rows).
Proof.
  intros (ls & -> & H). rewrite to_list_rows by now apply shut_nonempty. induction H as [|l ls Hl H IH]; [constructor|]. cbn [map]. constructor; eauto.
Qed.

(** * Reading *)
Lemma remove_dup_shut e l : closed_ring e -> ~ fst (hd (0, 0) e) == snd (hd (0, 0) e) -> remove_dup e = Ok l -> shut l.
Proof.
  intros (p & m & q & -> & E) Hd. cbn [hd] in Hd. unfold remove_dup.
  set (keep := fun p0 : point => negb (Qeq_bool (snd p0 - fst p0) 0)).
  assert (K : forall r, ~ fst r == snd r -> keep r = true).
  { intros r Hr. unfold keep. destruct (Qeq_bool (snd r - fst r) 0) eqn:F; auto. apply Qeq_bool_iff in F. destruct Hr. lra. }
  assert (Hq : ~ fst q == snd q) by (destruct E; lra).
  assert (F : filter keep (p :: m ++ [q]) = p :: filter keep m ++ [q]).
  { cbn [filter]. rewrite filter_app. cbn [filter]. unfold point, xy in *. rewrite (K p Hd), (K q Hq). reflexivity. }
  change (Ok (filter keep (p :: m ++ [q]) ++ [last ((p :: m) ++ [q]) p]) = Ok l -> shut l).
  rewrite F, last_last. intros H. injection H as <-. cbn [app].
  exists p, (filter keep m), q, q. rewrite <- app_assoc. repeat split; try (destruct E; assumption).
Qed.
Definition readable (g : geom) : Prop := forall e, (exists z h, g = GPoly z e h) \/ (exists z, g = GLine z e) -> closed_ring e /\ ~ fst (hd (0, 0) e) == snd (hd (0, 0) e).
Lemma read_part_shut g rows : readable g -> read_part g = Ok rows -> shut_rows rows.
Proof.
  intros H R. destruct g as [p|z l|z e h|l]; try discriminate; cbn [read_part] in R; apply bind_Ok in R; destruct R as (p & Hp & R).
  - destruct z; [discriminate|]. injection R as <-. apply shut_one. destruct (H l) as [A B]; [right; eauto|]. eapply remove_dup_shut; eauto.
  - injection R as <-. apply shut_one. destruct (H e) as [A B]; [left; eauto|]. eapply remove_dup_shut; eauto.
Qed.
Lemma read_shut (crs : Type) (equals : crs -> crs -> bool) to_crs native gs dst bbox s rows :
  transform_to equals to_crs native gs dst = Ok s -> (forall g, In g (explode s) -> overlaps_box bbox g = true -> readable g) ->
  read equals to_crs native gs dst bbox = Ok rows -> shut_rows rows.
Proof.
  intros T H R. unfold read in R. rewrite T in R. cbn [bind] in R. apply bind_Ok in R. destruct R as (polys & M & R).
  assert (F : Forall shut_rows polys).
  { apply mapM_Forall2 in M. assert (G : forall g, In g (filter (overlaps_box bbox) (explode s)) -> readable g).
    { intros g Hg. apply filter_In in Hg. destruct Hg. now apply H. }
    clear -M G. induction M as [|g p l out Hg M IH]; [constructor|]. constructor; [eapply read_part_shut; [apply G; now left|exact Hg]|].
    apply IH. intros g' Hg'. apply G. now right. }
  destruct polys as [|a polys]; [discriminate|]. unfold convert_to_array in R. injection R as <-. now apply (shut_concat (a :: polys)).
Qed.

(** * Smoothing *)
Lemma shut_nth l : shut l <-> (3 <= length l)%nat /\ exists p q r, nth_error l 0 = Some p /\ nth_error l (length l - 2) = Some q /\ nth_error l (length l - 1) = Some r /\
  same_place p q /\ same_place p r.
Proof.
  split.
  - intros (p & m & q & r & -> & A & B). split; [cbn; rewrite app_length; cbn; lia|]. exists p, q, r. split; [reflexivity|].
    cbn [length]. rewrite app_length. cbn [length]. replace (S (length m + 2) - 2)%nat with (S (length m)) by lia.
    replace (S (length m + 2) - 1)%nat with (S (length m + 1)) by lia. cbn [nth_error].
    rewrite nth_error_app2, Nat.sub_diag by lia. rewrite nth_error_app2 by lia. replace (length m + 1 - length m)%nat with 1%nat by lia. auto.
  - intros (L & p & q & r & A & B & C & D & E).
    destruct (exists_last (l := l)) as (l1 & r' & ->); [intros ->; cbn in L; lia|]. rewrite app_length in *. cbn [length] in *.
    destruct (exists_last (l := l1)) as (l2 & q' & ->); [intros ->; cbn in L; lia|]. rewrite app_length in *. cbn [length] in *.
    destruct l2 as [|p' m]; [cbn in L; lia|]. exists p, m, q, r.
    assert (p' = p) as -> by (cbn in A; congruence). split; auto.
    replace (length (p :: m) + 1 + 1 - 2)%nat with (length (p :: m)) in B by lia.
    replace (length (p :: m) + 1 + 1 - 1)%nat with (length ((p :: m) ++ [q'])) in C by (rewrite app_length; cbn; lia).
    rewrite <- app_assoc in B. rewrite nth_error_app2, Nat.sub_diag in B by lia. cbn in B. injection B as ->.
    rewrite nth_error_app2, Nat.sub_diag in C by lia. cbn in C. injection C as ->. rewrite <- app_assoc. reflexivity.
Qed.
Lemma corner_cut_shut ps qs : corner_cut ps qs -> shut ps -> shut qs.
Proof.
  rewrite !shut_nth. unfold point, xy in *. intros (L & F & La & Mid) (L3 & p & q & r & A & B & C & D & E). split; [lia|].
  destruct (F p A) as (p' & Hp' & Ep). destruct (La r C) as (r' & Hr' & Er).
  destruct (Mid (length ps - 2)%nat q r B) as (_ & q' & Hq' & Eq).
  { replace (S (length ps - 2)) with (length ps - 1)%nat by lia. exact C. }
  exists p', q', r'. split; auto. split; [rewrite <- Hq'; f_equal; lia|]. split; [rewrite <- Hr'; f_equal; lia|].
  unfold pt_eq, along in *. cbn [fst snd] in *. unfold same_place in *. destruct D, E, Ep, Er, Eq. split; split; lra.
Qed.
Lemma corners_cut_shut k ps qs : corners_cut k ps qs -> shut ps -> shut qs.
Proof. induction 1 as [|k ps qs rs H _ IH]; auto. intros Hs. apply IH. eapply corner_cut_shut; eauto. Qed.
Lemma chaikin_shut k ps qs : chaikin k ps = Ok qs -> shut ps -> shut qs.
Proof.
  intros H Hs. assert (N : ps <> []) by (destruct Hs as (p & m & q & r & -> & _); discriminate).
  destruct (chaikin_ok k ps N) as (qs' & E & C). rewrite H in E. injection E as <-. eapply corners_cut_shut; eauto.
Qed.
Lemma smooth_shut rows N arr : shut_rows rows -> smooth_shoreline rows N = Ok arr -> shut_rows arr.
Proof.
  intros H R. apply shut_parts in H. unfold smooth_shoreline in R. apply bind_Ok in R. destruct R as (out & M & R). apply mapM_Forall2 in M.
  assert (F : Forall shut_rows out).
  { clear R. revert H. induction M as [|p o l out Hp M IH]; intros H; [constructor|]. inversion H as [|? ? (r & -> & Hr) H']. subst. constructor; auto.
    rewrite removelast_last, points_of_map in Hp. apply bind_Ok in Hp. destruct Hp as (t & Ht & Hp). injection Hp as <-. apply shut_one. eapply chaikin_shut; eauto. }
  destruct out as [|a out]; [discriminate|]. unfold convert_to_array in R. injection R as <-. now apply (shut_concat (a :: out)).
Qed.

(** * Densifying *)
Inductive threaded : list xy -> list xy -> Prop :=
| th_one : forall p p', same_place p p' -> threaded [p] [p']
| th_cons : forall p p' q l mids out, same_place p p' -> (same_place p q -> mids = []) -> threaded (q :: l) out -> threaded (p :: q :: l) (p' :: mids ++ out).
Lemma threaded_hd l l' : threaded l l' -> same_place (hd (0, 0) l) (hd (0, 0) l') /\ l <> [] /\ l' <> [].
Proof. destruct 1; repeat split; try discriminate; try (destruct H; assumption). Qed.
Lemma threaded_two m q r l' : same_place q r -> threaded (m ++ [q; r]) l' -> exists m' q' r', l' = m' ++ [q'; r'] /\ same_place q q' /\ same_place r r'.
Proof.
  intros E. revert l'. induction m as [|p m IH]; intros l' H.
  - inversion H as [|? p' ? ? mids out H1 H2 H3]. subst. rewrite (H2 E). inversion H3 as [? r' H4|]. subst. exists [], p', r'. auto.
  - destruct m as [|p2 m].
    + inversion H as [|? p' ? ? mids out H1 H2 H3]. subst. destruct (IH _ H3) as (m' & q' & r' & -> & A & B).
      exists (p' :: mids ++ m'), q', r'. cbn. rewrite <- app_assoc. auto.
    + inversion H as [|? p' ? ? mids out H1 H2 H3]. subst. destruct (IH _ H3) as (m' & q' & r' & -> & A & B).
      exists (p' :: mids ++ m'), q', r'. cbn. rewrite <- app_assoc. auto.
Qed.
Lemma threaded_shut l l' : threaded l l' -> shut l -> shut l'.
Proof.
  intros T (p & m & q & r & -> & A & B). assert (E : same_place q r) by (destruct A, B; split; lra).
  destruct (m ++ [q; r]) as [|q0 l0] eqn:Z in T; [destruct m; discriminate|].
  inversion T as [|? p' ? ? mids out H1 H2 H3]. subst. rewrite <- Z in H3.
  destruct (threaded_two m q r out E H3) as (m' & q' & r' & -> & C & D). exists p', (mids ++ m'), q', r'. rewrite <- app_assoc.
  destruct A, B, C, D, H1. repeat split; lra.
Qed.
Lemma equal_pieces_points p q mids : equal_pieces p q mids -> exists ms : list xy, mids = map Some ms.
Proof.
  intros H. assert (G : Forall (fun r => exists m, r = Some m) mids).
  { apply Forall_forall. intros r Hr. apply In_nth_error in Hr. destruct Hr as [j Hj]. destruct (H j r Hj) as (m & -> & _). eauto. }
  clear H. induction G as [|r mids (m & ->) G (ms & IH)]; [exists []; reflexivity|]. exists (m :: ms). cbn. apply (f_equal (cons (Some m))). exact IH.
Qed.
Lemma fewest_none d p q k : 0 < d -> fewest_pieces d p q k -> same_place p q -> k = 0%nat.
Proof.
  intros Hd [_ H] [A B]. destruct k; auto. destruct (H 0%nat ltac:(lia)). unfold span_le. change (inject_Z (Z.of_nat 1)) with 1.
  split; apply Qabs_case; intros; lra.
Qed.
(** The end of a part and what follows. *)
Lemma densified_part d l : 0 < d -> forall rest ms out, l <> [] -> densified d (map Some l ++ None :: rest) ms out ->
  exists l' rest' ms', out = map Some l' ++ None :: rest' /\ threaded l l' /\ (rest = [] /\ rest' = [] \/ rest <> [] /\ densified d rest ms' rest').
Proof.
  intros Hd. induction l as [|p l IH]; intros rest ms out Hl H; [congruence|]. destruct l as [|q l].
  - cbn [map app] in H. inversion H as [| |a a' b rest0 m m' ms0 out0 R1 R2 R3|]. subst. destruct a' as [p'|]; [|destruct R1].
    assert (T : threaded [p] [p']) by (constructor; exact R1).
    inversion R3 as [|r r' m0 R4|a a' b rest0 m0 m1 ms1 out1 R4 R5 R6|]; subst.
    + destruct r'; [destruct R4|]. exists [p'], [], []. repeat split; auto.
    + destruct a'; [destruct R4|]. exists [p'], out1, (m1 :: ms1). repeat split; auto. right. split; [discriminate|auto].
  - cbn [map app] in H. inversion H as [| |a a' b rest0 m m' ms0 out0 R1 R2 R3|p0 a' q0 rest0 m ms0 mids out0 R1 R2 R3 R4]; subst; (destruct a' as [p'|]; [|destruct R1]).
    + destruct (IH rest (m' :: ms0) out0) as (l' & rest' & ms' & -> & T & E); [discriminate|exact R3|].
      exists (p' :: l'), rest', ms'. repeat split; auto. change l' with ([] ++ l'). now apply th_cons.
    + destruct (equal_pieces_points p q mids R3) as (ms & ->).
      destruct (IH rest (true :: ms0) out0) as (l' & rest' & ms' & -> & T & E); [discriminate|exact R4|].
      exists (p' :: ms ++ l'), rest', ms'. repeat split; auto.
      * cbn [map app]. rewrite map_app, <- app_assoc. reflexivity.
      * apply th_cons; auto. intros Es. pose proof (fewest_none _ _ _ _ Hd R2 Es) as Z. rewrite map_length in Z. now apply length_zero_iff_nil.
Qed.
Lemma densified_rows d ls : 0 < d -> Forall (fun l => l <> []) ls -> forall ms out, densified d (rows_of ls) ms out ->
  exists ls', out = rows_of ls' /\ Forall2 threaded ls ls'.
Proof.
  intros Hd. induction 1 as [|l ls Hl H IH]; intros ms out D.
  - inversion D. exists []. split; [reflexivity|constructor].
  - rewrite rows_of_cons, <- app_assoc in D. cbn [app] in D. destruct (densified_part d l Hd _ _ _ Hl D) as (l' & rest' & ms' & -> & T & [[E1 E2]|[_ D']]).
    + subst rest'. assert (ls = []) as -> by (destruct ls as [|a ls]; auto; rewrite rows_of_cons in E1; destruct a; discriminate).
      exists [l']. split; [rewrite rows_of_cons, <- app_assoc; reflexivity|]. constructor; auto.
    + destruct (IH _ _ D') as (ls' & -> & F). exists (l' :: ls'). split; [rewrite rows_of_cons, <- app_assoc; reflexivity|]. constructor; auto.
Qed.
Lemma densify_shut rows d mask : 0 < d -> length mask = length rows -> shut_rows rows -> shut_rows (densify rows d mask).
Proof.
  intros Hd Hm (ls & -> & H). destruct (densify_total d (rows_of ls) mask Hd Hm) as (D & _).
  destruct (densified_rows d ls Hd (shut_nonempty _ H) _ _ D) as (ls' & E & F). rewrite E. exists ls'. split; auto.
  clear -F H. induction F as [|a b l l' T F IH]; [constructor|]. inversion H. subst. constructor; auto. eapply threaded_shut; eauto.
Qed.

(** * Clipping and classifying *)
Lemma closed_ring_shut l : closed_ring l -> shut (l ++ firstn 1 l).
Proof.
  intros (p & m & q & -> & E). exists p, m, q, p. cbn. rewrite <- app_assoc. repeat split; auto; try reflexivity; destruct E; auto.
Qed.
Lemma ring_rows_shut l rows : closed_ring l -> ring_rows l = Ok rows -> shut_rows rows.
Proof.
  intros H R. pose proof (closed_ring_shut l H) as S. destruct H as (p & m & q & -> & E). unfold ring_rows in R. injection R as <-. exact (shut_one _ S).
Qed.
Section Engine.
  Variable G : Type.
  Variable make : list point -> res G.
  Variable valid : G -> bool.
  Variable buffered : G -> list G.
  Variable contains overlaps : G -> G -> bool.
  Variable intersection : G -> G -> list (option (list point)).
  Variable difference : G -> G -> G.
  Variable area : G -> Q.
  Variable exteriors : G -> list (list point).
  Variable stereo_area : G -> Q.
  Hypothesis rings1 : forall g b xy, In (Some xy) (intersection g b) -> closed_ring xy.
  Hypothesis rings2 : forall g xy, In xy (exteriors g) -> closed_ring xy.

  Lemma clip_one_shut b poly p rows : shut_rows poly -> clip_one G contains intersection b poly p = Ok rows -> shut_rows rows.
  Proof.
    intros H R. unfold clip_one in R. destruct (contains b p); [injection R as <-; exact H|]. apply bind_Ok in R. destruct R as (rs & M & R). injection R as <-.
    apply shut_concat. apply mapM_Forall2 in M. assert (I : forall o, In o (intersection p b) -> forall xy, o = Some xy -> closed_ring xy) by (intros o Ho xy ->; eauto).
    revert I. induction M as [|o r l out Ho M IH]; intros I; [constructor|]. constructor; [|apply IH; intros; eapply I; eauto; now right].
    destruct o as [xy|]; [|discriminate]. eapply ring_rows_shut; [|exact Ho]. eapply I; [now left|reflexivity].
  Qed.
  Lemma clip_part_shut b poly rows : shut_rows poly -> clip_part G make valid buffered contains intersection b poly = Ok rows -> shut_rows rows.
  Proof.
    intros H R. unfold clip_part in R. apply bind_Ok in R. destruct R as (mp & _ & R). destruct (if valid mp then [mp] else buffered mp) as [|a ps]; [discriminate|].
    apply bind_Ok in R. destruct R as (rs & M & R). injection R as <-. apply shut_concat. apply mapM_Forall2 in M.
    induction M as [|g r l out Hg M IH]; [constructor|]. constructor; auto. eapply clip_one_shut; eauto.
  Qed.
  Lemma clip_shut rows bbox delta out : shut_rows rows -> clip_polys G make valid buffered contains intersection rows bbox delta = Ok out -> shut_rows out.
  Proof.
    intros H R. unfold clip_polys in R. apply bind_Ok in R. destruct R as (b & _ & R). apply bind_Ok in R. destruct R as (rs & M & R). injection R as <-.
    apply shut_parts in H. apply shut_concat. apply mapM_Forall2 in M. revert H.
    induction M as [|p r l out Hp M IH]; intros H; [constructor|]. inversion H as [|? ? (x & -> & Hx) H']. subst. constructor; auto.
    eapply clip_part_shut; [|exact Hp]. now apply shut_one.
  Qed.
  Lemma classify_shut bbox boubox polys h0 mult stereo boxmask inner mainland out : shut_rows polys ->
    classify_shoreline G make contains overlaps difference area exteriors stereo_area bbox boubox polys h0 mult stereo boxmask = Ok (inner, mainland, out) ->
    shut_rows inner /\ shut_rows out.
  Proof.
    intros H R. unfold classify_shoreline in R. apply bind_Ok in R. destruct R as (bb & _ & R). apply bind_Ok in R. destruct R as (b & _ & R).
    apply bind_Ok in R. destruct R as (st & F & R). apply bind_Ok in R. destruct R as (rs & M & R). injection R as <- _ <-. split.
    - apply shut_parts in H. assert (G0 : forall l st0 st1, Forall (fun p => exists x, p = map Some x ++ [None] /\ shut x) l -> shut_rows (c_inner G st0) ->
        foldM (classify_part G make contains overlaps difference area stereo_area (mult * (h0 * h0)) stereo) l st0 = Ok st1 -> shut_rows (c_inner G st1)).
      { clear. induction l as [|p l IH]; intros st0 st1 Hl H0 E; [injection E as <-; exact H0|]. cbn [foldM] in E. apply bind_Ok in E. destruct E as (st' & E1 & E2).
        inversion Hl as [|? ? (x & -> & Hx) Hl']. subst. eapply IH; [exact Hl'| |exact E2]. unfold classify_part in E1. apply bind_Ok in E1. destruct E1 as (g & _ & E1).
        destruct (contains (c_region G st0) g).
        - destruct (Qle_bool _ _); injection E1 as <-; cbn [c_inner]; auto. apply shut_app; auto. now apply shut_one.
        - destruct (overlaps g (c_region G st0)); [destruct stereo|]; injection E1 as <-; auto. }
      eapply G0; [exact H| |exact F]. exists []. split; [reflexivity|constructor].
    - apply shut_concat. apply mapM_Forall2 in M. assert (I : forall xy, In xy (exteriors (c_region G st)) -> closed_ring xy) by (intros; eauto).
      revert I. induction M as [|xy r l out Hr M IH]; intros I; [constructor|]. constructor; [eapply ring_rows_shut; [apply I; now left|exact Hr]|].
      apply IH. intros. apply I. now right.
  Qed.
  Lemma build_shut bbox boubox h0 n mult smooth stereo rows mask boxmask inner mainland out bb : shut_rows rows -> (forall b l, length (mask b l) = length l) ->
    build G make valid buffered contains overlaps intersection difference area exteriors stereo_area bbox boubox h0 n mult smooth stereo (Ok rows) mask boxmask = Ok (inner, mainland, out, bb) ->
    shut_rows inner /\ shut_rows out.
  Proof.
    intros H Hm R. unfold build in R. apply bind_Ok in R. destruct R as (h & Hh & R). apply bind_Ok in R. destruct R as (k & _ & R).
    apply bind_Ok in R. destruct R as (mu & _ & R). cbn [bind] in R. apply bind_Ok in R. destruct R as (sm & S & R).
    apply bind_Ok in R. destruct R as (cl & C & R). apply bind_Ok in R. destruct R as ([[i m] o] & K & R). injection R as <- <- <- _.
    assert (Hp : 0 < h). { unfold set_h0 in Hh. destruct (Qle_bool h0 0) eqn:E; [discriminate|]. injection Hh as <-. apply Qnot_le_lt. intros L. apply Qle_bool_iff in L. congruence. }
    assert (Hs : shut_rows sm). { destruct smooth; [eapply smooth_shut; eauto|injection S as <-; exact H]. }
    eapply classify_shut; [|exact K]. eapply clip_shut; [|exact C]. apply densify_shut; auto.
  Qed.
End Engine.
