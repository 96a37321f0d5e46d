(** What triangle quality on doubles means for delete_boundary_faces. *)
From Coq Require Import List Arith ZArith Lia Reals Lra Psatz QArith Qreals SpecFloat.
From Verif Require Import M_Base M_Numpy M_FixMesh M_Clean M_QualF S_Double S_Edges S_FixMesh S_Adjacency S_Clean S_Quality S_QualF.
From Flocq Require Import Core.Raux Core.Defs IEEE754.BinarySingleNaN.
From Verif Require Import P_Interior P_Quality P_QualityClean P_QualF.
Import ListNotations.
Open Scope R_scope.

Lemma get_nth {A} (l : list A) i x d : get l i = Ok x -> nth i l d = x.
Proof. unfold get. destruct (nth_error l i) eqn:E; intros H; inversion H; subst. apply nth_error_nth, E. Qed.
Lemma rows pd : forall ts qs, simp_qual_f pd ts = Ok qs -> length qs = length ts /\
  forall i, (i < length ts)%nat -> let '(a, b, c) := nth i ts no_face in nth i qs S754_nan = tri_qual_f (corner_f pd a) (corner_f pd b) (corner_f pd c).
Proof.
  unfold simp_qual_f. induction ts as [|t ts IH]; cbn [mapM]; intros qs H.
  - injection H as <-. split; [reflexivity|]. intros i L. inversion L.
  - destruct t as [[a b] c]. cbn [mapM] in H. destruct (get pd a) eqn:Ea; try discriminate H. cbn [bind] in H. destruct (get pd b) eqn:Eb; try discriminate H. cbn [bind] in H. destruct (get pd c) eqn:Ec; try discriminate H. cbn [bind] in H.
    match type of H with bind ?m _ = _ => destruct m as [r| |] eqn:Er; try discriminate H end. cbn [bind] in H. injection H as <-. destruct (IH _ eq_refl) as [L R]. split; [cbn [length]; rewrite L; reflexivity|].
    intros [|i] Li; [|cbn [nth]; apply R; cbn [length] in Li; lia]. cbn [nth]. unfold corner_f. rewrite (get_nth _ _ _ (S754_nan, S754_nan) Ea), (get_nth _ _ _ (S754_nan, S754_nan) Eb), (get_nth _ _ _ (S754_nan, S754_nan) Ec). reflexivity.
Qed.
Lemma judged_at (qual : list (Q * Q) -> nat * nat * nat -> option Q) (p : list (Q * Q)) pd ts i : forall qs, simp_qual_f pd ts = Ok qs -> Forall2 (fun t x => same_number (qual p t) x) ts qs -> (i < length ts)%nat ->
  let '(a, b, c) := nth i ts no_face in same_number (qual p (nth i ts no_face)) (tri_qual_f (corner_f pd a) (corner_f pd b) (corner_f pd c)).
Proof.
  intros qs E F L. destruct (rows pd ts qs E) as [_ R]. specialize (R i L). assert (K : same_number (qual p (nth i ts no_face)) (nth i qs S754_nan)).
  { clear R E. revert i L. induction F as [|t x ts qs S F IH]; intros [|i] L; cbn [length] in L; try lia; [exact S|]. cbn [nth]. apply IH. lia. }
  destruct (nth i ts no_face) as [[a b] c] eqn:En. rewrite <- R. exact K.
Qed.
Notation touches ts i := (exists u v, on_boundary ts u v /\ In v (corners (nth i ts no_face))).
Lemma verdict argsort : is_argsort argsort -> forall kleb qual p pd ts mq qs, all_used (length p) ts -> has_boundary ts ->
  simp_qual_f pd ts = Ok qs -> Forall2 (fun t x => same_number (qual p t) x) ts qs ->
  (forall t, In t ts -> ordinary_face pd t) ->
  exists keep, delete_boundary_faces argsort kleb qual p ts mq = (let! f := fix_mesh kleb ptol_default p (faces_at ts keep) true in Ok (fst (fst f), snd (fst f))) /\
    Sorted.StronglySorted lt keep /\
    forall i, (i < length ts)%nat ->
      (~ touches ts i -> In i keep) /\
      (collapsed pd (nth i ts no_face) -> In i keep) /\
      (forall d, / 2 ^ 40 <= d -> fat_face d pd (nth i ts no_face) -> Q2R mq <= face_quality_f pd (nth i ts no_face) * (1 - / (2 ^ 47 * d)) -> In i keep) /\
      (forall d, / 2 ^ 40 <= d -> fat_face d pd (nth i ts no_face) -> face_quality_f pd (nth i ts no_face) * (1 + / (2 ^ 47 * d)) < Q2R mq -> touches ts i -> ~ In i keep).
Proof.
  intros HA kleb qual p pd ts mq qs Hu Hbd Eq F2 O. destruct (boundary_faces_ok argsort HA kleb qual p ts mq Hu Hbd) as (keep & [KS Hk] & E).
  exists keep. split; [exact E|]. split; [exact KS|]. intros i L. pose proof (judged_at qual p pd ts i qs Eq F2 L) as JQ. assert (Hin : In (nth i ts no_face) ts) by (apply nth_In, L). specialize (O _ Hin).
  specialize (Hk i). set (t := nth i ts no_face) in *. destruct t as [[a b] c] eqn:Et. cbn [ordinary_face collapsed fat_face face_quality_f] in *.
  set (pa := corner_f pd a) in *. set (pb := corner_f pd b) in *. set (pc := corner_f pd c) in *.
  assert (IK : forall P : Prop, (In i keep <-> (i < length ts)%nat /\ ~ (P /\ exists q, qual p (a, b, c) = Some q /\ (q < mq)%Q)) -> (~ (P /\ exists q, qual p (a, b, c) = Some q /\ (q < mq)%Q) -> In i keep)) by (intros P H K; apply H; auto).
  split; [intros N; apply Hk; split; [exact L|]; tauto|]. split; [|split].
  - intros C. apply Hk. split; [exact L|]. intros (_ & q & Q1 & _). rewrite Q1 in JQ. cbn [same_number] in JQ. rewrite (coincident _ _ _ O C) in JQ. destruct JQ as [[_ F] _]. discriminate F.
  - intros d D F M. apply Hk. split; [exact L|]. intros (_ & q & Q1 & Q2). rewrite Q1 in JQ. destruct JQ as [_ V]. destruct (accuracy d _ _ _ O D F) as (_ & Pe & A). fold (code_quality (at_point pa) (at_point pb) (at_point pc)) in A, Pe.
    set (e := code_quality (at_point pa) (at_point pb) (at_point pc)) in *. rewrite <- V in A. apply Qlt_Rlt in Q2. apply Rabs_le_inv in A. unfold Rdiv in A. lra.
  - intros d D F M T I. apply Hk in I. destruct I as [_ I]. apply I. split; [exact T|]. destruct (accuracy d _ _ _ O D F) as (Fi & Pe & A). fold (code_quality (at_point pa) (at_point pb) (at_point pc)) in A, Pe.
    destruct (qual p (a, b, c)) as [q|]; cbn [same_number] in JQ; [|rewrite JQ in Fi; destruct Fi as [_ Fi]; discriminate Fi]. destruct JQ as [_ V]. exists q. split; [reflexivity|]. apply Rlt_Qlt. rewrite V.
    set (e := code_quality (at_point pa) (at_point pb) (at_point pc)) in *. apply Rabs_le_inv in A. unfold Rdiv in A. lra.
Qed.
Lemma small_mesh_f argsort : is_argsort argsort -> forall kleb qual p pd ts mq qs, all_used (length p) ts -> has_boundary ts ->
  simp_qual_f pd ts = Ok qs -> Forall2 (fun t x => same_number (qual p t) x) ts qs ->
  (forall t, In t ts -> ordinary_face pd t /\ perimeter_f pd t < 5 * Q2R mq) ->
  exists keep, positions (length ts) (fun i => ~ (touches ts i /\ nth i qs S754_nan <> S754_nan)) keep /\
    delete_boundary_faces argsort kleb qual p ts mq = (let! f := fix_mesh kleb ptol_default p (faces_at ts keep) true in Ok (fst (fst f), snd (fst f))).
Proof.
  intros HA kleb qual p pd ts mq qs Hu Hbd Eq F2 O. destruct (boundary_faces_ok argsort HA kleb qual p ts mq Hu Hbd) as (keep & Hk & E).
  exists keep. split; [|exact E]. revert Hk. apply positions_iff. intros i L.
  pose proof (judged_at qual p pd ts i qs Eq F2 L) as JQ. destruct (rows pd ts qs Eq) as [_ R]. specialize (R i L).
  assert (Hin : In (nth i ts no_face) ts) by (apply nth_In, L). specialize (O _ Hin). set (t := nth i ts no_face) in *. destruct t as [[a b] c] eqn:Et. cbn [ordinary_face perimeter_f] in *. destruct O as [O P].
  rewrite R. set (pa := corner_f pd a) in *. set (pb := corner_f pd b) in *. set (pc := corner_f pd c) in *.
  assert (K : (exists q, qual p (a, b, c) = Some q /\ (q < mq)%Q) <-> tri_qual_f pa pb pc <> S754_nan).
  { split.
    - intros (q & Q1 & _) N. rewrite Q1 in JQ. cbn [same_number] in JQ. rewrite N in JQ. destruct JQ as [[_ F] _]. discriminate F.
    - intros N. destruct (qual p (a, b, c)) as [q|]; cbn [same_number] in JQ; [|contradiction]. exists q. split; [reflexivity|]. apply Rlt_Qlt. destruct JQ as [_ V]. rewrite V.
      destruct (range _ _ _ O) as [Z|(_ & _ & B)]; [contradiction|]. apply Rle_lt_trans with (1 := B). set (pe := perimeter _ _ _) in *.
      assert (Hpe : 0 <= pe) by (unfold pe, perimeter; pose proof (dist_nonneg (at_point pa) (at_point pb)); pose proof (dist_nonneg (at_point pb) (at_point pc)); pose proof (dist_nonneg (at_point pc) (at_point pa)); lra).
      assert (Bs : 1.7 < sqrt 3). { rewrite <- (sqrt_pow2 1.7) by lra. apply sqrt_lt_1_alt. lra. }
      assert (U : pe / (3 * sqrt 3) <= pe / 5.1). { unfold Rdiv. apply Rmult_le_compat_l; [exact Hpe|]. apply Rinv_le_contravar; lra. }
      apply Rle_lt_trans with (pe / 5.1 * (102 / 100)); [|lra]. apply Rmult_le_compat; [apply Rmult_le_pos; [exact Hpe|left; apply Rinv_0_lt_compat; lra]|lra|exact U|lra]. }
  cbn [corners] in *. tauto.
Qed.

(** * Concrete triangles *)
Definition f0 : spec_float := S754_zero false.
Definition f3 : spec_float := S754_finite false 6755399441055744 (-51).
Definition f4 : spec_float := S754_finite false 4503599627370496 (-50).
Definition f00 : spec_float * spec_float := (f0, f0).
Definition f30 : spec_float * spec_float := (f3, f0).
Definition f04 : spec_float * spec_float := (f0, f4).
Lemma val_0 : val f0 = 0. Proof. reflexivity. Qed.
Lemma val_3 : val f3 = 3. Proof. unfold val, f3, SF2R, Defs.F2R. cbn. lra. Qed.
Lemma val_4 : val f4 = 4. Proof. unfold val, f4, SF2R, Defs.F2R. cbn. lra. Qed.
Lemma fin_0 : finite_double f0. Proof. split; reflexivity. Qed.
Lemma fin_3 : finite_double f3. Proof. split; reflexivity. Qed.
Lemma fin_4 : finite_double f4. Proof. split; reflexivity. Qed.
Lemma big : 16 <= 2 ^ 60. Proof. replace 16 with (2 ^ 4) by lra. apply Rle_pow; lra || lia. Qed.
Lemma tiny : / 2 ^ 60 <= / 16. Proof. apply Rinv_le_contravar; [lra|apply big]. Qed.
Ltac moder := unfold moderate; cbn [fst snd]; repeat split; try reflexivity; rewrite ?val_0, ?val_3, ?val_4; pose proof big; rewrite Rabs_pos_eq; lra.
Lemma mod_00 : moderate f00. Proof. unfold f00. moder. Qed.
Lemma mod_30 : moderate f30. Proof. unfold f30. moder. Qed.
Lemma mod_04 : moderate f04. Proof. unfold f04. moder. Qed.
Ltac spac := unfold spaced2, spaced; cbn [fst snd f00 f30 f04]; rewrite ?val_0, ?val_3, ?val_4; pose proof tiny; split; first [left; reflexivity|right; unfold Rabs; destruct (Rcase_abs _); lra].
Lemma ord_345 : ordinary_triangle f00 f30 f04.
Proof. split; [apply mod_00|]. split; [apply mod_30|]. split; [apply mod_04|]. split; [spac|]. split; spac. Qed.
Lemma ord_same : ordinary_triangle f00 f30 f30 /\ ordinary_triangle f00 f00 f04 /\ ordinary_triangle f00 f00 f30.
Proof. repeat split; try apply mod_00; try apply mod_30; try apply mod_04; try spac. all: unfold spaced; cbn [fst snd f00 f30 f04]; rewrite ?val_0, ?val_3, ?val_4; pose proof tiny; first [left; reflexivity|right; unfold Rabs; destruct (Rcase_abs _); lra]. Qed.
Lemma sqrt_of x y : 0 <= y -> x = y * y -> sqrt x = y. Proof. intros H ->. apply sqrt_square, H. Qed.
Lemma dists : dist2d (at_point f00) (at_point f30) = 3 /\ dist2d (at_point f30) (at_point f04) = 5 /\ dist2d (at_point f04) (at_point f00) = 4.
Proof. unfold dist2d, at_point. cbn [fst snd f00 f30 f04]. rewrite val_0, val_3, val_4. repeat split; apply sqrt_of; lra. Qed.
Lemma area345 : S_Quality.area2 (at_point f00) (at_point f30) (at_point f04) = 12.
Proof. unfold S_Quality.area2, at_point. cbn [fst snd f00 f30 f04]. rewrite val_0, val_3, val_4. lra. Qed.
Lemma case_345 : ordinary_triangle f00 f30 f04 /\ fat (/ 8) (at_point f00) (at_point f30) (at_point f04) /\
  code_quality (at_point f00) (at_point f30) (at_point f04) = 8 / 5 /\ tri_qual_f f00 f30 f04 = S754_finite false 7205759403792794 (-52).
Proof.
  split; [apply ord_345|]. destruct dists as (D1 & D2 & D3). split; [|split].
  - unfold fat, perimeter. cbn zeta. rewrite D1, D2, D3. lra.
  - unfold code_quality, inradius, circumradius, perimeter. rewrite D1, D2, D3, area345, Rabs_pos_eq by lra. lra.
  - vm_compute. reflexivity.
Qed.
Lemma case_same : ordinary_triangle f00 f00 f04 /\ tri_qual_f f00 f00 f04 = S754_nan.
Proof. split; [apply ord_same|vm_compute; reflexivity]. Qed.
Definition g15 : spec_float := S754_finite false 6755399441055744 (-52).
Definition g0875 : spec_float := S754_finite false 7881299347898368 (-53).
Definition g1625 : spec_float := S754_finite false 7318349394477056 (-52).
Definition g1e : spec_float := S754_finite false 4503599635759104 (-52).
Definition g1125 : spec_float := S754_finite false 5066549580791808 (-52).
Definition g05 : spec_float := S754_finite false 4503599627370496 (-53).
Lemma vals : val g15 = 1.5 /\ val g0875 = 0.875 /\ val g1625 = 1.625 /\ val g1e = 1 + / 536870912 /\ val g1125 = 1.125 /\ val g05 = 0.5.
Proof. unfold val, SF2R, Defs.F2R, g15, g0875, g1625, g1e, g1125, g05. cbn. lra. Qed.
Lemma sliver : exists p0 p1 p2, ordinary_triangle p0 p1 p2 /\ S_Quality.area2 (at_point p0) (at_point p1) (at_point p2) <> 0 /\ tri_qual_f p0 p1 p2 = S754_nan.
Proof.
  exists (g15, g0875), (g1625, g1e), (g1125, g05). destruct vals as (V1 & V2 & V3 & V4 & V5 & V6). pose proof big as B. pose proof tiny as T. split; [|split].
  - unfold ordinary_triangle, moderate, spaced2, spaced. cbn [fst snd]. rewrite V1, V2, V3, V4, V5, V6. repeat split; try reflexivity; try (rewrite Rabs_pos_eq; lra).
    all: right; unfold Rabs; destruct (Rcase_abs _); lra.
  - unfold S_Quality.area2, at_point. cbn [fst snd]. rewrite V1, V2, V3, V4, V5, V6. lra.
  - vm_compute. reflexivity.
Qed.
Definition tri_col : list (nat * nat * nat) := [(0, 1, 2); (0, 1, 1)]%nat.
Definition p345 : list (Q * Q) := [(0, 0); (3, 0); (0, 4)]%Q.
Definition qual_col (_ : list (Q * Q)) (t : nat * nat * nat) : option Q := if Nat.eqb (snd t) 2 then Some (7205759403792794 # 4503599627370496)%Q else None.
Lemma case_collapsed : simp_qual_f [f00; f30; f04] tri_col = Ok [S754_finite false 7205759403792794 (-52); S754_nan] /\
  Forall2 (fun t x => same_number (qual_col p345 t) x) tri_col [S754_finite false 7205759403792794 (-52); S754_nan] /\
  all_used 3 tri_col /\ has_boundary tri_col /\ (forall t, In t tri_col -> ordinary_face [f00; f30; f04] t /\ perimeter_f [f00; f30; f04] t < 5 * Q2R 3) /\
  delete_boundary_faces stable_argsort M_Edges.zedge_leb qual_col p345 tri_col 3 = Ok ([(0, 0); (3, 0)]%Q, [(0, 1, 1)]%nat).
Proof.
  split; [vm_compute; reflexivity|]. split.
  { constructor; [|constructor; [reflexivity|constructor]]. cbn [qual_col snd Nat.eqb same_number]. split; [split; reflexivity|]. unfold Q2R, val, SF2R, Defs.F2R. cbn. lra. }
  split.
  { intros v. split.
    - intros L. exists (0, 1, 2)%nat. split; [left; reflexivity|]. cbn. lia.
    - intros (t & [<- |[<- |[]]] & I); cbn in I; lia. }
  split; [exists 1%nat, 2%nat; vm_compute; reflexivity|]. split; [|vm_compute; reflexivity].
  destruct dists as (D1 & D2 & D3). replace (Q2R 3) with 3 by (unfold Q2R; cbn; lra). intros t [<- |[<- |[]]]; cbn [ordinary_face perimeter_f]; unfold corner_f; cbn [nth].
  - split; [apply ord_345|]. unfold perimeter. rewrite D1, D2, D3. lra.
  - split; [apply ord_same|]. unfold perimeter. rewrite (dist_sym (at_point f30) (at_point f00)), D1.
    replace (dist2d (at_point f30) (at_point f30)) with 0; [lra|]. unfold dist2d. rewrite !Rminus_diag_eq by reflexivity. symmetry. apply sqrt_of; lra.
Qed.
