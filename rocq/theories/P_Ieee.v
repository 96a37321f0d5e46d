(** Proofs about the functions on doubles. *)
From Coq Require Import List ZArith QArith SpecFloat Reals Lra Lia Bool.
From Flocq Require Import Core IEEE754.BinarySingleNaN Plus_error Relative.
From Verif Require Import M_Base M_FixMesh M_Ieee S_Double S_Ieee P_Double.
Import ListNotations.
Open Scope R_scope.

(** * The box *)
Lemma rounds_nan r e : rounds r e -> M_Ieee.is_nan r = false.
Proof.
  intros [A B]. destruct (Rlt_le_dec (Rabs (rnd e)) huge) as [H|H]; [destruct (A H) as [[_ F] _]; destruct r; try reflexivity; discriminate|rewrite (B H); reflexivity].
Qed.
Lemma inf_pos e : huge <= Rabs (rnd e) -> 0 <= e -> huge <= rnd e.
Proof. intros H P. rewrite Rabs_pos_eq in H by (apply rnd_sign_pos, P). exact H. Qed.
Lemma inf_neg e : huge <= Rabs (rnd e) -> e < 0 -> rnd e <= - huge.
Proof. intros H P. rewrite Rabs_left1 in H by (apply rnd_sign_neg; lra). lra. Qed.
Lemma fin_ltb_inf r s : finite_double r -> SFltb r (S754_infinity s) = negb s /\ SFltb (S754_infinity s) r = s.
Proof. intros [_ F]. destruct r; try discriminate; destruct s; split; reflexivity. Qed.
Lemma rounds_min a b ea eb : rounds a ea -> rounds b eb -> rounds (np_minimum a b) (Rmin ea eb).
Proof.
  intros RA RB. unfold np_minimum. rewrite (rounds_nan _ _ RA), (rounds_nan _ _ RB). destruct RA as [A1 A2], RB as [B1 B2]. pose proof huge_pos as HP.
  assert (ABS : forall x, Rabs (rnd x) < huge -> - huge < rnd x < huge) by (intros x H; apply Rabs_def2 in H; lra).
  destruct (Rlt_le_dec (Rabs (rnd ea)) huge) as [HA|HA], (Rlt_le_dec (Rabs (rnd eb)) huge) as [HB|HB].
  - destruct (A1 HA) as [FA VA], (B1 HB) as [FB VB]. pose proof (ltb_val a b FA FB) as L. destruct (SFltb a b).
    + assert (val a < val b) by (apply L; reflexivity). assert (M : Rmin ea eb = ea). { apply Rmin_left. destruct (Rle_lt_dec ea eb) as [X|X]; [exact X|]. apply Rlt_le, rnd_le in X. lra. }
      rewrite M. split; intros H'; [auto|lra].
    + assert (NL : val b <= val a). { destruct (Rle_lt_dec (val b) (val a)) as [X|X]; [exact X|]. apply L in X. discriminate. }
      assert (RM : rnd (Rmin ea eb) = rnd eb). { unfold Rmin. destruct (Rle_dec ea eb) as [X|X]; [|reflexivity]. apply rnd_le in X. lra. }
      split; rewrite RM; intros H'; [auto|lra].
  - destruct (A1 HA) as [FA VA]. rewrite (B2 HB) in *. destruct (fin_ltb_inf a (if Rlt_dec eb 0 then true else false) FA) as [L _]. rewrite L.
    destruct (Rlt_dec eb 0) as [N|N]; cbn [negb].
    + assert (M : Rmin ea eb = eb). { apply Rmin_right. destruct (Rle_lt_dec eb ea) as [X|X]; [exact X|]. apply Rlt_le, rnd_le in X. pose proof (inf_neg _ HB N). specialize (ABS _ HA). lra. }
      rewrite M. split; intros H'; [lra|]. destruct (Rlt_dec eb 0); [reflexivity|contradiction].
    + assert (M : Rmin ea eb = ea). { apply Rmin_left. destruct (Rle_lt_dec ea eb) as [X|X]; [exact X|]. apply Rlt_le, rnd_le in X. pose proof (inf_pos _ HB ltac:(lra)). specialize (ABS _ HA). lra. }
      rewrite M. split; intros H'; [auto|lra].
  - destruct (B1 HB) as [FB VB]. rewrite (A2 HA) in *. destruct (fin_ltb_inf b (if Rlt_dec ea 0 then true else false) FB) as [_ L]. rewrite L.
    destruct (Rlt_dec ea 0) as [N|N].
    + assert (M : Rmin ea eb = ea). { apply Rmin_left. destruct (Rle_lt_dec ea eb) as [X|X]; [exact X|]. apply Rlt_le, rnd_le in X. pose proof (inf_neg _ HA N). specialize (ABS _ HB). lra. }
      rewrite M. split; intros H'; [lra|]. destruct (Rlt_dec ea 0); [reflexivity|contradiction].
    + assert (M : Rmin ea eb = eb). { apply Rmin_right. destruct (Rle_lt_dec eb ea) as [X|X]; [exact X|]. apply Rlt_le, rnd_le in X. pose proof (inf_pos _ HA ltac:(lra)). specialize (ABS _ HB). lra. }
      rewrite M. split; intros H'; [auto|lra].
  - rewrite (A2 HA), (B2 HB). assert (RM : huge <= Rabs (rnd (Rmin ea eb))) by (unfold Rmin; destruct (Rle_dec ea eb); assumption).
    split; intros H'; [lra|]. unfold Rmin. destruct (Rlt_dec ea 0) as [X|X], (Rlt_dec eb 0) as [Y|Y], (Rle_dec ea eb) as [Z|Z]; cbn; try reflexivity; repeat match goal with |- context [Rlt_dec ?u 0] => destruct (Rlt_dec u 0) end; try reflexivity; try lra.
Qed.
Lemma rounds_opp r e : rounds r e -> e <> 0 -> rounds (SFopp r) (- e).
Proof.
  intros [A B] N. unfold rounds. rewrite rnd_opp, Rabs_Ropp. split; intros H.
  - destruct (A H) as [F V]. destruct (opp_double r F) as [F' V']. split; [exact F'|]. lra.
  - rewrite (B H). cbn. f_equal. destruct (Rlt_dec e 0), (Rlt_dec (- e) 0); try reflexivity; lra.
Qed.
Lemma zero_double : finite_double (S754_zero false) /\ val (S754_zero false) = 0.
Proof. split; [split; reflexivity|reflexivity]. Qed.
Lemma rounds_neg r e : rounds r e -> SFltb r (S754_zero false) = true <-> rnd e < 0.
Proof.
  intros [A B]. destruct zero_double as [ZF ZV]. destruct (Rlt_le_dec (Rabs (rnd e)) huge) as [H|H].
  - destruct (A H) as [F V]. rewrite (ltb_val r _ F ZF), V, ZV. reflexivity.
  - rewrite (B H). pose proof huge_pos. destruct (Rlt_dec e 0) as [N|N].
    + pose proof (inf_neg _ H N). split; [intros _; lra|reflexivity].
    + pose proof (inf_pos _ H ltac:(lra)). split; [discriminate|lra].
Qed.
Lemma rounds_pos r e : rounds r e -> SFltb (S754_zero false) r = true <-> 0 < rnd e.
Proof.
  intros [A B]. destruct zero_double as [ZF ZV]. destruct (Rlt_le_dec (Rabs (rnd e)) huge) as [H|H].
  - destruct (A H) as [F V]. rewrite (ltb_val _ r ZF F), V, ZV. reflexivity.
  - rewrite (B H). pose proof huge_pos. destruct (Rlt_dec e 0) as [N|N].
    + pose proof (inf_neg _ H N). split; [discriminate|lra].
    + pose proof (inf_pos _ H ltac:(lra)). split; [intros _; lra|reflexivity].
Qed.
(** The sign of a difference of doubles is not lost. *)
Definition sign_kept (e : R) : Prop := (e < 0 -> rnd e < 0) /\ (0 < e -> 0 < rnd e).
Lemma sub_sign x y : representable x -> representable y -> sign_kept (x - y).
Proof.
  intros X Y. assert (N : x - y <> 0 -> rnd (x - y) <> 0) by (intros H; apply (round_plus_neq_0 radix2 (FLT_exp (-1074) 53) ZnearestE x (- y) X (rep_opp y Y) H)).
  split; intros H.
  - pose proof (rnd_sign_neg (x - y) ltac:(lra)). specialize (N ltac:(lra)). lra.
  - pose proof (rnd_sign_pos (x - y) ltac:(lra)). specialize (N ltac:(lra)). lra.
Qed.
Lemma min_sign a b : sign_kept a -> sign_kept b -> sign_kept (Rmin a b).
Proof. unfold Rmin. destruct (Rle_dec a b); auto. Qed.
Lemma minus_plus x y : finite_double x -> finite_double y -> rounds (fadd (SFopp x) y) (val y - val x).
Proof. intros X Y. destruct (opp_double x X) as [F V]. replace (val y - val x) with (val (SFopp x) + val y) by lra. apply add_rounds; assumption. Qed.
Definition box_exact (x0 xN y0 yN px py : R) : R := Rmin (Rmin (Rmin (py - y0) (yN - py)) (px - x0)) (xN - px).
Lemma box_min x0 xN y0 yN px py : finite_double x0 -> finite_double xN -> finite_double y0 -> finite_double yN -> finite_double px -> finite_double py ->
  rounds (SFopp (bbox_f x0 xN y0 yN px py)) (box_exact (val x0) (val xN) (val y0) (val yN) (val px) (val py)) /\ sign_kept (box_exact (val x0) (val xN) (val y0) (val yN) (val px) (val py)).
Proof.
  intros A B C D P Q. unfold bbox_f. set (m := np_minimum _ _). assert (E : SFopp (SFopp m) = m) by (destruct m as [s|s| |s ? ?]; cbn; rewrite ?negb_involutive; reflexivity). rewrite E. split.
  - apply rounds_min; [apply rounds_min; [apply rounds_min|]|]; try (apply minus_plus; assumption); apply sub_rounds; assumption.
  - apply min_sign; [apply min_sign; [apply min_sign|]|]; apply sub_sign; apply format_val; assumption.
Qed.
Lemma opp_ltb r : SFltb (SFopp r) (S754_zero false) = SFltb (S754_zero false) r /\ SFltb (S754_zero false) (SFopp r) = SFltb r (S754_zero false).
Proof. destruct r as [s|s| |s m e]; try destruct s; split; reflexivity. Qed.
Lemma min_pos a b : 0 < Rmin a b <-> 0 < a /\ 0 < b.
Proof. unfold Rmin. destruct (Rle_dec a b); split; intros; try split; lra. Qed.
Lemma min_neg a b : Rmin a b < 0 <-> a < 0 \/ b < 0.
Proof. unfold Rmin. destruct (Rle_dec a b); split; intros; lra. Qed.
Lemma box_signs x0 xN y0 yN px py : finite_double x0 -> finite_double xN -> finite_double y0 -> finite_double yN -> finite_double px -> finite_double py ->
  let d := bbox_f x0 xN y0 yN px py in
  (SFltb d (S754_zero false) = true <-> (val x0 < val px < val xN) /\ (val y0 < val py < val yN)) /\
  (SFltb (S754_zero false) d = true <-> ~ (val x0 <= val px <= val xN /\ val y0 <= val py <= val yN)) /\ d <> S754_nan.
Proof.
  intros A B C D P Q d. destruct (box_min x0 xN y0 yN px py A B C D P Q) as [R [SN SP]]. fold d in R. set (e := box_exact _ _ _ _ _ _) in *.
  destruct (opp_ltb d) as [O1 O2]. pose proof (rounds_neg _ _ R) as RN. pose proof (rounds_pos _ _ R) as RP. rewrite O1 in RN. rewrite O2 in RP.
  assert (EP : 0 < e <-> (val x0 < val px < val xN) /\ (val y0 < val py < val yN)).
  { unfold e, box_exact. rewrite !min_pos. lra. }
  assert (EN : e < 0 <-> ~ (val x0 <= val px <= val xN /\ val y0 <= val py <= val yN)).
  { unfold e, box_exact. rewrite !min_neg. lra. }
  assert (R0 : rnd 0 = 0) by (apply rnd_id, rep_0).
  assert (KP : 0 < rnd e <-> 0 < e). { split; [|exact SP]. intros H. destruct (Rlt_le_dec 0 e) as [X|X]; [exact X|]. apply rnd_le in X. lra. }
  assert (KN : rnd e < 0 <-> e < 0). { split; [|exact SN]. intros H. destruct (Rlt_le_dec e 0) as [X|X]; [exact X|]. apply rnd_le in X. lra. }
  split; [rewrite RP, KP; exact EP|]. split; [rewrite RN, KN; exact EN|]. intros Z. pose proof (rounds_nan _ _ R) as NN. rewrite Z in NN. discriminate.
Qed.
Lemma box_value x0 xN y0 yN px py : finite_double x0 -> finite_double xN -> finite_double y0 -> finite_double yN -> finite_double px -> finite_double py ->
  let e := Rmax (Rmax (Rmax (val y0 - val py) (val py - val yN)) (val x0 - val px)) (val px - val xN) in
  Rabs (rnd e) < bpow radix2 1024 -> finite_double (bbox_f x0 xN y0 yN px py) /\ val (bbox_f x0 xN y0 yN px py) = rnd e.
Proof.
  intros A B C D P Q e H. destruct (box_min x0 xN y0 yN px py A B C D P Q) as [[R _] _].
  assert (E : box_exact (val x0) (val xN) (val y0) (val yN) (val px) (val py) = - e).
  { unfold e, box_exact. assert (M : forall a b, Rmin (- a) (- b) = - Rmax a b) by (intros; unfold Rmin, Rmax; destruct (Rle_dec (- a) (- b)), (Rle_dec a b); lra). rewrite <- !M. f_equal; [f_equal; [f_equal|]|]; lra. }
  rewrite E, rnd_opp, Rabs_Ropp in R. destruct (R H) as [F V]. destruct (opp_double _ F) as [F' V'].
  assert (I : forall m, SFopp (SFopp m) = m) by (intros m; destruct m as [s|s| |s ? ?]; cbn; rewrite ?negb_involutive; reflexivity). rewrite I in F', V'. split; [exact F'|]. lra.
Qed.
