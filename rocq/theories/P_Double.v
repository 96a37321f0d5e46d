(** The arithmetic of SpecFloat at binary64 rounds correctly (from Flocq's theorems). *)
From Coq Require Import ZArith Reals SpecFloat Lra Lia Bool.
From Flocq Require Import Core IEEE754.BinarySingleNaN.
From Verif Require Import M_FixMesh S_Double.
Open Scope R_scope.

Definition Hp : Prec_gt_0 53 := eq_refl.
Definition He : Prec_lt_emax 53 1024 := eq_refl.
#[global] Existing Instance Hp.
#[global] Existing Instance He.
Lemma fexp_eq : SpecFloat.fexp 53 1024 = FLT_exp (-1074) 53.
Proof. reflexivity. Qed.
Notation bin := (binary_float 53 1024).
Lemma lift x : finite_double x -> exists b : bin, B2SF b = x /\ is_finite b = true /\ B2R b = val x.
Proof.
  intros [V F]. exists (SF2B x V). split; [apply B2SF_SF2B|]. split; [rewrite is_finite_SF2B; exact F|]. apply B2R_SF2B.
Qed.
Lemma lowered (b : bin) : is_finite b = true -> finite_double (B2SF b).
Proof. intros F. split; [apply valid_binary_B2SF|]. destruct b; try discriminate; reflexivity. Qed.
Lemma val_B (b : bin) : val (B2SF b) = B2R b.
Proof. apply SF2R_B2SF. Qed.
Lemma format_val x : finite_double x -> representable (val x).
Proof. intros F. destruct (lift x F) as (b & _ & _ & <-). apply (generic_format_B2R 53 1024). Qed.

Lemma rne_equiv s m l : round_nearest_even m l = choice_mode mode_NE s m l.
Proof. destruct l as [|c]; [reflexivity|]. destruct c; try reflexivity. cbn. unfold Round.cond_incr. destruct (Z.even m); reflexivity. Qed.
Lemma round_aux_equiv sx mx ex lx : SpecFloat.binary_round_aux 53 1024 sx mx ex lx = binary_round_aux 53 1024 mode_NE sx mx ex lx.
Proof. unfold SpecFloat.binary_round_aux, binary_round_aux. set (r := shr_fexp _ _ _). destruct r as [mrs e]. cbn. rewrite (rne_equiv sx). reflexivity. Qed.
Lemma round_equiv s m e : SpecFloat.binary_round 53 1024 s m e = binary_round 53 1024 mode_NE s m e.
Proof. unfold SpecFloat.binary_round, binary_round, shl_align_fexp. set (mz := shl_align _ _ _). destruct mz as [mz ez]. apply round_aux_equiv. Qed.
Lemma normalize_equiv m e s : SpecFloat.binary_normalize 53 1024 m e s = B2SF (binary_normalize 53 1024 Hp He mode_NE m e s).
Proof. destruct m as [|p|p]; cbn; [reflexivity| |]; rewrite B2SF_SF2B; apply round_equiv. Qed.
Lemma add_equiv (x y : bin) : fadd (B2SF x) (B2SF y) = B2SF (Bplus mode_NE x y).
Proof.
  destruct x as [sx|sx| |sx mx ex Bx], y as [sy|sy| |sy my ey By]; try reflexivity; try (cbn; destruct (Bool.eqb sx sy); reflexivity). apply normalize_equiv.
Qed.
Lemma sub_equiv (x y : bin) : fsub (B2SF x) (B2SF y) = B2SF (Bminus mode_NE x y).
Proof.
  destruct x as [sx|sx| |sx mx ex Bx], y as [sy|sy| |sy my ey By]; try reflexivity; try (cbn; destruct sx, sy; reflexivity).
  cbn. unfold Zminus. rewrite <- cond_Zopp_negb. apply normalize_equiv.
Qed.
Lemma mul_equiv (x y : bin) : fmul (B2SF x) (B2SF y) = B2SF (Bmult mode_NE x y).
Proof. destruct x as [sx|sx| |sx mx ex Bx], y as [sy|sy| |sy my ey By]; try reflexivity. cbn. rewrite B2SF_SF2B. apply round_aux_equiv. Qed.
Lemma div_equiv (x y : bin) : fdiv (B2SF x) (B2SF y) = B2SF (Bdiv mode_NE x y).
Proof.
  destruct x as [sx|sx| |sx mx ex Bx], y as [sy|sy| |sy my ey By]; try reflexivity. cbn. rewrite B2SF_SF2B. set (r := SFdiv_core_binary _ _ _ _ _ _). destruct r as [[mz ez] lz]. apply round_aux_equiv.
Qed.
(** The result of an operation whose exact value is [e]: rounded, or the infinity of the right sign. *)
Definition rounds (r : spec_float) (e : R) : Prop :=
  (Rabs (rnd e) < huge -> finite_double r /\ val r = rnd e) /\ (huge <= Rabs (rnd e) -> r = S754_infinity (if Rlt_dec e 0 then true else false)).
Lemma rnd_sign_pos e : 0 <= e -> 0 <= rnd e.
Proof. intros H. apply round_ge_generic; auto with typeclass_instances. apply generic_format_0. Qed.
Lemma rnd_sign_neg e : e <= 0 -> rnd e <= 0.
Proof. intros H. apply round_le_generic; auto with typeclass_instances. apply generic_format_0. Qed.
Lemma rnd_le a b : a <= b -> rnd a <= rnd b.
Proof. apply round_le; auto with typeclass_instances. Qed.
Lemma rnd_id a : representable a -> rnd a = a.
Proof. apply round_generic; auto with typeclass_instances. Qed.
Lemma rnd_rep a : representable (rnd a).
Proof. apply generic_format_round; auto with typeclass_instances. Qed.
Lemma rnd_opp a : rnd (- a) = - rnd a.
Proof. unfold rnd. apply round_NE_opp. Qed.
Lemma rep_opp a : representable a -> representable (- a).
Proof. apply generic_format_opp. Qed.
Lemma rep_0 : representable 0.
Proof. apply generic_format_0. Qed.
Lemma huge_pos : 0 < huge.
Proof. apply bpow_gt_0. Qed.
Lemma overflow_NE s : binary_overflow 53 1024 mode_NE s = S754_infinity s.
Proof. reflexivity. Qed.
Lemma B_sign_val (b : bin) : is_finite b = true -> (B2R b < 0 -> Bsign b = true) /\ (0 < B2R b -> Bsign b = false).
Proof.
  destruct b as [s|s| |s m e B]; intros F; try discriminate; cbn; [split; lra|]. destruct s; split; intros H; try reflexivity; exfalso.
  - assert (F2R (Float radix2 (Z.neg m) e) < 0) by (apply F2R_lt_0; reflexivity). cbn in H. lra.
  - assert (0 < F2R (Float radix2 (Z.pos m) e)) by (apply F2R_gt_0; reflexivity). cbn in H. lra.
Qed.
Lemma plus_overflow_sign (x y : bin) : is_finite x = true -> is_finite y = true -> huge <= Rabs (rnd (B2R x + B2R y)) -> Bsign x = Bsign y -> Bsign x = if Rlt_dec (B2R x + B2R y) 0 then true else false.
Proof.
  intros Fx Fy H S. destruct (B_sign_val x Fx) as [X1 X2], (B_sign_val y Fy) as [Y1 Y2]. pose proof huge_pos as HP.
  assert (NZ : B2R x + B2R y <> 0). { intros Z. rewrite Z in H. rewrite rnd_id in H by apply rep_0. rewrite Rabs_R0 in H. lra. }
  destruct (Rlt_dec (B2R x + B2R y) 0) as [L|L].
  - destruct (Rlt_dec (B2R x) 0) as [A|A]; [auto|]. rewrite S. apply Y1. lra.
  - destruct (Rlt_dec 0 (B2R x)) as [A|A]; [auto|]. rewrite S. apply Y2. lra.
Qed.
Lemma add_rounds x y : finite_double x -> finite_double y -> rounds (fadd x y) (val x + val y).
Proof.
  intros Fx Fy. destruct (lift x Fx) as (bx & <- & X1 & X2), (lift y Fy) as (b & <- & Y1 & Y2). rewrite <- X2, <- Y2, add_equiv.
  pose proof (Bplus_correct 53 1024 _ _ mode_NE bx b X1 Y1) as C. change (round radix2 (SpecFloat.fexp 53 1024) (round_mode mode_NE) (B2R bx + B2R b)) with (rnd (B2R bx + B2R b)) in C.
  change (bpow radix2 1024) with huge in C. split; intros H.
  - rewrite Rlt_bool_true in C by exact H. destruct C as (C1 & C2 & _). split; [apply lowered, C2|]. rewrite val_B. exact C1.
  - rewrite Rlt_bool_false in C by exact H. destruct C as (C1 & C2). rewrite C1, overflow_NE. f_equal. apply plus_overflow_sign; auto.
Qed.
Lemma sub_rounds x y : finite_double x -> finite_double y -> rounds (fsub x y) (val x - val y).
Proof.
  intros Fx Fy. destruct (lift x Fx) as (bx & <- & X1 & X2), (lift y Fy) as (b & <- & Y1 & Y2). rewrite <- X2, <- Y2, sub_equiv.
  pose proof (Bminus_correct 53 1024 _ _ mode_NE bx b X1 Y1) as C. change (round radix2 (SpecFloat.fexp 53 1024) (round_mode mode_NE) (B2R bx - B2R b)) with (rnd (B2R bx - B2R b)) in C.
  change (bpow radix2 1024) with huge in C. split; intros H.
  - rewrite Rlt_bool_true in C by exact H. destruct C as (C1 & C2 & _). split; [apply lowered, C2|]. rewrite val_B. exact C1.
  - rewrite Rlt_bool_false in C by exact H. destruct C as (C1 & C2). rewrite C1, overflow_NE. f_equal. unfold Rminus in *. rewrite <- (B2R_Bopp 53 1024) in *. apply plus_overflow_sign; auto.
    + rewrite is_finite_Bopp. exact Y1.
    + rewrite Bsign_Bopp; [exact C2|]. destruct b; try discriminate; reflexivity.
Qed.
Lemma opp_double x : finite_double x -> finite_double (SFopp x) /\ val (SFopp x) = - val x.
Proof.
  intros [V F]. destruct x as [s|s| |s m e]; try discriminate; cbn.
  - split; [split; reflexivity|]. unfold val. cbn. lra.
  - split; [split; [exact V|reflexivity]|]. unfold val, SF2R. rewrite <- F2R_Zopp. destruct s; reflexivity.
Qed.
Lemma mul_rounds x y : finite_double x -> finite_double y -> Rabs (rnd (val x * val y)) < huge -> finite_double (fmul x y) /\ val (fmul x y) = rnd (val x * val y).
Proof.
  intros Fx Fy H. destruct (lift x Fx) as (bx & <- & X1 & X2), (lift y Fy) as (b & <- & Y1 & Y2). rewrite <- X2, <- Y2 in *. rewrite mul_equiv.
  pose proof (Bmult_correct 53 1024 _ _ mode_NE bx b) as C. change (round radix2 (SpecFloat.fexp 53 1024) (round_mode mode_NE) (B2R bx * B2R b)) with (rnd (B2R bx * B2R b)) in C.
  change (bpow radix2 1024) with huge in C. rewrite Rlt_bool_true in C by exact H. destruct C as (C1 & C2 & _). rewrite X1, Y1 in C2. split; [apply lowered, C2|]. rewrite val_B. exact C1.
Qed.
Lemma div_rounds x y : finite_double x -> finite_double y -> val y <> 0 -> Rabs (rnd (val x / val y)) < huge -> finite_double (fdiv x y) /\ val (fdiv x y) = rnd (val x / val y).
Proof.
  intros Fx Fy N H. destruct (lift x Fx) as (bx & <- & X1 & X2), (lift y Fy) as (b & <- & Y1 & Y2). rewrite <- X2, <- Y2 in *. rewrite div_equiv.
  pose proof (Bdiv_correct 53 1024 _ _ mode_NE bx b N) as C. change (round radix2 (SpecFloat.fexp 53 1024) (round_mode mode_NE) (B2R bx / B2R b)) with (rnd (B2R bx / B2R b)) in C.
  change (bpow radix2 1024) with huge in C. rewrite Rlt_bool_true in C by exact H. destruct C as (C1 & C2 & _). rewrite X1 in C2. split; [apply lowered, C2|]. rewrite val_B. exact C1.
Qed.
Lemma ltb_val x y : finite_double x -> finite_double y -> SFltb x y = true <-> val x < val y.
Proof.
  intros Fx Fy. destruct (lift x Fx) as (bx & <- & X1 & X2), (lift y Fy) as (b & <- & Y1 & Y2). rewrite <- X2, <- Y2. change (SFltb (B2SF bx) (B2SF b)) with (Bltb bx b).
  rewrite (Bltb_correct 53 1024) by assumption. destruct (Rlt_bool_spec (B2R bx) (B2R b)); split; intros; try discriminate; auto; lra.
Qed.
