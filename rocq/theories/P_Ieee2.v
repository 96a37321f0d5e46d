(** Proofs about grids, circles and interpolation on doubles. *)
From Coq Require Import List ZArith QArith SpecFloat Reals Lra Lia Bool Psatz.
From Flocq Require Import Core IEEE754.BinarySingleNaN Plus_error Relative.
From Verif Require Import M_Base M_FixMesh M_Ieee S_Double S_Ieee P_Double P_Ieee.
Import ListNotations.
Open Scope R_scope.

Lemma rep_scaled z e : (Z.abs z <= 2 ^ 53)%Z -> (-1074 <= e)%Z -> representable (IZR z * bpow radix2 e).
Proof.
  intros Z E. destruct (Z.eq_dec (Z.abs z) (2 ^ 53)) as [Q|Q].
  - assert (G : representable (bpow radix2 (53 + e))) by (apply generic_format_bpow; unfold FLT_exp; lia).
    destruct (Z.abs_eq_or_opp z) as [A|A].
    + replace (IZR z * bpow radix2 e) with (bpow radix2 (53 + e)); [exact G|]. rewrite bpow_plus. f_equal. replace z with (2 ^ 53)%Z by lia. reflexivity.
    + replace (IZR z * bpow radix2 e) with (- bpow radix2 (53 + e)); [apply rep_opp; exact G|]. rewrite bpow_plus. replace z with (- (2 ^ 53))%Z by lia. rewrite opp_IZR. change (bpow radix2 53) with (IZR (2 ^ 53)). ring.
  - apply generic_format_FLT. exists (Float radix2 z e); [reflexivity| |]; cbn [Fnum Fexp]; [|exact E]. change (Z.pow radix2 53) with (2 ^ 53)%Z. lia.
Qed.
Lemma rep_int z : (Z.abs z <= 2 ^ 53)%Z -> representable (IZR z).
Proof. intros Z. replace (IZR z) with (IZR z * bpow radix2 0) by (cbn; ring). apply rep_scaled; [exact Z|lia]. Qed.
Lemma rep_bpow e : (-1074 <= e)%Z -> representable (bpow radix2 e).
Proof. intros E. replace (bpow radix2 e) with (IZR 1 * bpow radix2 e) by ring. apply rep_scaled; [cbn; lia|exact E]. Qed.
Lemma rnd_abs_le x e : (-1074 <= e)%Z -> Rabs x <= bpow radix2 e -> Rabs (rnd x) <= bpow radix2 e.
Proof.
  intros E H. apply Rabs_le_inv in H. apply Rabs_le. rewrite <- (rnd_id (bpow radix2 e)) by (apply rep_bpow, E). rewrite <- rnd_opp. split; apply rnd_le; lra.
Qed.
Lemma lt_huge x e : (e < 1024)%Z -> Rabs x <= bpow radix2 e -> Rabs x < huge.
Proof. intros E H. apply Rle_lt_trans with (bpow radix2 e); [exact H|]. apply bpow_lt, E. Qed.
Lemma half_ulp x e : (-1000 <= e)%Z -> Rabs x <= bpow radix2 e -> Rabs (rnd x - x) <= bpow radix2 (e - 53).
Proof.
  intros E H. apply Rle_trans with (/ 2 * ulp radix2 (FLT_exp (-1074) 53) x); [apply error_le_half_ulp; auto with typeclass_instances|].
  assert (U : ulp radix2 (FLT_exp (-1074) 53) x <= ulp radix2 (FLT_exp (-1074) 53) (bpow radix2 e)) by (apply ulp_le; auto with typeclass_instances; rewrite (Rabs_pos_eq (bpow radix2 e)) by apply bpow_ge_0; exact H).
  rewrite ulp_bpow in U. assert (F : FLT_exp (-1074) 53 (e + 1) = (e - 53 + 1)%Z) by (unfold FLT_exp; lia). rewrite F, bpow_plus in U. change (bpow radix2 1) with 2 in U. lra.
Qed.
Lemma of_nat_val k : (Z.of_nat k <= 2 ^ 53)%Z -> finite_double (of_nat_f k) /\ val (of_nat_f k) = INR k.
Proof.
  intros K. unfold of_nat_f, fprec, femax. rewrite normalize_equiv. pose proof (binary_normalize_correct 53 1024 Hp He mode_NE (Z.of_nat k) 0 false) as C. cbv zeta in C.
  assert (X : F2R (Float radix2 (Z.of_nat k) 0) = INR k) by (unfold F2R; cbn; rewrite INR_IZR_INZ; ring). rewrite X in C.
  change (round radix2 (SpecFloat.fexp 53 1024) (round_mode mode_NE) (INR k)) with (rnd (INR k)) in C.
  assert (RK : rnd (INR k) = INR k) by (apply rnd_id; rewrite INR_IZR_INZ; apply rep_int; lia). rewrite RK in C.
  assert (B : Rabs (INR k) < bpow radix2 1024).
  { apply (lt_huge _ 53); [lia|]. rewrite Rabs_pos_eq by apply pos_INR. rewrite INR_IZR_INZ. change (bpow radix2 53) with (IZR (2 ^ 53)). apply IZR_le, K. }
  rewrite Rlt_bool_true in C by exact B. destruct C as (C1 & C2 & _). split; [apply lowered, C2|]. rewrite val_B. exact C1.
Qed.
Definition entry (x0 dx : R) (k : nat) : R := rnd (x0 + rnd (INR k * dx)).
Lemma vector_entry x0 dx n k : finite_double x0 -> finite_double dx -> 0 <= val dx -> (Z.of_nat n <= 2 ^ 53)%Z -> Rabs (val x0) + INR n * val dx <= bpow radix2 1022 -> (k < n)%nat ->
  exists v, nth_error (vector_f x0 dx n) k = Some v /\ finite_double v /\ val v = entry (val x0) (val dx) k.
Proof.
  intros X D P N B K. exists (fadd x0 (fmul (of_nat_f k) dx)). split.
  - unfold vector_f. rewrite nth_error_map. rewrite (nth_error_nth' (seq 0 n) 0%nat) by (rewrite seq_length; exact K). rewrite seq_nth by exact K. reflexivity.
  - destruct (of_nat_val k ltac:(lia)) as [FK VK]. pose proof (pos_INR k) as PK. assert (KN : INR k <= INR n) by (apply le_INR; lia).
    assert (AX : 0 <= Rabs (val x0)) by apply Rabs_pos. assert (KD : 0 <= INR k * val dx <= INR n * val dx) by nra.
    assert (M1 : Rabs (rnd (INR k * val dx)) <= bpow radix2 1022) by (apply rnd_abs_le; [lia|]; rewrite Rabs_pos_eq; lra).
    destruct (mul_rounds (of_nat_f k) dx FK D) as [F1 V1]; [rewrite VK; apply (lt_huge _ 1022); [lia|exact M1]|]. rewrite VK in V1.
    assert (M2 : Rabs (rnd (val x0 + rnd (INR k * val dx))) <= bpow radix2 1023).
    { apply rnd_abs_le; [lia|]. apply Rle_trans with (1 := Rabs_triang _ _). change 1023%Z with (1 + 1022)%Z. rewrite bpow_plus. change (bpow radix2 1) with 2. nra. }
    destruct (add_rounds x0 _ X F1) as [A _]. rewrite V1 in A. apply A. apply (lt_huge _ 1023); [lia|exact M2].
Qed.
Lemma vector_length x0 dx n : length (vector_f x0 dx n) = n.
Proof. unfold vector_f. rewrite map_length. apply seq_length. Qed.
Lemma entry_mono x0 dx i j : 0 <= dx -> (i <= j)%nat -> entry x0 dx i <= entry x0 dx j.
Proof. intros D L. unfold entry. apply rnd_le. apply Rplus_le_compat_l. apply rnd_le. apply Rmult_le_compat_r; [exact D|]. apply le_INR, L. Qed.
Lemma vector_sorted x0 dx n : finite_double x0 -> finite_double dx -> 0 <= val dx -> (Z.of_nat n <= 2 ^ 53)%Z -> Rabs (val x0) + INR n * val dx <= bpow radix2 1022 ->
  Forall finite_double (vector_f x0 dx n) /\ forall i j a b, (i <= j)%nat -> nth_error (vector_f x0 dx n) i = Some a -> nth_error (vector_f x0 dx n) j = Some b -> val a <= val b.
Proof.
  intros X D P N B. split.
  - apply Forall_forall. intros v I. apply In_nth_error in I. destruct I as (k & E). assert (K : (k < n)%nat) by (rewrite <- (vector_length x0 dx n); apply nth_error_Some; congruence).
    destruct (vector_entry x0 dx n k X D P N B K) as (v' & E' & F & _). congruence.
  - intros i j a b L A Bj. assert (K : (j < n)%nat) by (rewrite <- (vector_length x0 dx n); apply nth_error_Some; congruence).
    destruct (vector_entry x0 dx n i X D P N B ltac:(lia)) as (a' & E1 & _ & V1). destruct (vector_entry x0 dx n j X D P N B K) as (b' & E2 & _ & V2).
    assert (a' = a) by congruence. assert (b' = b) by congruence. subst. rewrite V1, V2. apply entry_mono; assumption.
Qed.
Lemma vector_first x0 dx n : finite_double x0 -> finite_double dx -> (0 < n)%nat -> exists a, nth_error (vector_f x0 dx n) 0 = Some a /\ val a = val x0.
Proof.
  intros X D N. destruct n as [|n]; [lia|]. exists (fadd x0 (fmul (of_nat_f 0) dx)). split; [reflexivity|].
  assert (Z : fmul (of_nat_f 0) dx = S754_zero (sign_SF dx)) by (destruct D as [_ F]; destruct dx as [s|s| |s m e]; try discriminate; destruct s; reflexivity). rewrite Z.
  destruct (add_rounds x0 (S754_zero (sign_SF dx)) X) as [A _]; [split; reflexivity|]. replace (val x0 + val (S754_zero (sign_SF dx))) with (val x0) in A by (unfold val; cbn; lra).
  rewrite (rnd_id (val x0)) in A by (apply format_val, X). apply A. destruct (lift x0 X) as (b & _ & _ & E). rewrite <- E. apply (abs_B2R_lt_emax 53 1024).
Qed.
Lemma vector_strict x0 dx n e : finite_double x0 -> finite_double dx -> (Z.of_nat n <= 2 ^ 53)%Z -> (-900 <= e <= 1022)%Z -> Rabs (val x0) + INR n * val dx <= bpow radix2 e -> bpow radix2 (e - 50) <= val dx ->
  forall i j a b, (i < j)%nat -> nth_error (vector_f x0 dx n) i = Some a -> nth_error (vector_f x0 dx n) j = Some b -> val a < val b.
Proof.
  intros X D N E B S i j a b L A Bj. assert (P : 0 <= val dx) by (apply Rle_trans with (2 := S), bpow_ge_0).
  assert (B' : Rabs (val x0) + INR n * val dx <= bpow radix2 1022) by (apply Rle_trans with (1 := B), bpow_le; lia).
  assert (K : (j < n)%nat) by (rewrite <- (vector_length x0 dx n); apply nth_error_Some; congruence).
  destruct (vector_entry x0 dx n i X D P N B' ltac:(lia)) as (a' & E1 & _ & V1). destruct (vector_entry x0 dx n j X D P N B' K) as (b' & E2 & _ & V2).
  assert (a' = a) by congruence. assert (b' = b) by congruence. subst a' b'. rewrite V1, V2. clear V1 V2 E1 E2 A Bj.
  set (x := val x0) in *. set (d := val dx) in *. set (u := bpow radix2 (e - 53)). assert (U : 0 < u) by apply bpow_gt_0.
  assert (E50 : bpow radix2 (e - 50) = 8 * u) by (unfold u; replace (e - 50)%Z with (3 + (e - 53))%Z by lia; rewrite bpow_plus; reflexivity).
  assert (E52 : bpow radix2 (e + 1 - 53) = 2 * u) by (unfold u; replace (e + 1 - 53)%Z with (1 + (e - 53))%Z by lia; rewrite bpow_plus; reflexivity).
  assert (EE : bpow radix2 (e + 1) = 2 * bpow radix2 e) by (replace (e + 1)%Z with (1 + e)%Z by lia; rewrite bpow_plus; reflexivity).
  assert (UE : u <= bpow radix2 e) by (apply bpow_le; lia).
  assert (C : forall k, (k < n)%nat -> Rabs (entry x d k - (x + INR k * d)) <= 3 * u).
  { intros k HK. assert (KN : INR k <= INR n) by (apply le_INR; lia). pose proof (pos_INR k). pose proof (Rabs_pos x). assert (KD : 0 <= INR k * d <= INR n * d) by nra.
    assert (H1 : Rabs (rnd (INR k * d) - INR k * d) <= u) by (apply half_ulp; [lia|]; rewrite Rabs_pos_eq; lra).
    assert (H2 : Rabs (entry x d k - (x + rnd (INR k * d))) <= 2 * u).
    { unfold entry. rewrite <- E52. apply half_ulp; [lia|]. rewrite EE. apply Rle_trans with (1 := Rabs_triang _ _). apply Rabs_le_inv in H1.
      assert (Rabs (rnd (INR k * d)) <= INR n * d + u) by (apply Rabs_le; lra). lra. }
    apply Rabs_le_inv in H1. apply Rabs_le_inv in H2. apply Rabs_le. lra. }
  pose proof (C i ltac:(lia)) as Ci. pose proof (C j K) as Cj. apply Rabs_le_inv in Ci. apply Rabs_le_inv in Cj. assert (IJ : INR i + 1 <= INR j) by (rewrite <- S_INR; apply le_INR; lia).
  assert (INR i * d + d <= INR j * d) by nra. lra.
Qed.
