(** Proofs about lengths of rings of doubles. *)
From Coq Require Import List Arith Bool ZArith Lia Reals Lra SpecFloat Permutation.
From Flocq Require Import Core IEEE754.BinarySingleNaN.
From Verif Require Import Util M_Base M_FixMesh M_QualF M_LimitF M_ForceF M_OrientF M_LengthF S_Double S_Ieee S_AreaF S_LengthF P_Double P_LimitF P_Ieee P_Ieee2 P_Ieee3 P_ForceF P_ForceF2 P_ProjF P_StartF P_DensifyF P_OrientF P_AreaF.
From Verif Require P_LapF.
Import ListNotations.
Open Scope R_scope.
Local Notation bp := (bpow radix2).

(** * One step *)
Definition norm (x y : R) : R := sqrt (x ^ 2 + y ^ 2).
Lemma norm_nonneg x y : 0 <= norm x y. Proof. apply sqrt_pos. Qed.
Lemma norm_sq x y : norm x y * norm x y = x ^ 2 + y ^ 2. Proof. apply sqrt_sqrt. nra. Qed.
Lemma norm_abs x y : Rabs x <= norm x y /\ Rabs y <= norm x y.
Proof.
  split; apply Rsqr_incr_0_var; try apply norm_nonneg; unfold Rsqr; rewrite norm_sq; rewrite <- Rabs_mult, Rabs_pos_eq; nra.
Qed.
Lemma norm_le x y a : 0 <= a -> x ^ 2 + y ^ 2 <= a * a -> norm x y <= a.
Proof. intros A H. apply Rsqr_incr_0_var; [|exact A]. unfold Rsqr. rewrite norm_sq. exact H. Qed.
Lemma norm_sum x y : norm x y <= Rabs x + Rabs y.
Proof. pose proof (Rabs_pos x). pose proof (Rabs_pos y). apply norm_le; [lra|]. rewrite <- (pow2_abs x), <- (pow2_abs y). nra. Qed.
Lemma norm_triangle x y a b : norm (x + a) (y + b) <= norm x y + norm a b.
Proof.
  pose proof (norm_nonneg x y) as P. pose proof (norm_nonneg a b) as Q. apply norm_le; [lra|]. pose proof (norm_sq x y) as E1. pose proof (norm_sq a b) as E2.
  assert (C : x * a + y * b <= norm x y * norm a b). { apply Rle_trans with (Rabs (x * a + y * b)); [apply Rle_abs|]. apply Rsqr_incr_0_var; [|apply Rmult_le_pos; assumption]. unfold Rsqr. rewrite <- Rabs_mult, Rabs_pos_eq by apply (Rle_0_sqr (x * a + y * b)). replace (norm x y * norm a b * (norm x y * norm a b)) with ((norm x y * norm x y) * (norm a b * norm a b)) by ring. rewrite E1, E2. pose proof (pow2_ge_0 (x * b - y * a)). nra. }
  nra.
Qed.
Lemma norm_near x y a b : Rabs (norm a b - norm x y) <= Rabs (a - x) + Rabs (b - y).
Proof.
  pose proof (norm_triangle x y (a - x) (b - y)) as T1. pose proof (norm_triangle a b (x - a) (y - b)) as T2. replace (x + (a - x)) with a in T1 by ring. replace (y + (b - y)) with b in T1 by ring. replace (a + (x - a)) with x in T2 by ring. replace (b + (y - b)) with y in T2 by ring.
  pose proof (norm_sum (a - x) (b - y)). pose proof (norm_sum (x - a) (y - b)). rewrite (Rabs_minus_sym x), (Rabs_minus_sym y) in *. apply Rabs_le. lra.
Qed.
(** Root of a number close to a square. *)
Lemma root_near s q e : 0 <= q -> 0 <= s -> 0 <= e -> Rabs (s - q * q) <= 3 * u * (q * q) + e * e -> Rabs (sqrt s - q) <= 2 * u * q + e.
Proof.
  intros Q S E H. pose proof u_bounds as U. apply Rabs_le_inv in H. pose proof (sqrt_pos s) as P. pose proof (sqrt_sqrt s S) as SS. apply Rabs_le. assert (0 <= u * q) by nra. split.
  - destruct (Rle_or_lt (q - 2 * u * q - e) 0) as [Z|Z]; [lra|]. enough (q - 2 * u * q - e <= sqrt s) by lra. apply Rsqr_incr_0_var; [|exact P]. unfold Rsqr. rewrite SS. assert (W : (q - 2 * u * q - e) * (q - 2 * u * q - e) <= (q - 2 * u * q) * (q - 2 * u * q) - e * e) by nra. assert (X : (q - 2 * u * q) * (q - 2 * u * q) = q * q - 4 * u * (q * q) + 4 * (u * u) * (q * q)) by ring. assert (4 * (u * u) * (q * q) <= u * (q * q)) by (replace (4 * (u * u) * (q * q)) with (4 * u * (u * (q * q))) by ring; rewrite <- (Rmult_1_l (u * (q * q))) at 2; apply Rmult_le_compat_r; [nra|lra]). lra.
  - enough (sqrt s <= q + 2 * u * q + e) by lra. apply Rsqr_incr_0_var; [|nra]. unfold Rsqr. rewrite SS. assert (X : (q + 2 * u * q + e) * (q + 2 * u * q + e) = q * q + 4 * u * (q * q) + 4 * (u * q * (u * q)) + 2 * (q + 2 * u * q) * e + e * e) by ring. rewrite X. assert (0 <= u * q * (u * q)) by nra. assert (0 <= (q + 2 * u * q) * e) by nra. assert (0 <= u * (q * q)) by nra. lra.
Qed.
Definition eps : R := / 2 ^ 530.
Lemma eps_pos : 0 < eps. Proof. apply Rinv_0_lt_compat, pow_pos. Qed.
Lemma eps_one : eps <= / 1000000. Proof. unfold eps. apply Rle_trans with (/ 2 ^ 20); [apply ipow_up; lia|]. apply Rinv_le_contravar; [lra|]. cbn; lra. Qed.
Lemma eps_tau : 100 * tau <= eps * eps /\ 100 * tau <= eps.
Proof.
  assert (A : 100 * tau <= / 2 ^ 1060). { unfold tau. change 1075%nat with (15 + 1060)%nat. rewrite pow_add, Rinv_mult. pose proof (Rinv_0_lt_compat _ (pow_pos 1060)). assert (100 * / 2 ^ 15 <= 1) by (cbn; lra). nra. }
  split; [replace (eps * eps) with (/ 2 ^ 1060); [exact A|]|eapply Rle_trans; [exact A|apply ipow_up; lia]]. unfold eps. change 1060%nat with (530 + 530)%nat. rewrite pow_add, Rinv_mult. reflexivity.
Qed.
Lemma step_real dx dy dxf dyf sx sy s v : Rabs (dxf - dx) <= u * Rabs dx + tau -> Rabs (dyf - dy) <= u * Rabs dy + tau ->
  0 <= sx -> Rabs (sx - dxf * dxf) <= u * (dxf * dxf) + tau -> 0 <= sy -> Rabs (sy - dyf * dyf) <= u * (dyf * dyf) + tau -> 0 <= s -> Rabs (s - (sx + sy)) <= u * (sx + sy) + tau -> Rabs (v - sqrt s) <= u * sqrt s + tau ->
  Rabs (v - norm dx dy) <= 6 * u * norm dx dy + 3 * eps.
Proof.
  intros HX HY PX SX PY SY PS HS HV. pose proof u_bounds as U. pose proof tau_pos as T. pose proof eps_pos as E. pose proof eps_one as E1. destruct eps_tau as [T1 T2]. set (q := norm dxf dyf). pose proof (norm_nonneg dxf dyf) as Q. fold q in Q. pose proof (norm_sq dxf dyf) as QQ. fold q in QQ. cbn [pow] in QQ. rewrite !Rmult_1_r in QQ.
  assert (UQ : 0 <= u * (q * q)) by (apply Rmult_le_pos; [lra|apply Rmult_le_pos; lra]). assert (R : Rabs (s - q * q) <= 3 * u * (q * q) + eps * eps).
  { apply Rabs_le_inv in SX. apply Rabs_le_inv in SY. apply Rabs_le_inv in HS. assert (QU : u * (q * q) = u * (dxf * dxf) + u * (dyf * dyf)) by (rewrite QQ; ring). assert (UU : u * (u * (q * q)) <= / 1000000 * (u * (q * q))) by (apply Rmult_le_compat_r; lra). assert (S2 : u * (sx + sy) <= u * (q * q + u * (q * q) + 2 * tau)) by (apply Rmult_le_compat_l; lra). assert (u * tau <= / 1000000 * tau) by (apply Rmult_le_compat_r; lra). apply Rabs_le. lra. }
  apply root_near in R; [|exact Q|exact PS|lra]. apply Rabs_le_inv in R. apply Rabs_le_inv in HV. pose proof (norm_near dx dy dxf dyf) as N. fold q in N. destruct (norm_abs dx dy) as [A1 A2]. pose proof (norm_nonneg dx dy) as P. set (D := norm dx dy) in *.
  assert (B1 : u * Rabs dx <= u * D) by (apply Rmult_le_compat_l; lra). assert (B2 : u * Rabs dy <= u * D) by (apply Rmult_le_compat_l; lra). apply Rabs_le_inv in N. assert (Q1 : q <= D + 2 * (u * D) + 2 * tau) by lra. assert (Q2 : u * q <= u * D + 2 * (u * (u * D)) + 2 * (u * tau)) by (replace (u * D + 2 * (u * (u * D)) + 2 * (u * tau)) with (u * (D + 2 * (u * D) + 2 * tau)) by ring; apply Rmult_le_compat_l; lra).
  assert (UD : 0 <= u * D) by (apply Rmult_le_pos; lra). assert (UUD : u * (u * D) <= / 1000000 * (u * D)) by (apply Rmult_le_compat_r; lra). assert (UT : u * tau <= / 1000000 * tau) by (apply Rmult_le_compat_r; lra). assert (UE : u * eps <= / 1000000 * eps) by (apply Rmult_le_compat_r; lra). assert (US : u * sqrt s <= u * (q + 2 * (u * q) + eps)) by (apply Rmult_le_compat_l; lra).
  assert (UUQ : u * (u * q) <= / 1000000 * (u * q)) by (apply Rmult_le_compat_r; [apply Rmult_le_pos; lra|lra]). apply Rabs_le. lra.
Qed.
Lemma square_ok x : finite_double x -> Rabs (val x) <= 2 ^ 402 -> finite_double (fmul x x) /\ 0 <= val (fmul x x) <= 2 ^ 806 /\ Rabs (val (fmul x x) - val x * val x) <= u * (val x * val x) + tau.
Proof.
  intros F B. assert (P : 0 <= val x * val x) by apply Rle_0_sqr. assert (B2 : val x * val x <= 2 ^ 804) by (rewrite <- (Rabs_pos_eq _ P); change 804%nat with (402 + 402)%nat; rewrite pow_add; apply mul_le; exact B). destruct (mul_ok x x F F) as [F2 V]. { apply up_860. rewrite Rabs_pos_eq by exact P. eapply Rle_trans; [exact B2|apply pow_up; lia]. }
  split; [exact F2|]. rewrite V. pose proof (rnd_near (val x * val x)) as R. rewrite (Rabs_pos_eq (val x * val x)) in R by exact P. split; [|exact R]. split; [apply rnd_sign_pos, P|]. apply Rabs_le_inv in R. pose proof u_bounds. assert (T1 : tau <= 1) by (unfold tau; rewrite <- Rinv_1; apply Rinv_le_contravar; [lra|apply pow_R1_Rle; lra]). assert (1 <= 2 ^ 804) by (apply pow_R1_Rle; lra). replace (2 ^ 806) with (4 * 2 ^ 804) by (change 806%nat with (2 + 804)%nat; rewrite pow_add; cbn [pow]; lra). assert (u * (val x * val x) <= 1 * (val x * val x)) by (apply Rmult_le_compat_r; lra). lra.
Qed.
Lemma step_ok a b : moderate_point a -> moderate_point b -> let v := length_f (fsub (fst b) (fst a), fsub (snd b) (snd a)) in
  finite_double v /\ 0 <= val v <= 2 ^ 404 /\ Rabs (val v - distance b a) <= 6 * u * distance b a + 3 * eps.
Proof.
  intros ((FA1 & FA2) & A1 & A2) ((FB1 & FB2) & B1 & B2) v. destruct (diff_tame _ _ FA1 FB1 A1 B1) as (FX & X1 & X2 & X3). destruct (diff_tame _ _ FA2 FB2 A2 B2) as (FY & Y1 & Y2 & Y3). destruct (square_ok _ FX X3) as (FS & PS & S2). destruct (square_ok _ FY Y3) as (FT & PT & T2).
  unfold v, length_f. cbn [fst snd]. set (dxf := fsub (fst b) (fst a)) in *. set (dyf := fsub (snd b) (snd a)) in *. destruct (add_ok (fmul dxf dxf) (fmul dyf dyf) FS FT) as (FP & VP). { apply up_860. rewrite Rabs_pos_eq by lra. replace (2 ^ 862) with (2 ^ 56 * 2 ^ 806) by (rewrite <- pow_add; reflexivity). assert (2 <= 2 ^ 56) by (cbn; lra). pose proof (pow_pos 806). nra. }
  set (s := fadd (fmul dxf dxf) (fmul dyf dyf)) in *. assert (P : 0 <= val s) by (rewrite VP; apply rnd_sign_pos; lra). destruct (P_LapF.sqrt_ok s FP P) as (FV & VV). split; [exact FV|]. rewrite VV.
  assert (M : Rabs (rnd (sqrt (val s)) - distance b a) <= 6 * u * distance b a + 3 * eps).
  { apply (step_real (val (fst b) - val (fst a)) (val (snd b) - val (snd a)) (val dxf) (val dyf) (val (fmul dxf dxf)) (val (fmul dyf dyf)) (val s)); try assumption; try lra.
    - rewrite VP. pose proof (rnd_near (val (fmul dxf dxf) + val (fmul dyf dyf))) as R. rewrite (Rabs_pos_eq (val (fmul dxf dxf) + val (fmul dyf dyf))) in R by lra. exact R.
    - pose proof (rnd_near (sqrt (val s))) as R. rewrite (Rabs_pos_eq (sqrt (val s))) in R by apply sqrt_pos. exact R. }
  split; [|exact M]. split; [apply rnd_sign_pos, sqrt_pos|]. apply Rabs_le_inv in M. pose proof (norm_sum (val (fst b) - val (fst a)) (val (snd b) - val (snd a))) as N. fold (distance b a) in N. change (norm (val (fst b) - val (fst a)) (val (snd b) - val (snd a))) with (distance b a) in N. pose proof u_bounds as U. pose proof eps_one as E1.
  assert (DP : 0 <= distance b a) by apply sqrt_pos. assert (UD : 6 * u * distance b a <= / 100000 * distance b a) by (apply Rmult_le_compat_r; lra). assert (1 <= 2 ^ 401) by (apply pow_R1_Rle; lra). replace (2 ^ 404) with (8 * 2 ^ 401) by (change 404%nat with (3 + 401)%nat; rewrite pow_add; cbn [pow]; lra). lra.
Qed.

(** * Sums *)
Definition sumR (l : list spec_float) : R := fold_right (fun x s => val x + s) 0 l.
Definition amounts (l : list spec_float) : Prop := Forall (fun x => finite_double x /\ 0 <= val x <= 2 ^ 404) l.
Lemma sumR_app l m : sumR (l ++ m) = sumR l + sumR m. Proof. unfold sumR. induction l as [|x l IH]; cbn [app fold_right]; [lra|]. rewrite IH. lra. Qed.
Lemma sumR_perm l m : Permutation l m -> sumR l = sumR m. Proof. unfold sumR. induction 1; cbn [fold_right]; lra. Qed.
Lemma sumR_bounds l : amounts l -> 0 <= sumR l <= INR (length l) * 2 ^ 404.
Proof. unfold sumR. induction 1 as [|x l (F & X) _ IH]; [cbn; lra|]. cbn [fold_right length]. rewrite S_INR. lra. Qed.
Lemma added_nonempty l v : added l v -> (1 <= length l)%nat.
Proof. induction 1 as [|l m v w _ I1 _ I2| |l m v _ I P]; cbn [length] in *; try (rewrite app_length); try (apply Permutation_length in P); lia. Qed.
Definition close_sum (l : list spec_float) (v : R) : Prop := Rabs (v - sumR l) <= 2 * INR (length l) * u * sumR l + (4 * INR (length l) - 2) * tau.
Lemma close_sum_size l v : few (length l) -> (1 <= length l)%nat -> amounts l -> close_sum l v -> Rabs v <= 2 ^ 860.
Proof.
  intros F N X C. unfold close_sum in C. pose proof (few_u _ F) as FU. destruct (sumR_bounds l X) as [P Q]. pose proof tau_pos as T. assert (T1 : tau <= 1) by (unfold tau; rewrite <- Rinv_1; apply Rinv_le_contravar; [lra|apply pow_R1_Rle; lra]).
  assert (N1 : 1 <= INR (length l)) by (apply (le_INR 1); exact N). replace v with (sumR l + (v - sumR l)) by lra. eapply Rle_trans; [apply Rabs_triang|]. rewrite (Rabs_pos_eq (sumR l)) by exact P.
  assert (H1 : 2 * INR (length l) * u * sumR l <= 1 * sumR l). { apply Rmult_le_compat_r; [exact P|]. pose proof u_bounds. lra. }
  assert (H2 : sumR l <= 2 ^ 850). { eapply Rle_trans; [exact Q|]. apply Rle_trans with (2 ^ 50 * 2 ^ 404); [apply Rmult_le_compat_r; [apply Rlt_le, pow_pos|exact F]|]. rewrite <- pow_add. apply pow_up. lia. }
  assert (H3 : (4 * INR (length l) - 2) * tau <= 2 ^ 850). { apply Rle_trans with (4 * 2 ^ 50 * 1); [|rewrite Rmult_1_r; replace (4 * 2 ^ 50) with (2 ^ 52) by (change 52%nat with (2 + 50)%nat; rewrite pow_add; cbn [pow]; lra); apply pow_up; lia].
    apply Rmult_le_compat; [lra|lra| |exact T1]. unfold few in F. lra. }
  apply Rle_trans with (4 * 2 ^ 850); [lra|]. replace 4 with (2 ^ 2) by (cbn; lra). rewrite <- pow_add. apply pow_up. lia.
Qed.
Lemma added_close l v : added l v -> few (length l) -> amounts l -> finite_double v /\ close_sum l (val v).
Proof.
  induction 1 as [x|l m v w S1 I1 S2 I2|l v S1 I1|l m v S1 I1 P]; intros F X.
  - inversion X as [|? ? (A & B) _]; subst. split; [exact A|]. unfold close_sum, sumR. cbn [length fold_right INR]. rewrite Rplus_0_r. replace (val x - val x) with 0 by ring. rewrite Rabs_R0. pose proof u_bounds. pose proof tau_pos. assert (0 <= u * val x) by (apply Rmult_le_pos; lra). lra.
  - apply Forall_app in X. destruct X as [X1 X2]. rewrite app_length in F. pose proof (added_nonempty _ _ S1) as N1. pose proof (added_nonempty _ _ S2) as N2. assert (F1 : few (length l)) by (unfold few in *; rewrite plus_INR in F; pose proof (pos_INR (length m)); lra). assert (F2 : few (length m)) by (unfold few in *; rewrite plus_INR in F; pose proof (pos_INR (length l)); lra).
    destruct (I1 F1 X1) as [A1 C1]. destruct (I2 F2 X2) as [A2 C2]. pose proof (close_sum_size l _ F1 N1 X1 C1) as Z1. pose proof (close_sum_size m _ F2 N2 X2 C2) as Z2. destruct (add_ok v w A1 A2) as (D & E). { apply up_860. eapply Rle_trans; [apply Rabs_triang|]. replace (2 ^ 862) with (4 * 2 ^ 860) by (change 862%nat with (2 + 860)%nat; rewrite pow_add; cbn [pow]; lra). pose proof (pow_pos 860). lra. }
    split; [exact D|]. change (SFadd 53 1024 v w) with (fadd v w). unfold close_sum in *. rewrite E, app_length, sumR_app, plus_INR. clear I1 I2 S1 S2. assert (L1 : 1 <= INR (length l)) by (apply (le_INR 1); exact N1). assert (L2 : 1 <= INR (length m)) by (apply (le_INR 1); exact N2). pose proof (few_u _ F) as FU. rewrite plus_INR in FU. destruct (sumR_bounds l X1) as [P1 _]. destruct (sumR_bounds m X2) as [P2 _]. pose proof u_bounds as U. pose proof tau_pos as T.
    set (a := INR (length l)) in *. set (b := INR (length m)) in *. set (A := sumR l) in *. set (B := sumR m) in *. replace (a + b) with ((a + b - 1) + 1) by lra. apply step_bound with (v := val v + val w); [lra|lra| | | |apply rnd_near].
    + lra.
    + rewrite Rabs_pos_eq; lra.
    + replace (val v + val w - (A + B)) with ((val v - A) + (val w - B)) by lra. eapply Rle_trans; [apply Rabs_triang|]. assert (K1 : 2 * a * u * A <= 2 * (a + b - 1) * u * A) by (apply Rmult_le_compat_r; [exact P1|]; apply Rmult_le_compat_r; lra). assert (K2 : 2 * b * u * B <= 2 * (a + b - 1) * u * B) by (apply Rmult_le_compat_r; [exact P2|]; apply Rmult_le_compat_r; lra). lra.
  - destruct (I1 F X) as [A C]. pose proof (close_sum_size l _ F (added_nonempty _ _ S1) X C) as Z. destruct (plus_zero v A) as (D & E). { apply up_860. eapply Rle_trans; [exact Z|apply pow_up; lia]. } split; [exact D|]. change (SFadd 53 1024 v (S754_zero false)) with (fadd v f_0). rewrite E. exact C.
  - rewrite <- (Permutation_length P) in F. assert (X1 : amounts l) by (eapply Permutation_Forall; [apply Permutation_sym; exact P|exact X]). destruct (I1 F X1) as [A C]. split; [exact A|]. unfold close_sum in *. rewrite (sumR_perm l m P), (Permutation_length P) in C. exact C.
Qed.

(** * Rings *)
Lemma around_nonneg l : forall z, 0 <= around distance z l. Proof. induction l as [|p l IH]; intros z; cbn [around]; [lra|]. specialize (IH p). pose proof (sqrt_pos ((val (fst p) - val (fst z)) ^ 2 + (val (snd p) - val (snd z)) ^ 2)). unfold distance at 1. lra. Qed.
Lemma around_snoc f a : forall l z, around f z (l ++ [a]) = around f z l + f a (last l z).
Proof. induction l as [|p l IH]; intros z; [cbn; lra|]. cbn [app around]. rewrite IH. replace (last (p :: l) z) with (last l p); [lra|]. destruct l as [|q l]; [reflexivity|]. change (last (p :: q :: l) z) with (last (q :: l) z). destruct (exists_last (l := q :: l)) as (k & x & ->); [discriminate|]. rewrite !last_last. reflexivity. Qed.
Lemma steps_close : forall r a, Forall moderate_point (a :: r) -> amounts (steps_f (a :: r)) /\ length (steps_f (a :: r)) = length r /\ Rabs (sumR (steps_f (a :: r)) - around distance a r) <= 6 * u * around distance a r + INR (length r) * (3 * eps).
Proof.
  induction r as [|b r IH]; intros a M.
  - split; [constructor|]. split; [reflexivity|]. unfold sumR. cbn. rewrite Rminus_0_r, Rabs_R0. lra.
  - inversion M as [|? ? Ma Mr]; subst. pose proof Mr as Mr'. inversion Mr' as [|? ? Mb _]; subst. destruct (IH b Mr) as (A & L & E). change (steps_f (a :: b :: r)) with (length_f (fsub (fst b) (fst a), fsub (snd b) (snd a)) :: steps_f (b :: r)). destruct (step_ok a b Ma Mb) as (F & B & C). split; [constructor; auto|]. split; [cbn [length]; rewrite L; reflexivity|].
    set (v := length_f _) in *. change (sumR (v :: steps_f (b :: r))) with (val v + sumR (steps_f (b :: r))). cbn [around length]. rewrite S_INR. replace (val v + sumR (steps_f (b :: r)) - (distance b a + around distance b r)) with ((val v - distance b a) + (sumR (steps_f (b :: r)) - around distance b r)) by ring. eapply Rle_trans; [apply Rabs_triang|]. lra.
Qed.
Section Length.
Variable sum : list spec_float -> spec_float.
Hypothesis OK : sum_contract sum.
Lemma path_close a r : Forall moderate_point (a :: r) -> few (length r) -> finite_double (sum (steps_f (a :: r))) /\ Rabs (val (sum (steps_f (a :: r))) - around distance a r) <= (2 * INR (length r) + 8) * u * around distance a r + INR (length r) * / 2 ^ 500.
Proof.
  intros M F. destruct (steps_close r a M) as (A & L & E). destruct OK as [O1 O2]. pose proof (around_nonneg r a) as P. pose proof u_bounds as U. pose proof (Rinv_0_lt_compat _ (pow_pos 500)) as W. destruct r as [|b r].
  - cbn [steps_f around length INR]. rewrite O1. split; [apply zero_ok|]. change (val (S754_zero false)) with 0. rewrite Rminus_0_r, Rabs_R0. lra.
  - assert (N : steps_f (a :: b :: r) <> []) by discriminate. pose proof (O2 _ N) as S. set (s := steps_f (a :: b :: r)) in *. rewrite <- L in F. destruct (added_close _ _ S F A) as [FV C]. split; [exact FV|]. unfold close_sum in C. rewrite L in *. pose proof (few_u _ F) as FU. pose proof (pos_INR (length (b :: r))) as NN. set (n := INR (length (b :: r))) in *. set (D := around distance a (b :: r)) in *. set (S' := sumR s) in *. pose proof tau_pos as T. pose proof eps_pos as EP. destruct eps_tau as [_ T2].
    apply Rabs_le_inv in E. assert (UD : 0 <= u * D) by (apply Rmult_le_pos; lra). assert (NU : 0 <= n * u) by (apply Rmult_le_pos; lra). assert (S1 : 2 * n * u * S' <= 2 * n * u * (D + 6 * (u * D) + n * (3 * eps))) by (apply Rmult_le_compat_l; lra). assert (S2 : n * u * (u * D) <= / 8 * (u * D)) by (apply Rmult_le_compat_r; lra). assert (S3 : n * u * (n * eps) <= / 8 * (n * eps)) by (apply Rmult_le_compat_r; [apply Rmult_le_pos; lra|lra]). assert (S4 : n * (100 * tau) <= n * eps) by (apply Rmult_le_compat_l; lra).
    assert (S5 : n * (100 * eps) <= n * / 2 ^ 500). { apply Rmult_le_compat_l; [lra|]. unfold eps. change 530%nat with (30 + 500)%nat. rewrite pow_add, Rinv_mult. assert (100 * / 2 ^ 30 <= 1) by (cbn; lra). replace (100 * (/ 2 ^ 30 * / 2 ^ 500)) with ((100 * / 2 ^ 30) * / 2 ^ 500) by ring. rewrite <- (Rmult_1_l (/ 2 ^ 500)) at 2. apply Rmult_le_compat_r; lra. }
    assert (S6 : 0 <= n * tau) by (apply Rmult_le_pos; lra). assert (S7 : 0 <= n * eps) by (apply Rmult_le_pos; lra). replace (val (sum s) - D) with ((val (sum s) - S') + (S' - D)) by ring. eapply Rle_trans; [apply Rabs_triang|]. assert (E' : Rabs (S' - D) <= 6 * u * D + n * (3 * eps)) by (apply Rabs_le; lra). lra.
Qed.
Lemma perimeter_cons a r : perimeter (a :: r) = closing (a :: r) + around distance a r.
Proof. unfold perimeter, ring_sum, closing. cbn [around]. replace (last (a :: r) (S754_zero false, S754_zero false)) with (last (a :: r) a); [reflexivity|]. destruct (exists_last (l := a :: r)) as (l & x & ->); [discriminate|]. rewrite !last_last. reflexivity. Qed.
Theorem length_close l : l <> [] -> INR (length l) <= 2 ^ 50 -> Forall moderate_point l -> exists v, poly_length_f sum l = Ok v /\ finite_double v /\
  (if match l with [] => true | a :: _ => isclose_f (fst a) (fst (last l a)) && isclose_f (snd a) (snd (last l a)) end then Rabs (val v - (perimeter l - closing l)) <= length_error l else Rabs (val v - perimeter l) <= length_error l).
Proof.
  intros N F M. destruct l as [|a r]; [congruence|]. clear N. unfold poly_length_f. cbv zeta. pose proof (perimeter_cons a r) as PC. pose proof (around_nonneg r a) as P. assert (C0 : 0 <= closing (a :: r)) by apply sqrt_pos. pose proof u_bounds as U. pose proof (Rinv_0_lt_compat _ (pow_pos 500)) as W. unfold length_error. cbn [length] in *. rewrite S_INR in *. pose proof (pos_INR (length r)) as N.
  destruct (isclose_f (fst a) (fst (last (a :: r) a)) && isclose_f (snd a) (snd (last (a :: r) a))).
  - destruct (path_close a r M) as [FV E]; [unfold few; lra|]. eexists. split; [reflexivity|]. split; [exact FV|]. replace (perimeter (a :: r) - closing (a :: r)) with (around distance a r) by lra. eapply Rle_trans; [exact E|]. assert ((2 * INR (length r) + 8) * u * around distance a r <= (2 * (INR (length r) + 1) + 10) * u * perimeter (a :: r)). { apply Rmult_le_compat; [apply Rmult_le_pos; lra|exact P|apply Rmult_le_compat_r; lra|lra]. } assert (INR (length r) * / 2 ^ 500 <= (INR (length r) + 1 + 1) * / 2 ^ 500) by (apply Rmult_le_compat_r; lra). lra.
  - change ((a :: r) ++ [a]) with (a :: (r ++ [a])). destruct (path_close a (r ++ [a])) as [FV E]. { inversion M; subst. constructor; [assumption|]. apply Forall_app. split; [assumption|constructor; [assumption|constructor]]. } { unfold few. rewrite app_length, plus_INR. cbn [length INR]. lra. }
    eexists. split; [reflexivity|]. split; [exact FV|]. rewrite around_snoc, app_length, plus_INR in E. cbn [length INR] in E. assert (LL : distance a (last r a) = closing (a :: r)). { unfold closing. destruct r; reflexivity. } rewrite LL in E. replace (around distance a r + closing (a :: r)) with (perimeter (a :: r)) in E by lra. eapply Rle_trans; [exact E|]. assert (0 <= perimeter (a :: r)) by lra. assert ((2 * (INR (length r) + 1) + 8) * u * perimeter (a :: r) <= (2 * (INR (length r) + 1) + 10) * u * perimeter (a :: r)) by (apply Rmult_le_compat_r; [lra|]; apply Rmult_le_compat_r; lra). assert ((INR (length r) + 1) * / 2 ^ 500 <= (INR (length r) + 1 + 1) * / 2 ^ 500) by (apply Rmult_le_compat_r; lra). lra.
Qed.
End Length.
