(** Proofs about areas of rings of doubles. *)
From Coq Require Import List Arith Bool ZArith Lia Reals Lra SpecFloat Permutation.
From Flocq Require Import Core IEEE754.BinarySingleNaN.
From Verif Require Import Util M_Base M_FixMesh M_QualF M_ForceF M_Shore M_AreaF S_Double S_Ieee S_AreaF P_Double P_LimitF P_Ieee P_Ieee2 P_Ieee3 P_ForceF P_ForceF2 P_ProjF P_StartF P_DensifyF P_OrientF P_QualF.
Import ListNotations.
Open Scope R_scope.
Local Notation bp := (bpow radix2).

Definition dotR (l : list (spec_float * spec_float)) : R := fold_right (fun p s => val (fst p) * val (snd p) + s) 0 l.
Definition dotA (l : list (spec_float * spec_float)) : R := fold_right (fun p s => Rabs (val (fst p) * val (snd p)) + s) 0 l.
Lemma dotR_app l m : dotR (l ++ m) = dotR l + dotR m. Proof. unfold dotR. induction l as [|p l IH]; cbn [app fold_right]; [lra|]. rewrite IH. lra. Qed.
Lemma dotA_app l m : dotA (l ++ m) = dotA l + dotA m. Proof. unfold dotA. induction l as [|p l IH]; cbn [app fold_right]; [lra|]. rewrite IH. lra. Qed.
Lemma dotA_nonneg l : 0 <= dotA l. Proof. unfold dotA. induction l as [|p l IH]; cbn [fold_right]; [lra|]. pose proof (Rabs_pos (val (fst p) * val (snd p))). lra. Qed.
Lemma dotR_le l : Rabs (dotR l) <= dotA l.
Proof. unfold dotR, dotA. induction l as [|p l IH]; cbn [fold_right]; [rewrite Rabs_R0; lra|]. eapply Rle_trans; [apply Rabs_triang|]. lra. Qed.
Lemma dotR_perm l m : Permutation l m -> dotR l = dotR m /\ dotA l = dotA m.
Proof. induction 1 as [|x l m _ [I1 I2]|x y l|l m n _ [I1 I2] _ [I3 I4]]; unfold dotR, dotA in *; cbn [fold_right]; split; lra. Qed.
Definition tau : R := / 2 ^ 1075.
Lemma tau_pos : 0 < tau. Proof. apply Rinv_0_lt_compat, pow_pos. Qed.
Lemma rnd_near x : Rabs (rnd x - x) <= u * Rabs x + tau. Proof. unfold tau. rewrite <- t_pow. apply rnd_err. Qed.
(** Sizes that cannot overflow. *)
Definition fits (p : spec_float * spec_float) : Prop := finite_double (fst p) /\ finite_double (snd p) /\ Rabs (val (fst p) * val (snd p)) <= 2 ^ 800.
Lemma dotA_fits l : Forall fits l -> dotA l <= INR (length l) * 2 ^ 800.
Proof.
  induction 1 as [|p l (_ & _ & F) _ IH]; [unfold dotA; cbn; lra|]. unfold dotA in *. cbn [length fold_right]. rewrite S_INR. lra.
Qed.
Lemma summed_nonempty l v : summed l v -> (1 <= length l)%nat.
Proof. induction 1 as [| l m v w _ I1 _ I2 | | |l m v _ I P]; cbn [length] in *; try (rewrite app_length); try (apply Permutation_length in P); lia. Qed.
Lemma step_bound (n A v s r : R) : 0 <= A -> 0 <= n -> 4 * n * u <= 1 -> Rabs s <= A -> Rabs (v - s) <= 2 * n * u * A + 4 * n * tau -> Rabs (r - v) <= u * Rabs v + tau ->
  Rabs (r - s) <= 2 * (n + 1) * u * A + (4 * (n + 1) - 2) * tau.
Proof.
  intros PA PN SN SA EV ER. pose proof u_bounds as U. pose proof tau_pos as T. assert (V : Rabs v <= A + (2 * n * u * A + 4 * n * tau)) by (replace v with (s + (v - s)) by lra; eapply Rle_trans; [apply Rabs_triang|lra]).
  replace (r - s) with ((r - v) + (v - s)) by lra. eapply Rle_trans; [apply Rabs_triang|].
  assert (W : u * Rabs v <= u * (A + (2 * n * u * A + 4 * n * tau))) by (apply Rmult_le_compat_l; lra).
  assert (X : u * (2 * n * u * A) <= u * A). { replace (u * (2 * n * u * A)) with ((2 * n * u) * (u * A)) by ring. rewrite <- (Rmult_1_l (u * A)) at 2. apply Rmult_le_compat_r; [apply Rmult_le_pos; lra|lra]. }
  assert (Y : u * (4 * n * tau) <= tau). { replace (u * (4 * n * tau)) with ((4 * n * u) * tau) by ring. rewrite <- (Rmult_1_l tau) at 2. apply Rmult_le_compat_r; lra. }
  lra.
Qed.
Definition close (l : list (spec_float * spec_float)) (v : R) : Prop := Rabs (v - dotR l) <= 2 * INR (length l) * u * dotA l + (4 * INR (length l) - 2) * tau.
Definition few (n : nat) : Prop := INR n <= 2 ^ 50.
Lemma few_u n : few n -> 4 * INR n * u <= / 2.
Proof. intros F. unfold few in F. rewrite u_val. assert (E : 2 ^ 50 = 1125899906842624) by (cbn; lra). lra. Qed.
Lemma close_size l v : few (length l) -> (1 <= length l)%nat -> Forall fits l -> close l v -> Rabs v <= 2 ^ 860.
Proof.
  intros F N X C. unfold close in C. pose proof (few_u _ F) as FU. pose proof (dotA_nonneg l) as P. pose proof (dotA_fits l X) as Q. pose proof (dotR_le l) as R. pose proof tau_pos as T. assert (T1 : tau <= 1) by (unfold tau; rewrite <- Rinv_1; apply Rinv_le_contravar; [lra|apply pow_R1_Rle; lra]).
  assert (N1 : 1 <= INR (length l)) by (apply (le_INR 1); exact N). replace v with (dotR l + (v - dotR l)) by lra. eapply Rle_trans; [apply Rabs_triang|].
  assert (H1 : 2 * INR (length l) * u * dotA l <= dotA l). { rewrite <- (Rmult_1_l (dotA l)) at 2. apply Rmult_le_compat_r; [exact P|]. pose proof u_bounds. nra. }
  assert (H2 : dotA l <= 2 ^ 850). { eapply Rle_trans; [exact Q|]. change 850%nat with (50 + 800)%nat. rewrite pow_add. apply Rmult_le_compat_r; [apply Rlt_le, pow_pos|exact F]. }
  assert (H3 : (4 * INR (length l) - 2) * tau <= 2 ^ 850). { apply Rle_trans with (4 * 2 ^ 50 * 1); [|rewrite Rmult_1_r; replace (4 * 2 ^ 50) with (2 ^ 52) by (change 52%nat with (2 + 50)%nat; rewrite pow_add; cbn [pow]; lra); apply pow_up; lia].
    apply Rmult_le_compat; [lra|lra| |exact T1]. unfold few in F. lra. }
  apply Rle_trans with (4 * 2 ^ 850); [lra|]. replace 4 with (2 ^ 2) by (cbn; lra). rewrite <- pow_add. apply pow_up. lia.
Qed.
Lemma up_860 x : Rabs x <= 2 ^ 862 -> Rabs x <= big. Proof. intros H. rewrite big_900. eapply Rle_trans; [exact H|apply pow_up; lia]. Qed.
Lemma summed_close l v : summed l v -> few (length l) -> Forall fits l -> finite_double v /\ close l (val v).
Proof.
  induction 1 as [x y|l m v w S1 I1 S2 I2|x y l v r S1 I1 Fx Fy Fv Fr E|l v S1 I1|l m v S1 I1 P]; intros F X.
  - inversion X as [|? ? (A & B & C) _]; subst. cbn [fst snd] in *. destruct (mul_ok x y A B) as (D & E). { apply up_860. eapply Rle_trans; [exact C|apply pow_up; lia]. } split; [exact D|]. change (SFmul 53 1024 x y) with (fmul x y). unfold close. rewrite E. unfold dotR, dotA. cbn [length fold_right fst snd INR]. rewrite !Rplus_0_r. pose proof (rnd_near (val x * val y)) as R. pose proof u_bounds. pose proof tau_pos. assert (0 <= u * Rabs (val x * val y)) by (apply Rmult_le_pos; [lra|apply Rabs_pos]). lra.
  - apply Forall_app in X. destruct X as [X1 X2]. rewrite app_length in F. pose proof (summed_nonempty _ _ S1) as N1. pose proof (summed_nonempty _ _ S2) as N2. assert (F1 : few (length l)) by (unfold few in *; rewrite plus_INR in F; pose proof (pos_INR (length m)); lra). assert (F2 : few (length m)) by (unfold few in *; rewrite plus_INR in F; pose proof (pos_INR (length l)); lra).
    destruct (I1 F1 X1) as [A1 C1]. destruct (I2 F2 X2) as [A2 C2]. pose proof (close_size l _ F1 N1 X1 C1) as Z1. pose proof (close_size m _ F2 N2 X2 C2) as Z2. destruct (add_ok v w A1 A2) as (D & E). { apply up_860. eapply Rle_trans; [apply Rabs_triang|]. replace (2 ^ 862) with (4 * 2 ^ 860) by (change 862%nat with (2 + 860)%nat; rewrite pow_add; cbn [pow]; lra). pose proof (pow_pos 860). lra. }
    split; [exact D|]. change (SFadd 53 1024 v w) with (fadd v w). unfold close in *. rewrite E, app_length, dotR_app, dotA_app, plus_INR. clear I1 I2 S1 S2. assert (L1 : 1 <= INR (length l)) by (apply (le_INR 1); exact N1). assert (L2 : 1 <= INR (length m)) by (apply (le_INR 1); exact N2). pose proof (few_u _ F) as FU. rewrite plus_INR in FU. pose proof (dotA_nonneg l) as P1. pose proof (dotA_nonneg m) as P2. pose proof u_bounds as U. pose proof tau_pos as T. pose proof (dotR_le l). pose proof (dotR_le m).
    set (a := INR (length l)) in *. set (b := INR (length m)) in *. set (A := dotA l) in *. set (B := dotA m) in *. replace (a + b) with ((a + b - 1) + 1) by lra. apply step_bound with (v := val v + val w); [lra|lra| | | |apply rnd_near].
    + lra.
    + eapply Rle_trans; [apply Rabs_triang|]. lra.
    + replace (val v + val w - (dotR l + dotR m)) with ((val v - dotR l) + (val w - dotR m)) by lra. eapply Rle_trans; [apply Rabs_triang|]. assert (K1 : 2 * a * u * A <= 2 * (a + b - 1) * u * A) by (apply Rmult_le_compat_r; [exact P1|]; apply Rmult_le_compat_r; lra). assert (K2 : 2 * b * u * B <= 2 * (a + b - 1) * u * B) by (apply Rmult_le_compat_r; [exact P2|]; apply Rmult_le_compat_r; lra). lra.
  - inversion X as [|? ? _ X1]; subst. cbn [length] in *. assert (F1 : few (length l)) by (unfold few in *; rewrite S_INR in F; lra). destruct (I1 F1 X1) as [A1 C1]. split; [exact Fr|]. unfold close in *. change (dotR ((x, y) :: l)) with (val x * val y + dotR l). change (dotA ((x, y) :: l)) with (Rabs (val x * val y) + dotA l). cbn [length]. rewrite S_INR. pose proof (summed_nonempty _ _ S1) as N1. assert (L1 : 1 <= INR (length l)) by (apply (le_INR 1); exact N1). pose proof (few_u _ F1) as FU. pose proof (dotA_nonneg l) as P1. pose proof (Rabs_pos (val x * val y)) as P2. pose proof u_bounds as U. pose proof tau_pos as T. pose proof (dotR_le l).
    apply step_bound with (v := val x * val y + val v); [lra|lra|lra| | |exact E].
    + eapply Rle_trans; [apply Rabs_triang|]. lra.
    + replace (val x * val y + val v - (val x * val y + dotR l)) with (val v - dotR l) by lra. eapply Rle_trans; [exact C1|]. assert (K : 2 * INR (length l) * u * dotA l <= 2 * INR (length l) * u * (Rabs (val x * val y) + dotA l)) by (apply Rmult_le_compat_l; [apply Rmult_le_pos; lra|lra]). lra.
  - destruct (I1 F X) as [A C]. pose proof (close_size l _ F (summed_nonempty _ _ S1) X C) as Z. destruct (plus_zero v A) as (D & E). { apply up_860. eapply Rle_trans; [exact Z|apply pow_up; lia]. } split; [exact D|]. change (SFadd 53 1024 v (S754_zero false)) with (fadd v f_0). rewrite E. exact C.
  - rewrite <- (Permutation_length P) in F. assert (X1 : Forall fits l) by (eapply Permutation_Forall; [apply Permutation_sym; exact P|exact X]). destruct (I1 F X1) as [A C]. split; [exact A|]. unfold close in *. destruct (dotR_perm l m P) as [E1 E2]. rewrite E1, E2, (Permutation_length P) in C. exact C.
Qed.

(** * Around a ring *)
Lemma roll_is {A} (d : A) (l : list A) : l <> [] -> roll1 l = removelast (last l d :: l).
Proof.
  intros N. destruct (exists_last N) as (r & x & ->). unfold roll1. rewrite rev_app_distr. cbn [rev app]. rewrite rev_involutive, last_last. cbn [removelast]. destruct (r ++ [x]) eqn:E; [destruct r; discriminate|]. rewrite <- E, removelast_last. reflexivity.
Qed.
Lemma roll_map {A B} (f : A -> B) (l : list A) : roll1 (map f l) = map f (roll1 l).
Proof. unfold roll1. rewrite <- map_rev. destruct (rev l) as [|x r]; [reflexivity|]. cbn [map]. rewrite map_rev. reflexivity. Qed.
Lemma roll_in {A} (l : list A) x : In x (roll1 l) -> In x l.
Proof. unfold roll1. intros H. rewrite in_rev. destruct (rev l) as [|y r]; [destruct H|]. destruct H as [H|H]; [left; exact H|right; apply in_rev; exact H]. Qed.
Lemma roll_length {A} (l : list A) : length (roll1 l) = length l.
Proof. unfold roll1. rewrite <- (rev_length l). destruct (rev l) as [|y r]; [reflexivity|]. cbn [length]. rewrite rev_length. reflexivity. Qed.
Lemma around_dot (f g : spec_float * spec_float -> spec_float) : forall l z, dotR (combine (map f l) (map g (removelast (z :: l)))) = around (fun p q => val (f p) * val (g q)) z l /\ dotA (combine (map f l) (map g (removelast (z :: l)))) = around (fun p q => Rabs (val (f p) * val (g q))) z l.
Proof.
  unfold dotR, dotA. induction l as [|p l IH]; intros z; [split; reflexivity|]. change (removelast (z :: p :: l)) with (z :: removelast (p :: l)). cbn [map combine fold_right around fst snd]. destruct (IH p) as [-> ->]. split; reflexivity.
Qed.
Lemma around_plus f g : forall l z, around (fun p q => f p q + g p q) z l = around f z l + around g z l. Proof. induction l as [|p l IH]; intros z; cbn [around]; [lra|]. rewrite IH. lra. Qed.
Lemma around_minus f g : forall l z, around (fun p q => f p q - g p q) z l = around f z l - around g z l. Proof. induction l as [|p l IH]; intros z; cbn [around]; [lra|]. rewrite IH. lra. Qed.
Lemma moderate_fits f g l : (f = fst /\ g = snd \/ f = snd /\ g = fst) -> Forall moderate_point l -> Forall fits (combine (map f l) (map g (roll1 l))).
Proof.
  intros D M. rewrite Forall_forall in *. intros (a, b) I. pose proof (in_combine_l _ _ _ _ I) as J. pose proof (in_combine_r _ _ _ _ I) as K. apply in_map_iff in J. apply in_map_iff in K. destruct J as (p & <- & P). destruct K as (q & <- & Q). apply roll_in in Q. destruct (M p P) as ((P1 & P2) & P3 & P4). destruct (M q Q) as ((Q1 & Q2) & Q3 & Q4).
  assert (X : forall s t, Rabs s <= 2 ^ 400 -> Rabs t <= 2 ^ 400 -> Rabs (s * t) <= 2 ^ 800) by (intros s t S T; change 800%nat with (400 + 400)%nat; rewrite pow_add; apply mul_le; assumption).
  destruct D as [[-> ->]|[-> ->]]; (split; [assumption|split; [assumption|apply X; assumption]]).
Qed.
Lemma final_bound (n A S t D r : R) : 0 <= A -> 1 <= n -> 4 * n * u <= / 2 -> Rabs S <= A -> Rabs (t - S) <= 2 * n * u * A + 8 * n * tau -> Rabs (D - t) <= u * Rabs t + tau -> Rabs (r - / 2 * Rabs D) <= u * (/ 2 * Rabs D) + tau ->
  Rabs (r - Rabs S / 2) <= (n + 2) * u * A + (4 * n + 4) * tau.
Proof.
  intros PA N U SA ET ED ER. pose proof u_bounds as UB. pose proof tau_pos as T. assert (UA : 0 <= u * A) by (apply Rmult_le_pos; lra). assert (NUA : 2 * n * u * (u * A) <= / 4 * (u * A)) by (apply Rmult_le_compat_r; [exact UA|lra]). assert (NT : 4 * n * u * tau <= / 2 * tau) by (apply Rmult_le_compat_r; lra).
  assert (Ht : Rabs t <= A + (2 * n * u * A + 8 * n * tau)) by (replace t with (S + (t - S)) by lra; eapply Rle_trans; [apply Rabs_triang|lra]).
  assert (Ut : u * Rabs t <= u * (A + (2 * n * u * A + 8 * n * tau))) by (apply Rmult_le_compat_l; lra).
  assert (DS : Rabs (D - S) <= 2 * n * u * A + 8 * n * tau + (5 / 4 * (u * A) + 2 * tau)). { replace (D - S) with ((D - t) + (t - S)) by lra. eapply Rle_trans; [apply Rabs_triang|]. lra. }
  assert (DD : Rabs (Rabs D - Rabs S) <= Rabs (D - S)) by apply Rabs_triang_inv2. 
  assert (Db : Rabs D <= 2 * A + (8 * n + 2) * tau). { replace D with (S + (D - S)) by lra. eapply Rle_trans; [apply Rabs_triang|]. assert (2 * n * u * A <= / 4 * A) by (apply Rmult_le_compat_r; lra). assert (u * A <= / 1000000 * A) by (apply Rmult_le_compat_r; lra). lra. }
  assert (Ud : u * (/ 2 * Rabs D) <= u * (A + (4 * n + 1) * tau)) by (apply Rmult_le_compat_l; lra).
  assert (UT : u * tau <= / 1000000 * tau) by (apply Rmult_le_compat_r; lra).
  replace (r - Rabs S / 2) with ((r - / 2 * Rabs D) + / 2 * (Rabs D - Rabs S)) by lra. eapply Rle_trans; [apply Rabs_triang|]. rewrite (Rabs_mult (/ 2)), (Rabs_pos_eq (/ 2)) by lra. lra.
Qed.
Section Area.
Variable dot : list spec_float -> list spec_float -> spec_float.
Hypothesis OK : dot_contract dot.
Theorem area_close l : l <> [] -> INR (length l) <= 2 ^ 50 -> Forall moderate_point l -> finite_double (poly_area_f dot (map fst l) (map snd l)) /\ Rabs (val (poly_area_f dot (map fst l) (map snd l)) - ring_area l) <= area_error l.
Proof.
  intros N F M. pose (z := last l (S754_zero false, S754_zero false)).
  assert (G : forall f g, (f = fst /\ g = snd \/ f = snd /\ g = fst) -> finite_double (dot (map f l) (roll1 (map g l))) /\ Rabs (val (dot (map f l) (roll1 (map g l))) - around (fun p q => val (f p) * val (g q)) z l) <= 2 * INR (length l) * u * around (fun p q => Rabs (val (f p) * val (g q))) z l + (4 * INR (length l) - 2) * tau /\ Rabs (around (fun p q => val (f p) * val (g q)) z l) <= around (fun p q => Rabs (val (f p) * val (g q))) z l /\ Rabs (val (dot (map f l) (roll1 (map g l)))) <= 2 ^ 860).
  { intros f g D. rewrite roll_map. assert (L : length (combine (map f l) (map g (roll1 l))) = length l) by (rewrite combine_length, !map_length, roll_length; lia). pose proof (moderate_fits f g l D M) as X. assert (S : summed (combine (map f l) (map g (roll1 l))) (dot (map f l) (map g (roll1 l)))) by (apply OK; [rewrite !map_length, roll_length; reflexivity|destruct l; [congruence|discriminate]]).
    assert (F' : few (length (combine (map f l) (map g (roll1 l))))) by (rewrite L; exact F). destruct (summed_close _ _ S F' X) as [A C]. pose proof (close_size _ _ F' (summed_nonempty _ _ S) X C) as Z. pose proof (dotR_le (combine (map f l) (map g (roll1 l)))) as LE. unfold close in C. rewrite L in C. destruct (around_dot f g l z) as [E1 E2]. pose proof (roll_is (S754_zero false, S754_zero false) l N) as R. fold z in R. rewrite R in A, C, Z, LE |- *. rewrite E1, E2 in C, LE. auto. }
  destruct (G fst snd ltac:(auto)) as (A1 & C1 & S1 & Z1). destruct (G snd fst ltac:(auto)) as (A2 & C2 & S2 & Z2). clear G. set (d1 := dot (map fst l) (roll1 (map snd l))) in *. set (d2 := dot (map snd l) (roll1 (map fst l))) in *.
  destruct (sub_ok d1 d2 A1 A2) as (FD & VD). { apply up_860. unfold Rminus. eapply Rle_trans; [apply Rabs_triang|]. rewrite Rabs_Ropp. replace (2 ^ 862) with (4 * 2 ^ 860) by (change 862%nat with (2 + 860)%nat; rewrite pow_add; cbn [pow]; lra). pose proof (pow_pos 860). lra. }
  destruct (abs_val _ FD) as (FA & VA). destruct P_QualF.half_double as [FH VH]. assert (RD : Rabs (rnd (val d1 - val d2)) <= 2 ^ 862). { pose proof (rnd_near (val d1 - val d2)) as R. assert (Rabs (val d1 - val d2) <= 2 * 2 ^ 860) by (unfold Rminus; eapply Rle_trans; [apply Rabs_triang|]; rewrite Rabs_Ropp; lra). pose proof u_bounds as U. assert (T1 : tau <= 1) by (unfold tau; rewrite <- Rinv_1; apply Rinv_le_contravar; [lra|apply pow_R1_Rle; lra]).
    assert (1 <= 2 ^ 860) by (apply pow_R1_Rle; lra). replace (rnd (val d1 - val d2)) with ((val d1 - val d2) + (rnd (val d1 - val d2) - (val d1 - val d2))) by lra. eapply Rle_trans; [apply Rabs_triang|]. assert (u * Rabs (val d1 - val d2) <= / 1000000 * (2 * 2 ^ 860)) by (apply Rmult_le_compat; [lra|apply Rabs_pos|lra|assumption]). replace (2 ^ 862) with (4 * 2 ^ 860) by (change 862%nat with (2 + 860)%nat; rewrite pow_add; cbn [pow]; lra). lra. }
  destruct (mul_ok f_half (SFabs (fsub d1 d2)) FH FA) as (FR & VR). { apply up_860. rewrite VH, VA, VD. rewrite Rabs_mult, Rabs_Rabsolu, (Rabs_pos_eq (/ 2)) by lra. pose proof (Rabs_pos (rnd (val d1 - val d2))). lra. }
  unfold poly_area_f. fold d1 d2. split; [exact FR|]. rewrite VR, VH, VA, VD. unfold area_error, ring_area, ring_size, ring_sum. fold z. rewrite around_minus, around_plus.
  set (s1 := around (fun p q => val (fst p) * val (snd q)) z l) in *. set (s2 := around (fun p q => val (snd p) * val (fst q)) z l) in *. set (a1 := around (fun p q => Rabs (val (fst p) * val (snd q))) z l) in *. set (a2 := around (fun p q => Rabs (val (snd p) * val (fst q))) z l) in *.
  pose proof (Rabs_pos s1). pose proof (Rabs_pos s2). assert (N1 : 1 <= INR (length l)) by (destruct l; [congruence|cbn [length]; rewrite S_INR; pose proof (pos_INR (length l)); lra]). pose proof (few_u _ F) as FU. pose proof tau_pos as T.
  eapply Rle_trans; [apply (final_bound (INR (length l)) (a1 + a2) (s1 - s2) (val d1 - val d2) (rnd (val d1 - val d2)))|].
  - lra.
  - lra.
  - exact FU.
  - unfold Rminus. eapply Rle_trans; [apply Rabs_triang|]. rewrite Rabs_Ropp. lra.
  - replace (val d1 - val d2 - (s1 - s2)) with ((val d1 - s1) + - (val d2 - s2)) by lra. eapply Rle_trans; [apply Rabs_triang|]. rewrite Rabs_Ropp. lra.
  - apply rnd_near.
  - assert (E : Rabs (/ 2 * Rabs (rnd (val d1 - val d2))) = / 2 * Rabs (rnd (val d1 - val d2))) by (apply Rabs_pos_eq; pose proof (Rabs_pos (rnd (val d1 - val d2))); lra). rewrite <- E at 3. apply rnd_near.
  - apply Rplus_le_compat_l. apply Rle_trans with (2 ^ 75 * tau); [apply Rmult_le_compat_r; [lra|]|].
    + assert (E : 2 ^ 75 = 33554432 * 2 ^ 50) by (change 75%nat with (25 + 50)%nat; rewrite pow_add; cbn [pow]; lra). assert (1 <= 2 ^ 50) by (apply pow_R1_Rle; lra). lra.
    + unfold tau. rewrite Rmult_comm, <- (ipow_mul 1000 75). apply Rle_refl.
Qed.
Theorem area_decides l areamin : l <> [] -> INR (length l) <= 2 ^ 50 -> Forall moderate_point l -> finite_double areamin ->
  (val areamin + area_error l <= ring_area l -> large_enough_f dot areamin l = true) /\ (ring_area l + area_error l < val areamin -> large_enough_f dot areamin l = false).
Proof.
  intros N F M A. destruct (area_close l N F M) as [FA E]. unfold large_enough_f. rewrite leb_val by assumption. apply Rabs_le_inv in E. unfold M_Forces.rleb. destruct (Rle_dec _ _); split; intros; try reflexivity; lra.
Qed.
Lemma nan_mul_l y : fmul S754_nan y = S754_nan. Proof. destruct y; reflexivity. Qed.
Lemma nan_mul_r y : fmul y S754_nan = S754_nan. Proof. destruct y; reflexivity. Qed.
Lemma nan_add_l y : fadd S754_nan y = S754_nan. Proof. destruct y; reflexivity. Qed.
Lemma nan_add_r y : fadd y S754_nan = S754_nan. Proof. destruct y; reflexivity. Qed.
Lemma summed_nan l v : summed l v -> (exists p, In p l /\ (fst p = S754_nan \/ snd p = S754_nan)) -> v = S754_nan.
Proof.
  induction 1 as [x y|l m v w S1 I1 S2 I2|x y l v r S1 I1 Fx Fy Fv Fr E|l v S1 I1|l m v S1 I1 P]; intros (p & I & H).
  - destruct I as [<-|[]]. cbn [fst snd] in H. destruct H as [->| ->]; [apply nan_mul_l|apply nan_mul_r].
  - apply in_app_or in I. destruct I as [I|I]; [rewrite I1 by eauto; apply nan_add_l|rewrite I2 by eauto; apply nan_add_r].
  - exfalso. destruct I as [<-|I].
    + cbn [fst snd] in H. destruct H as [->| ->]; [destruct Fx as [_ X]|destruct Fy as [_ X]]; discriminate X.
    + rewrite I1 in Fv by eauto. destruct Fv as [_ X]. discriminate X.
  - rewrite I1 by eauto. reflexivity.
  - apply I1. exists p. split; [apply Permutation_in with m; [apply Permutation_sym, P|exact I]|exact H].
Qed.
Theorem area_nan l areamin : (exists p, In p l /\ (fst p = S754_nan \/ snd p = S754_nan)) -> large_enough_f dot areamin l = false.
Proof.
  intros (p & I & H). assert (N : l <> []) by (intros ->; destruct I). unfold large_enough_f, poly_area_f. assert (X : dot (map fst l) (roll1 (map snd l)) = S754_nan).
  { rewrite roll_map. eapply summed_nan; [apply OK; [rewrite !map_length, roll_length; reflexivity|destruct l; [congruence|discriminate]]|]. destruct H as [H|H].
    - apply in_split in I. destruct I as (a & b & E). assert (J : exists q, In (fst p, q) (combine (map fst l) (map snd (roll1 l)))). { assert (L : length (map snd (roll1 l)) = length (map fst l)) by (rewrite !map_length, roll_length; reflexivity). destruct (nth_error (map snd (roll1 l)) (length a)) as [q|] eqn:Q. 2:{ apply nth_error_None in Q. rewrite L, E, map_length, app_length in Q. cbn in Q. lia. }
        exists q. apply nth_error_In with (length a). assert (P : nth_error (map fst l) (length a) = Some (fst p)) by (rewrite E, map_app, nth_error_app2, map_length, Nat.sub_diag by (rewrite map_length; lia); reflexivity). clear -P Q. revert P Q. generalize (map fst l) (map snd (roll1 l)) (length a). intros u. induction u as [|x u IH]; intros v n P Q; [destruct n; discriminate|]. destruct v as [|y v]; [destruct n; discriminate|]. destruct n; [injection P as ->; injection Q as ->; reflexivity|]. cbn [combine nth_error]. apply IH; assumption. }
      destruct J as (q & J). eexists. split; [exact J|left; exact H].
    - assert (R : In p (roll1 l)). { unfold roll1. apply in_rev in I. destruct (rev l) as [|y r]; [destruct I|]. destruct I as [I|I]; [left; exact I|right; apply in_rev; rewrite rev_involutive; exact I]. } apply in_split in R. destruct R as (a & b & E). assert (J : exists q, In (q, snd p) (combine (map fst l) (map snd (roll1 l)))). { assert (L : length (map snd (roll1 l)) = length (map fst l)) by (rewrite !map_length, roll_length; reflexivity). destruct (nth_error (map fst l) (length a)) as [q|] eqn:Q. 2:{ apply nth_error_None in Q. rewrite <- L, E, map_length, app_length in Q. cbn in Q. lia. }
        exists q. apply nth_error_In with (length a). assert (P : nth_error (map snd (roll1 l)) (length a) = Some (snd p)) by (rewrite E, map_app, nth_error_app2, map_length, Nat.sub_diag by (rewrite map_length; lia); reflexivity). clear -P Q. revert P Q. generalize (map fst l) (map snd (roll1 l)) (length a). intros u. induction u as [|x u IH]; intros v n P Q; [destruct n; discriminate|]. destruct v as [|y v]; [destruct n; discriminate|]. destruct n; [injection P as ->; injection Q as ->; reflexivity|]. cbn [combine nth_error]. apply IH; assumption. }
      destruct J as (q & J). eexists. split; [exact J|right; exact H]. }
  rewrite X. destruct (dot (map snd l) (roll1 (map fst l))), areamin; reflexivity.
Qed.
End Area.
Theorem seq_contract : dot_contract dot_seq.
Proof.
  intros x y L N. unfold dot_seq. destruct (combine x y) as [|(a, b) r] eqn:E; [destruct x, y; try discriminate; congruence|]. clear E. change ((a, b) :: r) with ([(a, b)] ++ r). assert (G : forall r l v, summed l v -> summed (l ++ r) (fold_left (fun s ab => fadd s (fmul (fst ab) (snd ab))) r v)).
  { induction r0 as [|(c, d) r0 IH]; intros l v S; cbn [fold_left fst snd]; [rewrite app_nil_r; exact S|]. change ((c, d) :: r0) with ([(c, d)] ++ r0). rewrite app_assoc. apply IH. apply sum_app; [exact S|apply sum_one]. }
  apply G, sum_one.
Qed.
