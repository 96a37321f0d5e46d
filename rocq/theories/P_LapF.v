(** Proofs about mesh smoothing on doubles. *)
From Coq Require Import List Arith Bool ZArith Lia Reals Lra Psatz SpecFloat.
From Flocq Require Import Core IEEE754.BinarySingleNaN Relative Plus_error.
From Verif Require Import M_Base M_Numpy M_Edges M_FixMesh M_Adjacency M_Clean M_LimitF M_LapF.
From Verif Require Import S_Double S_Ieee S_Edges S_FixMesh S_Adjacency S_Clean S_LapF Util P_Edges P_FixMesh P_Adjacency P_Exterior P_Interior P_Laplacian P_Double P_LimitF P_CutF.
Import ListNotations.
Open Scope R_scope.

(** * Rounded sums *)
Notation h75 := (bpow radix2 (-1075)).
Lemma u_small : 0 < u < / 1000. Proof. unfold u. cbn. lra. Qed.
Lemma add_rel x y : representable x -> representable y -> Rabs (rnd (x + y) - (x + y)) <= u * Rabs (x + y).
Proof.
  intros X Y. destruct (FLT_plus_error_N_ex radix2 (-1074) 53 (fun x => negb (Z.even x)) x y X Y) as (d & D & E).
  unfold rnd. rewrite E. replace ((x + y) * (1 + d) - (x + y)) with (d * (x + y)) by ring. rewrite Rabs_mult. apply Rmult_le_compat_r; [apply Rabs_pos|].
  eapply Rle_trans; [exact D|]. assert (U : u_ro radix2 53 = u) by (unfold u_ro, u; cbn; lra). rewrite U. pose proof u_small.
  apply Rmult_le_reg_r with (1 + u); [lra|]. unfold Rdiv. rewrite Rmult_assoc, Rinv_l by lra. nra.
Qed.
Lemma pow_ge1 n : 1 <= (1 + u) ^ n.
Proof. pose proof u_small. induction n as [|n IH]; cbn [pow]; nra. Qed.
Definition Rabssum (l : list spec_float) : R := Rsum (map (fun x => Rabs (val x)) l).
Lemma Rabssum_nn l : 0 <= Rabssum l.
Proof.
  induction l as [|x l IH]; [unfold Rabssum; cbn; lra|]. change (Rabssum (x :: l)) with (Rabs (val x) + Rabssum l). pose proof (Rabs_pos (val x)). lra.
Qed.
Lemma fold_sum l : forall a, finite_double a -> Forall finite_double l -> (Rabs (val a) + Rabssum l) * (1 + u) ^ length l < huge ->
  finite_double (fold_left fadd l a) /\
  Rabs (val (fold_left fadd l a) - (val a + Rsum (map val l))) <= ((1 + u) ^ length l - 1) * (Rabs (val a) + Rabssum l).
Proof.
  induction l as [|x l IH]; intros a Fa Fl Hb; cbn [fold_left length].
  - split; [exact Fa|]. cbn. rewrite Rplus_0_r, Rminus_diag_eq by reflexivity. rewrite Rabs_R0. unfold Rabssum. cbn. nra.
  - inversion_clear Fl as [|? ? Fx Fl']. pose proof u_small as U. pose proof (pow_ge1 (length l)) as P1. set (q := (1 + u) ^ length l) in *.
    change (Rabssum (x :: l)) with (Rabs (val x) + Rabssum l) in *. change (Rsum (map val (x :: l))) with (val x + Rsum (map val l)).
    cbn [pow length] in Hb. fold q in Hb. cbn [pow]. fold q.
    pose proof (Rabssum_nn l) as S0. set (s := Rabssum l) in *. pose proof (Rabs_pos (val a)) as A0. pose proof (Rabs_pos (val x)) as X0.
    pose proof (Rabs_triang (val a) (val x)) as T. pose proof (add_rel _ _ (format_val _ Fa) (format_val _ Fx)) as E.
    assert (K2 : u * Rabs (val a + val x) <= u * (Rabs (val a) + Rabs (val x))) by (apply Rmult_le_compat_l; lra).
    assert (B : Rabs (rnd (val a + val x)) <= (1 + u) * (Rabs (val a) + Rabs (val x))).
    { pose proof (Rabs_triang (rnd (val a + val x) - (val a + val x)) (val a + val x)) as T2.
      replace (rnd (val a + val x) - (val a + val x) + (val a + val x)) with (rnd (val a + val x)) in T2 by ring. lra. }
    destruct (add_rounds _ _ Fa Fx) as [R _].
    assert (Lt : Rabs (rnd (val a + val x)) < huge).
    { eapply Rle_lt_trans; [exact B|]. eapply Rle_lt_trans; [|exact Hb]. assert (0 <= (1 + u) * q - (1 + u)) by nra. nra. }
    destruct (R Lt) as [Fax Vax]. destruct (IH (fadd a x) Fax Fl') as [G1 G2].
    { rewrite Vax. eapply Rle_lt_trans; [|exact Hb]. fold q s. assert (Rabs (rnd (val a + val x)) * q <= (1 + u) * (Rabs (val a) + Rabs (val x)) * q) by (apply Rmult_le_compat_r; lra).
      assert (0 <= s * q) by nra. nra. }
    split; [exact G1|]. rewrite Vax in G2. fold q in G2.
    replace (val (fold_left fadd l (fadd a x)) - (val a + (val x + Rsum (map val l)))) with
      ((val (fold_left fadd l (fadd a x)) - (rnd (val a + val x) + Rsum (map val l))) + (rnd (val a + val x) - (val a + val x))) by ring.
    eapply Rle_trans; [apply Rabs_triang|].
    assert (K : (q - 1) * (Rabs (rnd (val a + val x)) + s) <= (q - 1) * ((1 + u) * (Rabs (val a) + Rabs (val x)) + s)) by (apply Rmult_le_compat_l; lra).
    assert (K3 : (q - 1) * s <= ((1 + u) * q - 1) * s) by (apply Rmult_le_compat_r; [lra|nra]). nra.
Qed.
Lemma zero_fin : finite_double f_zero. Proof. split; reflexivity. Qed.
Lemma zero_val : val f_zero = 0. Proof. reflexivity. Qed.
Lemma one_fin : finite_double f_one. Proof. apply finite_check. reflexivity. Qed.
Lemma one_val : val f_one = 1. Proof. unfold val, f_one, SF2R, F2R. cbn. lra. Qed.
Lemma rep_int z : (Z.abs z <= 2 ^ 53)%Z -> representable (IZR z).
Proof.
  intros H. destruct (Z.eq_dec (Z.abs z) (2 ^ 53)) as [E|N].
  - assert (C : (z = 2 ^ 53 \/ z = - 2 ^ 53)%Z) by lia. destruct C as [->| ->].
    + change (IZR (2 ^ 53)) with (bpow radix2 53). apply generic_format_bpow; unfold FLT_exp; lia.
    + replace (IZR (- 2 ^ 53)) with (- bpow radix2 53) by (rewrite opp_IZR; reflexivity). apply rep_opp. apply generic_format_bpow; unfold FLT_exp; lia.
  - apply generic_format_FLT. exists (Float radix2 z 0); [unfold F2R; cbn; lra|cbn [Fnum]; change (radix2 ^ 53)%Z with (2 ^ 53)%Z; lia|cbn; lia].
Qed.
(** A sum of ones is the number of them. *)
Lemma count_ones n : forall k a, (Z.of_nat (n + k) <= 2 ^ 53)%Z -> finite_double a -> val a = INR k ->
  finite_double (fold_left fadd (repeat f_one n) a) /\ val (fold_left fadd (repeat f_one n) a) = INR (n + k).
Proof.
  induction n as [|n IH]; intros k a Hk Fa Va; [split; assumption|]. cbn [repeat fold_left].
  assert (Re : rnd (val a + val f_one) = INR (S k)).
  { rewrite Va, one_val, <- S_INR. rewrite INR_IZR_INZ. apply rnd_id, rep_int. lia. }
  destruct (add_rounds a f_one Fa one_fin) as [R _]. rewrite Re in R. destruct R as [F V].
  { rewrite Rabs_pos_eq by apply pos_INR. rewrite INR_IZR_INZ. eapply Rle_lt_trans; [apply IZR_le; assert (Z.of_nat (S k) <= 2 ^ 53)%Z by lia; eassumption|].
    change (IZR (2 ^ 53)) with (bpow radix2 53). apply bpow_lt. reflexivity. }
  replace (S n + k)%nat with (n + S k)%nat by lia. apply IH; [lia|assumption|assumption].
Qed.
Lemma weight_ok ts i : (Z.of_nat (length (lap_row ts i)) <= 2 ^ 53)%Z -> finite_double (weight_f ts i) /\ val (weight_f ts i) = INR (length (lap_row ts i)).
Proof.
  intros H. unfold weight_f, sum_f. pose proof (count_ones (length (lap_row ts i)) 0 f_zero) as C. rewrite Nat.add_0_r in C. apply C; [exact H|exact zero_fin|reflexivity].
Qed.

(** * One mean *)
Lemma abssum_le l M : (forall x, In x l -> Rabs (val x) <= M) -> Rabssum l <= INR (length l) * M.
Proof.
  induction l as [|x l IH]; intros H; [unfold Rabssum; cbn; lra|]. change (Rabssum (x :: l)) with (Rabs (val x) + Rabssum l).
  cbn [length]. rewrite S_INR. specialize (IH (fun y Hy => H y (or_intror Hy))). specialize (H x (or_introl eq_refl)). lra.
Qed.
Lemma mean_ok l M w : l <> [] -> Forall finite_double l -> (forall x, In x l -> Rabs (val x) <= M) -> INR (length l) * M * (1 + u) ^ (length l + 1) + 1 < huge ->
  finite_double w -> val w = INR (length l) ->
  finite_double (fdiv (sum_f l) w) /\ Rabs (val (fdiv (sum_f l) w) - Rsum (map val l) / INR (length l)) <= mean_error (length l) M.
Proof.
  intros Hne Fl HM Hb Fw Vw. pose proof u_small as U. pose proof (pow_ge1 (length l)) as P1.
  assert (N1 : 1 <= INR (length l)) by (destruct l; [congruence|]; cbn [length]; rewrite S_INR; pose proof (pos_INR (length l)); lra).
  assert (M0 : 0 <= M) by (destruct l as [|x l]; [congruence|]; pose proof (Rabs_pos (val x)); specialize (HM x (or_introl eq_refl)); lra).
  pose proof (abssum_le l M HM) as S1. rewrite Nat.add_1_r in Hb. cbn [pow] in Hb. unfold mean_error. rewrite Nat.add_1_r. cbn [pow].
  set (q := (1 + u) ^ length l) in *. set (n := INR (length l)) in *.
  assert (Hh : 0 < h75 < 1) by (split; [apply bpow_gt_0|apply (bpow_lt radix2 (-1075) 0); lia]).
  destruct (fold_sum l f_zero zero_fin Fl) as [F1 E1].
  { rewrite zero_val, Rabs_R0. fold q. eapply Rle_lt_trans; [|exact Hb]. pose proof (Rabssum_nn l). assert (0 <= n * M) by nra.
    assert (Rabssum l * q <= n * M * q) by (apply Rmult_le_compat_r; lra). assert (0 <= n * M * q) by nra. nra. }
  rewrite zero_val, Rabs_R0, !Rplus_0_l in E1. fold (sum_f l) in F1, E1. fold q in E1. set (s := val (sum_f l)) in *. set (S := Rsum (map val l)) in *.
  assert (Sb : Rabs S <= Rabssum l).
  { unfold S. clear. induction l as [|x l IH]; [unfold Rabssum; cbn; rewrite Rabs_R0; lra|].
    change (Rabssum (x :: l)) with (Rabs (val x) + Rabssum l). change (Rsum (map val (x :: l))) with (val x + Rsum (map val l)). eapply Rle_trans; [apply Rabs_triang|]. lra. }
  assert (E2 : Rabs (s - S) <= (q - 1) * (n * M)) by (eapply Rle_trans; [exact E1|apply Rmult_le_compat_l; lra]).
  assert (Bs : Rabs s <= q * (n * M)).
  { replace s with ((s - S) + S) by ring. eapply Rle_trans; [apply Rabs_triang|]. lra. }
  assert (Np : 0 < / n) by (apply Rinv_0_lt_compat; lra).
  assert (Bd : Rabs (s / n) <= q * M).
  { unfold Rdiv. rewrite Rabs_mult, (Rabs_pos_eq (/ n)) by lra. replace (q * M) with (q * (n * M) * / n) by (field; lra). apply Rmult_le_compat_r; lra. }
  pose proof (rnd_near (s / n)) as E3. change (bpow radix2 (-53)) with u in E3.
  assert (Lt : Rabs (rnd (val (sum_f l) / val w)) < huge).
  { rewrite Vw. fold n s. replace (rnd (s / n)) with ((rnd (s / n) - s / n) + s / n) by ring. eapply Rle_lt_trans; [apply Rabs_triang|].
    assert (n * M * ((1 + u) * q) + 1 >= M * ((1 + u) * q) + 1) by (assert (0 <= (1 + u) * q) by nra; assert (0 <= M * ((1 + u) * q)) by nra; nra).
    assert (u * Rabs (s / n) <= u * (q * M)) by (apply Rmult_le_compat_l; lra). nra. }
  destruct (div_rounds (sum_f l) w F1 Fw) as [F3 V3]; [rewrite Vw; fold n; lra|exact Lt|]. split; [exact F3|]. rewrite V3, Vw. fold n s.
  replace (rnd (s / n) - S / n) with ((rnd (s / n) - s / n) + (s - S) / n) by (unfold Rdiv; ring). eapply Rle_trans; [apply Rabs_triang|].
  assert (E4 : Rabs ((s - S) / n) <= (q - 1) * M).
  { unfold Rdiv. rewrite Rabs_mult, (Rabs_pos_eq (/ n)) by lra. replace ((q - 1) * M) with ((q - 1) * (n * M) * / n) by (field; lra). apply Rmult_le_compat_r; lra. }
  assert (u * Rabs (s / n) <= u * (q * M)) by (apply Rmult_le_compat_l; lra). lra.
Qed.

(** * Sweeps *)
Lemma lap_row_others ts v : Forall nondegenerate ts -> lap_row ts v = others ts v.
Proof.
  intros H. unfold lap_row, others. induction ts as [|[[a b] c] ts IH]; [reflexivity|]. inversion_clear H as [|? ? N Hr]. cbn [flat_map]. rewrite IH by assumption. f_equal.
  destruct N as (N1 & N2 & N3). cbn [corners existsb filter].
  rewrite (Nat.eqb_sym v a), (Nat.eqb_sym v b), (Nat.eqb_sym v c).
  destruct (Nat.eqb_spec a v); destruct (Nat.eqb_spec b v); destruct (Nat.eqb_spec c v); subst; try congruence; cbn; try reflexivity.
Qed.
Lemma sweep_f_length ts bnd p : length (lap_sweep_f ts bnd p) = length p.
Proof. unfold lap_sweep_f. now rewrite map_length, seq_length. Qed.
Lemma sweep_f_nth ts bnd p i : (i < length p)%nat -> nth i (lap_sweep_f ts bnd p) nan2 =
  if existsb (Nat.eqb i) bnd then row_f p i else (mean_f ts fst p i, mean_f ts snd p i).
Proof.
  intros Hi. unfold lap_sweep_f.
  match goal with |- nth i (map ?f _) _ = _ =>
    rewrite nth_indep with (d' := f 0%nat) by (rewrite map_length, seq_length; lia); rewrite (map_nth f), seq_nth by lia; reflexivity end.
Qed.
Lemma loop_f_length tol ts bnd k : forall L p, length (fst (lap_loop_f k tol ts bnd L p)) = length p.
Proof.
  induction k as [|k IH]; intros L p; cbn [lap_loop_f]; [reflexivity|]. destruct (still_f _ _ _); [apply sweep_f_length|]. rewrite IH. apply sweep_f_length.
Qed.
Lemma loop_f_kept tol ts bnd k : forall L p i, In i bnd -> (i < length p)%nat -> nth i (fst (lap_loop_f k tol ts bnd L p)) nan2 = nth i p nan2.
Proof.
  induction k as [|k IH]; intros L p i Hi Hl; cbn [lap_loop_f]; [reflexivity|].
  assert (E : nth i (lap_sweep_f ts bnd p) nan2 = nth i p nan2) by (rewrite sweep_f_nth by exact Hl; apply existsb_eqb in Hi; rewrite Hi; reflexivity).
  destruct (still_f _ _ _); [exact E|]. rewrite IH; [exact E|exact Hi|rewrite sweep_f_length; exact Hl].
Qed.
(** * The box *)
Lemma pow_above k : (Z.of_nat k <= 2 ^ 26)%Z -> (1 + u) ^ k <= 1 + INR k * u + (INR k * u) * (INR k * u).
Proof.
  pose proof u_small as U. induction k as [|k IH]; intros H; [cbn; lra|]. cbn [pow]. rewrite S_INR. specialize (IH ltac:(lia)).
  assert (B : INR k * u <= / 1000).
  { assert (INR k <= IZR (2 ^ 26)) by (rewrite INR_IZR_INZ; apply IZR_le; lia). change (IZR (2 ^ 26)) with 67108864 in *. unfold u in *. cbn in *. lra. }
  pose proof (pos_INR k) as K0. set (x := INR k) in *. assert (0 <= x * u) by nra.
  apply Rle_trans with ((1 + u) * (1 + x * u + x * u * (x * u))); [apply Rmult_le_compat_l; lra|].
  assert (x * u * (x * u) * u <= (x * u) * u) by (assert (0 <= x * u * u) by nra; nra). nra.
Qed.
Lemma pow_gamma n : (Z.of_nat (n + 2) <= 2 ^ 26)%Z -> (1 + u) ^ (n + 1) - 1 <= INR (n + 2) * u.
Proof.
  intros H. pose proof (pow_above (n + 1) ltac:(lia)) as P. rewrite (plus_INR n 2), (plus_INR n 1) in *. change (INR 1) with 1 in *. change (INR 2) with 2 in *.
  assert (B : INR n + 2 <= 67108864).
  { replace (INR n + 2) with (INR (n + 2)) by (rewrite plus_INR; reflexivity). rewrite INR_IZR_INZ. apply IZR_le. exact H. }
  pose proof (pos_INR n). set (x := INR n) in *. assert (U : u = / 9007199254740992) by (unfold u; cbn; lra). pose proof u_small.
  assert ((x + 1) * u * ((x + 1) * u) <= u); [|lra].
  replace ((x + 1) * u * ((x + 1) * u)) with (((x + 1) * (x + 1) * u) * u) by ring. rewrite <- (Rmult_1_l u) at 3. apply Rmult_le_compat_r; [lra|].
  rewrite U. assert ((x + 1) * (x + 1) <= 67108863 * 67108863) by (apply Rmult_le_compat; lra). lra.
Qed.
Lemma mean_error_le n N M : (n <= N)%nat -> (Z.of_nat (N + 2) <= 2 ^ 26)%Z -> 0 <= M -> mean_error n M <= INR (N + 2) * u * M + h75.
Proof.
  intros L H M0. unfold mean_error. assert (E : (1 + u) ^ (n + 1) - 1 <= INR (N + 2) * u).
  { eapply Rle_trans; [apply pow_gamma; lia|]. apply Rmult_le_compat_r; [pose proof u_small; lra|]. apply le_INR. lia. }
  assert (((1 + u) ^ (n + 1) - 1) * M <= INR (N + 2) * u * M) by (apply Rmult_le_compat_r; assumption). lra.
Qed.
Lemma mean_between l lo hi : l <> [] -> (forall x, In x l -> lo <= x <= hi) -> lo <= Rsum l / INR (length l) <= hi.
Proof.
  intros Hne H. assert (B : lo * INR (length l) <= Rsum l <= hi * INR (length l)).
  { clear Hne. induction l as [|x l IH]; [cbn; lra|]. specialize (IH (fun y Hy => H y (or_intror Hy))). specialize (H x (or_introl eq_refl)).
    change (Rsum (x :: l)) with (x + Rsum l). cbn [length]. rewrite S_INR. lra. }
  assert (P : 0 < INR (length l)) by (apply lt_0_INR; destruct l; [congruence|cbn; lia]).
  split; apply Rmult_le_reg_r with (INR (length l)); try exact P; unfold Rdiv; rewrite Rmult_assoc, Rinv_l by lra; lra.
Qed.
(** All coordinates finite and in a box. *)
Definition boxed_f (xlo xhi ylo yhi : R) (p : list fpoint) : Prop :=
  forall x, In x p -> finite_point x /\ xlo <= val (fst x) <= xhi /\ ylo <= val (snd x) <= yhi.
Section Box.
  Variables (ts : list tri) (bnd : list nat) (n N : nat) (xlo xhi ylo yhi M : R).
  Hypothesis Hr : Forall (in_range n) ts.
  Hypothesis Hnd : Forall nondegenerate ts.
  Hypothesis Hu : forall i, (i < n)%nat -> lap_row ts i <> [].
  Hypothesis HN : degree_atmost N n ts.
  Hypothesis HN2 : (Z.of_nat (N + 2) <= 2 ^ 26)%Z.
  Hypothesis HM : Rabs xlo <= M /\ Rabs xhi <= M /\ Rabs ylo <= M /\ Rabs yhi <= M.
  Hypothesis HMb : M <= bpow radix2 900.
  Let g := INR (N + 2) * u.
  Let D (j : nat) : R := 2 * INR j * (g * M + h75).
  Lemma box_M0 : 0 <= M. Proof. destruct HM as [H _]. pose proof (Rabs_pos xlo). lra. Qed.
  Lemma g_pos : 0 <= g <= / 1000.
  Proof.
    unfold g. pose proof u_small. pose proof (pos_INR (N + 2)). assert (INR (N + 2) <= 67108864) by (rewrite INR_IZR_INZ; apply IZR_le; exact HN2).
    split; [nra|]. unfold u in *. cbn in *. lra.
  Qed.
  Lemma D_nn j : 0 <= D j.
  Proof. unfold D. pose proof g_pos. pose proof box_M0. pose proof (pos_INR j). assert (0 < h75) by apply bpow_gt_0. assert (0 <= g * M) by nra. nra. Qed.
  Lemma D_small j : 2 * INR j * g <= 1 -> g * D j <= g * M + h75 /\ D j <= M + INR j.
  Proof.
    intros H. unfold D. pose proof g_pos. pose proof box_M0. pose proof (pos_INR j). assert (0 < h75) by apply bpow_gt_0.
    assert (0 <= g * M) by nra. split.
    - replace (g * (2 * INR j * (g * M + h75))) with ((2 * INR j * g) * (g * M + h75)) by ring. rewrite <- (Rmult_1_l (g * M + h75)) at 2. apply Rmult_le_compat_r; lra.
    - assert (2 * INR j * g * M <= 1 * M) by (apply Rmult_le_compat_r; lra). assert (h75 <= / 2).
      { change (/ 2) with (bpow radix2 (-1)). apply bpow_le. lia. }
      assert (2 * INR j * h75 <= INR j) by nra. lra.
  Qed.
  Lemma row_range i j : In j (lap_row ts i) -> (j < n)%nat.
  Proof.
    intros Hj. apply lap_row_In in Hj. destruct Hj as (t & Ht & _ & Hc). rewrite Forall_forall in Hr.
    specialize (Hr t Ht). unfold in_range in Hr. rewrite Forall_forall in Hr. exact (Hr j Hc).
  Qed.
  Lemma row_bound i : (i < n)%nat -> (length (lap_row ts i) <= N)%nat.
  Proof. intros H. rewrite lap_row_others by exact Hnd. apply HN, H. Qed.
  (** One coordinate of one sweep. *)
  Lemma coord_step (c : fpoint -> spec_float) p lo hi B i : (i < n)%nat -> length p = n -> (forall x, In x p -> finite_double (c x) /\ lo <= val (c x) <= hi) ->
    0 <= B <= bpow radix2 950 -> - B <= lo -> hi <= B ->
    finite_double (mean_f ts c p i) /\ Rabs (val (mean_f ts c p i) - mean_of c p (lap_row ts i)) <= mean_error (length (lap_row ts i)) B /\
    lo - (g * B + h75) <= val (mean_f ts c p i) <= hi + (g * B + h75).
  Proof.
    intros Hi Hn Hb HB L1 L2. unfold mean_f. set (l := map (fun j => c (row_f p j)) (lap_row ts i)).
    assert (Ll : length l = length (lap_row ts i)) by apply map_length.
    assert (Hin : forall x, In x l -> finite_double x /\ lo <= val x <= hi).
    { intros x Hx. apply in_map_iff in Hx. destruct Hx as (j & <- & Hj). apply Hb. apply nth_In. rewrite Hn. apply (row_range i j Hj). }
    assert (Hne : l <> []) by (unfold l; intro E; apply map_eq_nil in E; exact (Hu i Hi E)).
    pose proof (row_bound i Hi) as Rb.
    assert (Wl : (Z.of_nat (length (lap_row ts i)) <= 2 ^ 53)%Z) by lia.
    destruct (weight_ok ts i Wl) as [Fw Vw]. rewrite <- Ll in Vw.
    assert (Fl : Forall finite_double l) by (apply Forall_forall; intros x Hx; apply Hin; exact Hx).
    assert (Ml : forall x, In x l -> Rabs (val x) <= B) by (intros x Hx; destruct (Hin x Hx) as [_ K]; apply Rabs_le; lra).
    destruct (mean_ok l B (weight_f ts i) Hne Fl Ml) as [F E]; [|exact Fw|exact Vw|].
    { assert (P2 : (1 + u) ^ (length l + 1) <= 2).
      { pose proof (pow_gamma (length l) ltac:(lia)) as P. pose proof g_pos as G. assert (INR (length l + 2) * u <= g); [|lra].
        unfold g. apply Rmult_le_compat_r; [pose proof u_small; lra|]. apply le_INR. lia. }
      assert (Nb : INR (length l) <= bpow radix2 26) by (rewrite INR_IZR_INZ; change (bpow radix2 26) with (IZR (2 ^ 26)); apply IZR_le; lia).
      pose proof (pos_INR (length l)). pose proof (pow_ge1 (length l + 1)).
      apply Rle_lt_trans with (bpow radix2 26 * bpow radix2 950 * 2 + 1).
      - apply Rplus_le_compat_r. apply Rmult_le_compat; [nra|lra| |exact P2]. apply Rmult_le_compat; lra.
      - rewrite <- bpow_plus. change 2 with (bpow radix2 1). rewrite <- bpow_plus. change (26 + 950 + 1)%Z with 977%Z.
        assert (1 <= bpow radix2 977) by (apply (bpow_le radix2 0 977); lia). apply Rle_lt_trans with (bpow radix2 (1 + 977)).
        + rewrite bpow_plus. change (bpow radix2 1) with 2. lra.
        + unfold huge. apply bpow_lt. lia. }
    split; [exact F|]. rewrite Ll in E.
    assert (Em : Rsum (map val l) / INR (length (lap_row ts i)) = mean_of c p (lap_row ts i)).
    { unfold mean_of, l. rewrite map_map. reflexivity. }
    rewrite Em in E. split; [exact E|].
    pose proof (mean_error_le (length (lap_row ts i)) N B Rb HN2 ltac:(lra)) as E2. fold g in E2.
    assert (Mb : lo <= mean_of c p (lap_row ts i) <= hi).
    { rewrite <- Em, <- Ll, <- (map_length val l). apply mean_between; [intro Z; apply map_eq_nil in Z; exact (Hne Z)|].
      intros y Hy. apply in_map_iff in Hy. destruct Hy as (x & <- & Hx). apply Hin. exact Hx. }
    apply Rabs_le_inv in E. lra.
  Qed.
  Lemma step_box p j : length p = n -> 2 * INR j * g <= 1 -> INR j <= bpow radix2 900 -> boxed_f (xlo - D j) (xhi + D j) (ylo - D j) (yhi + D j) p ->
    boxed_f (xlo - D (S j)) (xhi + D (S j)) (ylo - D (S j)) (yhi + D (S j)) (lap_sweep_f ts bnd p).
  Proof.
    intros Hn Hj Hj2 Hb x Hx. destruct (In_nth _ _ nan2 Hx) as (i & Hi & <-). rewrite sweep_f_length in Hi. rewrite sweep_f_nth by exact Hi.
    destruct (D_small j Hj) as [Da Db]. pose proof (D_nn j) as D0. pose proof g_pos as G. pose proof box_M0 as M0. assert (H0 : 0 < h75) by apply bpow_gt_0.
    assert (ES : D (S j) = D j + 2 * (g * M + h75)) by (unfold D; rewrite S_INR; ring). assert (gM : 0 <= g * M) by nra.
    destruct (existsb (Nat.eqb i) bnd).
    - destruct (Hb (row_f p i)) as (F & X & Y); [apply nth_In; exact Hi|]. split; [exact F|]. lra.
    - destruct HM as (M1 & M2 & M3 & M4). apply Rabs_le_inv in M1, M2, M3, M4.
      assert (HB : 0 <= M + D j <= bpow radix2 950).
      { split; [lra|]. apply Rle_trans with (bpow radix2 (2 + 900)); [rewrite bpow_plus; change (bpow radix2 2) with 4; lra|apply bpow_le; lia]. }
      destruct (coord_step fst p (xlo - D j) (xhi + D j) (M + D j) i ltac:(lia) Hn) as (F1 & _ & B1); try lra; [intros y Hy; destruct (Hb y Hy) as ([Fa _] & K & _); auto|].
      destruct (coord_step snd p (ylo - D j) (yhi + D j) (M + D j) i ltac:(lia) Hn) as (F2 & _ & B2); try lra; [intros y Hy; destruct (Hb y Hy) as ([_ Fa] & _ & K); auto|].
      cbn [fst snd]. split; [split; assumption|]. lra.
  Qed.
  Lemma D_mono j k : (j <= k)%nat -> D j <= D k.
  Proof. intros H. unfold D. apply le_INR in H. pose proof g_pos. pose proof box_M0. assert (0 < h75) by apply bpow_gt_0. assert (0 <= g * M) by nra. nra. Qed.
  Lemma boxed_wider j k p : (j <= k)%nat -> boxed_f (xlo - D j) (xhi + D j) (ylo - D j) (yhi + D j) p -> boxed_f (xlo - D k) (xhi + D k) (ylo - D k) (yhi + D k) p.
  Proof. intros H B x Hx. pose proof (D_mono j k H). destruct (B x Hx) as (F & X & Y). split; [exact F|]. lra. Qed.
  Lemma loop_box tol k : forall j L p, length p = n -> 2 * INR (j + k) * g <= 1 -> INR (j + k) <= bpow radix2 900 ->
    boxed_f (xlo - D j) (xhi + D j) (ylo - D j) (yhi + D j) p ->
    boxed_f (xlo - D (j + k)) (xhi + D (j + k)) (ylo - D (j + k)) (yhi + D (j + k)) (fst (lap_loop_f k tol ts bnd L p)).
  Proof.
    induction k as [|k IH]; intros j L p Hn Hj Hj2 Hb; cbn [lap_loop_f]; [rewrite Nat.add_0_r; exact Hb|].
    assert (Le : INR j <= INR (j + S k)) by (apply le_INR; lia). pose proof g_pos.
    assert (Hb' : boxed_f (xlo - D (S j)) (xhi + D (S j)) (ylo - D (S j)) (yhi + D (S j)) (lap_sweep_f ts bnd p)) by (apply step_box; [exact Hn|nra|lra|exact Hb]).
    destruct (still_f _ _ _).
    - cbn [fst]. eapply boxed_wider; [|exact Hb']. lia.
    - replace (j + S k)%nat with (S j + k)%nat in * by lia. apply IH; [rewrite sweep_f_length; exact Hn|assumption|assumption|exact Hb'].
  Qed.
  Lemma loop_box0 tol k L p : length p = n -> 2 * INR k * g <= 1 -> INR k <= bpow radix2 900 -> boxed_f xlo xhi ylo yhi p ->
    boxed_f (xlo - D k) (xhi + D k) (ylo - D k) (yhi + D k) (fst (lap_loop_f k tol ts bnd L p)).
  Proof.
    intros Hn Hk Hk2 Hb. apply (loop_box tol k 0 L p Hn); cbn [Nat.add]; try assumption. unfold D. cbn [INR]. rewrite Rmult_0_r, Rmult_0_l, !Rminus_0_r, !Rplus_0_r. exact Hb.
  Qed.
End Box.
(** * The nearest vertex *)
Lemma rep_bp e : (-1074 <= e)%Z -> representable (bpow radix2 e).
Proof. intros H. apply generic_format_bpow. unfold FLT_exp. lia. Qed.
Lemma lt_huge e x : (e < 1024)%Z -> Rabs x <= bpow radix2 e -> Rabs x < huge.
Proof. intros H L. eapply Rle_lt_trans; [exact L|]. unfold huge. apply bpow_lt. exact H. Qed.
Lemma diff_ok e x y : (-1074 <= e < 1022)%Z -> finite_double x -> finite_double y -> Rabs (val x) <= bpow radix2 e -> Rabs (val y) <= bpow radix2 e ->
  finite_double (fsub x y) /\ val (fsub x y) = rnd (val x - val y) /\ Rabs (val (fsub x y)) <= bpow radix2 (e + 1).
Proof.
  intros He Fx Fy Hx Hy. assert (B : Rabs (val x - val y) <= bpow radix2 (e + 1)).
  { rewrite bpow_plus. change (bpow radix2 1) with 2. apply Rabs_le_inv in Hx, Hy. apply Rabs_le. lra. }
  assert (B' : Rabs (rnd (val x - val y)) <= bpow radix2 (e + 1)) by (apply rnd_abs_le; [apply rep_bp; lia|exact B]).
  destruct (sub_rounds x y Fx Fy) as [S _]. destruct S as [F V]; [apply (lt_huge (e + 1)); [lia|exact B']|]. rewrite V. auto.
Qed.
Lemma square_ok e x : (-537 <= e < 511)%Z -> finite_double x -> Rabs (val x) <= bpow radix2 e ->
  finite_double (fmul x x) /\ val (fmul x x) = rnd (val x * val x) /\ Rabs (val (fmul x x)) <= bpow radix2 (e + e).
Proof.
  intros He Fx Hx. assert (B : Rabs (val x * val x) <= bpow radix2 (e + e)).
  { rewrite Rabs_mult, bpow_plus. apply Rmult_le_compat; try apply Rabs_pos; exact Hx. }
  assert (B' : Rabs (rnd (val x * val x)) <= bpow radix2 (e + e)) by (apply rnd_abs_le; [apply rep_bp; lia|exact B]).
  destruct (mul_rounds x x Fx Fx) as [F V]; [apply (lt_huge (e + e)); [lia|exact B']|]. rewrite V. auto.
Qed.
Lemma sum_ok e x y : (-1074 <= e < 1022)%Z -> finite_double x -> finite_double y -> Rabs (val x) <= bpow radix2 e -> Rabs (val y) <= bpow radix2 e ->
  finite_double (fadd x y) /\ val (fadd x y) = rnd (val x + val y) /\ Rabs (val (fadd x y)) <= bpow radix2 (e + 1).
Proof.
  intros He Fx Fy Hx Hy. assert (B : Rabs (val x + val y) <= bpow radix2 (e + 1)).
  { rewrite bpow_plus. change (bpow radix2 1) with 2. apply Rabs_le_inv in Hx, Hy. apply Rabs_le. lra. }
  assert (B' : Rabs (rnd (val x + val y)) <= bpow radix2 (e + 1)) by (apply rnd_abs_le; [apply rep_bp; lia|exact B]).
  destruct (add_rounds x y Fx Fy) as [S _]. destruct S as [F V]; [apply (lt_huge (e + 1)); [lia|exact B']|]. rewrite V. auto.
Qed.
Definition small_point (x : fpoint) : Prop := finite_point x /\ Rabs (val (fst x)) <= bpow radix2 505 /\ Rabs (val (snd x)) <= bpow radix2 505.
Lemma moderate_small x : moderate x -> small_point x.
Proof. intros (F & A & B). assert (bpow radix2 500 <= bpow radix2 505) by (apply bpow_le; lia). split; [exact F|]. lra. Qed.
Lemma squares_ok a b : small_point a -> small_point b ->
  let dx := fsub (fst a) (fst b) in let dy := fsub (snd a) (snd b) in
  finite_double (fadd (fmul dx dx) (fmul dy dy)) /\
  val (fadd (fmul dx dx) (fmul dy dy)) = rnd (rnd (rnd (val (fst a) - val (fst b)) * rnd (val (fst a) - val (fst b))) +
                                            rnd (rnd (val (snd a) - val (snd b)) * rnd (val (snd a) - val (snd b)))).
Proof.
  intros ([A1 A2] & A3 & A4) ([B1 B2] & B3 & B4) dx dy.
  destruct (diff_ok 505 (fst a) (fst b)) as (X1 & X2 & X3); try assumption; [lia|]. fold dx in X1, X2, X3.
  destruct (diff_ok 505 (snd a) (snd b)) as (Y1 & Y2 & Y3); try assumption; [lia|]. fold dy in Y1, Y2, Y3.
  destruct (square_ok 506 dx ltac:(lia) X1 X3) as (P1 & P2 & P3). destruct (square_ok 506 dy ltac:(lia) Y1 Y3) as (Q1 & Q2 & Q3).
  destruct (sum_ok (506 + 506) (fmul dx dx) (fmul dy dy) ltac:(lia) P1 Q1 P3 Q3) as (S1 & S2 & _). split; [exact S1|]. rewrite S2, P2, Q2, X2, Y2. reflexivity.
Qed.
Lemma dist2_ok x y : small_point x -> small_point y -> finite_double (dist2_f x y) /\ val (dist2_f x y) = rdist2 x y.
Proof. intros X Y. exact (squares_ok y x Y X). Qed.
Lemma argmin_f_range l : forall i best b, (best < i)%nat -> (argmin_from_f i best b l < i + length l)%nat.
Proof.
  induction l as [|x l IH]; intros i best b H; cbn [argmin_from_f length]; [lia|].
  destruct b; try lia; destruct x; try lia; (destruct (SFltb _ _); [specialize (IH (S i) i)|specialize (IH (S i) best)];
    match goal with |- context[argmin_from_f _ _ ?c l] => specialize (IH c ltac:(lia)) end; lia).
Qed.
Lemma argmin_f_step i best b x l : finite_double b -> finite_double x ->
  argmin_from_f i best b (x :: l) = if SFltb x b then argmin_from_f (S i) i x l else argmin_from_f (S i) best b l.
Proof. intros [_ Fb] [_ Fx]. cbn [argmin_from_f]. destruct b; try discriminate; destruct x; try discriminate; reflexivity. Qed.
Lemma argmin_f_min l : forall i best b (f : nat -> spec_float), finite_double b -> Forall finite_double l -> (best < i)%nat -> f best = b ->
  (forall j, (j < i)%nat -> val b <= val (f j)) -> (forall j, (j < length l)%nat -> f (i + j)%nat = nth j l S754_nan) ->
  forall j, (j < i + length l)%nat -> val (f (argmin_from_f i best b l)) <= val (f j).
Proof.
  induction l as [|x l IH]; intros i best b f Fb Fl Hb Eb Hm Hf j Hj.
  - cbn [argmin_from_f length] in *. rewrite Eb. apply Hm. lia.
  - inversion Fl as [|? ? Fx Fl']; subst. rewrite argmin_f_step by assumption.
    assert (Ex : f i = x) by (specialize (Hf 0%nat ltac:(cbn; lia)); rewrite Nat.add_0_r in Hf; exact Hf).
    assert (Hf' : forall k, (k < length l)%nat -> f (S i + k)%nat = nth k l S754_nan) by (intros k Hk; specialize (Hf (S k) ltac:(cbn; lia)); rewrite <- plus_n_Sm in Hf; exact Hf).
    cbn [length] in Hj. destruct (SFltb x (f best)) eqn:E.
    + apply (ltb_val x (f best) Fx Fb) in E. apply IH; try assumption; try lia.
      intros k Hk. destruct (Nat.eq_dec k i) as [->|Hne]; [rewrite Ex; lra|]. specialize (Hm k ltac:(lia)). lra.
    + assert (Nlt : ~ val x < val (f best)) by (rewrite <- (ltb_val x (f best) Fx Fb), E; discriminate).
      apply IH; try assumption; try lia; try reflexivity.
      intros k Hk. destruct (Nat.eq_dec k i) as [->|Hne]; [rewrite Ex; lra|]. apply Hm. lia.
Qed.
Lemma closest_f_range x p : p <> [] -> exists i, closest_node_f x p = Ok i /\ (i < length p)%nat.
Proof.
  intros H. destruct p as [|y p]; [congruence|]. unfold closest_node_f. cbn [map]. eexists. split; [reflexivity|].
  pose proof (argmin_f_range (map (dist2_f x) p) 1 0 (dist2_f x y) ltac:(lia)) as R. rewrite map_length in R. exact R.
Qed.
Lemma closest_f_ok x p i : closest_node_f x p = Ok i -> small_point x -> Forall small_point p -> nearest_rounded x p i.
Proof.
  intros E Sx Sp. destruct p as [|y p]; [discriminate|]. destruct (closest_f_range x (y :: p) ltac:(discriminate)) as (i' & E' & Hi).
  rewrite E in E'. injection E' as <-. split; [exact Hi|]. intros j Hj. unfold closest_node_f in E. cbn [map] in E. injection E as E.
  set (f := fun k => dist2_f x (pt (y :: p) k)).
  assert (V : forall k, (k < length (y :: p))%nat -> val (f k) = rdist2 x (pt (y :: p) k)).
  { intros k Hk. apply dist2_ok; [exact Sx|]. rewrite Forall_forall in Sp. apply Sp, nth_In, Hk. }
  rewrite <- (V i Hi), <- (V j Hj), <- E. inversion Sp as [|? ? Sy Sp']; subst.
  apply (argmin_f_min (map (dist2_f x) p) 1 0 (dist2_f x y) f).
  - apply dist2_ok; assumption.
  - apply Forall_forall. intros d Hd. apply in_map_iff in Hd. destruct Hd as (z & <- & Hz). apply dist2_ok; [exact Sx|]. rewrite Forall_forall in Sp'. apply Sp', Hz.
  - lia.
  - reflexivity.
  - intros k Hk. assert (k = 0)%nat as -> by lia. apply Rle_refl.
  - intros k Hk. rewrite map_length in Hk. unfold f, pt. cbn [nth Nat.add]. rewrite (nth_indep _ S754_nan (dist2_f x nan2)) by (rewrite map_length; exact Hk). rewrite map_nth. reflexivity.
  - rewrite map_length. exact Hj.
Qed.
(** A pin at the place of a vertex keeps it if the other vertices are apart from it. *)
Lemma rdist2_same x y : same_place x y -> rdist2 x y = 0.
Proof.
  intros [A B]. unfold rdist2. rewrite A, B, !Rminus_eq_0. rewrite (rnd_id 0) by apply rep_0. rewrite Rmult_0_r, (rnd_id 0), Rplus_0_r, (rnd_id 0) by apply rep_0. reflexivity.
Qed.
Lemma rnd_nn x : 0 <= x -> 0 <= rnd x.
Proof. apply rnd_ge, rep_0. Qed.
Lemma square_far d : bpow radix2 (-500) <= Rabs d -> bpow radix2 (-1000) <= rnd (rnd d * rnd d).
Proof.
  intros H. assert (A : bpow radix2 (-500) <= Rabs (rnd d)).
  { apply abs_round_ge_generic; try typeclasses eauto; [apply rep_bp; lia|exact H]. }
  apply rnd_ge; [apply rep_bp; lia|]. replace (rnd d * rnd d) with (Rabs (rnd d) * Rabs (rnd d)) by (rewrite <- Rabs_mult; apply Rabs_pos_eq; nra).
  change (-1000)%Z with (-500 + -500)%Z. rewrite bpow_plus. assert (0 < bpow radix2 (-500)) by apply bpow_gt_0. apply Rmult_le_compat; lra.
Qed.
Lemma rdist2_apart x y : apart x y -> bpow radix2 (-1000) <= rdist2 x y.
Proof.
  intros H. unfold rdist2. apply rnd_ge; [apply rep_bp; lia|].
  set (dx := val (fst y) - val (fst x)). set (dy := val (snd y) - val (snd x)).
  assert (0 <= rnd (rnd dx * rnd dx)) by (apply rnd_nn; nra). assert (0 <= rnd (rnd dy * rnd dy)) by (apply rnd_nn; nra).
  destruct H as [H|H]; rewrite Rabs_minus_sym in H; apply square_far in H; fold dx dy in H; lra.
Qed.
Lemma nearest_same x p i k : nearest_rounded x p i -> (k < length p)%nat -> same_place x (pt p k) ->
  (forall j, (j < length p)%nat -> j <> k -> apart x (pt p j)) -> i = k.
Proof.
  intros [Hi Hm] Hk Hs Ha. destruct (Nat.eq_dec i k) as [E|E]; [exact E|]. specialize (Hm k Hk). rewrite (rdist2_same _ _ Hs) in Hm.
  pose proof (rdist2_apart x (pt p i) (Ha i Hi E)). assert (0 < bpow radix2 (-1000)) by apply bpow_gt_0. lra.
Qed.
(** * The function *)
Lemma lap_row_length ts i : (length (lap_row ts i) <= 6 * length ts)%nat.
Proof.
  induction ts as [|[[a b] c] ts IH]; [cbn; lia|]. unfold lap_row in *. cbn [flat_map]. rewrite app_length.
  assert (length ((if a =? i then [b; c] else []) ++ (if b =? i then [a; c] else []) ++ (if c =? i then [a; b] else [])) <= 6)%nat.
  { destruct (a =? i), (b =? i), (c =? i); cbn; lia. }
  cbn [length]. lia.
Qed.
Lemma not_zero w : finite_double w -> val w <> 0 -> SFeqb w f_zero = false.
Proof. intros [_ F] H. destruct w as [s|s| |s m e]; try discriminate; [exfalso; apply H; reflexivity|]. destruct s; reflexivity. Qed.
Lemma flag_eq tol k pfix p ts : all_used (length p) ts -> has_boundary ts -> pfix <> Some [] ->
  (forall i, (i < length p)%nat -> (Z.of_nat (length (lap_row ts i)) <= 2 ^ 53)%Z) ->
  exists ifix, Forall2 (fun x i => closest_node_f x p = Ok i /\ (i < length p)%nat) (pinned pfix) ifix /\
    laplacian2_flag tol k pfix p ts = Ok (lap_loop_f k tol ts (bverts ts ++ ifix) (map (edge_length_f p) (get_edges ts)) p).
Proof.
  intros Hu Hbd Hpf Hw. pose proof (all_used_range _ _ Hu) as Hr. unfold laplacian2_flag. fold (pinned pfix).
  assert (Hts : ts <> []) by (intros ->; destruct Hbd as (v & w & H); discriminate H).
  assert (Hrb : forallb (fun t => forallb (fun v => v <? length p)%nat (tri_vertices t)) ts = true) by (now apply in_rangeb_spec).
  rewrite Hrb. rewrite external_topology_ok by (rewrite ?repeat_length; auto). cbn [bind snd].
  assert (Hpne : p <> []).
  { destruct ts as [|[[a b] c] ts]; [congruence|]. intros ->. assert (a < 0)%nat; [|lia]. apply Hu. exists (a, b, c). split; simpl; auto. }
  destruct (mapM_ok (fun x => closest_node_f x p) (pinned pfix) (fun x i => closest_node_f x p = Ok i /\ (i < length p)%nat)) as (ifix & Hi & HF).
  { intros x _. destruct (closest_f_range x p Hpne) as (i & A & B). exists i. auto. }
  exists ifix. split; [exact HF|]. rewrite Hi. cbn [bind].
  assert (HW : existsb (fun i => SFeqb (weight_f ts i) f_zero) (seq 0 (length p)) = false).
  { apply not_true_iff_false. rewrite existsb_exists. intros (i & Hin & E). apply in_seq in Hin.
    assert (Hrow : lap_row ts i <> []) by (apply lap_row_used, Hu; lia). destruct (weight_ok ts i (Hw i ltac:(lia))) as [F V].
    rewrite not_zero in E; [discriminate|exact F|]. rewrite V. apply not_0_INR. intros Z. apply length_zero_iff_nil in Z. exact (Hrow Z). }
  rewrite HW. replace (match pfix with Some [] => (0 <? k)%nat | _ => false end) with false by (destruct pfix as [[|]|]; congruence). reflexivity.
Qed.
Lemma flag_points tol k pfix p ts r : laplacian2_flag tol k pfix p ts = Ok r -> laplacian2_f tol k pfix p ts = Ok (fst r, ts).
Proof. intros H. unfold laplacian2_f. rewrite H. reflexivity. Qed.
Lemma lap_f_ok tol k pfix p ts : all_used (length p) ts -> has_boundary ts -> pfix <> Some [] -> (Z.of_nat (length ts) <= 2 ^ 50)%Z ->
  exists p', laplacian2_f tol k pfix p ts = Ok (p', ts) /\ length p' = length p /\
    (forall w v, on_boundary ts w v -> pt p' v = pt p v) /\
    (forall x, In x (pinned pfix) -> exists i, (i < length p)%nat /\ pt p' i = pt p i /\ (moderate x -> Forall moderate p -> nearest_rounded x p i)).
Proof.
  intros Hu Hbd Hpf Hn. destruct (flag_eq tol k pfix p ts Hu Hbd Hpf) as (ifix & HF & E).
  { intros i _. pose proof (lap_row_length ts i). lia. }
  eexists. split; [exact (flag_points _ _ _ _ _ _ E)|]. split; [apply loop_f_length|]. split.
  - intros w v Hv. assert (Hin : In v (boundary_ends ts)) by (apply boundary_ends_In; exists w; exact Hv).
    apply loop_f_kept; [apply in_or_app; left; now apply bverts_In|]. eapply boundary_in_range; [exact (all_used_range _ _ Hu)|exact Hin].
  - intros x Hx. destruct (Forall2_In_l _ _ _ _ HF Hx) as (i & Hi & Hc & Hlt). exists i. split; [exact Hlt|]. split.
    + apply loop_f_kept; [apply in_or_app; now right|exact Hlt].
    + intros Mx Mp. apply closest_f_ok; [exact Hc|apply moderate_small; exact Mx|]. eapply Forall_impl; [|exact Mp]. exact moderate_small.
Qed.
Lemma lap_f_pinned tol k pfix p ts x v : all_used (length p) ts -> has_boundary ts -> (Z.of_nat (length ts) <= 2 ^ 50)%Z -> In x (pinned pfix) ->
  moderate x -> Forall moderate p -> (v < length p)%nat -> same_place x (pt p v) -> (forall w, (w < length p)%nat -> w <> v -> apart x (pt p w)) ->
  exists p', laplacian2_f tol k pfix p ts = Ok (p', ts) /\ pt p' v = pt p v.
Proof.
  intros Hu Hbd Hn Hx Mx Mp Hv Hs Ha. destruct (lap_f_ok tol k pfix p ts Hu Hbd) as (p' & E & _ & _ & P); [|exact Hn|].
  - intros ->. destruct Hx.
  - exists p'. split; [exact E|]. destruct (P x Hx) as (i & _ & K & N). rewrite <- (nearest_same x p i v (N Mx Mp) Hv Hs Ha). exact K.
Qed.
(** * Sweeps of finite points *)
Section Sweeps.
  Variables (ts : list tri) (bnd : list nat) (n N : nat) (M : R).
  Hypothesis Hr : Forall (in_range n) ts.
  Hypothesis Hnd : Forall nondegenerate ts.
  Hypothesis Hu : forall i, (i < n)%nat -> lap_row ts i <> [].
  Hypothesis HN : degree_atmost N n ts.
  Hypothesis HN2 : (Z.of_nat (N + 2) <= 2 ^ 26)%Z.
  Hypothesis HM0 : 0 <= M.
  Hypothesis HMb : M <= bpow radix2 900.
  Let g := INR (N + 2) * u.
  Let D (j : nat) : R := 2 * INR j * (g * M + h75).
  Lemma absM : Rabs (- M) <= M /\ Rabs M <= M /\ Rabs (- M) <= M /\ Rabs M <= M.
  Proof. rewrite Rabs_Ropp, (Rabs_pos_eq M HM0). repeat split; lra. Qed.
  Lemma step_sweep p j B : length p = n -> 2 * INR j * g <= 1 -> INR j <= bpow radix2 900 -> boxed_f (- M - D j) (M + D j) (- M - D j) (M + D j) p -> M + D j <= B ->
    sweep_step ts (fun v => In v bnd) B p (lap_sweep_f ts bnd p).
  Proof.
    intros Hn Hj Hj2 Hb HB. split; [apply sweep_f_length|]. intros v Hv. unfold pt. rewrite sweep_f_nth by exact Hv.
    destruct (existsb (Nat.eqb v) bnd) eqn:E.
    - split; [reflexivity|]. intros K. exfalso. apply K. apply existsb_exists in E. destruct E as (x & Hx & E). apply Nat.eqb_eq in E. subst x. exact Hx.
    - split; [intros K; exfalso; apply not_true_iff_false in E; apply E, existsb_exists; exists v; split; [exact K|apply Nat.eqb_refl]|]. intros _.
      destruct (D_small N (- M) M (- M) M M HN2 absM j Hj) as [_ Db]. pose proof (D_nn N (- M) M (- M) M M HN2 absM j : 0 <= D j) as D0. fold g in Db. fold (D j) in Db.
      assert (HB' : 0 <= M + D j <= bpow radix2 950).
      { split; [lra|]. apply Rle_trans with (bpow radix2 (2 + 900)); [rewrite bpow_plus; change (bpow radix2 2) with 4; lra|apply bpow_le; lia]. }
      destruct (coord_step ts n N Hr Hnd Hu HN HN2 fst p (- M - D j) (M + D j) (M + D j) v ltac:(lia) Hn) as (F1 & E1 & _); try lra; [intros y Hy; destruct (Hb y Hy) as ([Fa _] & K & _); auto|].
      destruct (coord_step ts n N Hr Hnd Hu HN HN2 snd p (- M - D j) (M + D j) (M + D j) v ltac:(lia) Hn) as (F2 & E2 & _); try lra; [intros y Hy; destruct (Hb y Hy) as ([_ Fa] & _ & K); auto|].
      rewrite (lap_row_others ts v Hnd) in *. split; [split; assumption|]. cbn [fst snd].
      assert (Le : mean_error (length (others ts v)) (M + D j) <= mean_error (length (others ts v)) B).
      { unfold mean_error. apply Rplus_le_compat_r, Rmult_le_compat_l; [pose proof (pow_ge1 (length (others ts v) + 1)); lra|exact HB]. }
      lra.
  Qed.
End Sweeps.
(** * The decision to stop *)
Lemma eps52_fin : finite_double f_eps52. Proof. apply finite_check. reflexivity. Qed.
Lemma eps52_val : val f_eps52 = bpow radix2 (-52).
Proof. unfold val, f_eps52, SF2R, F2R. cbn [cond_Zopp Fnum Fexp]. change 4503599627370496%Z with (2 ^ 52)%Z. change (IZR (2 ^ 52)) with (bpow radix2 52). rewrite <- bpow_plus. reflexivity. Qed.
Lemma sqrt_ok x : finite_double x -> 0 <= val x -> finite_double (fsqrt x) /\ val (fsqrt x) = rnd (sqrt (val x)).
Proof.
  intros F H. destruct (Rle_lt_or_eq_dec 0 (val x) H) as [P|E]; [apply sqrt_rounds; assumption|].
  assert (Z : exists s, x = S754_zero s).
  { destruct x as [s|s| |s m e]; [exists s; reflexivity|destruct F as [_ F]; discriminate F|destruct F as [_ F]; discriminate F|].
    exfalso. unfold val, SF2R in E. symmetry in E. apply eq_0_F2R in E. destruct s; discriminate E. }
  destruct Z as (s & ->). rewrite <- E, sqrt_0, (rnd_id 0) by apply rep_0. split; [split; reflexivity|reflexivity].
Qed.
Lemma edge_length_ok p e : small_point (row_f p (fst e)) -> small_point (row_f p (snd e)) ->
  finite_double (edge_length_f p e) /\ val (edge_length_f p e) = length_of (pt p (fst e)) (pt p (snd e)) /\ bpow radix2 (-52) <= val (edge_length_f p e) <= bpow radix2 510.
Proof.
  intros A B. unfold edge_length_f. destruct (squares_ok _ _ A B) as [F V].
  set (s := fadd _ _) in *. set (r := rnd (rnd _ + rnd _)) in V.
  assert (P : 0 <= val s).
  { rewrite V. unfold r. apply rnd_nn. apply Rplus_le_le_0_compat; apply rnd_nn; apply Rle_0_sqr. }
  destruct (sqrt_ok s F P) as [F' V']. rewrite V in V'.
  assert (U : rnd (sqrt r) <= bpow radix2 510).
  { rewrite <- (rnd_id (bpow radix2 510)) by (apply rep_bp; lia). apply rnd_le. replace (bpow radix2 510) with (sqrt (bpow radix2 1020)).
    - apply sqrt_le_1_alt. unfold r. destruct A as (_ & A3 & A4), B as (_ & B3 & B4).
      apply Rle_trans with (rnd (bpow radix2 1012 + bpow radix2 1012)).
      + apply rnd_le. assert (G : forall x y, Rabs x <= bpow radix2 505 -> Rabs y <= bpow radix2 505 -> rnd (rnd (x - y) * rnd (x - y)) <= bpow radix2 1012); [|apply Rplus_le_compat; apply G; assumption].
        intros x y Hx Hy. assert (Q : Rabs (rnd (x - y)) <= bpow radix2 506).
        { apply rnd_abs_le; [apply rep_bp; lia|]. change 506%Z with (505 + 1)%Z. rewrite bpow_plus. change (bpow radix2 1) with 2. apply Rabs_le_inv in Hx, Hy. apply Rabs_le. lra. }
        rewrite <- (rnd_id (bpow radix2 1012)) by (apply rep_bp; lia). apply rnd_le. change 1012%Z with (506 + 506)%Z. rewrite bpow_plus.
        apply Rle_trans with (Rabs (rnd (x - y)) * Rabs (rnd (x - y))); [rewrite <- Rabs_mult; apply Rle_abs|]. apply Rmult_le_compat; try apply Rabs_pos; exact Q.
      + replace (bpow radix2 1012 + bpow radix2 1012) with (bpow radix2 (1012 + 1)) by (rewrite bpow_plus; change (bpow radix2 1) with 2; ring).
        rewrite rnd_id by (apply rep_bp; lia). apply bpow_le. lia.
    - replace (bpow radix2 1020) with (bpow radix2 510 * bpow radix2 510) by (rewrite <- bpow_plus; reflexivity). apply sqrt_square. apply bpow_ge_0. }
  assert (E : length_of (pt p (fst e)) (pt p (snd e)) = Rmax (bpow radix2 (-52)) (rnd (sqrt r))) by reflexivity.
  assert (K : bpow radix2 (-52) <= bpow radix2 510) by (apply bpow_le; lia).
  destruct (SFltb (fsqrt s) f_eps52) eqn:C.
  - apply (ltb_val _ _ F' eps52_fin) in C. rewrite V', eps52_val in C. rewrite eps52_val. split; [exact eps52_fin|]. split; [rewrite E, Rmax_left by lra; reflexivity|lra].
  - assert (C' : ~ val (fsqrt s) < val f_eps52) by (rewrite <- (ltb_val _ _ F' eps52_fin), C; discriminate). rewrite V', eps52_val in C'.
    split; [exact F'|]. split; [rewrite E, Rmax_right by lra; exact V'|]. rewrite V'. lra.
Qed.
Lemma move_ok l l' : finite_double l -> finite_double l' -> bpow radix2 (-52) <= val l <= bpow radix2 510 -> bpow radix2 (-52) <= val l' <= bpow radix2 510 ->
  finite_double (fdiv (fsub l' l) l') /\ val (fdiv (fsub l' l) l') = rnd (rnd (val l' - val l) / val l').
Proof.
  intros F F' [H1 H2] [H1' H2']. assert (P : 0 < bpow radix2 (-52)) by apply bpow_gt_0.
  assert (A : Rabs (val l) <= bpow radix2 510) by (apply Rabs_le; lra). assert (A' : Rabs (val l') <= bpow radix2 510) by (apply Rabs_le; lra).
  destruct (diff_ok 510 l' l ltac:(lia) F' F A' A) as (D1 & D2 & D3). rewrite <- D2. apply div_rounds; try assumption; [lra|].
  apply (lt_huge (511 + 52)); [lia|]. apply rnd_abs_le; [apply rep_bp; lia|]. unfold Rdiv. rewrite Rabs_mult, bpow_plus. apply Rmult_le_compat; try apply Rabs_pos; [exact D3|].
  rewrite Rabs_pos_eq by (left; apply Rinv_0_lt_compat; lra). replace (bpow radix2 52) with (/ bpow radix2 (-52)) by (rewrite <- bpow_opp; reflexivity). apply Rinv_le; assumption.
Qed.
Lemma amax2_fin a b : finite_double a -> finite_double b -> finite_double (amax2_f a b) /\ val a <= val (amax2_f a b) /\ val b <= val (amax2_f a b).
Proof.
  intros Fa Fb. assert (E : amax2_f a b = if SFltb a b then b else a) by (destruct Fa as [_ Fa], Fb as [_ Fb]; destruct a; try discriminate; destruct b; try discriminate; reflexivity).
  rewrite E. destruct (SFltb a b) eqn:C.
  - apply (ltb_val a b Fa Fb) in C. split; [exact Fb|]. lra.
  - assert (~ val a < val b) by (rewrite <- (ltb_val a b Fa Fb), C; discriminate). split; [exact Fa|]. lra.
Qed.
Lemma amax_fin l : l <> [] -> Forall finite_double l -> finite_double (amax_f l) /\ forall x, In x l -> val x <= val (amax_f l).
Proof.
  destruct l as [|x l]; [congruence|]. intros _ H. inversion H as [|? ? Fx Fl]; subst. unfold amax_f, fcol. clear H. revert x Fx.
  induction l as [|y l IH]; intros x Fx; cbn [fold_left].
  - split; [exact Fx|]. intros z [->|[]]. apply Rle_refl.
  - inversion Fl as [|? ? Fy Fl']; subst. destruct (amax2_fin x y Fx Fy) as (F & A & B). destruct (IH Fl' _ F) as [G Hm]. split; [exact G|].
    pose proof (Hm _ (or_introl eq_refl)) as H0. intros z [->|[->|Hz]]; [lra|lra|]. apply Hm. right. exact Hz.
Qed.
Lemma edges_corners ts e : In e (get_edges ts) -> exists t, In t ts /\ In (fst e) (corners t) /\ In (snd e) (corners t).
Proof.
  intros H. apply in_flat_map in H. destruct H as ([[a b] c] & Ht & H). exists (a, b, c). split; [exact Ht|].
  destruct H as [<-|[<-|[<-|[]]]]; cbn; tauto.
Qed.
Lemma corners_edges (ts : list tri) t a b : In t ts -> In a (corners t) -> In b (corners t) -> a <> b -> In (a, b) (get_edges ts) \/ In (b, a) (get_edges ts).
Proof.
  intros Ht Ha Hb Hne. destruct t as [[x y] z].
  assert (I : forall e, In e [(x, y); (x, z); (y, z)] -> In e (get_edges ts)) by (intros e He; apply in_flat_map; exists (x, y, z); split; assumption).
  cbn in Ha, Hb. destruct Ha as [<-|[<-|[<-|[]]]], Hb as [<-|[<-|[<-|[]]]]; try congruence; ((left; apply I; cbn; tauto) || (right; apply I; cbn; tauto)).
Qed.
Lemma rnd_sub_sq x y : rnd (x - y) * rnd (x - y) = rnd (y - x) * rnd (y - x).
Proof. replace (y - x) with (- (x - y)) by ring. rewrite rnd_opp. ring. Qed.
Lemma length_sym x y : length_of x y = length_of y x.
Proof. unfold length_of. rewrite (rnd_sub_sq (val (fst x))), (rnd_sub_sq (val (snd x))). reflexivity. Qed.
Lemma still_ok tol ts p q : finite_double tol -> (forall t v, In t ts -> In v (corners t) -> small_point (pt p v) /\ small_point (pt q v)) ->
  still_f tol (map (edge_length_f p) (get_edges ts)) (map (edge_length_f q) (get_edges ts)) = true -> grew_less ts (val tol) p q.
Proof.
  intros Ft Hs H.
  assert (Hlen : forall e, In e (get_edges ts) ->
    (finite_double (edge_length_f p e) /\ val (edge_length_f p e) = length_of (pt p (fst e)) (pt p (snd e)) /\ bpow radix2 (-52) <= val (edge_length_f p e) <= bpow radix2 510) /\
    (finite_double (edge_length_f q e) /\ val (edge_length_f q e) = length_of (pt q (fst e)) (pt q (snd e)) /\ bpow radix2 (-52) <= val (edge_length_f q e) <= bpow radix2 510)).
  { intros e He. destruct (edges_corners ts e He) as (t & Ht & H1 & H2). destruct (Hs t _ Ht H1), (Hs t _ Ht H2). split; apply edge_length_ok; assumption. }
  unfold still_f in H. set (mv := fun ll : spec_float * spec_float => fdiv (fsub (snd ll) (fst ll)) (snd ll)) in H.
  assert (E : map mv (combine (map (edge_length_f p) (get_edges ts)) (map (edge_length_f q) (get_edges ts))) = map (fun e => mv (edge_length_f p e, edge_length_f q e)) (get_edges ts)).
  { clear. induction (get_edges ts) as [|e l IH]; [reflexivity|]. cbn [map combine]. rewrite IH. reflexivity. }
  rewrite E in H. clear E.
  assert (Fm : forall e, In e (get_edges ts) -> finite_double (mv (edge_length_f p e, edge_length_f q e)) /\
    val (mv (edge_length_f p e, edge_length_f q e)) = rnd (rnd (length_of (pt q (fst e)) (pt q (snd e)) - length_of (pt p (fst e)) (pt p (snd e))) / length_of (pt q (fst e)) (pt q (snd e)))).
  { intros e He. destruct (Hlen e He) as ((A1 & A2 & A3) & (B1 & B2 & B3)). rewrite <- A2, <- B2. apply move_ok; assumption. }
  assert (G : forall e, In e (get_edges ts) -> rnd (length_of (pt q (fst e)) (pt q (snd e)) - length_of (pt p (fst e)) (pt p (snd e))) < val tol * length_of (pt q (fst e)) (pt q (snd e))).
  { intros e He. destruct (amax_fin (map (fun e => mv (edge_length_f p e, edge_length_f q e)) (get_edges ts))) as [Fa Ha].
    - destruct (get_edges ts); [destruct He|discriminate].
    - apply Forall_forall. intros x Hx. apply in_map_iff in Hx. destruct Hx as (e' & <- & He'). apply Fm. exact He'.
    - apply (ltb_val _ _ Fa Ft) in H. specialize (Ha _ (in_map (fun e => mv (edge_length_f p e, edge_length_f q e)) _ _ He)). destruct (Fm e He) as [_ V]. rewrite V in Ha.
      destruct (Hlen e He) as (_ & (_ & B2 & B3 & _)). rewrite B2 in B3. assert (P : 0 < length_of (pt q (fst e)) (pt q (snd e))) by (pose proof (bpow_gt_0 radix2 (-52)); lra).
      set (l' := length_of (pt q (fst e)) (pt q (snd e))) in *. set (d := rnd (l' - _)) in *.
      destruct (Rlt_le_dec d (val tol * l')) as [L|L]; [exact L|exfalso].
      assert (K : val tol <= d / l') by (apply Rmult_le_reg_r with l'; [exact P|]; unfold Rdiv; rewrite Rmult_assoc, Rinv_l by lra; lra).
      pose proof (rnd_ge (val tol) (d / l') (format_val tol Ft) K). lra. }
  intros t a b Ht Ha Hb Hne. destruct (corners_edges ts t a b Ht Ha Hb Hne) as [I|I]; [exact (G _ I)|]. specialize (G _ I). cbn [fst snd] in G.
  rewrite (length_sym (pt q a)), (length_sym (pt p a)). exact G.
Qed.
Section Loop.
  Variables (ts : list tri) (bnd : list nat) (n N : nat) (M : R) (tol : spec_float).
  Hypothesis Hr : Forall (in_range n) ts.
  Hypothesis Hnd : Forall nondegenerate ts.
  Hypothesis Hu : forall i, (i < n)%nat -> lap_row ts i <> [].
  Hypothesis HN : degree_atmost N n ts.
  Hypothesis HN2 : (Z.of_nat (N + 2) <= 2 ^ 26)%Z.
  Hypothesis HM0 : 0 <= M.
  Hypothesis HMb : M <= bpow radix2 500.
  Hypothesis Ft : finite_double tol.
  Let g := INR (N + 2) * u.
  Let D (j : nat) : R := 2 * INR j * (g * M + h75).
  Lemma few_sweeps j : 2 * INR j * g <= 1 -> INR j <= bpow radix2 51.
  Proof.
    intros H. pose proof (pos_INR j). assert (G : bpow radix2 (-52) <= g).
    { unfold g. rewrite plus_INR. change (INR 2) with 2. pose proof (pos_INR N). change (bpow radix2 (-52)) with (bpow radix2 (1 + -53)). rewrite bpow_plus. fold u. change (bpow radix2 1) with 2. pose proof u_small. nra. }
    apply Rmult_le_reg_r with (2 * bpow radix2 (-52)); [pose proof (bpow_gt_0 radix2 (-52)); lra|].
    replace (bpow radix2 51 * (2 * bpow radix2 (-52))) with 1.
    - apply Rle_trans with (2 * INR j * g); [|exact H]. replace (INR j * (2 * bpow radix2 (-52))) with (2 * INR j * bpow radix2 (-52)) by ring. apply Rmult_le_compat_l; lra.
    - change 2 with (bpow radix2 1). rewrite <- !bpow_plus. reflexivity.
  Qed.
  Lemma boxed_small p j : 2 * INR j * g <= 1 -> boxed_f (- M - D j) (M + D j) (- M - D j) (M + D j) p -> forall x, In x p -> small_point x.
  Proof.
    intros Hj Hb x Hx. destruct (Hb x Hx) as (F & X & Y). split; [exact F|].
    destruct (D_small N (- M) M (- M) M M HN2 (absM M HM0) j Hj) as [_ Db]. fold g in Db. fold (D j) in Db. pose proof (few_sweeps j Hj).
    assert (bpow radix2 51 <= bpow radix2 500) by (apply bpow_le; lia). assert (M + D j <= bpow radix2 505).
    { apply Rle_trans with (bpow radix2 (2 + 500)); [rewrite bpow_plus; change (bpow radix2 2) with 4; lra|apply bpow_le; lia]. }
    split; apply Rabs_le; lra.
  Qed.
  Lemma loop_sweeps k : forall j p, length p = n -> 2 * INR (j + k) * g <= 1 -> boxed_f (- M - D j) (M + D j) (- M - D j) (M + D j) p ->
    let r := lap_loop_f k tol ts bnd (map (edge_length_f p) (get_edges ts)) p in let B := M + D (j + k) in
    (snd r = false /\ sweeps ts (fun v => In v bnd) B k p (fst r)) \/
    (snd r = true /\ exists i q, (i < k)%nat /\ sweeps ts (fun v => In v bnd) B i p q /\ sweep_step ts (fun v => In v bnd) B q (fst r) /\ grew_less ts (val tol) q (fst r)).
  Proof.
    induction k as [|k IH]; intros j p Hn Hj Hb; cbn zeta; cbn [lap_loop_f]; [left; split; [reflexivity|constructor]|].
    assert (HM9 : M <= bpow radix2 900) by (eapply Rle_trans; [exact HMb|apply bpow_le; lia]).
    pose proof (g_pos N HN2) as G. fold g in G. assert (Le : INR j <= INR (j + S k)) by (apply le_INR; lia). assert (Hj1 : 2 * INR j * g <= 1) by nra.
    assert (Hj9 : INR j <= bpow radix2 900) by (eapply Rle_trans; [apply few_sweeps; exact Hj1|apply bpow_le; lia]).
    assert (Mon : M + D j <= M + D (j + S k)) by (apply Rplus_le_compat_l, (D_mono N (- M) M (- M) M M HN2 (absM M HM0)); lia).
    pose proof (step_sweep ts bnd n N M Hr Hnd Hu HN HN2 HM0 HM9 p j (M + D (j + S k)) Hn Hj1 Hj9 Hb Mon) as St.
    assert (Hb' : boxed_f (- M - D (S j)) (M + D (S j)) (- M - D (S j)) (M + D (S j)) (lap_sweep_f ts bnd p)).
    { apply (step_box ts bnd n N (- M) M (- M) M M Hr Hnd Hu HN HN2 (absM M HM0) HM9); assumption. }
    destruct (still_f tol _ _) eqn:E.
    - right. split; [reflexivity|]. exists 0%nat, p. split; [lia|]. split; [constructor|]. split; [exact St|]. cbn [fst].
      apply still_ok; [exact Ft| |exact E]. intros t v Ht Hv. assert (Hlt : (v < n)%nat) by (rewrite Forall_forall in Hr; specialize (Hr t Ht); unfold in_range in Hr; rewrite Forall_forall in Hr; exact (Hr v Hv)).
      split; [apply (boxed_small p j Hj1 Hb), nth_In; lia|]. apply (boxed_small _ (S j)) with (2 := Hb'); [|apply nth_In; rewrite sweep_f_length; lia].
      assert (INR (S j) <= INR (j + S k)) by (apply le_INR; lia). nra.
    - replace (j + S k)%nat with (S j + k)%nat in * by lia. specialize (IH (S j) (lap_sweep_f ts bnd p)). rewrite sweep_f_length in IH. specialize (IH Hn Hj Hb'). cbn zeta in IH.
      destruct IH as [[E1 E2]|(E1 & i & q & Hi & E2 & E3 & E4)].
      + left. split; [exact E1|]. econstructor; [exact St|exact E2].
      + right. split; [exact E1|]. exists (S i), q. split; [lia|]. split; [econstructor; [exact St|exact E2]|]. split; assumption.
  Qed.
End Loop.
Lemma step_kept ts K K' B p q : (forall v, K v <-> K' v) -> sweep_step ts K B p q -> sweep_step ts K' B p q.
Proof. intros H [L S]. split; [exact L|]. intros v Hv. destruct (S v Hv) as [A C]. rewrite H in A. rewrite H in C. split; assumption. Qed.
Lemma sweeps_kept ts K K' B j p q : (forall v, K v <-> K' v) -> sweeps ts K B j p q -> sweeps ts K' B j p q.
Proof. intros H S. induction S as [|j p q r S1 S2 IH]; econstructor; [eapply step_kept; eassumption|exact IH]. Qed.
Lemma kept_in ts (pins : list nat) v : In v (bverts ts ++ pins) <-> stays ts pins v.
Proof.
  rewrite in_app_iff. unfold stays. rewrite bverts_In. rewrite boundary_ends_In. reflexivity.
Qed.
Lemma lap_f_sweeps tol k pfix p ts N M : all_used (length p) ts -> has_boundary ts -> pfix <> Some [] -> Forall nondegenerate ts -> degree_atmost N (length p) ts ->
  (Z.of_nat (N + 2) <= 2 ^ 26)%Z -> 2 * INR k * (INR (N + 2) * u) <= 1 -> bounded_points M p -> 0 <= M <= bpow radix2 500 -> Forall moderate (pinned pfix) -> finite_double tol ->
  exists pins p' flag, laplacian2_flag tol k pfix p ts = Ok (p', flag) /\ laplacian2_f tol k pfix p ts = Ok (p', ts) /\ Forall2 (fun x i => nearest_rounded x p i) (pinned pfix) pins /\
    let B := M + drift N k M in
    (flag = false /\ sweeps ts (stays ts pins) B k p p' \/
     flag = true /\ exists i q, (i < k)%nat /\ sweeps ts (stays ts pins) B i p q /\ sweep_step ts (stays ts pins) B q p' /\ grew_less ts (val tol) q p').
Proof.
  intros Hu Hbd Hpf Hnd HN HN2 Hk Hp [HM0 HMb] Mp Ft. pose proof (all_used_range _ _ Hu) as Hr.
  destruct (flag_eq tol k pfix p ts Hu Hbd Hpf) as (ifix & HF & E).
  { intros i Hi. rewrite lap_row_others by exact Hnd. specialize (HN i Hi). lia. }
  set (r := lap_loop_f _ _ _ _ _ _) in E. exists ifix, (fst r), (snd r). split; [rewrite E; destruct r; reflexivity|]. split; [exact (flag_points _ _ _ _ _ _ E)|].
  assert (Mp' : Forall small_point p).
  { apply Forall_forall. intros x Hx. apply moderate_small. unfold bounded_points in Hp. rewrite Forall_forall in Hp. destruct (Hp x Hx) as (F & A & B). split; [exact F|]. lra. }
  split.
  { clear - HF Mp Mp'. induction HF as [|x i l l' [H1 _] H2 IH]; constructor.
    - inversion Mp; subst. apply closest_f_ok; [exact H1|apply moderate_small; assumption|exact Mp'].
    - inversion Mp; subst. apply IH. assumption. }
  cbn zeta. assert (Hrow : forall i, (i < length p)%nat -> lap_row ts i <> []) by (intros i Hlt; apply lap_row_used, Hu, Hlt).
  assert (Hb : boxed_f (- M - 2 * INR 0 * (INR (N + 2) * u * M + h75)) (M + 2 * INR 0 * (INR (N + 2) * u * M + h75)) (- M - 2 * INR 0 * (INR (N + 2) * u * M + h75)) (M + 2 * INR 0 * (INR (N + 2) * u * M + h75)) p).
  { cbn [INR]. rewrite Rmult_0_r, Rmult_0_l, Rminus_0_r, Rplus_0_r. intros x Hx. unfold bounded_points in Hp. rewrite Forall_forall in Hp. destruct (Hp x Hx) as (F & A & B). apply Rabs_le_inv in A, B. split; [exact F|]. lra. }
  destruct (loop_sweeps ts (bverts ts ++ ifix) (length p) N M tol Hr Hnd Hrow HN HN2 HM0 HMb Ft k 0 p eq_refl Hk Hb) as [[E1 E2]|(E1 & i & q & Hi & E2 & E3 & E4)]; fold r in E1, E2.
  - left. split; [exact E1|]. eapply sweeps_kept; [apply kept_in|exact E2].
  - right. fold r in E3, E4. split; [exact E1|]. exists i, q. split; [exact Hi|]. split; [eapply sweeps_kept; [apply kept_in|exact E2]|]. split; [eapply step_kept; [apply kept_in|exact E3]|exact E4].
Qed.
Lemma lap_f_box tol k pfix p ts N xlo xhi ylo yhi M : all_used (length p) ts -> has_boundary ts -> pfix <> Some [] -> Forall nondegenerate ts -> degree_atmost N (length p) ts ->
  (Z.of_nat (N + 2) <= 2 ^ 26)%Z -> 2 * INR k * (INR (N + 2) * u) <= 1 -> (forall x, In x p -> S_Ieee.within xlo xhi (fst x) /\ S_Ieee.within ylo yhi (snd x)) ->
  Rabs xlo <= M -> Rabs xhi <= M -> Rabs ylo <= M -> Rabs yhi <= M -> M <= bpow radix2 900 ->
  exists p', laplacian2_f tol k pfix p ts = Ok (p', ts) /\
    forall x, In x p' -> S_Ieee.within (xlo - drift N k M) (xhi + drift N k M) (fst x) /\ S_Ieee.within (ylo - drift N k M) (yhi + drift N k M) (snd x).
Proof.
  intros Hu Hbd Hpf Hnd HN HN2 Hk Hp M1 M2 M3 M4 HMb. pose proof (all_used_range _ _ Hu) as Hr.
  destruct (flag_eq tol k pfix p ts Hu Hbd Hpf) as (ifix & HF & E).
  { intros i Hi. rewrite lap_row_others by exact Hnd. specialize (HN i Hi). lia. }
  eexists. split; [exact (flag_points _ _ _ _ _ _ E)|].
  assert (Hrow : forall i, (i < length p)%nat -> lap_row ts i <> []) by (intros i Hlt; apply lap_row_used, Hu, Hlt).
  assert (Hk9 : INR k <= bpow radix2 900) by (eapply Rle_trans; [apply (few_sweeps N k Hk)|apply bpow_le; lia]).
  pose proof (loop_box0 ts (bverts ts ++ ifix) (length p) N xlo xhi ylo yhi M Hr Hnd Hrow HN HN2 (conj M1 (conj M2 (conj M3 M4))) HMb tol k (map (edge_length_f p) (get_edges ts)) p eq_refl Hk Hk9) as B.
  assert (B0 : boxed_f xlo xhi ylo yhi p) by (intros x Hx; destruct (Hp x Hx) as ((F1 & X) & (F2 & Y)); split; [split; assumption|split; assumption]).
  intros x Hx. destruct (B B0 x Hx) as ([F1 F2] & X & Y). split; (split; [assumption|]); unfold drift; assumption.
Qed.
(** * Witnesses *)
(** A thin wheel: half of the rim at 0.1, half at the double below; the hub goes to the double above 0.1. *)
Definition thin_p : list fpoint := [((S754_finite false 7205759403792794 (-56)), f_zero); ((S754_finite false 7205759403792794 (-56)), (S754_finite true 4503599627370496 (-51))); ((S754_finite false 7205759403792794 (-56)), (S754_finite true 4503599627370496 (-52))); ((S754_finite false 7205759403792794 (-56)), (S754_finite false 4503599627370496 (-52))); ((S754_finite false 7205759403792794 (-56)), (S754_finite false 4503599627370496 (-51))); ((S754_finite false 7205759403792793 (-56)), (S754_finite false 4503599627370496 (-51))); ((S754_finite false 7205759403792793 (-56)), (S754_finite false 4503599627370496 (-52))); ((S754_finite false 7205759403792793 (-56)), (S754_finite true 4503599627370496 (-52))); ((S754_finite false 7205759403792793 (-56)), (S754_finite true 4503599627370496 (-51)))].
Definition thin_t : list tri := [(0, 1, 2); (0, 2, 3); (0, 3, 4); (0, 4, 5); (0, 5, 6); (0, 6, 7); (0, 7, 8); (0, 8, 1)]%nat.
(** A hub and three rim vertices (100, -1), (0, 30), (-100, -1). *)
Definition hub_p : list fpoint := [(f_zero, f_zero); ((S754_finite false 7036874417766400 (-46)), (S754_finite true 4503599627370496 (-52))); (f_zero, (S754_finite false 8444249301319680 (-48))); ((S754_finite true 7036874417766400 (-46)), (S754_finite true 4503599627370496 (-52)))].
Definition hub_t : list tri := [(0, 1, 2); (0, 2, 3); (0, 3, 1)]%nat.
(** The default tolerance 0.01. *)
Definition tol_001 : spec_float := (S754_finite false 5764607523034235 (-59)).

Lemma thin_used : all_used (length thin_p) thin_t.
Proof.
  intros v. split.
  - intros H. cbn in H. destruct v as [|v]; [exists (0, 1, 2)%nat; cbn; tauto|].
    destruct v as [|v]; [exists (0, 1, 2)%nat; cbn; tauto|]. destruct v as [|v]; [exists (0, 1, 2)%nat; cbn; tauto|].
    destruct v as [|v]; [exists (0, 3, 4)%nat; cbn; tauto|]. destruct v as [|v]; [exists (0, 3, 4)%nat; cbn; tauto|].
    destruct v as [|v]; [exists (0, 5, 6)%nat; cbn; tauto|]. destruct v as [|v]; [exists (0, 5, 6)%nat; cbn; tauto|].
    destruct v as [|v]; [exists (0, 7, 8)%nat; cbn; tauto|]. destruct v as [|v]; [exists (0, 7, 8)%nat; cbn; tauto|]. lia.
  - intros (t & Ht & H). cbn in Ht. decompose [or] Ht; subst; cbn in *; try contradiction; lia.
Qed.
Lemma hub_used : all_used (length hub_p) hub_t.
Proof.
  intros v. split.
  - intros H. cbn in H. destruct v as [|v]; [exists (0, 1, 2)%nat; cbn; tauto|].
    destruct v as [|v]; [exists (0, 1, 2)%nat; cbn; tauto|]. destruct v as [|v]; [exists (0, 1, 2)%nat; cbn; tauto|].
    destruct v as [|v]; [exists (0, 2, 3)%nat; cbn; tauto|]. lia.
  - intros (t & Ht & H). cbn in Ht. decompose [or] Ht; subst; cbn in *; try contradiction; lia.
Qed.
Lemma thin_boundary : has_boundary thin_t. Proof. exists 1%nat, 2%nat. reflexivity. Qed.
Lemma hub_boundary : has_boundary hub_t. Proof. exists 1%nat, 2%nat. reflexivity. Qed.
Lemma all_finite (p : list fpoint) : forallb (fun x => valid_binary 53 1024 (fst x) && is_finite_SF (fst x) && valid_binary 53 1024 (snd x) && is_finite_SF (snd x)) p = true -> Forall finite_point p.
Proof.
  intros H. rewrite forallb_forall in H. apply Forall_forall. intros x Hx. specialize (H x Hx). rewrite !andb_true_iff in H. destruct H as (((A & B) & C) & D). split; split; assumption.
Qed.
(** Rounding moves the hub out of the box of the mesh. *)
Lemma lap_f_leaves : exists tol p ts, all_used (length p) ts /\ has_boundary ts /\ Forall nondegenerate ts /\ Forall finite_point p /\
  exists p' x, laplacian2_f tol 1 None p ts = Ok (p', ts) /\ In x p' /\ forall y, In y p -> val (fst y) < val (fst x).
Proof.
  exists tol_001, thin_p, thin_t. split; [exact thin_used|]. split; [exact thin_boundary|]. split; [repeat constructor; lia|]. split; [apply all_finite; reflexivity|].
  eexists. eexists. split; [vm_compute; reflexivity|]. split; [left; reflexivity|].
  intros y Hy. cbn in Hy. decompose [or] Hy; subst; try contradiction; unfold val, SF2R, F2R; cbn; lra.
Qed.
(** The loop stops at the default tolerance although an edge lost more than a quarter of its length. *)
Lemma lap_f_shrinks : exists p ts, all_used (length p) ts /\ has_boundary ts /\ Forall nondegenerate ts /\ Forall moderate p /\
  exists p' t a b, laplacian2_flag tol_001 20 None p ts = Ok (p', true) /\ In t ts /\ In a (corners t) /\ In b (corners t) /\ a <> b /\
    length_of (pt p' a) (pt p' b) < 3 / 4 * length_of (pt p a) (pt p b).
Proof.
  exists hub_p, hub_t. split; [exact hub_used|]. split; [exact hub_boundary|]. split; [repeat constructor; lia|].
  assert (K : 1000 <= bpow radix2 500) by (apply Rle_trans with (bpow radix2 10); [cbn; lra|apply bpow_le; lia]).
  assert (Sm : forall x, In x hub_p -> moderate x).
  { intros x Hx. split; [revert x Hx; apply Forall_forall, all_finite; reflexivity|].
    cbn in Hx. decompose [or] Hx; subst; try contradiction; unfold val, SF2R, F2R; cbn; split; apply Rabs_le; lra. }
  split; [apply Forall_forall; exact Sm|].
  assert (Q : exists q, laplacian2_flag tol_001 20 None hub_p hub_t = Ok (q, true) /\
    (Forall finite_point [row_f q 0; row_f q 2] /\ forall x, In x [row_f q 0; row_f q 2] -> Rabs (val (fst x)) <= 1000 /\ Rabs (val (snd x)) <= 1000) /\
    exists d, edge_length_f q (0, 2)%nat = d /\ val d < 21).
  { eexists. split; [vm_compute; reflexivity|]. split; [split|].
    - apply all_finite. vm_compute. reflexivity.
    - intros x [<-|[<-|[]]]; cbn [row_f nth fst snd]; unfold val, SF2R, F2R; cbn [cond_Zopp Fnum Fexp bpow]; split; apply Rabs_le; cbn; lra.
    - eexists. split; [vm_compute; reflexivity|]. unfold val, SF2R, F2R. cbn. lra. }
  destruct Q as (q & E & (F & B) & (d1 & X1 & X)).
  assert (S0 : forall x, In x [row_f q 0; row_f q 2] -> small_point x).
  { intros x Hx. rewrite Forall_forall in F. specialize (F x Hx). specialize (B x Hx). apply moderate_small. split; [exact F|]. lra. }
  exists q, (0, 1, 2)%nat, 0%nat, 2%nat. split; [exact E|]. split; [cbn; tauto|]. split; [cbn; tauto|]. split; [cbn; tauto|]. split; [discriminate|].
  destruct (edge_length_ok q (0, 2)%nat) as (_ & V1 & _); [apply S0; left; reflexivity|apply S0; right; left; reflexivity|].
  destruct (edge_length_ok hub_p (0, 2)%nat) as (_ & V2 & _); [apply moderate_small, Sm; left; reflexivity|apply moderate_small, Sm; right; right; left; reflexivity|].
  cbn [fst snd] in V1, V2. rewrite <- V1, <- V2.
  assert (Y : exists d, edge_length_f hub_p (0, 2)%nat = d /\ val d = 30) by (eexists; split; [vm_compute; reflexivity|]; unfold val, SF2R, F2R; cbn; lra).
  rewrite X1. destruct Y as (d2 & -> & ->). lra.
Qed.
Lemma hub_case : all_used (length hub_p) hub_t /\ has_boundary hub_t /\ Forall nondegenerate hub_t /\ degree_atmost 6 (length hub_p) hub_t /\
  2 * INR 20 * (INR (6 + 2) * u) <= 1 /\ bounded_points 100 hub_p /\ 0 <= 100 <= bpow radix2 500 /\ finite_double tol_001 /\ Forall moderate (pinned (Some [(f_zero, f_one)])).
Proof.
  split; [exact hub_used|]. split; [exact hub_boundary|]. split; [repeat constructor; lia|]. split.
  { intros v Hv. cbn in Hv. do 4 (destruct v as [|v]; [cbn; lia|]). lia. }
  split; [unfold u; cbn; lra|]. split.
  { apply Forall_forall. intros x Hx. split; [revert x Hx; apply Forall_forall, all_finite; reflexivity|].
    cbn in Hx. decompose [or] Hx; subst; try contradiction; unfold val, SF2R, F2R; cbn; split; apply Rabs_le; lra. }
  assert (K : 1000 <= bpow radix2 500) by (apply Rle_trans with (bpow radix2 10); [cbn; lra|apply bpow_le; lia]).
  split; [lra|]. split; [apply finite_check; reflexivity|]. constructor; [|constructor]. split; [split; [exact zero_fin|exact one_fin]|]. cbn [fst snd]. rewrite zero_val, one_val. split; apply Rabs_le; lra.
Qed.
Lemma lap_f_growth tol k pfix p ts N M p' : all_used (length p) ts -> has_boundary ts -> pfix <> Some [] -> Forall nondegenerate ts -> degree_atmost N (length p) ts ->
  (Z.of_nat (N + 2) <= 2 ^ 26)%Z -> 2 * INR k * (INR (N + 2) * u) <= 1 -> bounded_points M p -> 0 <= M <= bpow radix2 500 -> Forall moderate (pinned pfix) -> finite_double tol ->
  laplacian2_flag tol k pfix p ts = Ok (p', true) ->
  exists pins q, sweep_step ts (stays ts pins) (M + drift N k M) q p' /\ grew_less ts (val tol) q p'.
Proof.
  intros H1 H2 H3 H4 H5 H6 H7 H8 H9 H10 H11 E. destruct (lap_f_sweeps tol k pfix p ts N M H1 H2 H3 H4 H5 H6 H7 H8 H9 H10 H11) as (pins & r & flag & E' & _ & _ & C).
  rewrite E in E'. injection E' as <- <-. cbn zeta in C. destruct C as [[C _]|(_ & i & q & _ & _ & S & G)]; [discriminate C|]. exists pins, q. split; assumption.
Qed.
(** * Meshes that are not smoothed *)
Lemma lap_f_unused tol k pfix p ts v : Forall (in_range (length p)) ts -> has_boundary ts -> (v < length p)%nat ->
  ~ (exists t, In t ts /\ In v (corners t)) -> laplacian2_f tol k pfix p ts = Ok (p, ts).
Proof.
  intros Hr Hbd Hv Hno. apply (flag_points _ _ _ _ _ (p, false)). unfold laplacian2_flag. fold (pinned pfix).
  assert (Hrb : forallb (fun t => forallb (fun v => v <? length p)%nat (tri_vertices t)) ts = true) by (now apply in_rangeb_spec).
  rewrite Hrb. rewrite external_topology_ok by (rewrite ?repeat_length; auto). cbn [bind snd].
  assert (Hpne : p <> []) by (intros ->; simpl in Hv; lia).
  destruct (mapM_ok (fun x => closest_node_f x p) (pinned pfix) (fun x i => (i < length p)%nat)) as (ifix & Hi & _).
  { intros x _. destruct (closest_f_range x p Hpne) as (i & A & B). exists i. auto. }
  rewrite Hi. cbn [bind].
  assert (HW : existsb (fun i => SFeqb (weight_f ts i) f_zero) (seq 0 (length p)) = true).
  { apply existsb_exists. exists v. split; [apply in_seq; lia|]. unfold weight_f. replace (lap_row ts v) with (@nil nat); [reflexivity|].
    destruct (lap_row ts v) as [|j l] eqn:E; [reflexivity|]. exfalso. apply Hno. destruct (lap_row_In ts v j) as (t & Ht & Hc & _); [rewrite E; now left|eauto]. }
  now rewrite HW.
Qed.
Lemma lap_f_closed tol k pfix p ts : Forall (in_range (length p)) ts -> ~ has_boundary ts -> laplacian2_f tol k pfix p ts = Raise IndexError.
Proof.
  intros Hr Hb. unfold laplacian2_f, laplacian2_flag. pose proof Hr as Hr'. apply in_rangeb_spec in Hr'. rewrite Hr'. rewrite external_topology_closed by (rewrite ?repeat_length; assumption). reflexivity.
Qed.
Lemma lap_f_no_pins tol k p ts : all_used (length p) ts -> has_boundary ts -> (Z.of_nat (length ts) <= 2 ^ 50)%Z -> laplacian2_f tol (S k) (Some []) p ts = Raise IndexError.
Proof.
  intros Hu Hb Hl. pose proof (all_used_range _ _ Hu) as Hr. unfold laplacian2_f, laplacian2_flag. pose proof Hr as Hr'. apply in_rangeb_spec in Hr'. rewrite Hr'.
  rewrite external_topology_ok by (rewrite ?repeat_length; auto). cbn [bind mapM].
  assert (HW : existsb (fun i => SFeqb (weight_f ts i) f_zero) (seq 0 (length p)) = false).
  { apply not_true_iff_false. rewrite existsb_exists. intros (i & Hin & E). apply in_seq in Hin.
    assert (Hrow : lap_row ts i <> []) by (apply lap_row_used, Hu; lia). destruct (weight_ok ts i) as [F V]; [pose proof (lap_row_length ts i); lia|].
    rewrite not_zero in E; [discriminate|exact F|]. rewrite V. apply not_0_INR. intros Z. apply length_zero_iff_nil in Z. exact (Hrow Z). }
  now rewrite HW.
Qed.
