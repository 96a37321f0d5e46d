(** Proofs about the initial points on doubles. *)
From Coq Require Import List Arith Bool ZArith Lia Reals Lra Psatz SpecFloat.
From Flocq Require Import Core IEEE754.BinarySingleNaN.
From Verif Require Import Util M_Base M_Numpy M_FixMesh M_Generate M_LimitF M_QualF M_Ieee M_ForceF M_StartF.
From Verif Require M_Forces P_ForceF.
From Verif Require Import S_Double S_Ieee S_LapF S_StartF P_Double P_LimitF P_Ieee P_Ieee2 P_Ieee3 P_QualF P_ForceF2 P_ProjF.
Import ListNotations.
Open Scope R_scope.

(** * math.ceil *)
Lemma ceil_div a b : (0 < b)%Z -> IZR (- (- a / b)) - 1 < IZR a / IZR b <= IZR (- (- a / b)).
Proof.
  intros Hb. pose proof (Z.div_mod (- a) b ltac:(lia)) as E. pose proof (Z.mod_pos_bound (- a) b Hb) as [M1 M2]. set (q := (- a / b)%Z) in *.
  assert (Pb : 0 < IZR b) by (apply IZR_lt; exact Hb). assert (A : IZR a = - (IZR b * IZR q) - IZR (- a mod b)) by (rewrite <- mult_IZR, <- opp_IZR, <- minus_IZR; f_equal; lia).
  apply IZR_le in M1. apply IZR_lt in M2. rewrite opp_IZR. split.
  - apply Rmult_lt_reg_r with (IZR b); [exact Pb|]. unfold Rdiv. rewrite Rmult_assoc, Rinv_l, Rmult_1_r by lra. lra.
  - apply Rmult_le_reg_r with (IZR b); [exact Pb|]. unfold Rdiv. rewrite Rmult_assoc, Rinv_l, Rmult_1_r by lra. lra.
Qed.
Lemma ceil_ok x : finite_double x -> exists n, f_ceil x = Ok n /\ IZR n - 1 < val x <= IZR n.
Proof.
  intros [_ F]. destruct x as [s|s| |s m e]; try discriminate; [exists 0%Z; split; [reflexivity|change (val (S754_zero s)) with 0; lra]|].
  cbn [f_ceil]. eexists. split; [reflexivity|]. set (z := if s then Z.neg m else Z.pos m). assert (V : val (S754_finite s m e) = IZR z * bpow radix2 e) by (unfold val, SF2R, F2R, z; destruct s; reflexivity). rewrite V.
  destruct (Z.leb_spec 0 e) as [He|He].
  - rewrite mult_IZR. replace (bpow radix2 e) with (IZR (2 ^ e)); [lra|]. rewrite <- (IZR_Zpower radix2 e He). reflexivity.
  - replace (bpow radix2 e) with (/ IZR (2 ^ (- e))). 2:{ replace e with (- - e)%Z at 2 by lia. rewrite bpow_opp. f_equal. rewrite <- (IZR_Zpower radix2 (- e)) by lia. reflexivity. }
    apply ceil_div. apply Z.pow_pos_nonneg; lia.
Qed.

(** * One axis *)
Lemma two_pow n : 2 ^ n = bp (Z.of_nat n).
Proof. rewrite bpow_powerRZ, <- pow_powerRZ. reflexivity. Qed.
Lemma axis_facts M lo hi h : good_axis M lo hi h -> 0 < val h /\ 0 < M /\ bp (-1075) <= u * (M / 1000) /\ bp (-1075) * 1000 <= 1 /\ u * M <= val h / 8192 /\ 1000 * M <= big /\ M / val h <= 2 ^ 40.
Proof.
  intros (_ & _ & _ & _ & _ & _ & [H1 H2] & H3 & H4). assert (P : 0 < / 2 ^ 900) by (apply Rinv_0_lt_compat, pow_lt; lra). assert (Hh : 0 < val h) by lra. assert (HM : 0 < M) by lra.
  assert (E9 : / 2 ^ 900 = bp (-900)) by (rewrite two_pow; change (-900)%Z with (- Z.of_nat 900)%Z; rewrite bpow_opp; reflexivity).
  assert (E40 : 2 ^ 40 = 1099511627776) by lra. pose proof u_val as U.
  split; [exact Hh|]. split; [exact HM|]. split; [|split; [|split; [|split]]].
  - apply Rle_trans with (u * (bp (-900) / 1000)); [|apply Rmult_le_compat_l; lra]. apply Rle_trans with (bp (-53) * bp (-900) * bp (-10)).
    + rewrite <- !bpow_plus. apply bpow_le. lia.
    + unfold u, Rdiv. rewrite Rmult_assoc. apply Rmult_le_compat_l; [apply bpow_ge_0|]. apply Rmult_le_compat_l; [apply bpow_ge_0|]. change (bp (-10)) with (/ 1024). lra.
  - apply Rle_trans with (bp (-10) * 1000); [apply Rmult_le_compat_r; [lra|apply bpow_le; lia]|]. change (bp (-10)) with (/ 1024). lra.
  - rewrite U. lra.
  - apply Rle_trans with (bp 10 * bp 400); [|rewrite <- bpow_plus; apply bpow_le; lia]. change (bp 10) with 1024. assert (E4 : 2 ^ 400 = bp 400) by exact (two_pow 400). rewrite E4 in H4. assert (0 <= bp 400) by apply bpow_ge_0. lra.
  - apply Rmult_le_reg_r with (val h); [exact Hh|]. unfold Rdiv. rewrite Rmult_assoc, Rinv_l by lra. lra.
Qed.
Lemma err_in x B M : Rabs x <= B -> bp (-1075) <= u * (M / 1000) -> Rabs (rnd x - x) <= u * B + u * (M / 1000).
Proof. intros H T. pose proof (rnd_err x). pose proof u_bounds. assert (u * Rabs x <= u * B) by (apply Rmult_le_compat_l; lra). lra. Qed.
Lemma quotient M lo hi h : good_axis M lo hi h -> let q := fdiv (fsub (fadd hi h) lo) h in finite_double q /\ Rabs (val q * val h - (val hi + val h - val lo)) <= 10 * u * M.
Proof.
  intros G q. destruct (axis_facts M lo hi h G) as (Hh & HM & T & T1 & UM & B & R). destruct G as (F1 & F2 & F3 & L1 & L2 & L3 & [L4 L4'] & L5 & L6). pose proof u_bounds as U. assert (U0 : 0 < u * M) by (apply Rmult_lt_0_compat; lra).
  assert (U1 : u * M <= M / 1000000) by (replace (M / 1000000) with (/ 1000000 * M) by field; apply Rmult_le_compat_r; lra).
  apply Rabs_le_inv in L1, L2.
  destruct (add_ok hi h F2 F3) as [Fs Vs]; [apply Rabs_le; lra|]. pose proof (err_in (val hi + val h) (2 * M) M) as E1. specialize (E1 ltac:(apply Rabs_le; lra) T). rewrite <- Vs in E1. apply Rabs_le_inv in E1. set (s := fadd hi h) in *.
  destruct (sub_ok s lo Fs F1) as [Fd Vd]; [apply Rabs_le; lra|]. pose proof (err_in (val s - val lo) (31 / 10 * M) M) as E2. specialize (E2 ltac:(apply Rabs_le; lra) T). rewrite <- Vd in E2. apply Rabs_le_inv in E2. set (d := fsub s lo) in *.
  assert (Dh : Rabs (val d / val h) <= 5 * 2 ^ 40). { unfold Rdiv. rewrite Rabs_mult, (Rabs_pos_eq (/ val h)) by (left; apply Rinv_0_lt_compat, Hh). apply Rle_trans with (5 * M * / val h); [apply Rmult_le_compat_r; [left; apply Rinv_0_lt_compat, Hh|apply Rabs_le; lra]|]. unfold Rdiv in R. lra. }
  assert (Bq : 5 * 2 ^ 40 <= big). { apply Rle_trans with (bp 43); [rewrite two_pow; change (bp 43) with 8796093022208; change (bp (Z.of_nat 40)) with 1099511627776; lra|apply bpow_le; lia]. }
  destruct (div_ok d h Fd F3) as [Fq Vq]; [lra|lra|]. split; [exact Fq|]. fold q in Vq. rewrite Vq. pose proof (rnd_err (val d / val h)) as E3.
  assert (E3h : Rabs ((rnd (val d / val h) - val d / val h) * val h) <= u * (33 / 10 * M) + u * (M / 1000)).
  { rewrite Rabs_mult, (Rabs_pos_eq (val h)) by lra. apply Rle_trans with ((u * Rabs (val d / val h) + bp (-1075)) * val h); [apply Rmult_le_compat_r; lra|]. rewrite Rmult_plus_distr_r.
    apply Rplus_le_compat.
    - rewrite Rmult_assoc. apply Rmult_le_compat_l; [lra|]. unfold Rdiv. rewrite Rabs_mult, (Rabs_pos_eq (/ val h)) by (left; apply Rinv_0_lt_compat, Hh). rewrite Rmult_assoc, Rinv_l, Rmult_1_r by lra. apply Rabs_le. lra.
    - apply Rle_trans with (bp (-1075) * M); [apply Rmult_le_compat_l; [apply bpow_ge_0|lra]|]. replace (u * (M / 1000)) with (u / 1000 * M) by field. apply Rmult_le_compat_r; [lra|]. apply Rle_trans with (bp (-53) * bp (-10)); [rewrite <- bpow_plus; apply bpow_le; lia|]. unfold u, Rdiv. apply Rmult_le_compat_l; [apply bpow_ge_0|]. change (bp (-10)) with (/ 1024). lra. }
  rewrite Rmult_minus_distr_r in E3h. replace (val d / val h * val h) with (val d) in E3h by (field; lra). apply Rabs_le_inv in E3h. apply Rabs_le. lra.
Qed.
Lemma seq_point lo h n k : (k < n)%nat -> nth_error (map (fun k => fadd (fmul (of_nat_f k) h) lo) (seq 0 n)) k = Some (fadd (fmul (of_nat_f k) h) lo).
Proof. intros H. rewrite nth_error_map, (nth_error_nth' _ 0%nat) by (rewrite seq_length; exact H). rewrite seq_nth by exact H. reflexivity. Qed.
Theorem axis_ok M lo hi h : good_axis M lo hi h -> exists l, mgrid1_f lo hi h = Ok l /\ (0 < length l)%nat /\
  (forall k x, nth_error l k = Some x -> finite_double x /\ Rabs (val x - (val lo + INR k * val h)) <= axis_error M) /\
  val hi - axis_error M <= val lo + INR (length l - 1) * val h < val hi + val h + axis_error M.
Proof.
  intros G. destruct (quotient M lo hi h G) as [Fq Eq]. destruct (axis_facts M lo hi h G) as (Hh & HM & T & T1 & UM & B & R). destruct G as (F1 & F2 & F3 & L1 & L2 & L3 & [L4 L4'] & L5 & L6). pose proof u_bounds as U. assert (U0 : 0 < u * M) by (apply Rmult_lt_0_compat; lra).
  assert (U1 : u * M <= M / 1000000) by (replace (M / 1000000) with (/ 1000000 * M) by field; apply Rmult_le_compat_r; lra).
  unfold mgrid1_f. set (q := fdiv (fsub (fadd hi h) lo) h) in *. destruct (ceil_ok q Fq) as (n & En & N1 & N2). rewrite En. cbn [bind]. apply Rabs_le_inv in Eq, L1, L2.
  assert (Q0 : 0 < val q). { apply Rmult_lt_reg_r with (val h); [exact Hh|]. lra. }
  assert (Hn : (0 < n)%Z) by (apply lt_IZR; lra). destruct (Z.ltb_spec n 0) as [C|_]; [lia|]. eexists. split; [reflexivity|]. rewrite map_length, seq_length. unfold axis_error. split; [lia|].
  assert (IN : INR (Z.to_nat n - 1) = IZR n - 1). { rewrite minus_INR by lia. rewrite INR_IZR_INZ, Z2Nat.id by lia. reflexivity. }
  assert (LH : INR (Z.to_nat n - 1) * val h <= 2 * M + val h + 10 * u * M). { rewrite IN. apply Rle_trans with (val q * val h); [apply Rmult_le_compat_r; lra|lra]. }
  split; [|split].
  - intros k x Hk. assert (Kn : (k < Z.to_nat n)%nat). { apply nth_error_Some_lt in Hk || (assert (X : nth_error (map (fun k0 => fadd (fmul (of_nat_f k0) h) lo) (seq 0 (Z.to_nat n))) k <> None) by congruence; apply nth_error_Some in X; rewrite map_length, seq_length in X; exact X). }
    rewrite (seq_point lo h _ k Kn) in Hk. injection Hk as <-.
    assert (K1 : INR k * val h <= 2 * M + val h + 10 * u * M). { apply Rle_trans with (2 := LH). apply Rmult_le_compat_r; [lra|]. apply le_INR. lia. }
    assert (K0 : 0 <= INR k * val h) by (apply Rmult_le_pos; [apply pos_INR|lra]).
    assert (KZ : (Z.of_nat k <= 2 ^ 53)%Z). { apply le_IZR. rewrite <- INR_IZR_INZ. apply Rmult_le_reg_r with (val h); [exact Hh|]. change (IZR (2 ^ 53)) with 9007199254740992. assert (2 ^ 40 = 1099511627776) by lra. lra. }
    destruct (of_nat_val k KZ) as [Fk Vk]. destruct (mul_ok (of_nat_f k) h Fk F3) as [Fm Vm]; [rewrite Vk; apply Rabs_le; lra|]. rewrite Vk in Vm. pose proof (err_in (INR k * val h) (4 * M) M) as E1. specialize (E1 ltac:(apply Rabs_le; lra) T). rewrite <- Vm in E1. apply Rabs_le_inv in E1.
    destruct (add_ok _ lo Fm F1) as [Fa Va]; [apply Rabs_le; lra|]. pose proof (err_in (val (fmul (of_nat_f k) h) + val lo) (6 * M) M) as E2. specialize (E2 ltac:(apply Rabs_le; lra) T). rewrite <- Va in E2. apply Rabs_le_inv in E2. split; [exact Fa|]. apply Rabs_le. lra.
  - rewrite IN. assert (val q * val h <= IZR n * val h) by (apply Rmult_le_compat_r; lra). lra.
  - rewrite IN. assert ((IZR n - 1) * val h < val q * val h) by (apply Rmult_lt_compat_r; lra). lra.
Qed.
Lemma axis_strict M lo hi h l : good_axis M lo hi h -> mgrid1_f lo hi h = Ok l -> forall i j a b, (i < j)%nat -> nth_error l i = Some a -> nth_error l j = Some b -> val a < val b.
Proof.
  intros G E i j a b H Ha Hb. destruct (axis_ok M lo hi h G) as (l' & E' & _ & P & _). rewrite E in E'. injection E' as <-. destruct (axis_facts M lo hi h G) as (Hh & HM & _ & _ & UM & _ & _).
  destruct (P i a Ha) as [_ A]. destruct (P j b Hb) as [_ B]. apply Rabs_le_inv in A, B. unfold axis_error in *. assert (INR i + 1 <= INR j) by (rewrite <- S_INR; apply le_INR; lia).
  assert ((INR i + 1) * val h <= INR j * val h) by (apply Rmult_le_compat_r; lra). lra.
Qed.
Lemma axis_covers M lo hi h l k : good_axis M lo hi h -> mgrid1_f lo hi h = Ok l -> val lo + INR k * val h <= val hi -> (k < length l)%nat.
Proof.
  intros G E H. destruct (axis_ok M lo hi h G) as (l' & E' & N & _ & C & _). rewrite E in E'. injection E' as <-. destruct (axis_facts M lo hi h G) as (Hh & HM & _ & _ & UM & _ & _). unfold axis_error in C.
  assert (INR k < INR (length l - 1) + 1). { apply Rmult_lt_reg_r with (val h); [exact Hh|]. lra. } rewrite <- S_INR in H0. apply INR_lt in H0. lia.
Qed.

(** * Acceptance *)
Lemma rnd_rel x : bp (-900) <= x -> x * (1 - 1001 / 1000 * u) <= rnd x <= x * (1 + 1001 / 1000 * u).
Proof.
  intros H. assert (P : 0 < bp (-900)) by apply bpow_gt_0. pose proof (rnd_err x) as E. rewrite (Rabs_pos_eq x) in E by lra.
  assert (T : bp (-1075) <= u * (x / 1000)). { apply Rle_trans with (bp (-53) * (bp (-900) * bp (-10))); [rewrite <- !bpow_plus; apply bpow_le; lia|]. unfold u, Rdiv. apply Rmult_le_compat_l; [apply bpow_ge_0|]. apply Rmult_le_compat; [apply bpow_ge_0|apply bpow_ge_0|exact H|]. change (bp (-10)) with (/ 1024). lra. }
  apply Rabs_le_inv in E. lra.
Qed.
Lemma size_square r : plain_size r -> finite_double (fmul r r) /\ val (fmul r r) = rnd (val r * val r) /\ bp (-400) <= val r * val r <= bp 400 /\ 0 < val r.
Proof.
  intros (F & L & H). assert (E1 : / 2 ^ 200 = bp (-200)) by (change (-200)%Z with (- Z.of_nat 200)%Z; rewrite bpow_opp, two_pow; reflexivity). rewrite E1 in L. rewrite (two_pow 200) in H. change (Z.of_nat 200) with 200%Z in H.
  assert (P : 0 < bp (-200)) by apply bpow_gt_0. assert (B : bp (-400) <= val r * val r <= bp 400).
  { change (-400)%Z with (-200 + -200)%Z. change 400%Z with (200 + 200)%Z. rewrite !bpow_plus. split; apply Rmult_le_compat; lra. }
  destruct (mul_ok r r F F) as [Fm Vm]; [rewrite Rabs_pos_eq by nra; apply Rle_trans with (1 := proj2 B), bpow_le; lia|]. split; [exact Fm|]. split; [exact Vm|]. split; [exact B|]. lra.
Qed.
Lemma div_between a b A B v : 0 < a -> 0 < b -> 0 <= v <= / 1000000 -> a * (1 - v) <= A <= a * (1 + v) -> b * (1 - v) <= B <= b * (1 + v) -> a / b * (1 - 2 * v) <= A / B <= a / b * (1 + 2 * v + 3 * v * v) /\ 0 < B.
Proof.
  intros Ha Hb Hv HA HB. assert (PB : 0 < B) by nra. split; [|exact PB]. split.
  - apply Rmult_le_reg_r with (B * b); [nra|]. replace (a / b * (1 - 2 * v) * (B * b)) with (a * (1 - 2 * v) * B) by (field; lra). replace (A / B * (B * b)) with (A * b) by (field; lra).
    apply Rle_trans with (a * (1 - 2 * v) * (b * (1 + v))); [apply Rmult_le_compat_l; [nra|lra]|]. apply Rle_trans with (a * (1 - v) * b); [|apply Rmult_le_compat_r; lra]. assert (0 <= a * b) by nra. replace (a * (1 - 2 * v) * (b * (1 + v))) with (a * b * ((1 - 2 * v) * (1 + v))) by ring. replace (a * (1 - v) * b) with (a * b * (1 - v)) by ring. apply Rmult_le_compat_l; [assumption|]. nra.
  - apply Rmult_le_reg_r with (B * b); [nra|]. replace (a / b * (1 + 2 * v + 3 * v * v) * (B * b)) with (a * (1 + 2 * v + 3 * v * v) * B) by (field; lra). replace (A / B * (B * b)) with (A * b) by (field; lra).
    apply Rle_trans with (a * (1 + v) * b); [apply Rmult_le_compat_r; lra|]. apply Rle_trans with (a * (1 + 2 * v + 3 * v * v) * (b * (1 - v))); [|apply Rmult_le_compat_l; [nra|lra]]. assert (0 <= a * b) by nra. replace (a * (1 + 2 * v + 3 * v * v) * (b * (1 - v))) with (a * b * ((1 + 2 * v + 3 * v * v) * (1 - v))) by ring. replace (a * (1 + v) * b) with (a * b * (1 + v)) by ring. apply Rmult_le_compat_l; [assumption|]. assert (0 <= v * v) by nra. nra.
Qed.
Theorem threshold m r : plain_size m -> plain_size r -> let t := fdiv (fmul m m) (fmul r r) in
  finite_double t /\ Rabs (val t - (val m / val r) ^ 2) <= 4 * u * (val m / val r) ^ 2 /\ (val r <= val m -> 1 <= val t).
Proof.
  intros Hm Hr t. destruct (size_square m Hm) as (F1 & V1 & B1 & P1). destruct (size_square r Hr) as (F2 & V2 & B2 & P2). pose proof u_bounds as U.
  assert (L4 : bp (-900) <= bp (-400)) by (apply bpow_le; lia). pose proof (rnd_rel _ (Rle_trans _ _ _ L4 (proj1 B1))) as R1. pose proof (rnd_rel _ (Rle_trans _ _ _ L4 (proj1 B2))) as R2. rewrite <- V1 in R1. rewrite <- V2 in R2.
  assert (PM : 0 < val m * val m) by nra. assert (PR : 0 < val r * val r) by nra. set (v := 1001 / 1000 * u) in *. assert (Hv : 0 <= v <= / 1000000) by (unfold v; rewrite u_val; lra).
  destruct (div_between _ _ _ _ v PM PR Hv R1 R2) as [[Q1 Q2] PB]. set (c := val m * val m / (val r * val r)) in *.
  assert (C : bp (-800) <= c <= bp 800). { unfold c, Rdiv. change (-800)%Z with (-400 + - (400))%Z. change 800%Z with (400 + - (-400))%Z. rewrite !bpow_plus, !bpow_opp. assert (0 < bp (-400)) by apply bpow_gt_0. split; (apply Rmult_le_compat; [first [lra|left; apply Rinv_0_lt_compat; assumption || apply bpow_gt_0|lra]|first [lra|left; apply Rinv_0_lt_compat; assumption || apply bpow_gt_0]|lra|apply Rinv_le_contravar; lra]). }
  assert (C0 : 0 < c) by (apply Rlt_le_trans with (2 := proj1 C), bpow_gt_0). set (Q := val (fmul m m) / val (fmul r r)) in *.
  assert (vv : v * v <= v / 1000000) by nra.
  assert (QB : / 2 * c <= Q <= 2 * c) by nra. assert (B8 : 2 * bp 800 <= big) by (change 2 with (bp 1); rewrite <- bpow_plus; apply bpow_le; lia).
  destruct (div_ok (fmul m m) (fmul r r) F1 F2) as [F V]; [lra|fold Q; rewrite Rabs_pos_eq; lra|]. fold t Q in F, V. split; [exact F|].
  assert (QL : bp (-900) <= Q). { apply Rle_trans with (2 := proj1 QB). apply Rle_trans with (/ 2 * bp (-800)); [|lra]. change (/ 2) with (bp (-1)). rewrite <- bpow_plus. apply bpow_le. lia. }
  split.
  - replace ((val m / val r) ^ 2) with c by (unfold c; field; lra). pose proof (rnd_rel Q QL) as RQ. rewrite <- V in RQ. fold v in RQ. apply Rabs_le.
    assert (X1 : Q * (1 + v) <= c * (1 + 2 * v + 3 * v * v) * (1 + v)) by (apply Rmult_le_compat_r; lra). assert (X2 : c * (1 - 2 * v) * (1 - v) <= Q * (1 - v)) by (apply Rmult_le_compat_r; lra).
    assert (Y1 : (1 + 2 * v + 3 * v * v) * (1 + v) <= 1 + 4 * u). { assert (v * v * v <= v / 1000000) by nra. unfold v in *. nra. }
    assert (Y2 : 1 - 4 * u <= (1 - 2 * v) * (1 - v)) by (unfold v in *; nra).
    assert (Z1 : c * ((1 + 2 * v + 3 * v * v) * (1 + v)) <= c * (1 + 4 * u)) by (apply Rmult_le_compat_l; lra). assert (Z2 : c * (1 - 4 * u) <= c * ((1 - 2 * v) * (1 - v))) by (apply Rmult_le_compat_l; lra). lra.
  - intros H. rewrite V. assert (Rep1 : representable 1) by (change 1 with (bp 0); apply rep_bpow; lia). apply rnd_ge; [exact Rep1|]. unfold Q. rewrite V1, V2. apply Rmult_le_reg_r with (rnd (val r * val r)); [rewrite <- V2; exact PB|]. unfold Rdiv. rewrite Rmult_assoc, Rinv_l, Rmult_1_r, Rmult_1_l by (rewrite <- V2; lra). apply rnd_le. nra.
Qed.
Theorem accepted_small m r d : plain_size m -> plain_size r -> val r <= val m -> finite_double d -> val d < 1 -> accepted_f m (d, r) = true.
Proof. intros Hm Hr L Fd Hd. destruct (threshold m r Hm Hr) as (F & _ & H). unfold accepted_f. cbn [fst snd]. apply ltb_val; [exact Fd|exact F|]. specialize (H L). lra. Qed.
Theorem accepted_bound m r d : plain_size m -> plain_size r -> finite_double d -> accepted_f m (d, r) = true -> val d < (1 + 4 * u) * (val m / val r) ^ 2.
Proof. intros Hm Hr Fd A. destruct (threshold m r Hm Hr) as (F & E & _). unfold accepted_f in A. cbn [fst snd] in A. apply ltb_val in A; [|exact Fd|exact F]. apply Rabs_le_inv in E. lra. Qed.
Theorem rejected_bound m r d : plain_size m -> plain_size r -> finite_double d -> accepted_f m (d, r) = false -> (1 - 4 * u) * (val m / val r) ^ 2 <= val d.
Proof.
  intros Hm Hr Fd A. destruct (threshold m r Hm Hr) as (F & E & _). apply Rabs_le_inv in E. apply Rnot_lt_le. intros C. assert (T : accepted_f m (d, r) = true) by (unfold accepted_f; cbn [fst snd]; apply ltb_val; [exact Fd|exact F|lra]). congruence.
Qed.

(** * The points *)
Lemma mask_nth {A} (l : list A) : forall m k x, nth_error l k = Some x -> nth_error m k = Some true -> In x (take_mask l m).
Proof.
  unfold take_mask. induction l as [|a l IH]; intros m k x H1 H2; [destruct k; discriminate|]. destruct m as [|b m]; [destruct k; discriminate|]. cbn [combine filter snd].
  destruct k as [|k]; cbn [nth_error] in H1, H2.
  - injection H1 as <-. injection H2 as ->. left. reflexivity.
  - specialize (IH m k x H1 H2). destruct b; [right; exact IH|exact IH].
Qed.
Lemma mask_in {A} (l : list A) : forall m x, In x (take_mask l m) -> exists k, nth_error l k = Some x /\ nth_error m k = Some true.
Proof.
  unfold take_mask. induction l as [|a l IH]; intros m x H; [destruct H|]. destruct m as [|b m]; [destruct H|]. cbn [combine filter snd] in H. destruct b.
  - destruct H as [<-|H]; [exists 0%nat; split; reflexivity|]. destruct (IH m x H) as (k & A1 & A2). exists (S k). split; assumption.
  - destruct (IH m x H) as (k & A1 & A2). exists (S k). split; assumption.
Qed.
Lemma lattice_in xs ys q : In q (lattice_f xs ys) <-> In (fst q) xs /\ In (snd q) ys.
Proof.
  unfold lattice_f. rewrite in_flat_map. split.
  - intros (x & Hx & H). apply in_map_iff in H. destruct H as (y & <- & Hy). split; assumption.
  - intros [Hx Hy]. exists (fst q). split; [exact Hx|]. apply in_map_iff. exists (snd q). split; [destruct q; reflexivity|exact Hy].
Qed.
Lemma fold_min l : forall a, finite_double a -> Forall finite_double l -> let m := fold_left fmin l a in (m = a \/ In m l) /\ finite_double m /\ val m <= val a /\ forall y, In y l -> val m <= val y.
Proof.
  induction l as [|b l IH]; intros a Fa Fl; cbn [fold_left]; [split; [left; reflexivity|]; split; [exact Fa|]; split; [lra|intros y []]|].
  apply Forall_cons_iff in Fl. destruct Fl as [Fb Fl]. assert (Fm : finite_double (fmin a b) /\ (fmin a b = a \/ fmin a b = b) /\ val (fmin a b) <= val a /\ val (fmin a b) <= val b).
  { unfold fmin. destruct (SFltb b a) eqn:E; [apply (ltb_val b a Fb Fa) in E|]; (split; [assumption|]); (split; [auto|]); [lra|]. split; [lra|]. apply Rnot_lt_le. intros C. apply (ltb_val b a Fb Fa) in C. congruence. }
  destruct Fm as (Fm & Cm & La & Lb). destruct (IH (fmin a b) Fm Fl) as (A & B & C & D). cbv zeta in *. split.
  - destruct A as [A|A]; [|right; right; exact A]. rewrite A. destruct Cm as [->| ->]; [left; reflexivity|right; left; reflexivity].
  - split; [exact B|]. split; [lra|]. intros y [<-|Hy]; [lra|apply D, Hy].
Qed.
Lemma smallest_ok h r0 m : finite_double h -> Forall finite_double r0 -> smallest_f h r0 = Ok m -> In m r0 /\ val h <= val m /\ forall y, In y r0 -> val h <= val y -> val m <= val y.
Proof.
  intros Fh F E. unfold smallest_f in E. assert (FF : Forall finite_double (filter (SFleb h) r0)). { apply Forall_forall. intros x Hx. apply filter_In in Hx. rewrite Forall_forall in F. apply F, Hx. }
  assert (LV : forall y, In y r0 -> (SFleb h y = true <-> val h <= val y)). { intros y Hy. rewrite Forall_forall in F. rewrite (P_ForceF.leb_val h y Fh (F y Hy)). unfold M_Forces.rleb. destruct (Rle_dec (val h) (val y)); split; intros; auto; discriminate || lra. }
  destruct (filter (SFleb h) r0) as [|x r] eqn:EF; [discriminate|]. injection E as <-. apply Forall_cons_iff in FF. destruct FF as [Fx Fr]. destruct (fold_min r x Fx Fr) as (A & B & C & D). cbv zeta in *.
  assert (I : In (fold_left fmin r x) (filter (SFleb h) r0)) by (rewrite EF; destruct A as [A|A]; [left; symmetry; exact A|right; exact A]). apply filter_In in I. destruct I as [I1 I2].
  split; [exact I1|]. split; [apply LV; assumption|]. intros y Hy L. assert (J : In y (filter (SFleb h) r0)) by (apply filter_In; split; [exact Hy|apply LV; assumption]). rewrite EF in J. destruct J as [<-|J]; [exact C|apply D, J].
Qed.
Section Points.
  Variables (h geps x0 x1 y0 y1 : spec_float) (fh : list fpt -> res (list spec_float)) (g : fpt -> spec_float) (fd : fpt -> spec_float) (pfix : list fpt) (rand : list spec_float).
  Variable M : R.
  Hypothesis (GX : good_axis M x0 x1 h) (GY : good_axis M y0 y1 h).
  Hypothesis Hg : forall p, fh p = Ok (map g p).
  Theorem points_ok r : generate_initial_points_f h geps x0 x1 y0 y1 fh fd pfix rand = Ok r ->
    exists p2, r = pfix ++ p2 /\
      (forall q, In q p2 -> SFltb (fd q) geps = true /\ finite_point q /\ exists i j : nat,
         Rabs (val (fst q) - (val x0 + INR i * val h)) <= axis_error M /\ Rabs (val (snd q) - (val y0 + INR j * val h)) <= axis_error M /\
         val x0 + INR i * val h < val x1 + val h + axis_error M /\ val y0 + INR j * val h < val y1 + val h + axis_error M) /\
      (unit_draws rand -> (forall q, finite_point q -> plain_size (g q)) ->
       (forall q, In q p2 -> exists d q', In d rand /\ finite_point q' /\ val h <= val (g q') /\ val d < (1 + 4 * u) * (val (g q') / val (g q)) ^ 2) /\
       forall i j : nat, val x0 + INR i * val h <= val x1 -> val y0 + INR j * val h <= val y1 ->
       exists q, finite_point q /\ Rabs (val (fst q) - (val x0 + INR i * val h)) <= axis_error M /\ Rabs (val (snd q) - (val y0 + INR j * val h)) <= axis_error M /\
         (SFltb (fd q) geps = true -> (forall q', finite_point q' -> val h <= val (g q') -> val (g q) <= val (g q')) -> In q p2)).
  Proof.
    intros E. unfold generate_initial_points_f in E. destruct (axis_ok M x0 x1 h GX) as (xs & EX & NX & PX & CX). destruct (axis_ok M y0 y1 h GY) as (ys & EY & NY & PY & CY). rewrite EX, EY in E. cbn [bind] in E. rewrite Hg in E. cbn [bind] in E.
    set (p := lattice_f xs ys) in *. destruct (smallest_f h (map g p)) as [m| |] eqn:SM; cbn [bind] in E; try discriminate. rewrite map_length in E. destruct (Nat.eqb_spec (length rand) (length p)) as [LR|]; cbn [negb] in E; [|discriminate].
    unfold bool_index in E. rewrite map_length, combine_length, map_length, LR, Nat.min_id, Nat.eqb_refl in E. cbn [bind] in E. injection E as <-.
    set (mask := map (accepted_f m) (combine rand (map g p))). exists (filter (fun q => SFltb (fd q) geps) (take_mask p mask)). split; [reflexivity|].
    assert (FP : forall q, In q p -> finite_point q). { intros q Hq. apply lattice_in in Hq. destruct Hq as [Hx Hy]. apply In_nth_error in Hx, Hy. destruct Hx as [i Hx], Hy as [j Hy]. split; [apply (PX i _ Hx)|apply (PY j _ Hy)]. }
    assert (MASK : forall q, In q (take_mask p mask) -> In q p /\ exists d, In d rand /\ accepted_f m (d, g q) = true).
    { intros q Hq. destruct (mask_in _ _ _ Hq) as (k & K1 & K2). split; [eapply nth_error_In; exact K1|]. unfold mask in K2. rewrite nth_error_map in K2. destruct (nth_error (combine rand (map g p)) k) as [[d z]|] eqn:C; [|discriminate]. cbn [option_map] in K2. injection K2 as K2.
      assert (Z : z = g q). { pose proof (nth_error_In _ _ C) as I. clear I. assert (N : nth_error (map g p) k = Some z). { clear - C. revert C. generalize (map g p) as l. generalize rand as a. induction k as [|k IH]; intros [|y a] [|w l] C; cbn in *; try discriminate; [congruence|exact (IH _ _ C)]. } rewrite nth_error_map, K1 in N. cbn in N. congruence. }
      subst z. exists d. split; [|exact K2]. apply nth_error_In in C. apply in_combine_l in C. exact C. }
    split; [|intros HD HG; split].
    - intros q Hq. apply filter_In in Hq. destruct Hq as [Hq Hf]. split; [exact Hf|]. destruct (MASK q Hq) as [Hp _]. split; [apply FP, Hp|]. apply lattice_in in Hp. destruct Hp as [Hx Hy]. apply In_nth_error in Hx, Hy. destruct Hx as [i Hx], Hy as [j Hy]. exists i, j.
      destruct (PX i _ Hx) as [_ X]. destruct (PY j _ Hy) as [_ Y]. split; [exact X|]. split; [exact Y|].
      assert (LX : (i < length xs)%nat) by (apply nth_error_Some; congruence). assert (LY : (j < length ys)%nat) by (apply nth_error_Some; congruence). destruct (axis_facts M x0 x1 h GX) as (Hh & _).
      assert (INR i * val h <= INR (length xs - 1) * val h) by (apply Rmult_le_compat_r; [lra|apply le_INR; lia]). assert (INR j * val h <= INR (length ys - 1) * val h) by (apply Rmult_le_compat_r; [lra|apply le_INR; lia]). lra.
    - intros q Hq. apply filter_In in Hq. destruct Hq as [Hq _]. destruct (MASK q Hq) as (Hp & d & Hd & A). 
      destruct (smallest_ok h (map g p) m) as (S1 & S2 & _); [apply GX|apply Forall_forall; intros z Hz; apply in_map_iff in Hz; destruct Hz as (w & <- & Hw); apply (HG w (FP w Hw))|exact SM|].
      apply in_map_iff in S1. destruct S1 as (q' & <- & Hq'). exists d, q'. split; [exact Hd|]. split; [apply FP, Hq'|]. split; [exact S2|]. unfold unit_draws in HD. rewrite Forall_forall in HD. destruct (HD d Hd) as [Fd _]. apply accepted_bound; auto.
    - intros i j Hi Hj. pose proof (axis_covers M x0 x1 h xs i GX EX Hi) as Li. pose proof (axis_covers M y0 y1 h ys j GY EY Hj) as Lj.
      destruct (nth_error xs i) as [x|] eqn:Ex; [|apply nth_error_None in Ex; lia]. destruct (nth_error ys j) as [y|] eqn:Ey; [|apply nth_error_None in Ey; lia]. exists (x, y). cbn [fst snd].
      assert (Ip : In (x, y) p) by (apply lattice_in; cbn [fst snd]; split; eapply nth_error_In; eassumption). split; [apply FP, Ip|]. split; [apply (PX i x Ex)|]. split; [apply (PY j y Ey)|].
      intros Hf Hm. apply filter_In. split; [|exact Hf]. destruct (In_nth_error _ _ Ip) as [k Hk]. apply (mask_nth p mask k (x, y) Hk).
      destruct (smallest_ok h (map g p) m) as (S1 & S2 & _); [apply GX|apply Forall_forall; intros z Hz; apply in_map_iff in Hz; destruct Hz as (w & <- & Hw); apply (HG w (FP w Hw))|exact SM|].
      apply in_map_iff in S1. destruct S1 as (q' & <- & Hq'). assert (Lk : (k < length rand)%nat) by (rewrite LR; apply nth_error_Some; congruence). destruct (nth_error rand k) as [d|] eqn:Ed; [|apply nth_error_None in Ed; lia].
      assert (Hd : In d rand) by (eapply nth_error_In; exact Ed). unfold unit_draws in HD. rewrite Forall_forall in HD. destruct (HD d Hd) as [Fd Bd].
      unfold mask. rewrite nth_error_map. assert (C : nth_error (combine rand (map g p)) k = Some (d, g (x, y))). { assert (N : nth_error (map g p) k = Some (g (x, y))) by (rewrite nth_error_map, Hk; reflexivity). clear - Ed N. revert Ed N. generalize (map g p) as l. generalize rand as a. induction k as [|k IH]; intros [|y' a] [|w l] A B; cbn in *; try discriminate; [congruence|exact (IH _ _ A B)]. }
      rewrite C. cbn [option_map]. f_equal. apply accepted_small; [apply HG, FP, Hq'|apply HG, FP, Ip|apply Hm; [apply FP, Hq'|exact S2]|exact Fd|lra].
  Qed.
End Points.

(** * Cases *)
Definition s_1 : spec_float := S754_finite false 4503599627370496 (-52).
Definition s_01 : spec_float := S754_finite false 7205759403792794 (-56).
Definition s_02 : spec_float := S754_finite false 7205759403792794 (-55).
Definition s_3 : spec_float := S754_finite false 6755399441055745 (-51).
Lemma s_vals : val s_1 = 1 /\ val s_01 = 7205759403792794 / 72057594037927936 /\ val s_02 = 7205759403792794 / 36028797018963968 /\ val s_3 = 6755399441055745 / 2251799813685248.
Proof.
  assert (B1 : bpow radix2 (-52) = / 4503599627370496) by reflexivity. assert (B2 : bpow radix2 (-56) = / 72057594037927936) by reflexivity. assert (B3 : bpow radix2 (-55) = / 36028797018963968) by reflexivity. assert (B4 : bpow radix2 (-51) = / 2251799813685248) by reflexivity.
  unfold val, s_1, s_01, s_02, s_3, SF2R, F2R. cbn [Fnum Fexp cond_Zopp]. rewrite B1, B2, B3, B4. split; [lra|]. split; [lra|]. split; lra.
Qed.
Lemma tiny_900 : / 2 ^ 900 <= / 1024 /\ 1024 <= 2 ^ 400.
Proof.
  split; [apply Rinv_le_contravar; [lra|]|]; (replace 1024 with (2 ^ 10) by lra); apply Rle_pow; lra || lia.
Qed.
Lemma s_cover : exists lo hi h l, good_axis 4 lo hi h /\ mgrid1_f lo hi h = Ok l /\ forall x, In x l -> val x < val hi.
Proof.
  destruct s_vals as (V1 & _ & _ & V3). destruct tiny_900 as [T1 T2]. exists f_0, s_3, s_1. eexists. split; [|split; [vm_compute; reflexivity|]].
  - unfold good_axis. rewrite V1, V3. change (val f_0) with 0. rewrite Rabs_R0, (Rabs_pos_eq (_ / _)) by lra. do 3 (split; [split; reflexivity|]). repeat split; lra.
  - intros x Hx. rewrite V3. cbn [In] in Hx. destruct Hx as [<-|[<-|[<-|[<-|[]]]]]; unfold val, SF2R, F2R; cbn; lra.
Qed.
Lemma s_extra : exists lo hi h l x, good_axis 1 lo hi h /\ mgrid1_f lo hi h = Ok l /\ In x l /\ val hi + val h <= val x.
Proof.
  destruct s_vals as (_ & V1 & V2 & _). destruct tiny_900 as [T1 T2]. exists f_0, s_02, s_01. do 2 eexists. split; [|split; [vm_compute; reflexivity|split; [right; right; right; left; reflexivity|]]].
  - unfold good_axis. rewrite V1, V2. change (val f_0) with 0. rewrite Rabs_R0, (Rabs_pos_eq (_ / _)) by lra. do 3 (split; [split; reflexivity|]). repeat split; lra.
  - rewrite V1, V2. unfold val, SF2R, F2R; cbn [Fnum Fexp cond_Zopp]. change (bpow radix2 (-54)) with (/ 18014398509481984). lra.
Qed.
Definition s_2 : spec_float := S754_finite false 4503599627370496 (-51).
Definition s_half : spec_float := S754_finite false 4503599627370496 (-53).
Definition s_size (q : fpt) : spec_float := if SFltb s_half (fst q) then s_2 else s_1.
Lemma s_2_val : val s_2 = 2 /\ val s_half = / 2. Proof. split; unfold val, s_2, s_half, SF2R, F2R; cbn; lra. Qed.
Lemma s_points : good_axis 1 f_0 s_1 s_1 /\ unit_draws [s_half; s_half; s_half; s_01] /\ (forall q, plain_size (s_size q)) /\
  generate_initial_points_f s_1 s_01 f_0 s_1 f_0 s_1 (fun p => Ok (map s_size p)) (fun _ => f_0) [(s_half, f_0)] [s_half; s_half; s_half; s_01] = Ok [(s_half, f_0); (f_0, f_0); (f_0, s_1); (s_1, s_1)].
Proof.
  destruct s_vals as (V1 & V01 & _ & _). destruct s_2_val as [V2 Vh]. destruct tiny_900 as [T1 T2]. split; [|split; [|split; [|vm_compute; reflexivity]]].
  - unfold good_axis. rewrite V1. change (val f_0) with 0. rewrite Rabs_R0, Rabs_R1. do 3 (split; [split; reflexivity|]). repeat split; lra.
  - unfold unit_draws. repeat (apply Forall_cons; [split; [split; reflexivity|rewrite ?Vh, ?V01; lra]|]). apply Forall_nil.
  - intros q. assert (B : / 2 ^ 200 <= 1 /\ 2 <= 2 ^ 200). { split; [rewrite <- Rinv_1; apply Rinv_le_contravar; [lra|apply pow_R1_Rle; lra]|]. rewrite <- (pow_1 2) at 1. apply Rle_pow; [lra|lia]. } unfold s_size. destruct (SFltb s_half (fst q)); (split; [split; reflexivity|]); rewrite ?V1, ?V2; lra.
Qed.
