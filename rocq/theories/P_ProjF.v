(** The projection of outside points on doubles. *)
From Coq Require Import List Arith Bool ZArith Lia Reals Lra Psatz SpecFloat.
From Flocq Require Import Core IEEE754.BinarySingleNaN Relative Plus_error.
From Verif Require Import Util M_Base M_Numpy M_FixMesh M_LimitF M_QualF M_Ieee M_ForceF M_ProjF.
From Verif Require Import S_Double S_Ieee S_ProjF P_Double P_LimitF P_CutF P_LapF P_Ieee P_Ieee3 P_QualF P_ForceF P_ForceF2.
Import ListNotations.
Open Scope R_scope.

Definition big : R := bp 900.
Lemma small_rnd x : Rabs x <= big -> Rabs (rnd x) < huge.
Proof.
  intros H. apply Rle_lt_trans with (bp 900); [|apply bpow_lt; lia]. apply rnd_abs_le; [apply rep_bp; lia|exact H].
Qed.
Lemma add_ok x y : finite_double x -> finite_double y -> Rabs (val x + val y) <= big -> finite_double (fadd x y) /\ val (fadd x y) = rnd (val x + val y).
Proof. intros X Y H. apply (proj1 (add_rounds x y X Y)), small_rnd, H. Qed.
Lemma sub_ok x y : finite_double x -> finite_double y -> Rabs (val x - val y) <= big -> finite_double (fsub x y) /\ val (fsub x y) = rnd (val x - val y).
Proof. intros X Y H. apply (proj1 (sub_rounds x y X Y)), small_rnd, H. Qed.
Lemma mul_ok x y : finite_double x -> finite_double y -> Rabs (val x * val y) <= big -> finite_double (fmul x y) /\ val (fmul x y) = rnd (val x * val y).
Proof. intros X Y H. apply mul_rounds; trivial. apply small_rnd, H. Qed.
Lemma div_ok x y : finite_double x -> finite_double y -> val y <> 0 -> Rabs (val x / val y) <= big -> finite_double (fdiv x y) /\ val (fdiv x y) = rnd (val x / val y).
Proof. intros X Y N H. apply div_rounds; trivial. apply small_rnd, H. Qed.
Lemma big_large : bp 100 <= big. Proof. apply bpow_le. lia. Qed.
Lemma zero_ok : finite_double f_0 /\ val f_0 = 0. Proof. split; [split; reflexivity|reflexivity]. Qed.
Lemma plus_zero x : finite_double x -> Rabs (val x) <= big -> finite_double (fadd x f_0) /\ val (fadd x f_0) = val x.
Proof.
  intros X B. destruct zero_ok as [Z VZ]. destruct (add_ok x f_0 X Z) as [F V]; [rewrite VZ, Rplus_0_r; exact B|]. split; [exact F|].
  rewrite V, VZ, Rplus_0_r. apply rnd_id, format_val, X.
Qed.

Definition dp : R := / 67108864.
Lemma deps_ok : finite_double deps_f /\ val deps_f = dp.
Proof. split; [split; vm_compute; reflexivity|]. change (val deps_f) with (4503599627370496 * / 302231454903657293676544). unfold dp. lra. Qed.
Lemma u_val : u = / 9007199254740992. Proof. reflexivity. Qed.
Lemma tau_small : 0 < bp (-1075) <= bp (-200). Proof. split; [apply bpow_gt_0|apply bpow_le; lia]. Qed.
Lemma bp200 : bp (-200) <= u * / 2 ^ 100.
Proof. unfold u. change (2 ^ 100) with (2 ^ 100)%R. replace (/ 2 ^ 100) with (bp (-100)). 2:{ change (-100)%Z with (- (100))%Z. rewrite bpow_opp, bpow_powerRZ. reflexivity. } rewrite <- bpow_plus. apply bpow_le. lia. Qed.

(** * The quotient and the move, on real numbers *)
Definition sgn (s : R) : Prop := s = 1 \/ s = -1.
Definition uc : R := / 9007199254740992.
Definition tc : R := uc * / 1000000000000.
Lemma rnd_in x B : - B <= x <= B -> x - (uc * B + tc) <= rnd x <= x + (uc * B + tc).
Proof.
  intros H. pose proof (rnd_err x) as E. assert (A : Rabs x <= B) by (apply Rabs_le; lra).
  assert (T : bp (-1075) <= tc). { destruct tau_small as [_ T]. apply Rle_trans with (1 := T), Rle_trans with (1 := bp200). rewrite u_val. unfold tc, uc. apply Rmult_le_compat_l; [lra|]. apply Rinv_le; [lra|]. simpl. lra. }
  rewrite u_val in E. fold uc in E. assert (uc * Rabs x <= uc * B) by (apply Rmult_le_compat_l; [unfold uc|]; lra). apply Rabs_le_inv in E. lra.
Qed.
Lemma quotient_ok K c P s : 1 <= K <= 4194304 -> - K <= c <= K -> - K <= P <= K -> sgn s ->
  let c1 := rnd (c + dp) in let d := rnd (s * (c - P)) in let d1 := rnd (s * (c1 - P)) in let D := rnd (d1 - d) in let g := rnd (D / dp) in
  (- (K + 1) <= c1 <= K + 1) /\ (- (3 * K) <= d <= 3 * K) /\ (- (4 * K) <= d1 <= 4 * K) /\ (- 1 <= D <= 1) /\ (s - K / 16777216 <= g <= s + K / 16777216).
Proof.
  intros HK HC HP HS. cbv zeta. set (c1 := rnd (c + dp)). set (d := rnd (s * (c - P))). set (d1 := rnd (s * (c1 - P))). set (D := rnd (d1 - d)). set (g := rnd (D / dp)).
  pose proof (rnd_in (c + dp) (K + 1)) as E1. fold c1 in E1. pose proof (rnd_in (s * (c - P)) (2 * K)) as E2. fold d in E2.
  pose proof (rnd_in (s * (c1 - P)) (2 * K + 1)) as E3. fold d1 in E3. pose proof (rnd_in (d1 - d) (1 / 10000)) as E4. fold D in E4. pose proof (rnd_in (D / dp) 10000) as E5. fold g in E5.
  replace (D / dp) with (D * 67108864) in E5 by (unfold dp; field).
  unfold dp, tc, uc in *. assert (P1 := E1 ltac:(lra)). clear E1.
  destruct HS as [-> | ->].
  - assert (P2 := E2 ltac:(lra)). assert (P3 := E3 ltac:(lra)). clear E2 E3. assert (P4 := E4 ltac:(lra)). clear E4. assert (P5 := E5 ltac:(lra)). clear E5. repeat split; lra.
  - assert (P2 := E2 ltac:(lra)). assert (P3 := E3 ltac:(lra)). clear E2 E3. assert (P4 := E4 ltac:(lra)). clear E4. assert (P5 := E5 ltac:(lra)). clear E5. repeat split; lra.
Qed.
Lemma prod_in a b B : - B <= a <= B -> Rabs b <= 5 / 4 -> - (5 / 4 * B) <= a * b <= 5 / 4 * B.
Proof. intros A Hb. apply Rabs_le_inv in Hb. split; nra. Qed.
Lemma div_in n m B : - B <= n <= B -> / 4 <= m -> - (4 * B) <= n / m <= 4 * B.
Proof.
  intros N M. assert (0 < / m <= 4). { split; [apply Rinv_0_lt_compat; lra|]. replace 4 with (/ / 4) by lra. apply Rinv_le; lra. }
  unfold Rdiv. split; nra.
Qed.
Lemma move_ok K c P s g : 1 <= K <= 4194304 -> - K <= c <= K -> - K <= P <= K -> sgn s -> s - K / 16777216 <= g <= s + K / 16777216 -> 0 <= s * (c - P) ->
  let e := s * (c - P) in let d := rnd e in let G := rnd (g * g) in let N := rnd (d * g) in let M := rnd (N / G) in
  (/ 2 <= G <= 2) /\ (- (4 * K) <= N <= 4 * K) /\ (- (5 * K) <= M <= 5 * K) /\ Rabs (rnd (c - M) - P) <= 2 * (K / 16777216) * e + K / 4503599627370496.
Proof.
  intros HK HC HP HS Hg He. cbv zeta. set (e := s * (c - P)) in *. set (dl := K / 16777216) in *. assert (Hdl : / 16777216 <= dl <= / 4) by (unfold dl; lra).
  assert (Ge : e <= 2 * K) by (unfold e; destruct HS as [-> | ->]; lra).
  set (d := rnd e). set (G := rnd (g * g)). set (N := rnd (d * g)). set (M := rnd (N / G)).
  pose proof (rnd_in e e ltac:(lra)) as Ed. fold d in Ed.
  assert (d0 : 0 <= d) by (apply rnd_sign_pos; exact He).
  assert (Hs : s * s = 1) by (destruct HS as [-> | ->]; lra).
  assert (Ag : 3 / 4 <= Rabs g <= 5 / 4). { destruct HS as [-> | ->]; [rewrite Rabs_right by lra|rewrite Rabs_left by lra]; lra. }
  assert (Gg : 9 / 16 <= g * g <= 25 / 16). { replace (g * g) with (Rabs g * Rabs g) by (rewrite <- Rabs_mult; apply Rabs_pos_eq; nra). nra. }
  pose proof (rnd_in (g * g) 2 ltac:(lra)) as EG. fold G in EG.
  pose proof (rnd_in (d * g) (5 / 4 * d) (prod_in d g d ltac:(lra) ltac:(lra))) as EN. fold N in EN.
  assert (GB : / 2 <= G <= 2) by (unfold tc, uc in *; lra).
  assert (Dg : - (5 / 4 * d) <= d * g <= 5 / 4 * d) by (apply prod_in; lra).
  set (r := N - d * g). assert (Er : Rabs r <= uc * (5 / 4 * d) + tc) by (apply Rabs_le; unfold r; lra).
  set (h := G - g * g). assert (Eh : Rabs h <= uc * 2 + tc) by (apply Rabs_le; unfold h; lra).
  assert (E0 : N / G - d / g = (r * g - d * h) / (g * G)). { unfold r, h. field. split; [lra|]. intros ->. rewrite Rabs_R0 in Ag. lra. }
  assert (B0 : Rabs (N / G - d / g) <= 10 * uc * d + 4 * tc).
  { rewrite E0. unfold Rdiv. rewrite Rabs_mult, Rabs_inv, Rabs_mult, (Rabs_pos_eq G) by lra.
    assert (Q : Rabs (r * g - d * h) <= (uc * (5 / 4 * d) + tc) * (5 / 4) + d * (uc * 2 + tc)).
    { unfold Rminus. apply Rle_trans with (1 := Rabs_triang _ _). rewrite Rabs_Ropp, !Rabs_mult, (Rabs_pos_eq d) by lra. pose proof (Rabs_pos r). pose proof (Rabs_pos h). apply Rplus_le_compat; [apply Rmult_le_compat; lra|apply Rmult_le_compat_l; lra]. }
    assert (I : 0 < / (Rabs g * G) <= 8 / 3). { split; [apply Rinv_0_lt_compat, Rmult_lt_0_compat; lra|]. replace (8 / 3) with (/ (3 / 8)) by lra. apply Rinv_le; [lra|]. nra. }
    apply Rle_trans with (((uc * (5 / 4 * d) + tc) * (5 / 4) + d * (uc * 2 + tc)) * (8 / 3)); [apply Rmult_le_compat; try lra; apply Rabs_pos|]. unfold tc, uc. lra. }
  assert (B1 : Rabs (d / g - s * d) <= 4 / 3 * (dl * d)).
  { replace (d / g - s * d) with (d * (1 - s * g) * / g). 2:{ field. intros ->. rewrite Rabs_R0 in Ag. lra. }
    rewrite !Rabs_mult, Rabs_inv, (Rabs_pos_eq d) by lra. assert (Q : Rabs (1 - s * g) <= dl) by (apply Rabs_le; destruct HS as [-> | ->]; lra).
    assert (I : 0 < / Rabs g <= 4 / 3). { split; [apply Rinv_0_lt_compat; lra|]. replace (4 / 3) with (/ (3 / 4)) by lra. apply Rinv_le; lra. }
    pose proof (Rabs_pos (1 - s * g)). assert (d * Rabs (1 - s * g) <= dl * d) by nra. apply Rle_trans with (dl * d * (4 / 3)); [apply Rmult_le_compat; try lra; apply Rmult_le_pos; lra|lra]. }
  assert (DD : dl * d <= dl * e + dl * (uc * e + tc)) by (rewrite <- Rmult_plus_distr_l; apply Rmult_le_compat_l; lra).
  assert (DE : dl * (uc * e + tc) <= / 4 * (uc * e + tc)) by (apply Rmult_le_compat_r; [unfold tc, uc; lra|lra]).
  assert (DL : / 16777216 * e <= dl * e) by (apply Rmult_le_compat_r; lra). assert (DU : dl * e <= / 4 * e) by (apply Rmult_le_compat_r; lra).
  apply Rabs_le_inv in B0. apply Rabs_le_inv in B1.
  assert (ND : - (2 * d + 5 * tc) <= N / G <= 2 * d + 5 * tc). { assert (- d <= s * d <= d) by (destruct HS as [-> | ->]; lra). assert (dl * d <= / 4 * d) by (apply Rmult_le_compat_r; lra). unfold tc, uc in *. lra. }
  pose proof (rnd_in (N / G) (2 * d + 5 * tc) ND) as EM. fold M in EM.
  assert (Sd : - (uc * e + tc) <= s * e - s * d <= uc * e + tc) by (destruct HS as [-> | ->]; lra).
  assert (CP : c - P = s * e) by (unfold e; rewrite <- Rmult_assoc, Hs; ring).
  assert (F : - (3 / 2 * (dl * e) + 12 * tc) <= c - M - P <= 3 / 2 * (dl * e) + 12 * tc) by (unfold tc, uc in *; lra).
  pose proof (rnd_in (c - M) (19 / 10 * K)) as EX. assert (PX := EX ltac:(unfold tc, uc in *; lra)). clear EX.
  assert (Q : 2 * dl * e = 2 * (dl * e)) by ring. rewrite Q.
  split; [exact GB|]. split; [unfold tc, uc in *; lra|]. split; [unfold tc, uc in *; lra|]. apply Rabs_le. unfold tc, uc in *. lra.
Qed.

(** * The same on doubles *)
Lemma K_big K x : 1 <= K <= 67108864 -> - (10 * K) <= x <= 10 * K -> Rabs x <= big.
Proof. intros HK H. apply Rle_trans with (2 := big_large). apply Rabs_le. assert (1000000000000 <= bp 100) by (change (bp 100) with (IZR (2 ^ 100)); apply IZR_le; vm_compute; discriminate). lra. Qed.
Lemma rnd_0 : rnd 0 = 0. Proof. apply rnd_id, rep_0. Qed.
Lemma zero_quot d d2 : finite_double d -> finite_double d2 -> val d2 = val d -> finite_double (fdiv (fsub d2 d) deps_f) /\ val (fdiv (fsub d2 d) deps_f) = 0.
Proof.
  intros D D2 E. destruct deps_ok as [FD VD]. assert (B0 : 0 <= big) by (apply Rle_trans with (2 := big_large), bpow_ge_0).
  destruct (sub_ok d2 d D2 D) as [F V]. { rewrite E. replace (val d - val d) with 0 by ring. rewrite Rabs_R0. exact B0. }
  rewrite E in V. replace (val d - val d) with 0 in V by ring. rewrite rnd_0 in V. apply div_zero; trivial. rewrite VD. unfold dp. lra.
Qed.
Lemma squares_ok g z : finite_double g -> finite_double z -> val z = 0 -> Rabs (val g) <= 4 ->
  (finite_double (fadd (fadd f_0 (fmul g g)) (fmul z z)) /\ val (fadd (fadd f_0 (fmul g g)) (fmul z z)) = rnd (val g * val g)) /\
  (finite_double (fadd (fadd f_0 (fmul z z)) (fmul g g)) /\ val (fadd (fadd f_0 (fmul z z)) (fmul g g)) = rnd (val g * val g)).
Proof.
  intros Fg Fz Vz Bg. destruct zero_ok as [F0 V0]. destruct (mul_zero z z Fz Fz (or_introl Vz)) as [FZ VZ].
  assert (B16 : Rabs (val g * val g) <= bp 4). { rewrite Rabs_mult. change (bp 4) with 16. pose proof (Rabs_pos (val g)). nra. }
  assert (BB : bp 4 <= big) by (apply bpow_le; lia).
  destruct (mul_ok g g Fg Fg) as [FG VG]; [lra|].
  assert (RB : Rabs (rnd (val g * val g)) <= bp 4) by (apply rnd_abs_le; [apply rep_bp; lia|exact B16]).
  assert (RR : rnd (rnd (val g * val g)) = rnd (val g * val g)) by apply rnd_id, rnd_rep.
  split.
  - destruct (add_ok f_0 (fmul g g) F0 FG) as [F1 V1]; [rewrite V0, VG, Rplus_0_l; lra|]. rewrite V0, VG, Rplus_0_l, RR in V1.
    destruct (add_ok _ (fmul z z) F1 FZ) as [F2 V2]; [rewrite V1, VZ, Rplus_0_r; lra|]. split; [exact F2|]. rewrite V2, V1, VZ, Rplus_0_r. exact RR.
  - destruct (add_ok f_0 (fmul z z) F0 FZ) as [F1 V1]; [rewrite V0, VZ, Rplus_0_l, Rabs_R0; apply Rle_trans with (2 := BB), bpow_ge_0|]. rewrite V0, VZ, Rplus_0_l, rnd_0 in V1.
    destruct (add_ok _ (fmul g g) F1 FG) as [F2 V2]; [rewrite V1, VG, Rplus_0_l; lra|]. split; [exact F2|]. rewrite V2, V1, VG, Rplus_0_l. exact RR.
Qed.
Lemma step_ok K c P s d d1 d2 : 1 <= K <= 4194304 -> finite_double c -> finite_double d -> finite_double d1 -> finite_double d2 ->
  - K <= val c <= K -> - K <= P <= K -> sgn s -> 0 <= s * (val c - P) -> val d = rnd (s * (val c - P)) -> val d1 = rnd (s * (rnd (val c + dp) - P)) -> val d2 = val d ->
  let g := fdiv (fsub d1 d) deps_f in let z := fdiv (fsub d2 d) deps_f in
  forall G, G = fadd (fadd f_0 (fmul g g)) (fmul z z) \/ G = fadd (fadd f_0 (fmul z z)) (fmul g g) ->
  let G' := if SFltb G deps_f then deps_f else G in
  (finite_double (fsub c (fdiv (fmul d g) G')) /\ Rabs (val (fsub c (fdiv (fmul d g) G')) - P) <= 2 * (K / 16777216) * (s * (val c - P)) + K / 4503599627370496) /\
  forall o, finite_double o -> - K <= val o <= K -> finite_double (fsub o (fdiv (fmul d z) G')) /\ val (fsub o (fdiv (fmul d z) G')) = val o.
Proof.
  intros HK Fc Fd Fd1 Fd2 HC HP HS He Vd Vd1 Vd2 g z G EG G'. destruct deps_ok as [FD VD]. assert (D0 : 0 < dp) by (unfold dp; lra).
  pose proof (quotient_ok K (val c) P s HK HC HP HS) as (Q1 & Q2 & Q3 & Q4 & Q5). rewrite <- Vd, <- Vd1 in Q4, Q5. rewrite <- Vd in Q2. rewrite <- Vd1 in Q3.
  destruct (sub_ok d1 d Fd1 Fd) as [FS VS]. { apply (K_big K); [lra|lra]. }
  destruct (div_ok (fsub d1 d) deps_f FS FD) as [Fg Vg]; [lra| |].
  { rewrite VS, VD. replace (rnd (val d1 - val d) / dp) with (rnd (val d1 - val d) * 67108864) by (unfold dp; field). apply (K_big 4194304 _ ltac:(lra)). 
    assert (- (1 / 10) <= rnd (val d1 - val d) <= 1 / 10); [|lra].
    clear Q5. pose proof (rnd_in (s * (val c - P)) (2 * K)) as E2. pose proof (rnd_in (val c + dp) (K + 1)) as E1. pose proof (rnd_in (s * (rnd (val c + dp) - P)) (2 * K + 1)) as E3. rewrite <- Vd in E2. rewrite <- Vd1 in E3.
    pose proof (rnd_in (val d1 - val d) (1 / 10000)) as E4. unfold dp, tc, uc in *. assert (P1 := E1 ltac:(lra)). clear E1.
    destruct HS as [-> | ->]; assert (P2 := E2 ltac:(lra)); assert (P3 := E3 ltac:(lra)); clear E2 E3; assert (P4 := E4 ltac:(lra)); lra. }
  fold g in Fg, Vg. rewrite VS, VD in Vg. rewrite <- Vg in Q5.
  destruct (zero_quot d d2 Fd Fd2 Vd2) as [Fz Vz]. fold z in Fz, Vz.
  assert (Bg : Rabs (val g) <= 4) by (apply Rabs_le; destruct HS as [-> | ->]; lra).
  destruct (squares_ok g z Fg Fz Vz Bg) as [[A1 A2] [A3 A4]]. assert (FG : finite_double G /\ val G = rnd (val g * val g)) by (destruct EG as [-> | ->]; split; assumption). clear A1 A2 A3 A4.
  destruct FG as [FG VG]. pose proof (move_ok K (val c) P s (val g) HK HC HP HS Q5 He) as (M1 & M2 & M3 & M4). rewrite <- VG in M1, M3, M4. rewrite <- Vd in M2, M3, M4.
  assert (LT : SFltb G deps_f = false). { destruct (SFltb G deps_f) eqn:E; [|reflexivity]. apply (ltb_val G deps_f FG FD) in E. rewrite VD in E. unfold dp in E. lra. }
  unfold G'. rewrite LT. split.
  - destruct (mul_ok d g Fd Fg) as [FN VN]. { apply (K_big K); [lra|]. assert (- (5 / 4 * (8 * K)) <= val d * val g <= 5 / 4 * (8 * K)); [|lra]. apply prod_in; [lra|]. apply Rabs_le. destruct HS as [-> | ->]; lra. }
    rewrite <- VN in M2, M3, M4.
    destruct (div_ok (fmul d g) G FN FG) as [FM VM]; [lra| |]. { apply (K_big 4194304 _ ltac:(lra)). assert (- (8 * K) <= val (fmul d g) / val G <= 8 * K); [|lra].
      assert (0 < / val G <= 2). { split; [apply Rinv_0_lt_compat; lra|]. replace 2 with (/ / 2) by lra. apply Rinv_le; lra. } unfold Rdiv. split; nra. }
    rewrite <- VM in M3, M4. destruct (sub_ok c (fdiv (fmul d g) G) Fc FM) as [FR VR]; [apply (K_big K); [lra|lra]|]. split; [exact FR|]. rewrite VR. exact M4.
  - intros o Fo Bo. destruct (mul_zero d z Fd Fz (or_intror Vz)) as [FN VN]. destruct (div_zero (fmul d z) G FN FG VN) as [FM VM]; [lra|].
    destruct (sub_ok o _ Fo FM) as [FR VR]; [rewrite VM; apply (K_big K); [lra|lra]|]. split; [exact FR|]. rewrite VR, VM, Rminus_0_r. apply rnd_id, format_val, Fo.
Qed.
Lemma step_exact K c P s d d1 d2 : 1 <= K <= 67108864 -> finite_double c -> finite_double d -> finite_double d1 -> finite_double d2 ->
  - K <= val c <= K -> - K <= P <= K -> sgn s -> representable P -> val d = s * (val c - P) -> val d1 = s * (val c + dp - P) -> val d2 = val d ->
  let g := fdiv (fsub d1 d) deps_f in let z := fdiv (fsub d2 d) deps_f in
  forall G, G = fadd (fadd f_0 (fmul g g)) (fmul z z) \/ G = fadd (fadd f_0 (fmul z z)) (fmul g g) ->
  let G' := if SFltb G deps_f then deps_f else G in
  (finite_double (fsub c (fdiv (fmul d g) G')) /\ val (fsub c (fdiv (fmul d g) G')) = P) /\
  forall o, finite_double o -> - K <= val o <= K -> finite_double (fsub o (fdiv (fmul d z) G')) /\ val (fsub o (fdiv (fmul d z) G')) = val o.
Proof.
  intros HK Fc Fd Fd1 Fd2 HC HP HS RP Vd Vd1 Vd2 g z G EG G'. destruct deps_ok as [FD VD]. assert (D0 : 0 < dp) by (unfold dp; lra).
  assert (Rs : forall x, representable x -> representable (s * x)). { intros x X. destruct HS as [-> | ->]; [rewrite Rmult_1_l; exact X|]. replace (-1 * x) with (- x) by ring. apply rep_opp, X. }
  assert (Rdp : representable dp) by (rewrite <- VD; apply format_val, FD). assert (R1 : representable 1) by (apply (rep_bp 0); lia).
  assert (R_s : representable s) by (replace s with (s * 1) by ring; apply Rs, R1).
  assert (DS : val d1 - val d = s * dp) by (rewrite Vd1, Vd; ring). assert (Sp : - 1 <= s <= 1) by (destruct HS as [-> | ->]; lra).
  assert (SS : s * s = 1) by (destruct HS as [-> | ->]; lra).
  destruct (sub_ok d1 d Fd1 Fd) as [FS VS]. { rewrite DS. apply (K_big 1); [lra|]. unfold dp. destruct HS as [-> | ->]; lra. }
  rewrite DS, (rnd_id (s * dp)) in VS by (apply Rs, Rdp). assert (Q : s * dp / dp = s) by (field; lra).
  destruct (div_ok (fsub d1 d) deps_f FS FD) as [Fg Vg]; [lra|rewrite VS, VD, Q; apply (K_big 1); lra|]. rewrite VS, VD, Q, (rnd_id s R_s) in Vg. fold g in Fg, Vg.
  destruct (zero_quot d d2 Fd Fd2 Vd2) as [Fz Vz]. fold z in Fz, Vz. assert (Bg : Rabs (val g) <= 4) by (apply Rabs_le; lra).
  destruct (squares_ok g z Fg Fz Vz Bg) as [[A1 A2] [A3 A4]]. assert (FG : finite_double G /\ val G = rnd (val g * val g)) by (destruct EG as [-> | ->]; split; assumption). clear A1 A2 A3 A4.
  destruct FG as [FG VG]. rewrite Vg, SS, (rnd_id 1 R1) in VG.
  assert (LT : SFltb G deps_f = false). { destruct (SFltb G deps_f) eqn:E; [|reflexivity]. apply (ltb_val G deps_f FG FD) in E. rewrite VD in E. unfold dp in E. lra. }
  unfold G'. rewrite LT. assert (DB : - (2 * K) <= val d <= 2 * K) by (rewrite Vd; destruct HS as [-> | ->]; lra). split.
  - assert (E1 : val d * val g = val c - P). { rewrite Vd, Vg. replace (s * (val c - P) * s) with (s * s * (val c - P)) by ring. rewrite SS. ring. }
    assert (RC : representable (val c - P)). { rewrite <- E1, Vg, Rmult_comm. apply Rs, format_val, Fd. }
    destruct (mul_ok d g Fd Fg) as [FN VN]; [rewrite E1; apply (K_big K); lra|]. rewrite E1, (rnd_id _ RC) in VN.
    destruct (div_ok (fmul d g) G FN FG) as [FM VM]; [lra|rewrite VN, VG; apply (K_big K); lra|]. rewrite VN, VG in VM. replace ((val c - P) / 1) with (val c - P) in VM by field. rewrite (rnd_id _ RC) in VM.
    assert (E2 : val c - val (fdiv (fmul d g) G) = P) by (rewrite VM; ring).
    destruct (sub_ok c (fdiv (fmul d g) G) Fc FM) as [FR VR]; [rewrite E2; apply (K_big K); lra|]. split; [exact FR|]. rewrite VR, E2. apply rnd_id, RP.
  - intros o Fo Bo. destruct (mul_zero d z Fd Fz (or_intror Vz)) as [FN VN]. destruct (div_zero (fmul d z) G FN FG VN) as [FM VM]; [lra|].
    destruct (sub_ok o _ Fo FM) as [FR VR]; [rewrite VM; apply (K_big K); lra|]. split; [exact FR|]. rewrite VR, VM, Rminus_0_r. apply rnd_id, format_val, Fo.
Qed.

(** * The distance to a box *)
Lemma box_at w x0 xN y0 yN q : finite_double x0 -> finite_double xN -> finite_double y0 -> finite_double yN -> finite_double (fst q) -> finite_double (snd q) ->
  (forall w', beyond w' (val x0) (val xN) (val y0) (val yN) (spot q) <= beyond w (val x0) (val xN) (val y0) (val yN) (spot q)) ->
  Rabs (beyond w (val x0) (val xN) (val y0) (val yN) (spot q)) <= big ->
  finite_double (box_fd x0 xN y0 yN q) /\ val (box_fd x0 xN y0 yN q) = rnd (beyond w (val x0) (val xN) (val y0) (val yN) (spot q)).
Proof.
  intros A B C D E F H Bg. pose proof (box_value x0 xN y0 yN (fst q) (snd q) A B C D E F) as V. cbv zeta in V.
  assert (EQ : Rmax (Rmax (Rmax (val y0 - val (snd q)) (val (snd q) - val yN)) (val x0 - val (fst q))) (val (fst q) - val xN) = beyond w (val x0) (val xN) (val y0) (val yN) (spot q)).
  { pose proof (H West). pose proof (H East). pose proof (H South). pose proof (H North). apply Rle_antisym.
    - repeat apply Rmax_lub; assumption.
    - destruct w; cbn [beyond spot fst snd] in *.
      + apply Rle_trans with (2 := Rmax_l _ _), Rmax_r.
      + apply Rmax_r.
      + apply Rle_trans with (2 := Rmax_l _ _), Rle_trans with (2 := Rmax_l _ _), Rmax_l.
      + apply Rle_trans with (2 := Rmax_l _ _), Rle_trans with (2 := Rmax_l _ _), Rmax_r. }
  rewrite EQ in V. apply V, small_rnd, Bg.
Qed.
Definition sign_of (w : wall) : R := match w with West | South => -1 | _ => 1 end.
Lemma sign_ok w : sgn (sign_of w). Proof. destruct w; [right|left|right|left]; reflexivity. Qed.
Lemma beyond_eq w x0 xN y0 yN q : beyond w x0 xN y0 yN q = sign_of w * (across w q - place w x0 xN y0 yN).
Proof. destruct w; cbn; ring. Qed.
Definition axis (w : wall) : nat := match w with West | East => 0 | _ => 1 end.
Lemma shifted_ok K q i : 1 <= K <= 67108864 -> finite_double (fst q) -> finite_double (snd q) -> - K <= val (fst q) <= K -> - K <= val (snd q) <= K ->
  finite_double (fst (shifted deps_f q i)) /\ finite_double (snd (shifted deps_f q i)) /\
  spot (shifted deps_f q i) = match i with O => (rnd (val (fst q) + dp), val (snd q)) | _ => (val (fst q), rnd (val (snd q) + dp)) end.
Proof.
  intros HK F1 F2 B1 B2. destruct deps_ok as [FD VD]. assert (D0 : 0 < dp <= 1) by (unfold dp; lra).
  assert (Z1 := plus_zero (fst q) F1 ltac:(apply (K_big K); [lra|lra])). assert (Z2 := plus_zero (snd q) F2 ltac:(apply (K_big K); [lra|lra])).
  destruct (add_ok (fst q) deps_f F1 FD) as [A1 A2]; [rewrite VD; apply (K_big K); [lra|lra]|]. destruct (add_ok (snd q) deps_f F2 FD) as [A3 A4]; [rewrite VD; apply (K_big K); [lra|lra]|].
  rewrite VD in A2, A4. destruct i; cbn [shifted fst snd]; unfold spot; cbn [fst snd].
  - split; [exact A1|]. split; [apply Z2|]. rewrite A2, (proj2 Z2). reflexivity.
  - split; [apply Z1|]. split; [exact A3|]. rewrite A4, (proj2 Z1). reflexivity.
Qed.
Lemma shift_near K x : 1 <= K <= 67108864 -> - K <= x <= K -> x + dp - 3 * dp / 5 <= rnd (x + dp) <= x + dp + 3 * dp / 5.
Proof. intros HK H. pose proof (rnd_in (x + dp) (K + 1)) as E. unfold dp, tc, uc in *. assert (P1 := E ltac:(lra)). lra. Qed.

Section Box.
  Variables (K : R) (w : wall) (x0 xN y0 yN : spec_float) (q : fpt).
  Hypothesis HK : 1 <= K <= 67108864.
  Hypothesis S0 : finite_double x0 /\ - K <= val x0 <= K.
  Hypothesis S1 : finite_double xN /\ - K <= val xN <= K.
  Hypothesis S2 : finite_double y0 /\ - K <= val y0 <= K.
  Hypothesis S3 : finite_double yN /\ - K <= val yN <= K.
  Hypothesis S4 : finite_double (fst q) /\ - K <= val (fst q) <= K.
  Hypothesis S5 : finite_double (snd q) /\ - K <= val (snd q) <= K.
  Hypothesis FM : foremost w (val x0) (val xN) (val y0) (val yN) (spot q).
  Hypothesis OUT : 0 < beyond w (val x0) (val xN) (val y0) (val yN) (spot q).
  Notation fd := (box_fd x0 xN y0 yN).
  Notation by_ w' p := (beyond w' (val x0) (val xN) (val y0) (val yN) p).

  Lemma margin : / 2 ^ 24 = 4 * dp. Proof. unfold dp. simpl. lra. Qed.
  Lemma at_q : finite_double (fd q) /\ val (fd q) = rnd (by_ w (spot q)).
  Proof.
    apply box_at; try tauto.
    - intros w'. assert (w' = w \/ w' <> w) as [-> | N] by (destruct w, w'; try (left; reflexivity); right; discriminate); [lra|]. pose proof (FM w' N) as H. rewrite margin in H. unfold dp in H. lra.
    - apply (K_big K); [lra|]. destruct w; cbn [beyond spot fst snd]; lra.
  Qed.
  Lemma at_shifted i : finite_double (fd (shifted deps_f q i)) /\ val (fd (shifted deps_f q i)) = rnd (by_ w (spot (shifted deps_f q i))).
  Proof.
    destruct S4 as [F4 B4], S5 as [F5 B5]. destruct (shifted_ok K q i HK F4 F5 B4 B5) as (G1 & G2 & E).
    pose proof (shift_near K (val (fst q)) HK B4) as N1. pose proof (shift_near K (val (snd q)) HK B5) as N2. assert (D0 : 0 < dp <= / 1000000) by (unfold dp; lra).
    apply box_at; try tauto.
    - intros w'. assert (w' = w \/ w' <> w) as [-> | N] by (destruct w, w'; try (left; reflexivity); right; discriminate); [lra|]. pose proof (FM w' N) as H. rewrite margin in H.
      rewrite E. destruct i; destruct w, w'; try (elim N; reflexivity); cbn [beyond spot fst snd] in *; lra.
    - apply (K_big K); [lra|]. rewrite E. destruct i; destruct w; cbn [beyond spot fst snd]; lra.
  Qed.
  Lemma projected : K <= 4194304 -> let q' := project_point_f fd deps_f q in finite_double (fst q') /\ finite_double (snd q') /\ along w (spot q') = along w (spot q) /\
    Rabs (across w (spot q') - place w (val x0) (val xN) (val y0) (val yN)) <= 2 * (K / 16777216) * by_ w (spot q) + K / 4503599627370496.
  Proof.
    intros HK2. assert (HK' : 1 <= K <= 4194304) by lra. destruct at_q as [Fd Vd]. pose proof (at_shifted 0) as [F0 V0]. pose proof (at_shifted 1) as [F1 V1].
    destruct S4 as [F4 B4], S5 as [F5 B5]. destruct (shifted_ok K q 0 HK F4 F5 B4 B5) as (_ & _ & E0). destruct (shifted_ok K q 1 HK F4 F5 B4 B5) as (_ & _ & E1).
    rewrite E0 in V0. rewrite E1 in V1. rewrite beyond_eq in Vd, V0, V1. rewrite beyond_eq. pose proof OUT as He. rewrite beyond_eq in He.
    cbv zeta. unfold project_point_f, dgrad_f. 
    assert (BP : - K <= place w (val x0) (val xN) (val y0) (val yN) <= K) by (destruct w; cbn [place]; tauto).
    assert (CASE : (axis w = 0%nat /\ (w = West \/ w = East)) \/ (axis w = 1%nat /\ (w = South \/ w = North))) by (destruct w; tauto).
    destruct CASE as [[_ CW] | [_ CW]].
    - assert (AX : forall p, across w p = fst p) by (intros p; destruct CW as [-> | ->]; reflexivity). assert (AL : forall p, along w p = snd p) by (intros p; destruct CW as [-> | ->]; reflexivity).
      rewrite AX in Vd, V0, V1, He. rewrite !AX, !AL. cbn [spot fst snd] in *.
      assert (V1' : val (fd (shifted deps_f q 1)) = val (fd q)) by (rewrite V1, Vd; reflexivity).
      destruct (step_ok K (fst q) (place w (val x0) (val xN) (val y0) (val yN)) (sign_of w) (fd q) (fd (shifted deps_f q 0)) (fd (shifted deps_f q 1)) HK' F4 Fd F0 F1 B4 BP (sign_ok w) (Rlt_le _ _ He) Vd V0 V1' _ (or_introl eq_refl)) as [[R1 R2] R3].
      destruct (R3 (snd q) F5 B5) as [R4 R5]. repeat split; try apply R1; try apply R4; [exact R5|exact R2].
    - assert (AX : forall p, across w p = snd p) by (intros p; destruct CW as [-> | ->]; reflexivity). assert (AL : forall p, along w p = fst p) by (intros p; destruct CW as [-> | ->]; reflexivity).
      rewrite AX in Vd, V0, V1, He. rewrite !AX, !AL. cbn [spot fst snd] in *.
      assert (V0' : val (fd (shifted deps_f q 0)) = val (fd q)) by (rewrite V0, Vd; reflexivity).
      destruct (step_ok K (snd q) (place w (val x0) (val xN) (val y0) (val yN)) (sign_of w) (fd q) (fd (shifted deps_f q 1)) (fd (shifted deps_f q 0)) HK' F5 Fd F1 F0 B5 BP (sign_ok w) (Rlt_le _ _ He) Vd V1 V0' _ (or_intror eq_refl)) as [[R1 R2] R3].
      destruct (R3 (fst q) F4 B4) as [R4 R5]. repeat split; try apply R1; try apply R4; [exact R5|exact R2].
  Qed.
  Lemma projected_exact : representable (across w (spot q) + dp) -> representable (across w (spot q) - place w (val x0) (val xN) (val y0) (val yN)) -> representable (across w (spot q) + dp - place w (val x0) (val xN) (val y0) (val yN)) ->
    let q' := project_point_f fd deps_f q in finite_double (fst q') /\ finite_double (snd q') /\ along w (spot q') = along w (spot q) /\ across w (spot q') = place w (val x0) (val xN) (val y0) (val yN).
  Proof.
    intros RA RB RC. destruct at_q as [Fd Vd]. pose proof (at_shifted 0) as [F0 V0]. pose proof (at_shifted 1) as [F1 V1].
    destruct S4 as [F4 B4], S5 as [F5 B5]. destruct (shifted_ok K q 0 HK F4 F5 B4 B5) as (_ & _ & E0). destruct (shifted_ok K q 1 HK F4 F5 B4 B5) as (_ & _ & E1).
    rewrite E0 in V0. rewrite E1 in V1. rewrite beyond_eq in Vd, V0, V1.
    cbv zeta. unfold project_point_f, dgrad_f.
    set (P := place w (val x0) (val xN) (val y0) (val yN)) in *.
    assert (BP : - K <= P <= K) by (unfold P; destruct w; cbn [place]; tauto).
    assert (RP : representable P) by (unfold P; destruct w; cbn [place]; apply format_val; tauto).
    assert (Rs : forall x, representable x -> rnd (sign_of w * x) = sign_of w * x). { intros x X. apply rnd_id. destruct (sign_ok w) as [-> | ->]; [rewrite Rmult_1_l; exact X|]. replace (-1 * x) with (- x) by ring. apply rep_opp, X. }
    assert (CASE : (w = West \/ w = East) \/ (w = South \/ w = North)) by (destruct w; tauto).
    destruct CASE as [CW | CW].
    - assert (AX : forall p, across w p = fst p) by (intros p; destruct CW as [-> | ->]; reflexivity). assert (AL : forall p, along w p = snd p) by (intros p; destruct CW as [-> | ->]; reflexivity).
      rewrite AX in Vd, V0, V1, RA, RB, RC. rewrite !AX, !AL. cbn [spot fst snd] in *. assert (V1' : val (fd (shifted deps_f q 1)) = val (fd q)) by (rewrite V1, Vd; reflexivity).
      rewrite (Rs _ RB) in Vd. rewrite (rnd_id _ RA), (Rs _ RC) in V0.
      destruct (step_exact K (fst q) P (sign_of w) (fd q) (fd (shifted deps_f q 0)) (fd (shifted deps_f q 1)) HK F4 Fd F0 F1 B4 BP (sign_ok w) RP Vd V0 V1' _ (or_introl eq_refl)) as [[R1 R2] R3].
      destruct (R3 (snd q) F5 B5) as [R4 R5]. repeat split; try apply R1; try apply R4; [exact R5|exact R2].
    - assert (AX : forall p, across w p = snd p) by (intros p; destruct CW as [-> | ->]; reflexivity). assert (AL : forall p, along w p = fst p) by (intros p; destruct CW as [-> | ->]; reflexivity).
      rewrite AX in Vd, V0, V1, RA, RB, RC. rewrite !AX, !AL. cbn [spot fst snd] in *. assert (V0' : val (fd (shifted deps_f q 0)) = val (fd q)) by (rewrite V0, Vd; reflexivity).
      rewrite (Rs _ RB) in Vd. rewrite (rnd_id _ RA), (Rs _ RC) in V1.
      destruct (step_exact K (snd q) P (sign_of w) (fd q) (fd (shifted deps_f q 1)) (fd (shifted deps_f q 0)) HK F5 Fd F1 F0 B5 BP (sign_ok w) RP Vd V1 V0' _ (or_intror eq_refl)) as [[R1 R2] R3].
      destruct (R3 (fst q) F4 B4) as [R4 R5]. repeat split; try apply R1; try apply R4; [exact R5|exact R2].
  Qed.
End Box.

(** * All the points *)
Lemma outside_box w x0 xN y0 yN q : finite_double x0 -> finite_double xN -> finite_double y0 -> finite_double yN -> finite_double (fst q) -> finite_double (snd q) ->
  0 < beyond w (val x0) (val xN) (val y0) (val yN) (spot q) -> SFltb f_0 (box_fd x0 xN y0 yN q) = true.
Proof.
  intros A B C D E F H. apply (proj1 (proj2 (box_signs x0 xN y0 yN (fst q) (snd q) A B C D E F))). intros [I J]. destruct w; cbn [beyond spot fst snd] in H; lra.
Qed.
Lemma sized k x : (k <= 26)%nat -> size_atmost k x -> finite_double x /\ - 2 ^ k <= val x <= 2 ^ k.
Proof. intros _ [F B]. split; [exact F|]. apply Rabs_le_inv, B. Qed.
Lemma pow_range k n : (k <= n)%nat -> 1 <= 2 ^ k <= 2 ^ n.
Proof. intros H. split; [apply pow_R1_Rle; lra|apply Rle_pow; [lra|exact H]]. Qed.
Lemma two22 : 2 ^ 22 = 4194304. Proof. simpl. lra. Qed.
Lemma two26 : 2 ^ 26 = 67108864. Proof. simpl. lra. Qed.
Lemma step26 : / 2 ^ 26 = dp. Proof. rewrite two26. reflexivity. Qed.
Lemma nth_project p fd deps i q : nth_error p i = Some q -> nth_error (project_points_back_f p fd deps) i = Some (if SFltb f_0 (fd q) then project_point_f fd deps q else q).
Proof. intros H. unfold project_points_back_f. rewrite nth_error_map, H. reflexivity. Qed.

Theorem projects_ok k w x0 xN y0 yN p i q : (k <= 22)%nat -> size_atmost k x0 -> size_atmost k xN -> size_atmost k y0 -> size_atmost k yN -> size_atmost k (fst q) -> size_atmost k (snd q) ->
  nth_error p i = Some q -> foremost w (val x0) (val xN) (val y0) (val yN) (spot q) -> 0 < beyond w (val x0) (val xN) (val y0) (val yN) (spot q) ->
  exists q', nth_error (project_points_back_f p (fun a => bbox_f x0 xN y0 yN (fst a) (snd a)) deps_f) i = Some q' /\ finite_point q' /\ along w (spot q') = along w (spot q) /\
    Rabs (across w (spot q') - place w (val x0) (val xN) (val y0) (val yN)) <= 2 ^ k / 2 ^ 23 * beyond w (val x0) (val xN) (val y0) (val yN) (spot q) + 2 ^ k / 2 ^ 52.
Proof.
  intros Hk A0 A1 A2 A3 A4 A5 I FM OUT. pose proof (pow_range k 22 Hk) as HK. rewrite two22 in HK.
  exists (project_point_f (box_fd x0 xN y0 yN) deps_f q). split.
  - rewrite (nth_project _ _ _ _ _ I). change (bbox_f x0 xN y0 yN (fst q) (snd q)) with (box_fd x0 xN y0 yN q). rewrite (outside_box w); try reflexivity; try exact OUT; [apply A0|apply A1|apply A2|apply A3|apply A4|apply A5].
  - destruct (projected (2 ^ k) w x0 xN y0 yN q ltac:(lra) (sized k x0 ltac:(lia) A0) (sized k xN ltac:(lia) A1) (sized k y0 ltac:(lia) A2) (sized k yN ltac:(lia) A3) (sized k _ ltac:(lia) A4) (sized k _ ltac:(lia) A5) FM OUT ltac:(lra)) as (R1 & R2 & R3 & R4).
    split; [split; assumption|]. split; [exact R3|].
    replace (2 ^ k / 2 ^ 23) with (2 * (2 ^ k / 16777216)) by (replace (2 ^ 23) with 8388608 by (simpl; lra); field). replace (2 ^ 52) with 4503599627370496 by (simpl; lra). exact R4.
Qed.
Theorem projects_exact k w x0 xN y0 yN p i q : (k <= 26)%nat -> size_atmost k x0 -> size_atmost k xN -> size_atmost k y0 -> size_atmost k yN -> size_atmost k (fst q) -> size_atmost k (snd q) ->
  nth_error p i = Some q -> foremost w (val x0) (val xN) (val y0) (val yN) (spot q) -> 0 < beyond w (val x0) (val xN) (val y0) (val yN) (spot q) ->
  let c := across w (spot q) in let P := place w (val x0) (val xN) (val y0) (val yN) in
  representable (c + / 2 ^ 26) -> representable (c - P) -> representable (c + / 2 ^ 26 - P) ->
  exists q', nth_error (project_points_back_f p (fun a => bbox_f x0 xN y0 yN (fst a) (snd a)) deps_f) i = Some q' /\ finite_point q' /\ along w (spot q') = along w (spot q) /\ across w (spot q') = P.
Proof.
  intros Hk A0 A1 A2 A3 A4 A5 I FM OUT c P. rewrite step26. intros RA RB RC. pose proof (pow_range k 26 Hk) as HK. rewrite two26 in HK.
  exists (project_point_f (box_fd x0 xN y0 yN) deps_f q). split.
  - rewrite (nth_project _ _ _ _ _ I). change (bbox_f x0 xN y0 yN (fst q) (snd q)) with (box_fd x0 xN y0 yN q). rewrite (outside_box w); try reflexivity; try exact OUT; [apply A0|apply A1|apply A2|apply A3|apply A4|apply A5].
  - destruct (projected_exact (2 ^ k) w x0 xN y0 yN q ltac:(lra) (sized k x0 ltac:(lia) A0) (sized k xN ltac:(lia) A1) (sized k y0 ltac:(lia) A2) (sized k yN ltac:(lia) A3) (sized k _ ltac:(lia) A4) (sized k _ ltac:(lia) A5) FM OUT RA RB RC) as (R1 & R2 & R3 & R4).
    split; [split; assumption|]. split; [exact R3|exact R4].
Qed.
Theorem keeps p fd deps : length (project_points_back_f p fd deps) = length p /\ forall i q, nth_error p i = Some q -> SFltb (S754_zero false) (fd q) = false -> nth_error (project_points_back_f p fd deps) i = Some q.
Proof. split; [apply map_length|]. intros i q I H. rewrite (nth_project _ _ _ _ _ I). unfold f_0. rewrite H. reflexivity. Qed.
Theorem keeps_box x0 xN y0 yN p deps i q : finite_double x0 -> finite_double xN -> finite_double y0 -> finite_double yN -> finite_point q -> nth_error p i = Some q ->
  val x0 <= val (fst q) <= val xN -> val y0 <= val (snd q) <= val yN ->
  nth_error (project_points_back_f p (fun a => bbox_f x0 xN y0 yN (fst a) (snd a)) deps) i = Some q.
Proof.
  intros A B C D [E F] I X Y. apply keeps; [exact I|]. cbn beta. destruct (SFltb (S754_zero false) _) eqn:S; [|reflexivity].
  apply (proj1 (proj2 (box_signs x0 xN y0 yN (fst q) (snd q) A B C D E F))) in S. elim S. split; assumption.
Qed.

(** * Far away nothing moves *)
Lemma whole24 x : representable x -> bp 28 <= Rabs x -> exists n, x = IZR n * bp (-24).
Proof.
  intros F L. assert (G : generic_format radix2 (FIX_exp (-24)) x).
  { apply (generic_inclusion_ge radix2 (FLT_exp (-1074) 53) (FIX_exp (-24)) 28); [|exact L|exact F]. intros e E. unfold FIX_exp, FLT_exp. lia. }
  destruct (FIX_format_generic _ _ _ G) as [f E Ef]. exists (Fnum f). rewrite E. unfold F2R. rewrite Ef. reflexivity.
Qed.
Lemma stays x : representable x -> 2 ^ 28 < Rabs x -> rnd (x + dp) = x.
Proof.
  intros R H. assert (E28 : bp 28 = 2 ^ 28) by (rewrite bpow_powerRZ; reflexivity). assert (E24 : bp (-24) = 4 * dp). { unfold dp. change (bp (-24)) with (/ 16777216). lra. }
  assert (D0 : 0 < dp) by (unfold dp; lra). destruct (whole24 x R ltac:(lra)) as [n En].
  assert (NR : Rabs (rnd (x + dp) - (x + dp)) <= Rabs (x - (x + dp))). { apply (round_N_pt radix2 (FLT_exp (-1074) 53) (fun z => negb (Z.even z)) (x + dp)); exact R. }
  replace (x - (x + dp)) with (- dp) in NR by ring. rewrite Rabs_Ropp, (Rabs_pos_eq dp) in NR by lra. apply Rabs_le_inv in NR.
  assert (LB : bp 28 <= Rabs (rnd (x + dp))).
  { unfold Rabs in H. destruct (Rcase_abs x) as [N|N].
    - assert (X : x + 4 * dp <= - bp 28). { rewrite <- E24. assert (K : bp 28 = IZR (2 ^ 52) * bp (-24)). { change (IZR (2 ^ 52)) with (bp 52). rewrite <- bpow_plus. reflexivity. }
        assert (Q : IZR n < - IZR (2 ^ 52)). { apply Rmult_lt_reg_r with (bp (-24)); [apply bpow_gt_0|]. rewrite <- En, Ropp_mult_distr_l_reverse, <- K. lra. }
        rewrite <- opp_IZR in Q. apply lt_IZR in Q. assert (n + 1 <= - 2 ^ 52)%Z as Q1 by lia. apply IZR_le in Q1. rewrite plus_IZR, opp_IZR in Q1. rewrite En, K. pose proof (bpow_gt_0 radix2 (-24)). nra. }
      assert (Z : rnd (x + dp) <= - bp 28). { rewrite <- (rnd_id (- bp 28)) by (apply rep_opp, rep_bp; lia). apply rnd_le. lra. }
      rewrite Rabs_left1; [lra|]. pose proof (bpow_gt_0 radix2 28). lra.
    - assert (Z : bp 28 <= rnd (x + dp)). { rewrite <- (rnd_id (bp 28)) by (apply rep_bp; lia). apply rnd_le. lra. } rewrite Rabs_pos_eq; [exact Z|]. pose proof (bpow_gt_0 radix2 28). lra. }
  destruct (whole24 (rnd (x + dp)) (rnd_rep _) LB) as [m Em].
  assert (Q : -1 < IZR m - IZR n < 1). { rewrite Em, En in NR. rewrite E24 in NR. split; nra. }
  rewrite <- minus_IZR in Q. destruct Q as [Q1 Q2]. apply lt_IZR in Q1. apply lt_IZR in Q2. assert (m = n) by lia. subst m. rewrite Em, En. reflexivity.
Qed.
Lemma same_double x y : finite_double x -> finite_double y -> val x = val y -> val x <> 0 -> x = y.
Proof.
  intros X Y E N. destruct (lift x X) as (a & <- & Fa & Va). destruct (lift y Y) as (b & <- & Fb & Vb). f_equal. apply B2R_inj.
  - destruct a; try discriminate; [elim N; reflexivity|reflexivity].
  - rewrite E in N. destruct b; try discriminate; [elim N; reflexivity|reflexivity].
  - congruence.
Qed.
Lemma far_shift q i : finite_point q -> 2 ^ 28 < Rabs (val (fst q)) <= 2 ^ 100 -> 2 ^ 28 < Rabs (val (snd q)) <= 2 ^ 100 -> shifted deps_f q i = q.
Proof.
  intros [F1 F2] B1 B2. destruct deps_ok as [FD VD]. destruct q as [x y]. cbn [fst snd] in *.
  assert (E100 : bp 100 = 2 ^ 100) by (rewrite bpow_powerRZ; reflexivity). pose proof big_large as BL.
  assert (P28 : 0 < 2 ^ 28) by (apply pow_lt; lra). assert (D1 : 0 < dp <= 1) by (unfold dp; lra). assert (P1 : 1 <= 2 ^ 100) by (apply pow_R1_Rle; lra).
  assert (BB : bp 100 + 1 <= big). { apply Rle_trans with (bp 101); [|apply bpow_le; lia]. change (bp 101) with (bp (100 + 1)). rewrite bpow_plus. change (bp 1) with 2. lra. }
  assert (AD : forall a, finite_double a -> 2 ^ 28 < Rabs (val a) <= 2 ^ 100 -> fadd a deps_f = a /\ fadd a f_0 = a).
  { intros a Fa Ba. assert (Na : val a <> 0). { intros E. rewrite E, Rabs_R0 in Ba. lra. } split.
    - destruct (add_ok a deps_f Fa FD) as [F V]. { rewrite VD. apply Rle_trans with (1 := Rabs_triang _ _). rewrite (Rabs_pos_eq dp) by lra. lra. }
      rewrite VD, stays in V; [|apply format_val, Fa|lra]. apply same_double; trivial. rewrite V. exact Na.
    - destruct (plus_zero a Fa) as [F V]; [lra|]. apply same_double; trivial. rewrite V. exact Na. }
  destruct (AD x F1 B1) as [X1 X2]. destruct (AD y F2 B2) as [Y1 Y2]. destruct i; cbn [shifted fst snd]; congruence.
Qed.
Theorem far_kept p fd i q : nth_error p i = Some q -> finite_point q -> 2 ^ 28 < Rabs (val (fst q)) <= 2 ^ 100 -> 2 ^ 28 < Rabs (val (snd q)) <= 2 ^ 100 -> finite_double (fd q) ->
  nth_error (project_points_back_f p fd deps_f) i = Some q.
Proof.
  intros I Fq B1 B2 Fd. rewrite (nth_project _ _ _ _ _ I). destruct (SFltb f_0 (fd q)); [|reflexivity]. f_equal. unfold project_point_f, dgrad_f. rewrite !far_shift by assumption.
  destruct (zero_quot (fd q) (fd q) Fd Fd eq_refl) as [Fz Vz]. set (z := fdiv (fsub (fd q) (fd q)) deps_f) in *.
  destruct (squares_ok z z Fz Fz Vz) as [[FG VG] _]; [rewrite Vz, Rabs_R0; lra|]. rewrite Vz, Rmult_0_l, rnd_0 in VG. set (G := fadd (fadd f_0 (fmul z z)) (fmul z z)) in *.
  destruct deps_ok as [FD VD]. assert (D1 : 0 < dp) by (unfold dp; lra). assert (LT : SFltb G deps_f = true) by (apply ltb_val; trivial; lra). rewrite LT.
  destruct (mul_zero (fd q) z Fd Fz (or_intror Vz)) as [FN VN]. destruct (div_zero (fmul (fd q) z) deps_f FN FD VN) as [FM VM]; [lra|]. set (m := fdiv (fmul (fd q) z) deps_f) in *.
  assert (P28 : 0 < 2 ^ 28) by (apply pow_lt; lra). assert (E100 : bp 100 = 2 ^ 100) by (rewrite bpow_powerRZ; reflexivity). pose proof big_large as BL.
  assert (SB : forall a, finite_double a -> 2 ^ 28 < Rabs (val a) <= 2 ^ 100 -> fsub a m = a).
  { intros a Fa Ba. assert (Na : val a <> 0). { intros E. rewrite E, Rabs_R0 in Ba. lra. } destruct (sub_ok a m Fa FM) as [F V]; [rewrite VM, Rminus_0_r; lra|]. rewrite VM, Rminus_0_r, rnd_id in V by (apply format_val, Fa). apply same_double; trivial. rewrite V. exact Na. }
  destruct q as [x y], Fq as [F1 F2]. cbn [fst snd] in *. rewrite (SB x F1 B1), (SB y F2 B2). reflexivity.
Qed.

(** * Cases *)
Definition d_1 : spec_float := S754_finite false 4503599627370496 (-52).
Definition d_half : spec_float := S754_finite false 4503599627370496 (-53).
Definition d_15 : spec_float := S754_finite false 6755399441055744 (-52).
Definition d_3 : spec_float := S754_finite false 6755399441055744 (-51).
Definition d_tenth : spec_float := S754_finite false 7205759403792794 (-56).
Definition d_2e29 : spec_float := S754_finite false 4503599627370496 (-23).
Definition unit_fd : fpt -> spec_float := fun a => bbox_f f_0 d_1 f_0 d_1 (fst a) (snd a).
Lemma not_on_edge : exists x0 xN y0 yN q q', size_atmost 2 x0 /\ size_atmost 2 xN /\ size_atmost 2 y0 /\ size_atmost 2 yN /\ size_atmost 2 (fst q) /\ size_atmost 2 (snd q) /\
  val x0 < val xN /\ val y0 < val yN /\ foremost East (val x0) (val xN) (val y0) (val yN) (spot q) /\ 0 < beyond East (val x0) (val xN) (val y0) (val yN) (spot q) /\
  project_points_back_f [q] (fun a => bbox_f x0 xN y0 yN (fst a) (snd a)) deps_f = [q'] /\ 0 < beyond East (val x0) (val xN) (val y0) (val yN) (spot q').
Proof.
  assert (E0 : val f_0 = 0) by reflexivity. assert (E1 : val d_1 = 1) by (change (val d_1) with (4503599627370496 * / 4503599627370496); lra). assert (EH : val d_half = / 2) by (change (val d_half) with (4503599627370496 * / 9007199254740992); lra).
  assert (E3 : val d_3 = 3) by (change (val d_3) with (6755399441055744 * / 2251799813685248); lra). assert (ET : val d_tenth = 7205759403792794 / 72057594037927936) by (change (val d_tenth) with (7205759403792794 * / 72057594037927936); lra).
  exists f_0, d_tenth, f_0, d_1, (d_3, d_half). eexists. 
  assert (S : forall x, valid_binary 53 1024 x = true -> is_finite_SF x = true -> 0 <= val x <= 4 -> size_atmost 2 x). { intros x A B C. split; [split; assumption|]. rewrite Rabs_pos_eq by lra. simpl. lra. }
  do 6 (split; [apply S; [reflexivity|reflexivity|]; cbn [fst snd]; lra|]). split; [lra|]. split; [lra|].
  split. { intros w N. replace (/ 2 ^ 24) with (/ 16777216) by (simpl; lra). destruct w; try (elim N; reflexivity); cbn [beyond spot fst snd]; lra. }
  split; [cbn [beyond spot fst snd]; lra|]. split; [vm_compute; reflexivity|].
  match goal with |- 0 < beyond East _ _ _ _ (spot (?x, _)) => assert (EX : 7205759403792794 / 72057594037927936 < val x) end; [|cbn [beyond spot fst snd]; lra].
  match goal with |- _ < val (S754_finite false ?m ?e) => change (val (S754_finite false m e)) with (IZR (Zpos m) * bp e) end.
  match goal with |- context [bp ?e] => let v := eval cbv in (Z.opp e) in change (bp e) with (/ IZR (2 ^ v)) end.
  match goal with |- context [IZR (2 ^ ?v)] => let z := eval cbv in (2 ^ v)%Z in change (2 ^ v)%Z with z end. lra.
Qed.
Lemma corner_case : project_points_back_f [(ftwo, ftwo)] unit_fd deps_f = [(d_15, d_15)] /\ unit_fd (d_15, d_15) = d_half.
Proof. split; vm_compute; reflexivity. Qed.
Lemma far_case : exists q, finite_point q /\ SFltb (S754_zero false) (unit_fd q) = true /\ project_points_back_f [q] unit_fd deps_f = [q].
Proof. exists (d_2e29, d_2e29). split; [split; split; reflexivity|]. split; vm_compute; reflexivity. Qed.
Lemma case_facts : size_atmost 1 f_0 /\ size_atmost 1 d_1 /\ size_atmost 1 ftwo /\ size_atmost 1 d_half /\
  foremost East (val f_0) (val d_1) (val f_0) (val d_1) (spot (ftwo, d_half)) /\ 0 < beyond East (val f_0) (val d_1) (val f_0) (val d_1) (spot (ftwo, d_half)) /\
  project_points_back_f [(ftwo, d_half); (d_half, d_half)] unit_fd deps_f = [(d_1, d_half); (d_half, d_half)].
Proof.
  assert (E0 : val f_0 = 0) by reflexivity. assert (E1 : val d_1 = 1) by (change (val d_1) with (4503599627370496 * / 4503599627370496); lra). assert (EH : val d_half = / 2) by (change (val d_half) with (4503599627370496 * / 9007199254740992); lra).
  assert (E2 : val ftwo = 2) by (change (val ftwo) with (4503599627370496 * / 2251799813685248); lra).
  assert (S : forall x, valid_binary 53 1024 x = true -> is_finite_SF x = true -> 0 <= val x <= 2 -> size_atmost 1 x). { intros x A B C. split; [split; assumption|]. rewrite Rabs_pos_eq by lra. simpl. lra. }
  do 4 (split; [apply S; [reflexivity|reflexivity|]; lra|]). split. { intros w N. replace (/ 2 ^ 24) with (/ 16777216) by (simpl; lra). destruct w; try (elim N; reflexivity); cbn [beyond spot fst snd]; lra. }
  split; [cbn [beyond spot fst snd]; lra|]. vm_compute. reflexivity.
Qed.
Lemma representable_case : representable (across East (spot (ftwo, d_half)) + / 2 ^ 26) /\ representable (across East (spot (ftwo, d_half)) - place East (val f_0) (val d_1) (val f_0) (val d_1)) /\
  representable (across East (spot (ftwo, d_half)) + / 2 ^ 26 - place East (val f_0) (val d_1) (val f_0) (val d_1)).
Proof.
  assert (E1 : val d_1 = 1) by (change (val d_1) with (4503599627370496 * / 4503599627370496); lra). assert (E2 : val ftwo = 2) by (change (val ftwo) with (4503599627370496 * / 2251799813685248); lra).
  cbn [across place spot fst snd]. rewrite E1, E2. replace (/ 2 ^ 26) with (/ 67108864) by (simpl; lra).
  set (a := S754_finite false 4503599660924928 (-51)). set (b := S754_finite false 4503599694479360 (-52)).
  assert (FA : finite_double a) by (split; reflexivity). assert (FB : finite_double b) by (split; reflexivity).
  assert (VA : val a = 2 + / 67108864) by (change (val a) with (4503599660924928 * / 2251799813685248); lra).
  assert (VB : val b = 2 + / 67108864 - 1) by (change (val b) with (4503599694479360 * / 4503599627370496); lra).
  split; [rewrite <- VA; apply format_val, FA|]. split; [replace (2 - 1) with (val d_1) by lra; apply format_val; split; reflexivity|rewrite <- VB; apply format_val, FB].
Qed.
