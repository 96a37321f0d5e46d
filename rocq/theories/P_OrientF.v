(** Proofs about the orientation of a path of doubles. *)
From Coq Require Import List Arith Bool ZArith Lia Reals Lra SpecFloat.
From Flocq Require Import Core IEEE754.BinarySingleNaN.
From Verif Require Import Util M_Base M_FixMesh M_QualF M_ForceF M_OrientF S_Double S_Ieee S_OrientF P_Double P_LimitF P_Ieee P_Ieee2 P_Ieee3 P_ForceF P_ForceF2 P_ProjF P_StartF P_DensifyF.
Import ListNotations.
Open Scope R_scope.
Local Notation bp := (bpow radix2).

Lemma pow_up a b : (a <= b)%nat -> 2 ^ a <= 2 ^ b. Proof. intros H. apply Rle_pow; lra || lia. Qed.
Lemma ipow_up a b : (a <= b)%nat -> / 2 ^ b <= / 2 ^ a. Proof. intros H. apply Rinv_le_contravar; [apply pow_lt; lra|apply pow_up, H]. Qed.
Lemma pow_pos n : 0 < 2 ^ n. Proof. apply pow_lt. lra. Qed.
Lemma big_900 : big = 2 ^ 900. Proof. unfold big. rewrite two_pow. reflexivity. Qed.
Lemma tiny_pow n : bp (- Z.of_nat n) = / 2 ^ n. Proof. rewrite bpow_opp, two_pow. reflexivity. Qed.
Lemma t_pow : bp (-1075) = / 2 ^ 1075. Proof. exact (tiny_pow 1075). Qed.
Lemma ipow_mul a b : / 2 ^ (a + b) * 2 ^ b = / 2 ^ a.
Proof. rewrite pow_add. field. split; apply Rgt_not_eq, pow_pos. Qed.

(** * The error of an elimination in real numbers *)
Lemma mul_le a b A B : Rabs a <= A -> Rabs b <= B -> Rabs (a * b) <= A * B.
Proof. intros HA HB. rewrite Rabs_mult. apply Rmult_le_compat; auto using Rabs_pos. Qed.
Section Core.
Variables t e d B Rx Ry X1 Y1 X2 Y2 x1 y1 x2 y2 : R.
Hypothesis (Ht : 0 <= t) (He : 0 <= e) (Htb : t * B <= d) (Heb : e * B <= d) (Hd : d <= 1) (HB : 1 <= B) (HRx : 0 <= Rx <= B) (HRy : 0 <= Ry <= B).
Hypothesis (A1 : Rabs X1 <= Rx) (A2 : Rabs X2 <= Rx) (A3 : Rabs Y1 <= Ry) (A4 : Rabs Y2 <= Ry).
Hypothesis (E1 : Rabs (x1 - X1) <= u * Rabs X1 + t) (E2 : Rabs (x2 - X2) <= u * Rabs X2 + t) (E3 : Rabs (y1 - Y1) <= u * Rabs Y1 + t) (E4 : Rabs (y2 - Y2) <= u * Rabs Y2 + t).
Lemma prod_err X Y x y : Rabs X <= Rx -> Rabs Y <= Ry -> Rabs (x - X) <= u * Rabs X + t -> Rabs (y - Y) <= u * Rabs Y + t -> Rabs (x * y - X * Y) <= 3 * u * (Rx * Ry) + 4 * d.
Proof.
  intros HX HY Ex Ey. pose proof u_bounds as U. replace (x * y - X * Y) with ((x - X) * Y + X * (y - Y) + (x - X) * (y - Y)) by ring.
  assert (Ex' : Rabs (x - X) <= u * Rx + t) by (pose proof (Rmult_le_compat_l u _ _ ltac:(lra) HX); lra). assert (Ey' : Rabs (y - Y) <= u * Ry + t) by (pose proof (Rmult_le_compat_l u _ _ ltac:(lra) HY); lra).
  pose proof (mul_le _ _ _ _ Ex' HY) as P1. pose proof (mul_le _ _ _ _ HX Ey') as P2. pose proof (mul_le _ _ _ _ Ex' Ey') as P3.
  assert (K1 : t * Rx <= d) by (apply Rle_trans with (t * B); [apply Rmult_le_compat_l; lra|lra]). assert (K2 : t * Ry <= d) by (apply Rle_trans with (t * B); [apply Rmult_le_compat_l; lra|lra]).
  assert (K3 : t * t <= d). { apply Rle_trans with (t * B); [|lra]. apply Rmult_le_compat_l; [lra|]. apply Rle_trans with (t * B); [rewrite <- (Rmult_1_r t) at 1; apply Rmult_le_compat_l; lra|lra]. }
  assert (K0 : 0 <= d) by (apply Rle_trans with (t * B); [apply Rmult_le_pos; lra|lra]). assert (P0 : 0 <= Rx * Ry) by (apply Rmult_le_pos; lra).
  assert (U1 : u * u * (Rx * Ry) <= u / 1000 * (Rx * Ry)) by (apply Rmult_le_compat_r; [lra|]; unfold Rdiv; apply Rmult_le_compat_l; lra).
  assert (U2 : u * (t * Rx) <= d / 1000 /\ u * (t * Ry) <= d / 1000). { split; (apply Rle_trans with (/ 1000 * d); [apply Rmult_le_compat; try lra; apply Rmult_le_pos; lra|lra]). }
  eapply Rle_trans; [apply Rabs_triang|]. eapply Rle_trans; [apply Rplus_le_compat_r, Rabs_triang|].
  replace ((u * Rx + t) * Ry) with (u * (Rx * Ry) + t * Ry) in P1 by ring. replace (Rx * (u * Ry + t)) with (u * (Rx * Ry) + t * Rx) in P2 by ring.
  replace ((u * Rx + t) * (u * Ry + t)) with (u * u * (Rx * Ry) + u * (t * Rx) + u * (t * Ry) + t * t) in P3 by ring. destruct U2. assert (0 <= u * (Rx * Ry)) by (apply Rmult_le_pos; lra). lra.
Qed.
Lemma size_bound X x R : 0 <= R <= B -> Rabs X <= R -> Rabs (x - X) <= u * Rabs X + t -> Rabs x <= (1 + u) * R + t.
Proof. intros HR HX Ex. pose proof u_bounds as U. pose proof (Rmult_le_compat_l u _ _ ltac:(lra) HX). replace x with (X + (x - X)) by ring. eapply Rle_trans; [apply Rabs_triang|]. lra. Qed.
(** Elimination of the row (qx, qy) by (px, py). *)
Lemma core Px Py Qx Qy px py qx qy l v : Rabs Px <= Rx -> Rabs Py <= Ry -> Rabs Qx <= Rx -> Rabs Qy <= Ry ->
  Rabs (px - Px) <= u * Rabs Px + t -> Rabs (py - Py) <= u * Rabs Py + t -> Rabs (qx - Qx) <= u * Rabs Qx + t -> Rabs (qy - Qy) <= u * Rabs Qy + t ->
  px <> 0 -> Rabs (l - qx / px) <= 4 * u -> Rabs l <= 2 -> Rabs (v - (qy - l * py)) <= 3 * u * (Rabs qy + Rabs (l * py)) + e ->
  Rabs (px * v - (Px * Qy - Qx * Py)) <= 40 * u * (Rx * Ry) + 100 * d.
Proof.
  intros B1 B2 B3 B4 D1 D2 D3 D4 N L L2 V. pose proof u_bounds as U.
  replace (px * v - (Px * Qy - Qx * Py)) with (px * (v - (qy - l * py)) - px * py * (l - qx / px) + (px * qy - Px * Qy) - (qx * py - Qx * Py)) by (field; exact N).
  pose proof (prod_err _ _ _ _ B1 B4 D1 D4) as T1. pose proof (prod_err _ _ _ _ B3 B2 D3 D2) as T2.
  pose proof (size_bound _ _ _ HRx B1 D1) as S1. pose proof (size_bound _ _ _ HRy B2 D2) as S2. pose proof (size_bound _ _ _ HRy B4 D4) as S4.
  pose proof (mul_le _ _ _ _ L2 S2) as S5. set (Xb := (1 + u) * Rx + t) in *. set (Yb := (1 + u) * Ry + t) in *.
  assert (V' : Rabs (v - (qy - l * py)) <= 9 * u * Yb + e). { eapply Rle_trans; [exact V|]. apply Rplus_le_compat_r. replace (9 * u * Yb) with (3 * u * (3 * Yb)) by ring. apply Rmult_le_compat_l; lra. }
  pose proof (mul_le _ _ _ _ S1 V') as W1. pose proof (mul_le _ _ _ _ (mul_le _ _ _ _ S1 S2) L) as W2.
  assert (K1 : t * Rx <= d) by (apply Rle_trans with (t * B); [apply Rmult_le_compat_l; lra|lra]). assert (K2 : t * Ry <= d) by (apply Rle_trans with (t * B); [apply Rmult_le_compat_l; lra|lra]).
  assert (Td : t <= d) by (apply Rle_trans with (t * B); [rewrite <- (Rmult_1_r t) at 1; apply Rmult_le_compat_l; lra|lra]).
  assert (K0 : 0 <= d) by lra. assert (K3 : t * t <= d). { apply Rle_trans with (t * B); [|lra]. apply Rmult_le_compat_l; lra. }
  assert (K4 : e * Rx <= d) by (apply Rle_trans with (e * B); [apply Rmult_le_compat_l; lra|lra]). assert (K5 : t * e <= d). { apply Rle_trans with (e * B); [|lra]. rewrite Rmult_comm. apply Rmult_le_compat_l; lra. }
  assert (P0 : 0 <= Rx * Ry) by (apply Rmult_le_pos; lra). assert (UP : 0 <= u * (Rx * Ry)) by (apply Rmult_le_pos; lra).
  assert (XY : Xb * Yb <= 101 / 100 * (Rx * Ry) + 4 * d).
  { unfold Xb, Yb. replace (((1 + u) * Rx + t) * ((1 + u) * Ry + t)) with ((1 + u) * (1 + u) * (Rx * Ry) + (1 + u) * (t * Rx) + (1 + u) * (t * Ry) + t * t) by ring.
    assert (G : (1 + u) * (1 + u) <= 101 / 100). { assert (u * u <= / 1000 * 1) by (apply Rmult_le_compat; lra). lra. }
    pose proof (Rmult_le_compat_r _ _ _ P0 G). assert (forall w, 0 <= w <= d -> (1 + u) * w <= 3 / 2 * d) as Hw by (intros w [W W']; apply Rmult_le_compat; lra).
    assert (0 <= t * Rx) by (apply Rmult_le_pos; lra). assert (0 <= t * Ry) by (apply Rmult_le_pos; lra). pose proof (Hw (t * Rx) ltac:(lra)). pose proof (Hw (t * Ry) ltac:(lra)).
    lra. }
  assert (XYu : u * (Xb * Yb) <= 101 / 100 * (u * (Rx * Ry)) + d). { apply Rle_trans with (u * (101 / 100 * (Rx * Ry) + 4 * d)); [apply Rmult_le_compat_l; lra|]. assert (u * (4 * d) <= / 4 * (4 * d)) by (apply Rmult_le_compat_r; lra). lra. }
  assert (Xe : Xb * e <= 3 * d). { unfold Xb. replace (((1 + u) * Rx + t) * e) with (e * Rx + u * (e * Rx) + t * e) by ring. assert (u * (e * Rx) <= 1 * d) by (apply Rmult_le_compat; try lra; apply Rmult_le_pos; lra). lra. }
  replace (Xb * (9 * u * Yb + e)) with (9 * (u * (Xb * Yb)) + Xb * e) in W1 by ring. replace (Xb * Yb * (4 * u)) with (4 * (u * (Xb * Yb))) in W2 by ring.
  apply Rabs_le_inv in W1, W2, T1, T2. apply Rabs_le. lra.
Qed.
End Core.

(** * The determinant *)
Lemma diff_tame x y : finite_double x -> finite_double y -> Rabs (val x) <= 2 ^ 400 -> Rabs (val y) <= 2 ^ 400 ->
  finite_double (fsub y x) /\ Rabs (val y - val x) <= 2 ^ 401 /\ Rabs (val (fsub y x) - (val y - val x)) <= u * Rabs (val y - val x) + / 2 ^ 1075 /\ Rabs (val (fsub y x)) <= 2 ^ 402.
Proof.
  intros Fx Fy Bx By. pose proof u_bounds as U. assert (D : Rabs (val y - val x) <= 2 ^ 401).
  { eapply Rle_trans; [apply Rabs_triang|]. rewrite Rabs_Ropp. replace (2 ^ 401) with (2 ^ 400 + 2 ^ 400) by (change 401%nat with (S 400); rewrite <- tech_pow_Rmult; ring). lra. }
  destruct (sub_ok y x Fy Fx) as [F V]; [rewrite big_900; eapply Rle_trans; [exact D|apply pow_up; lia]|]. split; [exact F|]. split; [exact D|].
  assert (E : Rabs (val (fsub y x) - (val y - val x)) <= u * Rabs (val y - val x) + / 2 ^ 1075) by (rewrite V, <- t_pow; apply rnd_err). split; [exact E|].
  replace (val (fsub y x)) with ((val y - val x) + (val (fsub y x) - (val y - val x))) by ring. eapply Rle_trans; [apply Rabs_triang|].
  replace (2 ^ 402) with (2 ^ 401 + 2 ^ 401) by (change 402%nat with (S 401); rewrite <- tech_pow_Rmult; ring). apply Rplus_le_compat; [exact D|]. eapply Rle_trans; [exact E|].
  assert (/ 2 ^ 1075 <= 1) by (rewrite <- Rinv_1; apply Rinv_le_contravar; [lra|apply pow_R1_Rle; lra]). assert (4 <= 2 ^ 401) by (apply Rle_trans with (2 ^ 2); [lra|apply pow_up; lia]).
  assert (u * Rabs (val y - val x) <= / 2 * 2 ^ 401) by (apply Rmult_le_compat; try lra; apply Rabs_pos). lra.
Qed.
Lemma neg_val x : finite_double x -> is_neg_f x = true <-> val x < 0.
Proof. intros F. unfold is_neg_f. rewrite ltb_val by (exact F || apply zero_ok). rewrite (proj2 zero_ok). tauto. Qed.
Lemma zero_val x : finite_double x -> is_zero_f x = true <-> val x = 0.
Proof.
  intros [V F]. destruct x as [s| | |s m e]; try discriminate F; cbn [is_zero_f]; [split; reflexivity|]. split; [discriminate|]. intros E. exfalso. revert E. unfold val, SF2R. destruct s; cbn [cond_Zopp].
  - intros E. apply eq_0_F2R in E. discriminate E.
  - intros E. apply eq_0_F2R in E. discriminate E.
Qed.
Section Oracles.
Variables (ratio : spec_float -> spec_float -> spec_float) (elim : spec_float -> spec_float -> spec_float -> spec_float) (magnitude : spec_float -> spec_float -> spec_float).
Hypothesis OK : det_contract ratio elim magnitude.
(** One elimination: the product of the diagonal, and the answer. *)
Definition answer (swap : bool) (px py qx qy : spec_float) : spec_float :=
  if is_zero_f px then f_0 else let u33 := elim qy (ratio qx px) py in if is_zero_f u33 then f_0 else let m := magnitude px u33 in if xorb swap (xorb (is_neg_f px) (is_neg_f u33)) then SFopp m else m.
Lemma det_answer a b c : let x1 := fsub (fst b) (fst a) in let y1 := fsub (snd b) (snd a) in let x2 := fsub (fst c) (fst a) in let y2 := fsub (snd c) (snd a) in
  det3_f ratio elim magnitude a b c = if SFltb (SFabs x1) (SFabs x2) then answer true x2 y2 x1 y1 else answer false x1 y1 x2 y2.
Proof. unfold det3_f, answer. cbn zeta. destruct (SFltb _ _); reflexivity. Qed.
Definition sg (b : bool) (x : R) : R := if b then - x else x.
Lemma answer_ok swap px py qx qy Px Py Qx Qy Rx Ry : finite_double px -> finite_double py -> finite_double qx -> finite_double qy ->
  Rabs (val px) <= 2 ^ 402 -> Rabs (val py) <= 2 ^ 402 -> Rabs (val qy) <= 2 ^ 402 -> Rabs (val qx) <= Rabs (val px) -> / 2 ^ 900 <= Rabs (val px) -> 0 <= Rx <= 2 ^ 401 -> 0 <= Ry <= 2 ^ 401 ->
  Rabs Px <= Rx -> Rabs Py <= Ry -> Rabs Qx <= Rx -> Rabs Qy <= Ry ->
  Rabs (val px - Px) <= u * Rabs Px + / 2 ^ 1075 -> Rabs (val py - Py) <= u * Rabs Py + / 2 ^ 1075 -> Rabs (val qx - Qx) <= u * Rabs Qx + / 2 ^ 1075 -> Rabs (val qy - Qy) <= u * Rabs Qy + / 2 ^ 1075 ->
  exists T, Rabs (T - sg swap (Px * Qy - Qx * Py)) <= 40 * u * (Rx * Ry) + / 2 ^ 400 /\ finite_double (answer swap px py qx qy) /\ Rabs (val (answer swap px py qx qy) - T) <= / 2 ^ 30 * Rabs T + / 2 ^ 900.
Proof.
  intros F1 F2 F3 F4 L1 L2 L4 Lq L0 HRx HRy B1 B2 B3 B4 D1 D2 D3 D4. destruct OK as ((CR & _) & (CE & _) & (CM & _)). pose proof u_bounds as U.
  assert (N : val px <> 0). { intros E. rewrite E, Rabs_R0 in L0. pose proof (Rinv_0_lt_compat _ (pow_pos 900)). lra. }
  destruct (CR qx px F3 F1 Lq) as [Fl Vl]; [split; [exact L0|eapply Rle_trans; [exact L1|apply pow_up; lia]]|].
  assert (Q : Rabs (val qx / val px) <= 1). { unfold Rdiv. rewrite Rabs_mult, Rabs_inv. apply Rmult_le_reg_r with (Rabs (val px)); [apply Rabs_pos_lt, N|]. rewrite Rmult_assoc, Rinv_l by (apply Rabs_no_R0, N). lra. }
  set (l := ratio qx px) in *. assert (Ll : Rabs (val l) <= 2). { replace (val l) with (val qx / val px + (val l - val qx / val px)) by ring. eapply Rle_trans; [apply Rabs_triang|]. lra. }
  destruct (CE qy l py F4 Fl F2) as [Fv Vv]; [eapply Rle_trans; [exact L4|apply pow_up; lia]|exact Ll|eapply Rle_trans; [exact L2|apply pow_up; lia]|]. set (v := elim qy l py) in *.
  assert (C : Rabs (val px * val v - (Px * Qy - Qx * Py)) <= 40 * u * (Rx * Ry) + 100 * / 2 ^ 599).
  { apply (core (/ 2 ^ 1075) (/ 2 ^ 1000) (/ 2 ^ 599) (2 ^ 401) Rx Ry) with (py := val py) (qx := val qx) (qy := val qy) (l := val l); auto.
    - left. apply Rinv_0_lt_compat, pow_pos.
    - left. apply Rinv_0_lt_compat, pow_pos.
    - replace 1075%nat with (674 + 401)%nat by lia. rewrite ipow_mul. apply ipow_up. lia.
    - replace 1000%nat with (599 + 401)%nat by lia. rewrite ipow_mul. lra.
    - rewrite <- Rinv_1. apply Rinv_le_contravar; [lra|apply pow_R1_Rle; lra].
    - apply pow_R1_Rle. lra. }
  assert (H100 : 100 * / 2 ^ 599 <= / 2 ^ 400). { apply Rle_trans with (2 ^ 7 * / 2 ^ 599); [apply Rmult_le_compat_r; [left; apply Rinv_0_lt_compat, pow_pos|lra]|]. rewrite Rmult_comm. replace 599%nat with (592 + 7)%nat by lia. rewrite ipow_mul. apply ipow_up. lia. }
  exists (sg swap (val px * val v)). split.
  { unfold sg. destruct swap; [|lra]. replace (- (val px * val v) - - (Px * Qy - Qx * Py)) with (- (val px * val v - (Px * Qy - Qx * Py))) by ring. rewrite Rabs_Ropp. lra. }
  unfold answer. fold l. fold v. destruct (is_zero_f px) eqn:Zp; [exfalso; apply N, zero_val; assumption|]. cbn zeta. fold v. destruct (is_zero_f v) eqn:Zv.
  { apply (zero_val v Fv) in Zv. rewrite Zv, Rmult_0_r. split; [apply zero_ok|]. rewrite (proj2 zero_ok). unfold sg. destruct swap; rewrite ?Ropp_0, Rminus_0_r, Rabs_R0, Rmult_0_r, Rplus_0_l; left; apply Rinv_0_lt_compat, pow_pos. }
  assert (Nv : val v <> 0) by (intros E; apply (zero_val v Fv) in E; congruence).
  assert (Bv : Rabs (val v) <= 2 ^ 405).
  { replace (val v) with ((val qy - val l * val py) + (val v - (val qy - val l * val py))) by ring. eapply Rle_trans; [apply Rabs_triang|]. pose proof (mul_le _ _ _ _ Ll L2) as M2.
    assert (Rabs (val qy - val l * val py) <= 3 * 2 ^ 402) by (eapply Rle_trans; [apply Rabs_triang|]; rewrite Rabs_Ropp; lra).
    assert (3 * u * (Rabs (val qy) + Rabs (val l * val py)) <= 1 * (3 * 2 ^ 402)) by (apply Rmult_le_compat; try lra; pose proof (Rabs_pos (val qy)); pose proof (Rabs_pos (val l * val py)); lra).
    assert (/ 2 ^ 1000 <= 1) by (rewrite <- Rinv_1; apply Rinv_le_contravar; [lra|apply pow_R1_Rle; lra]). assert (1 <= 2 ^ 402) by (apply pow_R1_Rle; lra).
    replace (2 ^ 405) with (8 * 2 ^ 402) by (replace 405%nat with (3 + 402)%nat by lia; rewrite pow_add; lra). lra. }
  assert (Bpv : Rabs (val px * val v) <= 2 ^ 900). { eapply Rle_trans; [apply (mul_le _ _ _ _ L1 Bv)|]. rewrite <- pow_add. apply pow_up. lia. }
  destruct (CM px v F1 Fv N Nv Bpv) as [Fm Vm]. set (m := magnitude px v) in *. destruct (opp_double m Fm) as [Fo Vo].
  split; [destruct (xorb swap _); assumption|].
  assert (Sg : Rabs (sg swap (val px * val v)) = Rabs (val px * val v)) by (unfold sg; destruct swap; rewrite ?Rabs_Ropp; reflexivity). rewrite Sg.
  pose proof (neg_val px F1) as Np. pose proof (neg_val v Fv) as Nn.
  assert (Key : val (if xorb swap (xorb (is_neg_f px) (is_neg_f v)) then SFopp m else m) - sg swap (val px * val v) = val m - Rabs (val px * val v) \/ val (if xorb swap (xorb (is_neg_f px) (is_neg_f v)) then SFopp m else m) - sg swap (val px * val v) = - (val m - Rabs (val px * val v))).
  { rewrite Rabs_mult. destruct (is_neg_f px), (is_neg_f v).
    - rewrite (Rabs_left (val px)), (Rabs_left (val v)) by (apply Np || apply Nn; reflexivity). destruct swap; cbn [xorb sg]; rewrite ?Vo; [right|left]; ring.
    - rewrite (Rabs_left (val px)) by (apply Np; reflexivity). rewrite (Rabs_pos_eq (val v)) by (apply Rnot_lt_le; intros W; apply Nn in W; discriminate W). destruct swap; cbn [xorb sg]; rewrite ?Vo; [left|right]; ring.
    - rewrite (Rabs_left (val v)) by (apply Nn; reflexivity). rewrite (Rabs_pos_eq (val px)) by (apply Rnot_lt_le; intros W; apply Np in W; discriminate W). destruct swap; cbn [xorb sg]; rewrite ?Vo; [left|right]; ring.
    - rewrite (Rabs_pos_eq (val px)) by (apply Rnot_lt_le; intros W; apply Np in W; discriminate W). rewrite (Rabs_pos_eq (val v)) by (apply Rnot_lt_le; intros W; apply Nn in W; discriminate W). destruct swap; cbn [xorb sg]; rewrite ?Vo; [right|left]; ring. }
  destruct Key as [-> | ->]; rewrite ?Rabs_Ropp; exact Vm.
Qed.
Lemma reach_le f a b c : Rabs (val (f b) - val (f a)) <= reach f a b c /\ Rabs (val (f c) - val (f a)) <= reach f a b c.
Proof. unfold reach. split; [apply Rmax_l|apply Rmax_r]. Qed.
Lemma det_ok a b c : tame a -> tame b -> tame c -> / 2 ^ 800 <= reach fst a b c ->
  exists T, Rabs (T - turn a b c) <= turn_error a b c /\ finite_double (det3_f ratio elim magnitude a b c) /\ Rabs (val (det3_f ratio elim magnitude a b c) - T) <= / 2 ^ 30 * Rabs T + / 2 ^ 900.
Proof.
  intros ([Fa1 Fa2] & Ba1 & Ba2) ([Fb1 Fb2] & Bb1 & Bb2) ([Fc1 Fc2] & Bc1 & Bc2) HR. rewrite det_answer.
  destruct (diff_tame _ _ Fa1 Fb1 Ba1 Bb1) as (Fx1 & Rx1 & Ex1 & Lx1). destruct (diff_tame _ _ Fa2 Fb2 Ba2 Bb2) as (Fy1 & Ry1 & Ey1 & Ly1).
  destruct (diff_tame _ _ Fa1 Fc1 Ba1 Bc1) as (Fx2 & Rx2 & Ex2 & Lx2). destruct (diff_tame _ _ Fa2 Fc2 Ba2 Bc2) as (Fy2 & Ry2 & Ey2 & Ly2).
  destruct (reach_le fst a b c) as [A1 A2]. destruct (reach_le snd a b c) as [A3 A4].
  assert (RX : 0 <= reach fst a b c <= 2 ^ 401) by (split; [eapply Rle_trans; [apply Rabs_pos|exact A1]|apply Rmax_lub; assumption]).
  assert (RY : 0 <= reach snd a b c <= 2 ^ 401) by (split; [eapply Rle_trans; [apply Rabs_pos|exact A3]|apply Rmax_lub; assumption]).
  cbn zeta. set (x1 := fsub (fst b) (fst a)) in *. set (y1 := fsub (snd b) (snd a)) in *. set (x2 := fsub (fst c) (fst a)) in *. set (y2 := fsub (snd c) (snd a)) in *.
  destruct (abs_val x1 Fx1) as [Ga1 Va1]. destruct (abs_val x2 Fx2) as [Ga2 Va2]. pose proof (ltb_val _ _ Ga1 Ga2) as LT. rewrite Va1, Va2 in LT.
  pose proof u_bounds as U. assert (T1 : / 2 ^ 1075 <= / 4 * / 2 ^ 800). { replace (/ 4) with (/ 2 ^ 2) by (f_equal; lra). rewrite <- Rinv_mult, <- pow_add. apply ipow_up. lia. }
  assert (T2 : / 2 ^ 900 <= / 4 * / 2 ^ 800). { replace (/ 4) with (/ 2 ^ 2) by (f_equal; lra). rewrite <- Rinv_mult, <- pow_add. apply ipow_up. lia. }
  assert (T0 : 0 < / 2 ^ 800) by (apply Rinv_0_lt_compat, pow_pos).
  assert (BIG : / 2 ^ 900 <= Rabs (val x1) \/ / 2 ^ 900 <= Rabs (val x2)).
  { assert (G : forall x X, Rabs (x - X) <= u * Rabs X + / 2 ^ 1075 -> / 2 ^ 800 <= Rabs X -> / 2 ^ 900 <= Rabs x).
    { intros x X E H. assert (Rabs X <= Rabs x + Rabs (x - X)). { replace X with (x - (x - X)) at 1 by ring. eapply Rle_trans; [apply Rabs_triang|]. rewrite Rabs_Ropp. lra. }
      assert (u * Rabs X <= / 4 * Rabs X) by (apply Rmult_le_compat_r; [apply Rabs_pos|lra]). lra. }
    unfold reach in HR. revert HR. apply Rmax_case; intros H; [left; eapply G; [exact Ex1|exact H]|right; eapply G; [exact Ex2|exact H]]. }
  unfold turn_error, turn. destruct (SFltb (SFabs x1) (SFabs x2)) eqn:SW.
  - pose proof (proj1 LT eq_refl) as Lt. destruct (answer_ok true x2 y2 x1 y1 (val (fst c) - val (fst a)) (val (snd c) - val (snd a)) (val (fst b) - val (fst a)) (val (snd b) - val (snd a)) (reach fst a b c) (reach snd a b c)) as (T & HT & W); auto; try lra.
    exists T. split; [|exact W]. unfold sg in HT.
    replace (- ((val (fst c) - val (fst a)) * (val (snd b) - val (snd a)) - (val (fst b) - val (fst a)) * (val (snd c) - val (snd a)))) with ((val (fst b) - val (fst a)) * (val (snd c) - val (snd a)) - (val (fst c) - val (fst a)) * (val (snd b) - val (snd a))) in HT by ring. exact HT.
  - assert (Ge : Rabs (val x2) <= Rabs (val x1)) by (apply Rnot_lt_le; intros W; apply LT in W; discriminate W).
    destruct (answer_ok false x1 y1 x2 y2 (val (fst b) - val (fst a)) (val (snd b) - val (snd a)) (val (fst c) - val (fst a)) (val (snd c) - val (snd a)) (reach fst a b c) (reach snd a b c)) as (T & HT & W); auto; try lra.
    exists T. split; [exact HT|exact W].
Qed.
Lemma close_val x : finite_double x -> isclose0_f x = true <-> Rabs (val x) <= val f_1e8.
Proof.
  intros F. destruct (abs_val x F) as [Fa Va]. assert (F8 : finite_double f_1e8) by (split; reflexivity). assert (E : isclose0_f x = SFleb (SFabs x) f_1e8) by (destruct F as [_ F]; destruct x; try discriminate F; reflexivity).
  rewrite E, leb_val, Va by assumption. unfold M_Forces.rleb. destruct (Rle_dec _ _); split; auto; try discriminate; intros; exfalso; auto.
Qed.
Lemma atol_val : / 10 ^ 8 - / 2 ^ 60 <= val f_1e8 <= / 10 ^ 8 + / 2 ^ 60.
Proof. unfold val, f_1e8, SF2R, F2R. cbn [cond_Zopp Fnum Fexp]. change (bpow radix2 (-79)) with (/ 604462909807314587353088). split; cbn; lra. Qed.
Lemma powers : / 2 ^ 900 <= / 2 ^ 60 /\ / 2 ^ 30 = / 1073741824 /\ / 2 ^ 20 = / 1048576 /\ / 2 ^ 60 = / 1152921504606846976 /\ / 10 ^ 8 = / 100000000.
Proof. split; [apply ipow_up; lia|]. split; [f_equal; lra|]. split; [f_equal; lra|]. split; f_equal; lra. Qed.
Lemma error_pos a b c : 0 <= turn_error a b c.
Proof.
  unfold turn_error. pose proof u_bounds as U. destruct (reach_le fst a b c) as [A1 _]. destruct (reach_le snd a b c) as [A3 _]. assert (0 <= reach fst a b c) by (eapply Rle_trans; [apply Rabs_pos|exact A1]). assert (0 <= reach snd a b c) by (eapply Rle_trans; [apply Rabs_pos|exact A3]).
  assert (0 <= 40 * u * (reach fst a b c * reach snd a b c)) by (apply Rmult_le_pos; [lra|apply Rmult_le_pos; assumption]). pose proof (Rinv_0_lt_compat _ (pow_pos 400)). lra.
Qed.
Lemma clear_reach a b c : tame a -> tame b -> tame c -> clear_turn a b c -> / 2 ^ 800 <= reach fst a b c.
Proof.
  intros ([Fa1 Fa2] & Ba1 & Ba2) ([Fb1 Fb2] & Bb1 & Bb2) ([Fc1 Fc2] & Bc1 & Bc2) H. unfold clear_turn in H. pose proof (error_pos a b c) as E0. destruct powers as (_ & _ & P20 & _ & P8).
  destruct (diff_tame _ _ Fa2 Fb2 Ba2 Bb2) as (_ & Ry1 & _). destruct (diff_tame _ _ Fa2 Fc2 Ba2 Bc2) as (_ & Ry2 & _). destruct (reach_le fst a b c) as [A1 A2].
  assert (T : Rabs (turn a b c) <= 2 * (reach fst a b c * 2 ^ 401)).
  { unfold turn. eapply Rle_trans; [apply Rabs_triang|]. rewrite Rabs_Ropp. pose proof (mul_le _ _ _ _ A1 Ry2). pose proof (mul_le _ _ _ _ A2 Ry1). lra. }
  assert (0 <= (1 + / 2 ^ 20) * turn_error a b c) by (apply Rmult_le_pos; lra). rewrite P20, P8 in *. assert (H1 : / 100000000 <= 2 * (reach fst a b c * 2 ^ 401)) by lra.
  apply Rmult_le_reg_r with (2 ^ 401); [apply pow_pos|]. replace 800%nat with (399 + 401)%nat at 1 by lia. rewrite ipow_mul. apply Rle_trans with (/ 2 ^ 30); [apply ipow_up; lia|]. replace (/ 2 ^ 30) with (/ 1073741824) by (f_equal; lra). lra.
Qed.
Lemma clear_det a b c : tame a -> tame b -> tame c -> clear_turn a b c ->
  isclose0_f (det3_f ratio elim magnitude a b c) = false /\ (SFltb f_0 (det3_f ratio elim magnitude a b c) = true <-> 0 < turn a b c).
Proof.
  intros Ta Tb Tc H. destruct (det_ok a b c Ta Tb Tc (clear_reach _ _ _ Ta Tb Tc H)) as (T & HT & F & V). set (D := det3_f ratio elim magnitude a b c) in *. pose proof (close_val D F) as CV. pose proof atol_val as AT. destruct powers as (P9 & P3 & P2 & P6 & P8).
  pose proof (error_pos a b c) as E0. unfold clear_turn in H. rewrite P2, P3, P6, P8 in *. set (E := turn_error a b c) in *. apply Rabs_le_inv in HT. rewrite ltb_val by (exact F || apply zero_ok). rewrite (proj2 zero_ok).
  destruct (Rle_or_lt 0 (turn a b c)) as [S|S].
  - rewrite Rabs_pos_eq in H by exact S. rewrite (Rabs_pos_eq T) in V by lra. apply Rabs_le_inv in V. split; [|split; lra]. destruct (isclose0_f D); [|reflexivity]. pose proof (proj1 CV eq_refl) as W. rewrite Rabs_pos_eq in W by lra. lra.
  - rewrite Rabs_left in H by exact S. rewrite (Rabs_left T) in V by lra. apply Rabs_le_inv in V. split; [|split; lra]. destruct (isclose0_f D); [|reflexivity]. pose proof (proj1 CV eq_refl) as W. rewrite Rabs_left in W by lra. lra.
Qed.
Lemma straight_det a b c : tame a -> tame b -> tame c -> straight_turn a b c -> isclose0_f (det3_f ratio elim magnitude a b c) = true.
Proof.
  intros Ta Tb Tc [[Z|Z] H].
  - destruct Ta as ([Fa1 Fa2] & Ba1 & Ba2). destruct Tb as ([Fb1 Fb2] & Bb1 & Bb2). destruct Tc as ([Fc1 Fc2] & Bc1 & Bc2). destruct (reach_le fst a b c) as [A1 A2]. rewrite Z in A1, A2.
    destruct (diff_tame _ _ Fa1 Fb1 Ba1 Bb1) as (Fx1 & _). destruct (diff_tame _ _ Fa1 Fc1 Ba1 Bc1) as (Fx2 & _).
    assert (Zero : forall x y, finite_double x -> finite_double y -> finite_double (fsub y x) -> Rabs (val y - val x) <= 0 -> is_zero_f (fsub y x) = true).
    { intros x y Fx Fy Fd H0. apply zero_val; [exact Fd|]. assert (E : val y - val x = 0) by (apply Rabs_le_inv in H0; lra). destruct (sub_ok y x Fy Fx) as [_ V]; [rewrite E, Rabs_R0, big_900; left; apply pow_pos|]. rewrite V, E. apply rnd_0. }
    rewrite det_answer. cbn zeta. pose proof (Zero _ _ Fa1 Fb1 Fx1 A1) as Z1. pose proof (Zero _ _ Fa1 Fc1 Fx2 A2) as Z2. unfold answer. rewrite Z1, Z2. destruct (SFltb _ _); reflexivity.
  - destruct (det_ok a b c Ta Tb Tc Z) as (T & HT & F & V). set (D := det3_f ratio elim magnitude a b c) in *. apply (close_val D F). pose proof atol_val as AT. destruct powers as (P9 & P3 & P2 & P6 & P8).
    pose proof (error_pos a b c) as E0. rewrite P2, P3, P6, P8 in *. set (E := turn_error a b c) in *.
    assert (BT : Rabs T <= Rabs (turn a b c) + E) by (replace T with (turn a b c + (T - turn a b c)) by ring; eapply Rle_trans; [apply Rabs_triang|]; lra).
    assert (BD : Rabs (val D) <= Rabs T + (/ 1073741824 * Rabs T + / 2 ^ 900)) by (replace (val D) with (T + (val D - T)) by ring; eapply Rle_trans; [apply Rabs_triang|]; lra). lra.
Qed.
(** * The loop *)
Lemma orient_stop p d : isclose0_f d = false -> orient_f ratio elim magnitude p d = d.
Proof. intros H. destruct p; cbn [orient_f]; rewrite H; reflexivity. Qed.
Lemma orient_step a b c e t d : isclose0_f d = true -> orient_f ratio elim magnitude (a :: b :: c :: e :: t) d = orient_f ratio elim magnitude (b :: c :: e :: t) (det3_f ratio elim magnitude a b c).
Proof. intros H. cbn [orient_f]. rewrite H. reflexivity. Qed.
Lemma orient_decides : forall k p d a b c e, Forall tame p -> isclose0_f d = true -> nth_error p k = Some a -> nth_error p (S k) = Some b -> nth_error p (S (S k)) = Some c -> nth_error p (S (S (S k))) = Some e ->
  (forall j a' b' c', (j < k)%nat -> nth_error p j = Some a' -> nth_error p (S j) = Some b' -> nth_error p (S (S j)) = Some c' -> straight_turn a' b' c') -> clear_turn a b c ->
  orient_f ratio elim magnitude p d = det3_f ratio elim magnitude a b c.
Proof.
  induction k as [|k IH]; intros p d a b c e TP D N0 N1 N2 N3 ST CL.
  - destruct p as [|a0 [|b0 [|c0 [|e0 t]]]]; try discriminate. cbn in N0, N1, N2. injection N0 as ->. injection N1 as ->. injection N2 as ->. rewrite orient_step by exact D. inversion_clear TP as [|? ? Ta TP']. inversion_clear TP' as [|? ? Tb TP'']. inversion_clear TP'' as [|? ? Tc _].
    apply orient_stop, clear_det; assumption.
  - destruct p as [|a0 p']; [discriminate|]. destruct p' as [|b0 [|c0 [|e0 t]]]; try (destruct k; discriminate). rewrite orient_step by exact D. inversion TP as [|? ? Ta TP']; subst. inversion TP' as [|? ? Tb TP'']; subst. inversion TP'' as [|? ? Tc _]; subst.
    apply IH with (e := e); auto.
    + apply straight_det; auto. apply (ST O); auto. lia.
    + intros j a' b' c' Hj M0 M1 M2. apply (ST (S j)); auto. lia.
Qed.
Theorem decides p k a b c e : Forall tame p -> nth_error p k = Some a -> nth_error p (S k) = Some b -> nth_error p (S (S k)) = Some c -> nth_error p (S (S (S k))) = Some e ->
  (forall j a' b' c', (j < k)%nat -> nth_error p j = Some a' -> nth_error p (S j) = Some b' -> nth_error p (S (S j)) = Some c' -> straight_turn a' b' c') -> clear_turn a b c ->
  exists r, is_path_ccw_f ratio elim magnitude p = Ok r /\ (r = true <-> 0 < turn a b c).
Proof.
  intros TP N0 N1 N2 N3 ST CL. unfold is_path_ccw_f. rewrite (orient_decides k p f_0 a b c e) by (assumption || reflexivity). rewrite Forall_forall in TP. destruct (clear_det a b c) as [C1 C2]; try (apply TP; eapply nth_error_In; eassumption); [exact CL|].
  rewrite C1. eexists. split; [reflexivity|exact C2].
Qed.
Lemma orient_straight : forall p d, Forall tame p -> isclose0_f d = true ->
  (forall j a b c e, nth_error p j = Some a -> nth_error p (S j) = Some b -> nth_error p (S (S j)) = Some c -> nth_error p (S (S (S j))) = Some e -> straight_turn a b c) -> isclose0_f (orient_f ratio elim magnitude p d) = true.
Proof.
  induction p as [|a p IH]; intros d TP D ST; [cbn [orient_f]; rewrite D; exact D|]. destruct p as [|b [|c [|e t]]]; try (cbn [orient_f]; rewrite D; exact D). rewrite orient_step by exact D.
  inversion TP as [|? ? Ta TP']; subst. inversion TP' as [|? ? Tb TP'']; subst. inversion TP'' as [|? ? Tc _]; subst. apply IH; [exact TP'| |].
  - apply straight_det; auto. apply (ST O a b c e); reflexivity.
  - intros j a' b' c' e' M0 M1 M2 M3. apply (ST (S j) a' b' c' e'); assumption.
Qed.
Theorem raises p : Forall tame p -> (forall j a b c e, nth_error p j = Some a -> nth_error p (S j) = Some b -> nth_error p (S (S j)) = Some c -> nth_error p (S (S (S j))) = Some e -> straight_turn a b c) ->
  is_path_ccw_f ratio elim magnitude p = Raise RuntimeError.
Proof. intros TP ST. unfold is_path_ccw_f. rewrite orient_straight by (assumption || reflexivity). reflexivity. Qed.
(** A row without number among the first three. *)
Lemma sub_nan_l x : fsub S754_nan x = S754_nan. Proof. reflexivity. Qed.
Lemma sub_nan_r x : fsub x S754_nan = S754_nan. Proof. destruct x; reflexivity. Qed.
Theorem nan_row a b c e t : fst a = S754_nan \/ fst b = S754_nan \/ fst c = S754_nan /\ is_zero_f (fsub (fst b) (fst a)) = false -> is_path_ccw_f ratio elim magnitude (a :: b :: c :: e :: t) = Ok false.
Proof.
  intros H. destruct OK as ((_ & Rl & Rr) & (_ & _ & El & _) & (_ & Ml & Mr)). assert (D : det3_f ratio elim magnitude a b c = S754_nan).
  { rewrite det_answer. cbn zeta. assert (An : forall s q x z, is_zero_f q = false -> answer s q x S754_nan z = S754_nan) by (intros s q x z Zq; unfold answer; rewrite Zq, Rl, El; cbn zeta; rewrite Mr; destruct (xorb _ _); reflexivity).
    assert (Ap : forall s x y z, answer s S754_nan x y z = S754_nan) by (intros s x y z; unfold answer; cbn [is_zero_f]; rewrite Rr, El; cbn zeta; rewrite Mr; destruct (xorb _ _); reflexivity).
    destruct H as [-> | [-> | [-> Z]]]; rewrite ?sub_nan_l, ?sub_nan_r.
    - apply Ap.
    - replace (SFltb (SFabs S754_nan) (SFabs (fsub (fst c) (fst a)))) with false by (destruct (fsub (fst c) (fst a)); reflexivity). apply Ap.
    - replace (SFltb (SFabs (fsub (fst b) (fst a))) (SFabs S754_nan)) with false by (destruct (fsub (fst b) (fst a)) as [[]|[]| |[]]; reflexivity). apply An, Z. }
  unfold is_path_ccw_f. rewrite orient_step, D by reflexivity. rewrite orient_stop by reflexivity. reflexivity.
Qed.
End Oracles.
