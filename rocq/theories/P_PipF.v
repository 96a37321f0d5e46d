(** Proofs about point-in-polygon on doubles. *)
From Coq Require Import List Arith Bool ZArith Lia Reals Lra Psatz SpecFloat.
From Flocq Require Import Core IEEE754.BinarySingleNaN Relative.
From Verif Require Import M_Base M_FixMesh M_CutF M_LimitF M_LapF M_PipF.
From Verif Require Import S_Double S_Ieee S_Inpoly S_PipF P_Double P_LimitF P_CutF P_LapF.
Import ListNotations.
Open Scope R_scope.

(** * Errors *)
Lemma u_tiny : 0 < u <= / 1000000000000000. Proof. unfold u. cbn. lra. Qed.
Definition off (k b a : R) : Prop := exists e, Rabs e <= k /\ a = b * (1 + e).
Lemma off_le k k' b a : k <= k' -> off k b a -> off k' b a.
Proof. intros L (e & H & E). exists e. split; [lra|exact E]. Qed.
Lemma off_refl b : off 0 b b. Proof. exists 0. rewrite Rabs_R0. split; [lra|ring]. Qed.
Lemma off_abs k b a : off k b a -> Rabs (a - b) <= k * Rabs b.
Proof. intros (e & H & ->). replace (b * (1 + e) - b) with (e * b) by ring. rewrite Rabs_mult. apply Rmult_le_compat_r; [apply Rabs_pos|exact H]. Qed.
Lemma off_mul k k' b a d c : off k b a -> off k' d c -> off (k + k' + k * k') (b * d) (a * c).
Proof.
  intros (e & H & ->) (f & H' & ->). exists (e + f + e * f). split; [|ring].
  pose proof (Rabs_pos e). pose proof (Rabs_pos f). eapply Rle_trans; [apply Rabs_triang|]. rewrite Rabs_mult.
  pose proof (Rabs_triang e f). assert (Rabs e * Rabs f <= k * k') by (apply Rmult_le_compat; assumption). lra.
Qed.
Lemma off_inv k d c : 0 <= k <= / 2 -> d <> 0 -> off k d c -> off (2 * k) (/ d) (/ c).
Proof.
  intros K D (e & H & ->). apply Rabs_le_inv in H. exists (- e / (1 + e)). split.
  - apply Rabs_le. split; apply Rmult_le_reg_r with (1 + e); try lra; unfold Rdiv; rewrite ?Rmult_assoc, ?Rinv_l by lra; nra.
  - field. split; [lra|exact D].
Qed.
Lemma off_div k k' b a d c : 0 <= k' <= / 2 -> d <> 0 -> off k b a -> off k' d c -> off (k + 2 * k' + k * (2 * k')) (b / d) (a / c).
Proof. intros K D H H'. apply off_mul; [exact H|apply off_inv; assumption]. Qed.
Lemma off_add k b a d c : 0 <= b -> 0 <= d -> off k b a -> off k d c -> off k (b + d) (a + c).
Proof.
  intros B D (e & H & ->) (f & H' & ->). destruct (Req_dec (b + d) 0) as [E|E].
  - exists 0. assert (b = 0) as -> by lra. assert (d = 0) as -> by lra. rewrite Rabs_R0. pose proof (Rabs_pos e). split; [lra|ring].
  - assert (P : 0 < b + d) by lra. exists ((b * e + d * f) / (b + d)). split; [|field; exact E].
    apply Rabs_le_inv in H, H'. apply Rabs_le. split; apply Rmult_le_reg_r with (b + d); try exact P; unfold Rdiv; rewrite ?Rmult_assoc, ?Rinv_l by lra; nra.
Qed.
Lemma rnd_ex x : exists e n, Rabs e <= u /\ Rabs n <= bpow radix2 (-1075) /\ rnd x = x * (1 + e) + n.
Proof.
  destruct (error_N_FLT radix2 (-1074) 53 eq_refl (fun x => negb (Z.even x)) x) as (e & n & H1 & H2 & _ & H3). exists e, n. split; [|split; [|exact H3]].
  - eapply Rle_trans; [exact H1|]. unfold u. cbn. lra.
  - eapply Rle_trans; [exact H2|]. apply Req_le. change (-1074)%Z with (-1075 + 1)%Z. rewrite bpow_plus. change (bpow radix2 1) with 2. field.
Qed.
Lemma sub_off x y : representable x -> representable y -> off u (x - y) (rnd (x - y)).
Proof.
  intros X Y. destruct (Req_dec (x - y) 0) as [E|E].
  - rewrite E, rnd_id by apply rep_0. exists 0. rewrite Rabs_R0. pose proof u_small. split; [lra|ring].
  - pose proof (add_rel x (- y) X (rep_opp y Y)) as A. change (x + - y) with (x - y) in A. exists ((rnd (x - y) - (x - y)) / (x - y)). split; [|field; exact E].
    unfold Rdiv. rewrite Rabs_mult, Rabs_inv by exact E. apply Rmult_le_reg_r with (Rabs (x - y)); [apply Rabs_pos_lt; exact E|].
    rewrite Rmult_assoc, Rinv_l by (apply Rabs_no_R0; exact E). lra.
Qed.
Lemma add_off x y : representable x -> representable y -> off u (x + y) (rnd (x + y)).
Proof. intros X Y. replace (x + y) with (x - - y) by ring. apply sub_off; [exact X|apply rep_opp; exact Y]. Qed.
(** A rounded product or quotient whose exact value is off by k from z: the total error. *)
Lemma rnd_off k z x : 0 <= k -> off k z x -> Rabs (rnd x - z) <= (k + u + k * u) * Rabs z + bpow radix2 (-1075).
Proof.
  intros K H. destruct (rnd_ex x) as (e & n & He & Hn & ->).
  assert (O : off (k + u + k * u) (z * 1) (x * (1 + e))) by (apply off_mul; [exact H|exists e; split; [exact He|ring]]).
  rewrite Rmult_1_r in O. apply off_abs in O. replace (x * (1 + e) + n - z) with ((x * (1 + e) - z) + n) by ring. eapply Rle_trans; [apply Rabs_triang|]. lra.
Qed.
Lemma rnd_rep' x : representable (rnd x). Proof. apply generic_format_round; typeclasses eauto. Qed.
Lemma bp_u e : bpow radix2 (e - 53) = u * bpow radix2 e. Proof. unfold u. rewrite <- bpow_plus. f_equal. lia. Qed.
Lemma off_mul' k k' m b a d c : off k b a -> off k' d c -> k + k' + k * k' <= m -> off m (b * d) (a * c).
Proof. intros H H' L. eapply off_le; [exact L|]. apply off_mul; assumption. Qed.
Section Xints.
  Variables X0 Y0 X1 Y1 PY M tau : R.
  Hypothesis R1 : representable X0. Hypothesis R2 : representable Y0. Hypothesis R3 : representable X1. Hypothesis R4 : representable Y1. Hypothesis R5 : representable PY.
  Hypothesis B1 : Rabs X0 <= M. Hypothesis B2 : Rabs Y0 <= M. Hypothesis B3 : Rabs X1 <= M. Hypothesis B4 : Rabs Y1 <= M.
  Hypothesis HY : bpow radix2 (-500) <= Rabs (Y1 - Y0).
  Hypothesis HT : 0 <= tau <= 1.
  Hypothesis HP : PY - Y0 = tau * (Y1 - Y0).
  Lemma M_large : bpow radix2 (-501) <= M.
  Proof.
    assert (Rabs (Y1 - Y0) <= 2 * M). { apply Rabs_le_inv in B2, B4. apply Rabs_le. lra. }
    change (-500)%Z with (-501 + 1)%Z in HY. rewrite bpow_plus in HY. change (bpow radix2 1) with 2 in HY. lra.
  Qed.
  Lemma h75_small : bpow radix2 (-1075) <= u * M /\ bpow radix2 (-1075) <= u.
  Proof.
    pose proof M_large as L. pose proof u_small. change (-1075)%Z with (-1022 - 53)%Z. rewrite bp_u. split; [apply Rmult_le_compat_l; [lra|]|].
    - eapply Rle_trans; [|exact L]. apply bpow_le. lia.
    - rewrite <- (Rmult_1_r u) at 2. apply Rmult_le_compat_l; [lra|]. apply (bpow_le radix2 (-1022) 0). lia.
  Qed.
  Lemma span2 x y : Rabs x <= M -> Rabs y <= M -> Rabs (x - y) <= 2 * M.
  Proof. intros A B. apply Rabs_le_inv in A, B. apply Rabs_le. lra. Qed.
  Let a' := rnd (PY - Y0). Let dx' := rnd (X1 - X0). Let dy' := rnd (Y1 - Y0). Let s' := rnd (dx' / dy'). Let p' := rnd (a' * s').
  Lemma prod_err : Rabs (p' - tau * (X1 - X0)) <= 22 * u * M.
  Proof.
    pose proof u_tiny as U. destruct h75_small as [h1 h2]. pose proof M_large as ML. assert (M0 : 0 < M) by (pose proof (bpow_gt_0 radix2 (-501)); lra).
    assert (DY : Y1 - Y0 <> 0). { intros E. rewrite E, Rabs_R0 in HY. pose proof (bpow_gt_0 radix2 (-500)). lra. }
    assert (A : off u (PY - Y0) a') by (apply sub_off; assumption). assert (DX : off u (X1 - X0) dx') by (apply sub_off; assumption). assert (DY' : off u (Y1 - Y0) dy') by (apply sub_off; assumption).
    assert (Q : off (4 * u) ((X1 - X0) / (Y1 - Y0)) (dx' / dy')).
    { eapply off_le; [|apply off_div; [|exact DY|exact DX|exact DY']]; [nra|lra]. }
    unfold p', s'. destruct (rnd_ex (dx' / dy')) as (e4 & n4 & E4 & N4 & ->). set (z := a' * (dx' / dy' * (1 + e4) + n4)). destruct (rnd_ex z) as (e5 & n5 & E5 & N5 & ->).
    assert (F : off (9 * u) (tau * (X1 - X0)) (a' * (dx' / dy' * (1 + e4)) * (1 + e5))).
    { replace (tau * (X1 - X0)) with ((PY - Y0) * ((X1 - X0) / (Y1 - Y0) * 1) * 1) by (rewrite HP; field; exact DY).
      apply (off_mul' (7 * u) u); [|exists e5; split; [exact E5|ring]|nra]. apply (off_mul' u (51 / 10 * u)); [exact A| |nra].
      apply (off_mul' (4 * u) u); [exact Q|exists e4; split; [exact E4|ring]|nra]. }
    apply off_abs in F. replace (z * (1 + e5) + n5 - tau * (X1 - X0)) with ((a' * (dx' / dy' * (1 + e4)) * (1 + e5) - tau * (X1 - X0)) + (a' * n4 * (1 + e5) + n5)) by (unfold z; ring).
    assert (T : Rabs (tau * (X1 - X0)) <= 2 * M).
    { rewrite Rabs_mult, (Rabs_pos_eq tau) by lra. pose proof (span2 X1 X0 B3 B1). pose proof (Rabs_pos (X1 - X0)). nra. }
    assert (a2 : Rabs a' <= 2 * M * (1 + u)).
    { destruct A as (e & He & ->). rewrite Rabs_mult, HP, Rabs_mult, (Rabs_pos_eq tau) by lra. pose proof (span2 Y1 Y0 B4 B2). pose proof (Rabs_pos (Y1 - Y0)).
      assert (Rabs (1 + e) <= 1 + u) by (apply Rabs_le_inv in He; apply Rabs_le; lra). apply Rmult_le_compat; [nra|apply Rabs_pos|nra|assumption]. }
    assert (G : Rabs (a' * n4 * (1 + e5)) <= 3 * u * M).
    { rewrite !Rabs_mult. assert (Rabs (1 + e5) <= 1 + u) by (apply Rabs_le_inv in E5; apply Rabs_le; lra). pose proof (Rabs_pos a'). pose proof (Rabs_pos n4).
      assert (Rabs a' * Rabs n4 <= 2 * M * (1 + u) * u) by (apply Rmult_le_compat; lra).
      apply Rle_trans with (2 * M * (1 + u) * u * (1 + u)); [apply Rmult_le_compat; try assumption; [nra|apply Rabs_pos]|].
      replace (2 * M * (1 + u) * u * (1 + u)) with (2 * ((1 + u) * (1 + u)) * (u * M)) by ring. rewrite (Rmult_assoc 3). assert (0 <= u * M) by nra. apply Rmult_le_compat_r; [assumption|]. nra. }
    eapply Rle_trans; [apply Rabs_triang|]. pose proof (Rabs_triang (a' * n4 * (1 + e5)) n5).
    assert (9 * u * Rabs (tau * (X1 - X0)) <= 9 * u * (2 * M)) by (apply Rmult_le_compat_l; lra). lra.
  Qed.
  Lemma xints_err : Rabs (rnd (X0 + p') - (X0 + tau * (X1 - X0))) <= bpow radix2 (-48) * M.
  Proof.
    pose proof prod_err as P. pose proof u_tiny as U. pose proof M_large as ML. assert (M0 : 0 < M) by (pose proof (bpow_gt_0 radix2 (-501)); lra).
    assert (rp : representable p') by (unfold p'; apply rnd_rep'). pose proof (add_rel X0 p' R1 rp) as A.
    assert (T : Rabs (tau * (X1 - X0)) <= 2 * M).
    { rewrite Rabs_mult, (Rabs_pos_eq tau) by lra. pose proof (span2 X1 X0 B3 B1). pose proof (Rabs_pos (X1 - X0)). nra. }
    assert (S : Rabs (X0 + p') <= 4 * M).
    { replace (X0 + p') with (X0 + (p' - tau * (X1 - X0)) + tau * (X1 - X0)) by ring. eapply Rle_trans; [apply Rabs_triang|]. pose proof (Rabs_triang X0 (p' - tau * (X1 - X0))).
      assert (22 * u * M <= M) by nra. lra. }
    assert (u * Rabs (X0 + p') <= u * (4 * M)) by (apply Rmult_le_compat_l; lra).
    replace (rnd (X0 + p') - (X0 + tau * (X1 - X0))) with ((rnd (X0 + p') - (X0 + p')) + (p' - tau * (X1 - X0))) by ring.
    eapply Rle_trans; [apply Rabs_triang|]. change (-48)%Z with (5 - 53)%Z. rewrite bp_u. change (bpow radix2 5) with 32. assert (0 <= u * M) by nra. lra.
  Qed.
End Xints.
(** * The crossing *)
Lemma leb_val x y : finite_double x -> finite_double y -> SFleb x y = true <-> val x <= val y.
Proof.
  intros Fx Fy. destruct (lift x Fx) as (bx & <- & X1 & X2), (lift y Fy) as (b & <- & Y1 & Y2). rewrite <- X2, <- Y2. change (SFleb (B2SF bx) (B2SF b)) with (Bleb bx b).
  rewrite (Bleb_correct 53 1024) by assumption. destruct (Rle_bool_spec (B2R bx) (B2R b)); split; intros; try discriminate; auto; lra.
Qed.
Lemma abs_ok x : finite_double x -> finite_double (SFabs x) /\ val (SFabs x) = Rabs (val x).
Proof.
  intros [V F]. destruct x as [s|s| |s m e]; try discriminate; cbn [SFabs].
  - split; [split; reflexivity|]. unfold val. cbn. rewrite Rabs_R0. reflexivity.
  - split; [split; [exact V|reflexivity]|]. unfold val, SF2R. rewrite <- F2R_Zabs. destruct s; reflexivity.
Qed.
Lemma mul_ok e x y : (-537 <= e < 511)%Z -> finite_double x -> finite_double y -> Rabs (val x) <= bpow radix2 e -> Rabs (val y) <= bpow radix2 e ->
  finite_double (fmul x y) /\ val (fmul x y) = rnd (val x * val y) /\ Rabs (val (fmul x y)) <= bpow radix2 (e + e).
Proof.
  intros He Fx Fy Hx Hy. assert (B : Rabs (val x * val y) <= bpow radix2 (e + e)).
  { rewrite Rabs_mult, bpow_plus. apply Rmult_le_compat; try apply Rabs_pos; assumption. }
  assert (B' : Rabs (rnd (val x * val y)) <= bpow radix2 (e + e)) by (apply rnd_abs_le; [apply rep_bp; lia|exact B]).
  destruct (mul_rounds x y Fx Fy) as [F V]; [apply (lt_huge (e + e)); [lia|exact B']|]. rewrite V. auto.
Qed.
Lemma zero_cmp x : finite_double x -> SFeqb x f_zero = true <-> val x = 0.
Proof.
  intros F. split.
  - intros H. destruct F as [_ F]. destruct x as [s|s| |s m e]; try discriminate; [reflexivity|]. destruct s; discriminate H.
  - intros H. destruct (SFeqb x f_zero) eqn:E; [reflexivity|]. exfalso. destruct x as [s|s| |s m e]; [destruct s; discriminate E|destruct F as [_ F]; discriminate F|destruct F as [_ F]; discriminate F|].
    unfold val, SF2R in H. apply eq_0_F2R in H. destruct s; discriminate H.
Qed.
Lemma off_nz k b a : k < 1 -> b <> 0 -> off k b a -> a <> 0.
Proof. intros K B (e & H & ->). apply Rabs_le_inv in H. intros E. apply Rmult_integral in E. destruct E; lra. Qed.
Section Edge.
  Variables (q a b : fpoint) (M : R).
  Hypothesis Hq : atmost M q. Hypothesis Ha : atmost M a. Hypothesis Hb : atmost M b.
  Hypothesis HM : M <= bpow radix2 500.
  Let s : fpoint * fpoint := (a, b).
  Lemma edge_M0 : 0 <= M. Proof. destruct Ha as (_ & H & _). pose proof (Rabs_pos (RX a)). lra. Qed.
  Lemma sub_pt (x y : spec_float) : finite_double x -> finite_double y -> Rabs (val x) <= M -> Rabs (val y) <= M ->
    finite_double (fsub x y) /\ val (fsub x y) = rnd (val x - val y) /\ Rabs (val (fsub x y)) <= bpow radix2 501.
  Proof. intros Fx Fy Bx By. apply (diff_ok 500); try assumption; [lia| |]; lra. Qed.
  Lemma xints_ok tau : bpow radix2 (-500) <= Rabs (RY b - RY a) -> 0 <= tau <= 1 -> RY q - RY a = tau * (RY b - RY a) ->
    finite_double (pf_xints q s) /\ Rabs (val (pf_xints q s) - at_x s tau) <= bpow radix2 (-48) * M.
  Proof.
    pose proof edge_M0 as M0. intros HY HT HP. unfold pf_xints, s. destruct a as [x0 y0] eqn:Ea, b as [x1 y1] eqn:Eb. unfold RX, RY in *. cbn [fst snd] in *.
    destruct Ha as ([Fx0 Fy0] & Bx0 & By0), Hb as ([Fx1 Fy1] & Bx1 & By1), Hq as ([Fqx Fqy] & Bqx & Bqy). unfold RX, RY in *. cbn [fst snd] in *.
    destruct (sub_pt x1 x0) as (D1 & D2 & D3); try assumption. destruct (sub_pt y1 y0) as (E1 & E2 & E3); try assumption. destruct (sub_pt (snd q) y0) as (A1 & A2 & A3); try assumption.
    pose proof u_tiny as U. assert (DYo : off u (val y1 - val y0) (rnd (val y1 - val y0))) by (apply sub_off; apply format_val; assumption).
    assert (DY : val y1 - val y0 <> 0). { intros E. rewrite E, Rabs_R0 in HY. pose proof (bpow_gt_0 radix2 (-500)). lra. }
    assert (NZ : val (fsub y1 y0) <> 0) by (rewrite E2; eapply off_nz; [|exact DY|exact DYo]; lra).
    assert (Z : SFeqb (fsub y1 y0) f_zero = false) by (apply not_true_iff_false; rewrite zero_cmp by exact E1; exact NZ).
    rewrite Z.
    assert (Sl : Rabs (rnd (val (fsub x1 x0) / val (fsub y1 y0))) <= bpow radix2 1002).
    { apply rnd_abs_le; [apply rep_bp; lia|]. unfold Rdiv. rewrite Rabs_mult, Rabs_inv by exact NZ. change 1002%Z with (501 + 501)%Z. rewrite bpow_plus. apply Rmult_le_compat; [apply Rabs_pos|left; apply Rinv_0_lt_compat, Rabs_pos_lt, NZ|exact D3|].
      assert (L : bpow radix2 (-501) <= Rabs (val (fsub y1 y0))).
      { rewrite E2. destruct DYo as (e & He & ->). rewrite Rabs_mult. apply Rabs_le_inv in He. assert (/ 2 <= Rabs (1 + e)) by (rewrite Rabs_pos_eq; lra).
        change (-501)%Z with (-500 + -1)%Z. rewrite bpow_plus. change (bpow radix2 (-1)) with (/ 2). pose proof (bpow_gt_0 radix2 (-500)). apply Rmult_le_compat; lra. }
      replace (bpow radix2 501) with (/ bpow radix2 (-501)) by (rewrite <- bpow_opp; reflexivity). apply Rinv_le; [apply bpow_gt_0|exact L]. }
    destruct (div_rounds (fsub x1 x0) (fsub y1 y0) D1 E1 NZ) as [S1 S2]; [apply (lt_huge 1002); [lia|exact Sl]|].
    assert (R1 := format_val _ Fx0). assert (R2 := format_val _ Fy0). assert (R3 := format_val _ Fx1). assert (R4 := format_val _ Fy1). assert (R5 := format_val _ Fqy).
    pose proof (prod_err (val x0) (val y0) (val x1) (val y1) (val (snd q)) M tau R1 R2 R3 R4 R5 Bx0 By0 Bx1 By1 HY HT HP) as P.
    pose proof (xints_err (val x0) (val y0) (val x1) (val y1) (val (snd q)) M tau R1 R2 R3 R4 R5 Bx0 By0 Bx1 By1 HY HT HP) as X. cbv zeta in P, X.
    assert (T : Rabs (tau * (val x1 - val x0)) <= 2 * M).
    { rewrite Rabs_mult, (Rabs_pos_eq tau) by lra. assert (Rabs (val x1 - val x0) <= 2 * M) by (apply Rabs_le_inv in Bx0, Bx1; apply Rabs_le; lra). pose proof (Rabs_pos (val x1 - val x0)). nra. }
    assert (K4 : 4 * M <= bpow radix2 502) by (change 502%Z with (2 + 500)%Z; rewrite bpow_plus; change (bpow radix2 2) with 4; lra).
    destruct (mul_rounds (fsub (snd q) y0) (fdiv (fsub x1 x0) (fsub y1 y0)) A1 S1) as [P1 P2].
    { apply (lt_huge 502); [lia|]. rewrite A2, S2, D2, E2. assert (22 * u * M <= M) by nra.
      pose proof (Rabs_triang (rnd (rnd (val (snd q) - val y0) * rnd (rnd (val x1 - val x0) / rnd (val y1 - val y0))) - tau * (val x1 - val x0)) (tau * (val x1 - val x0))) as Tr.
      replace (rnd (rnd (val (snd q) - val y0) * rnd (rnd (val x1 - val x0) / rnd (val y1 - val y0))) - tau * (val x1 - val x0) + tau * (val x1 - val x0)) with (rnd (rnd (val (snd q) - val y0) * rnd (rnd (val x1 - val x0) / rnd (val y1 - val y0)))) in Tr by ring. lra. }
    rewrite A2, S2, D2, E2 in P2.
    destruct (add_rounds x0 (fmul (fsub (snd q) y0) (fdiv (fsub x1 x0) (fsub y1 y0))) Fx0 P1) as [Ad _]. rewrite P2 in Ad.
    destruct Ad as [F V].
    { apply (lt_huge 502); [lia|]. set (xx := rnd (val x0 + _)) in *. assert (bpow radix2 (-48) * M <= M).
      { rewrite <- (Rmult_1_l M) at 2. apply Rmult_le_compat_r; [exact M0|]. apply (bpow_le radix2 (-48) 0). lia. }
      replace xx with ((xx - (val x0 + tau * (val x1 - val x0))) + val x0 + tau * (val x1 - val x0)) by ring.
      eapply Rle_trans; [apply Rabs_triang|]. pose proof (Rabs_triang (xx - (val x0 + tau * (val x1 - val x0))) (val x0)). lra. }
    split; [exact F|]. rewrite V. unfold at_x, RX. cbn [fst snd]. exact X.
  Qed.
End Edge.
Lemma crossing_ok M d q s : atmost M q -> atmost M (fst s) -> atmost M (snd s) -> M <= bpow radix2 500 -> not_flat s ->
  bpow radix2 (-48) * M <= d -> clear_of d q s -> pf_crossing q s = true <-> crossesR q s.
Proof.
  intros Hq Ha Hb HM NF Hd CL. destruct s as [a b]. cbn [fst snd] in *. destruct a as [x0 y0] eqn:Ea, b as [x1 y1] eqn:Eb. unfold pf_crossing.
  pose proof Ha as ([_ Fy0] & _ & _). pose proof Hb as ([_ Fy1] & _ & _). pose proof Hq as ([Fqx Fqy] & _ & _). cbn [fst snd] in *.
  unfold crossesR. cbn [fst snd]. change (RY (x0, y0)) with (val y0). change (RY (x1, y1)) with (val y1).
  set (c := (SFleb y0 (snd q) && SFltb (snd q) y1) || (SFleb y1 (snd q) && SFltb (snd q) y0)).
  assert (C : c = true <-> (val y0 <= val (snd q) < val y1 \/ val y1 <= val (snd q) < val y0)).
  { unfold c. rewrite orb_true_iff, !andb_true_iff, !leb_val, !ltb_val by assumption. tauto. }
  destruct c.
  2:{ split; [discriminate|]. intros [H _]. apply C in H. discriminate H. }
  assert (R := proj1 C eq_refl). set (dy := val y1 - val y0). assert (DY : dy <> 0) by (unfold dy; lra).
  assert (HY : bpow radix2 (-500) <= Rabs dy). { destruct NF as [E|H]; [|exact H]. unfold RY in E. cbn in E. exfalso. apply DY. unfold dy. lra. }
  set (tau := (val (snd q) - val y0) / dy).
  assert (HP : val (snd q) - val y0 = tau * dy) by (unfold tau; field; exact DY).
  assert (HT : 0 <= tau <= 1).
  { unfold tau. destruct R as [R|R]; split.
    - apply Rmult_le_reg_r with dy; unfold Rdiv; rewrite ?Rmult_assoc, ?Rinv_l by exact DY; unfold dy; lra.
    - apply Rmult_le_reg_r with dy; unfold Rdiv; rewrite ?Rmult_assoc, ?Rinv_l by exact DY; unfold dy; lra.
    - apply Rmult_le_reg_r with (- dy); [unfold dy; lra|]. replace ((val (snd q) - val y0) / dy * - dy) with (- (val (snd q) - val y0)) by (field; exact DY). lra.
    - apply Rmult_le_reg_r with (- dy); [unfold dy; lra|]. replace ((val (snd q) - val y0) / dy * - dy) with (- (val (snd q) - val y0)) by (field; exact DY). unfold dy. lra. }
  destruct (xints_ok q (x0, y0) (x1, y1) M Hq Ha Hb HM tau) as [Fx Ex]; [exact HY|exact HT|exact HP|]. cbn [pf_xints] in *.
  rewrite ltb_val by (assumption || exact Fx). specialize (CL tau HT).
  assert (Y0 : RY q - at_y ((x0, y0), (x1, y1)) tau = 0). { unfold at_y, RY. cbn [fst snd]. fold dy. lra. }
  rewrite Y0, Rabs_R0, Rplus_0_r in CL. change (val (fst q)) with (RX q). set (xs := at_x _ tau) in *. match goal with |- context [RX q < val ?x] => set (xc := val x) in * end.
  assert (Hx : RX q < xc <-> RX q < xs).
  { assert (B : Rabs (xc - xs) <= d) by lra. apply Rabs_le_inv in B. clearbody xc xs. clear - B CL. unfold Rabs in CL. destruct (Rcase_abs (RX q - xs)); split; intros; lra. }
  rewrite Hx. split.
  - intros H. split; [exact R|]. exists tau. split; [exact H|lra].
  - intros (_ & t & H & E). replace t with tau in H; [exact H|]. unfold at_y, RY in E. cbn [fst snd] in E. fold dy in E. assert (K : (t - tau) * dy = 0) by lra. apply Rmult_integral in K. destruct K; [lra|contradiction].
Qed.
(** * The quick check *)
Lemma add_up e x y : finite_double x -> finite_double y -> Rabs (val x) <= bpow radix2 e -> Rabs (val y) <= bpow radix2 e -> (-1074 <= e < 1023)%Z ->
  finite_double (fadd x y) /\ val (fadd x y) = rnd (val x + val y).
Proof.
  intros Fx Fy Hx Hy He. apply (add_rounds x y Fx Fy). apply (lt_huge (e + 1)); [lia|]. apply rnd_abs_le; [apply rep_bp; lia|]. rewrite bpow_plus. change (bpow radix2 1) with 2.
  apply Rabs_le_inv in Hx, Hy. apply Rabs_le. lra.
Qed.
Lemma skip_ok M ftol q s : finite_double ftol -> 0 <= val ftol <= bpow radix2 500 -> atmost M q -> atmost M (fst s) -> atmost M (snd s) -> M <= bpow radix2 500 ->
  pf_skip ftol q s = true -> forall t, 0 <= t <= 1 -> RY q <> at_y s t.
Proof.
  intros Ff Hf Hq Ha Hb HM HS t Ht E. destruct s as [a b]. cbn [fst snd] in *. destruct a as [x0 y0] eqn:Ea, b as [x1 y1] eqn:Eb. unfold pf_skip in HS.
  pose proof Ha as ([_ Fy0] & _ & By0). pose proof Hb as ([_ Fy1] & _ & By1). pose proof Hq as ([Fqx Fqy] & _ & Bq). unfold RY in By0, By1, Bq. cbn [fst snd] in *.
  unfold at_y, RY in E. cbn [fst snd] in E.
  assert (Mi : exists lo hi, finite_double lo /\ finite_double hi /\ Rabs (val lo) <= bpow radix2 500 /\ Rabs (val hi) <= bpow radix2 500 /\ val lo <= val (snd q) <= val hi /\
    SFltb (snd q) (fsub lo ftol) || SFltb (fadd hi ftol) (snd q) = true).
  { destruct (SFltb y0 y1) eqn:L.
    - rewrite ltb_val in L by assumption. exists y0, y1. repeat split; try apply Fy0; try apply Fy1; try lra; try exact HS; nra.
    - assert (val y1 <= val y0). { apply not_true_iff_false in L. rewrite ltb_val in L by assumption. lra. }
      exists y1, y0. repeat split; try apply Fy0; try apply Fy1; try lra; try exact HS; nra. }
  destruct Mi as (lo & hi & Fl & Fh & Bl & Bh & R & S). assert (Bf : Rabs (val ftol) <= bpow radix2 500) by (rewrite Rabs_pos_eq; lra).
  apply orb_true_iff in S. destruct S as [S|S].
  - destruct (diff_ok 500 lo ftol) as (D1 & D2 & _); try assumption; [lia|]. rewrite ltb_val in S by assumption. rewrite D2 in S.
    pose proof (rnd_le (val lo - val ftol) (val lo)) as K. rewrite (rnd_id (val lo)) in K by (apply format_val; exact Fl). specialize (K ltac:(lra)). lra.
  - destruct (add_up 500 hi ftol) as (D1 & D2); try assumption; [lia|]. rewrite ltb_val in S by assumption. rewrite D2 in S.
    pose proof (rnd_le (val hi) (val hi + val ftol)) as K. rewrite (rnd_id (val hi)) in K by (apply format_val; exact Fh). specialize (K ltac:(lra)). lra.
Qed.
Lemma crosses_in q s : crossesR q s -> exists t, 0 <= t <= 1 /\ RY q = at_y s t.
Proof.
  intros [R (t & _ & E)]. exists t. split; [|exact E]. unfold at_y in E. destruct R as [R|R]; nra.
Qed.
(** * The boundary check *)
Lemma rnd_abs_mono x y : Rabs x <= Rabs y -> Rabs (rnd x) <= Rabs (rnd y).
Proof.
  intros H. assert (A : forall z, Rabs (rnd z) = rnd (Rabs z)).
  { intros z. unfold Rabs at 2. destruct (Rcase_abs z) as [N|N].
    - rewrite rnd_opp. apply Rabs_left1. pose proof (rnd_le z 0) as K. rewrite (rnd_id 0) in K by apply rep_0. apply K. lra.
    - apply Rabs_pos_eq. pose proof (rnd_le 0 z) as K. rewrite (rnd_id 0) in K by apply rep_0. apply K. lra. }
  rewrite !A. apply rnd_le, H.
Qed.
Lemma proj_err X0 X1 M t : representable X0 -> representable X1 -> Rabs X0 <= M -> Rabs X1 <= M -> 0 <= t <= 1 ->
  Rabs (rnd (t * rnd (X1 - X0)) - t * (X1 - X0)) <= 5 * u * M + bpow radix2 (-1075) /\
  Rabs (rnd (X0 + rnd (t * rnd (X1 - X0))) - (X0 + t * (X1 - X0))) <= 9 * u * M + 2 * bpow radix2 (-1075).
Proof.
  intros R0 R1 B0 B1 Ht. pose proof u_tiny as U. pose proof (bpow_gt_0 radix2 (-1075)) as hp. set (h := bpow radix2 (-1075)) in *.
  assert (M0 : 0 <= M) by (pose proof (Rabs_pos X0); lra).
  assert (D : off u (X1 - X0) (rnd (X1 - X0))) by (apply sub_off; assumption).
  assert (T : off u (t * (X1 - X0)) (t * rnd (X1 - X0))). { eapply off_le; [|apply off_mul; [apply off_refl|exact D]]. nra. }
  assert (S : Rabs (t * (X1 - X0)) <= 2 * M).
  { rewrite Rabs_mult, (Rabs_pos_eq t) by lra. assert (Rabs (X1 - X0) <= 2 * M) by (apply Rabs_le_inv in B0, B1; apply Rabs_le; lra). pose proof (Rabs_pos (X1 - X0)). nra. }
  pose proof (rnd_off u _ _ (Rlt_le _ _ (proj1 U)) T) as P. set (p := rnd (t * rnd (X1 - X0))) in *. set (z := t * (X1 - X0)) in *.
  assert (P' : Rabs (p - z) <= 5 * u * M + h).
  { eapply Rle_trans; [exact P|]. apply Rplus_le_compat_r. pose proof (Rabs_pos z). assert (u + u + u * u <= 5 / 2 * u) by nra.
    eapply Rle_trans; [apply Rmult_le_compat_r; [assumption|eassumption]|]. eapply Rle_trans; [apply Rmult_le_compat_l; [nra|exact S]|]. lra. }
  split; [exact P'|].
  assert (A : Rabs (rnd (X0 + p) - (X0 + p)) <= u * Rabs (X0 + p)) by (apply off_abs, add_off; [assumption|apply rnd_rep']).
  assert (L : Rabs (X0 + p) <= 4 * M + h).
  { replace (X0 + p) with (X0 + z + (p - z)) by ring. pose proof (Rabs_triang (X0 + z) (p - z)). pose proof (Rabs_triang X0 z). assert (5 * u * M <= M) by nra. lra. }
  assert (u * Rabs (X0 + p) <= u * (4 * M + h)) by (apply Rmult_le_compat_l; lra).
  replace (rnd (X0 + p) - (X0 + z)) with ((rnd (X0 + p) - (X0 + p)) + (p - z)) by ring. pose proof (Rabs_triang (rnd (X0 + p) - (X0 + p)) (p - z)). assert (u * h <= h) by nra. lra.
Qed.
Lemma dist_off PX px PY py : representable PX -> representable px -> representable PY -> representable py ->
  off (3 * u) (Rabs (PX - px) + Rabs (PY - py)) (rnd (Rabs (rnd (PX - px)) + Rabs (rnd (PY - py)))).
Proof.
  intros R1 R2 R3 R4. pose proof u_tiny as U.
  assert (A : forall x y, representable x -> representable y -> off u (Rabs (x - y)) (Rabs (rnd (x - y)))).
  { intros x y X Y. destruct (sub_off x y X Y) as (e & He & E). exists e. split; [exact He|]. rewrite E, Rabs_mult. f_equal. apply Rabs_le_inv in He. apply Rabs_pos_eq. lra. }
  assert (S : off u (Rabs (PX - px) + Rabs (PY - py)) (Rabs (rnd (PX - px)) + Rabs (rnd (PY - py)))) by (apply off_add; try apply Rabs_pos; apply A; assumption).
  assert (B : off u (Rabs (rnd (PX - px)) + Rabs (rnd (PY - py))) (rnd (Rabs (rnd (PX - px)) + Rabs (rnd (PY - py))))) by (apply add_off; apply rep_abs, rnd_rep').
  destruct S as (e & He & E), B as (f & Hf & F). exists (e + f + e * f). split.
  - pose proof (Rabs_triang (e + f) (e * f)). pose proof (Rabs_triang e f). rewrite (Rabs_mult e f) in *. pose proof (Rabs_pos e). pose proof (Rabs_pos f).
    assert (Rabs e * Rabs f <= u * u) by (apply Rmult_le_compat; assumption). nra.
  - rewrite F, E. ring.
Qed.
Lemma div_inside x y : finite_double x -> finite_double y -> SFleb f_zero (fdiv x y) = true -> SFleb (fdiv x y) f_one = true -> finite_double (fdiv x y) /\ 0 <= val (fdiv x y) <= 1.
Proof.
  intros Fx Fy L0 L1. destruct (lift x Fx) as (bx & Ex & _ & _), (lift y Fy) as (b & Ey & _ & _).
  assert (F : finite_double (fdiv x y)).
  { subst. rewrite div_equiv in *. split; [apply valid_binary_B2SF|]. destruct (Bdiv mode_NE bx b) as [s|s| |s m e He]; try reflexivity; [|discriminate L0]. destruct s; [discriminate L0|discriminate L1]. }
  split; [exact F|]. apply leb_val in L0; [|apply zero_fin|exact F]. apply leb_val in L1; [|exact F|apply one_fin]. rewrite zero_val in L0. rewrite one_val in L1. lra.
Qed.
Section Proj.
  (** The projected point and the distance computed for a parameter in [0, 1]. *)
  Variables (q a b : fpoint) (M : R) (t : spec_float).
  Hypothesis Hq : atmost M q. Hypothesis Ha : atmost M a. Hypothesis Hb : atmost M b.
  Hypothesis HM : M <= bpow radix2 500.
  Hypothesis Ft : finite_double t. Hypothesis Ht : 0 <= val t <= 1.
  Lemma coord_ok x0 x1 p : finite_double x0 -> finite_double x1 -> finite_double p -> Rabs (val x0) <= M -> Rabs (val x1) <= M -> Rabs (val p) <= M ->
    exists px, representable px /\ Rabs (px - (val x0 + val t * (val x1 - val x0))) <= 9 * u * M + 2 * bpow radix2 (-1075) /\
      finite_double (SFabs (fsub p (fadd x0 (fmul t (fsub x1 x0))))) /\
      val (SFabs (fsub p (fadd x0 (fmul t (fsub x1 x0))))) = Rabs (rnd (val p - px)) /\
      Rabs (rnd (val p - px)) <= bpow radix2 503.
  Proof.
    intros F0 F1 Fp B0 B1 Bp. pose proof (edge_M0 a M Ha) as M0.
    destruct (diff_ok 500 x1 x0) as (D1 & D2 & D3); try assumption; [lia|lra|lra|].
    assert (E1 : Rabs (val t * val (fsub x1 x0)) <= bpow radix2 501).
    { rewrite Rabs_mult, (Rabs_pos_eq (val t)) by lra. change (500 + 1)%Z with 501%Z in D3. pose proof (Rabs_pos (val (fsub x1 x0))). nra. }
    assert (E2 : Rabs (rnd (val t * val (fsub x1 x0))) <= bpow radix2 501) by (apply rnd_abs_le; [apply rep_bp; lia|exact E1]).
    destruct (mul_rounds t (fsub x1 x0) Ft D1) as [P1 P2]; [apply (lt_huge 501); [lia|exact E2]|].
    destruct (add_up 501 x0 (fmul t (fsub x1 x0))) as [A1 A2]; try assumption; [| |lia|].
    { eapply Rle_trans; [exact B0|]. eapply Rle_trans; [exact HM|]. apply bpow_le. lia. }
    { rewrite P2. exact E2. }
    assert (A3 : Rabs (val (fadd x0 (fmul t (fsub x1 x0)))) <= bpow radix2 502).
    { rewrite A2, P2. apply rnd_abs_le; [apply rep_bp; lia|]. eapply Rle_trans; [apply Rabs_triang|]. change 502%Z with (1 + 501)%Z. rewrite (bpow_plus radix2 1 501). change (bpow radix2 1) with 2.
      assert (Rabs (val x0) <= bpow radix2 501) by (eapply Rle_trans; [exact B0|]; eapply Rle_trans; [exact HM|]; apply bpow_le; lia). lra. }
    destruct (diff_ok 502 p (fadd x0 (fmul t (fsub x1 x0)))) as (G1 & G2 & G3); try assumption; [lia| |].
    { eapply Rle_trans; [exact Bp|]. eapply Rle_trans; [exact HM|]. apply bpow_le. lia. }
    destruct (abs_ok _ G1) as [H1 H2].
    exists (val (fadd x0 (fmul t (fsub x1 x0)))). split; [apply format_val; exact A1|]. rewrite H2, G2. rewrite G2 in G3. repeat split; try assumption; try apply H1.
    rewrite A2, P2, D2. apply (proj_err (val x0) (val x1) M (val t)); try assumption; apply format_val; assumption.
  Qed.
  Lemma dist_ok :
    let D := fadd (SFabs (fsub (fst q) (fadd (fst a) (fmul t (fsub (fst b) (fst a)))))) (SFabs (fsub (snd q) (fadd (snd a) (fmul t (fsub (snd b) (snd a)))))) in
    exists ex ey, Rabs ex <= 9 * u * M + 2 * bpow radix2 (-1075) /\ Rabs ey <= 9 * u * M + 2 * bpow radix2 (-1075) /\ finite_double D /\
      off (3 * u) (Rabs (RX q - at_x (a, b) (val t) - ex) + Rabs (RY q - at_y (a, b) (val t) - ey)) (val D).
  Proof.
    destruct Hq as ([Q1 Q2] & Q3 & Q4), Ha as ([A1 A2] & A3 & A4), Hb as ([B1 B2] & B3 & B4). unfold RX, RY in *. cbv zeta.
    destruct (coord_ok (fst a) (fst b) (fst q)) as (px & Rx & Ex & Fx & Vx & Lx); try assumption.
    destruct (coord_ok (snd a) (snd b) (snd q)) as (py & Ry & Ey & Fy & Vy & Ly); try assumption.
    set (dx := SFabs (fsub (fst q) _)) in *. set (dy := SFabs (fsub (snd q) _)) in *.
    destruct (add_up 503 dx dy) as [S1 S2]; try assumption; [rewrite Vx, Rabs_Rabsolu; exact Lx|rewrite Vy, Rabs_Rabsolu; exact Ly|lia|].
    eexists _, _. split; [exact Ex|]. split; [exact Ey|]. split; [exact S1|]. rewrite S2, Vx, Vy. unfold at_x, at_y, RX, RY. cbn [fst snd].
    match goal with |- off _ (Rabs ?x + Rabs ?y) _ => replace x with (val (fst q) - px) by ring; replace y with (val (snd q) - py) by ring end.
    apply dist_off; try assumption; apply format_val; assumption.
  Qed.
End Proj.
Lemma bp48 : bpow radix2 (-48) = 32 * u. Proof. unfold u. cbn. lra. Qed.
Lemma bp46 : bpow radix2 (-46) = 128 * u. Proof. unfold u. cbn. lra. Qed.
Lemma bp1070 : bpow radix2 (-1070) = 32 * bpow radix2 (-1075).
Proof. change (-1070)%Z with (5 + -1075)%Z. rewrite bpow_plus. change (bpow radix2 5) with 32. reflexivity. Qed.
Lemma quad_ok e w x y z : (-500 <= e < 510)%Z -> finite_double w -> finite_double x -> finite_double y -> finite_double z ->
  Rabs (val w) <= bpow radix2 e -> Rabs (val x) <= bpow radix2 e -> Rabs (val y) <= bpow radix2 e -> Rabs (val z) <= bpow radix2 e ->
  finite_double (fadd (fmul w x) (fmul y z)) /\ val (fadd (fmul w x) (fmul y z)) = rnd (rnd (val w * val x) + rnd (val y * val z)).
Proof.
  intros He Fw Fx Fy Fz Bw Bx By Bz. destruct (mul_ok e w x) as (P1 & P2 & P3); try assumption; [lia|]. destruct (mul_ok e y z) as (Q1 & Q2 & Q3); try assumption; [lia|].
  destruct (add_up (e + e) (fmul w x) (fmul y z)) as [S1 S2]; try assumption; [lia|]. split; [exact S1|]. rewrite S2, P2, Q2. reflexivity.
Qed.
Lemma param_ok M q a b : atmost M q -> atmost M a -> atmost M b -> M <= bpow radix2 500 ->
  exists num den, pf_param q (a, b) = fdiv num den /\ finite_double num /\ finite_double den /\
    val num = rnd (rnd (rnd (RX q - RX a) * rnd (RX b - RX a)) + rnd (rnd (RY q - RY a) * rnd (RY b - RY a))) /\
    val den = rnd (rnd (rnd (RX b - RX a) * rnd (RX b - RX a)) + rnd (rnd (RY b - RY a) * rnd (RY b - RY a))).
Proof.
  intros Hq Ha Hb HM. destruct Hq as ([Q1 Q2] & Q3 & Q4), Ha as ([A1 A2] & A3 & A4), Hb as ([B1 B2] & B3 & B4). unfold RX, RY in *. destruct a as [x0 y0], b as [x1 y1]. cbn [fst snd] in *.
  unfold pf_param.
  destruct (diff_ok 500 x1 x0) as (D1 & D2 & D3); try assumption; [lia|lra|lra|]. destruct (diff_ok 500 y1 y0) as (E1 & E2 & E3); try assumption; [lia|lra|lra|].
  destruct (diff_ok 500 (fst q) x0) as (F1 & F2 & F3); try assumption; [lia|lra|lra|]. destruct (diff_ok 500 (snd q) y0) as (G1 & G2 & G3); try assumption; [lia|lra|lra|].
  change (500 + 1)%Z with 501%Z in *.
  destruct (quad_ok 501 (fsub (fst q) x0) (fsub x1 x0) (fsub (snd q) y0) (fsub y1 y0)) as [N1 N2]; try assumption; [lia|].
  destruct (quad_ok 501 (fsub x1 x0) (fsub x1 x0) (fsub y1 y0) (fsub y1 y0)) as [K1 K2]; try assumption; [lia|].
  eexists _, _. split; [reflexivity|]. split; [exact N1|]. split; [exact K1|]. rewrite N2, K2, D2, E2, F2, G2. auto.
Qed.
Lemma boundary_sound M ftol q s : finite_double ftol -> 0 <= val ftol -> atmost M q -> atmost M (fst s) -> atmost M (snd s) -> M <= bpow radix2 500 ->
  pf_boundary ftol q s = true -> exists t, 0 <= t <= 1 /\ Rabs (RX q - at_x s t) + Rabs (RY q - at_y s t) <= margin (val ftol) M.
Proof.
  intros Ff Hf Hq Ha Hb HM B. destruct s as [a b]. cbn [fst snd] in *. pose proof (edge_M0 a M Ha) as M0.
  destruct (param_ok M q a b Hq Ha Hb HM) as (num & den & EP & Fn & Fd & _ & _). unfold pf_boundary in B. rewrite EP in B. destruct a as [x0 y0] eqn:Ea, b as [x1 y1] eqn:Eb.
  destruct (negb _ || negb _); [|discriminate B]. destruct (SFleb f_zero (fdiv num den)) eqn:L0; [|discriminate B]. destruct (SFleb (fdiv num den) f_one) eqn:L1; [|discriminate B]. cbn [andb] in B.
  destruct (div_inside num den Fn Fd L0 L1) as [Ft Ht]. exists (val (fdiv num den)). split; [exact Ht|].
  destruct (dist_ok q (x0, y0) (x1, y1) M (fdiv num den) Hq Ha Hb HM Ft Ht) as (ex & ey & Hex & Hey & FD & O). cbn [fst snd] in *. apply leb_val in B; [|exact FD|exact Ff].
  set (D := val _) in B, O. set (X := RX q - _) in *. set (Y := RY q - _) in *. clearbody D X Y.
  destruct O as (e & He & E). pose proof u_tiny as U. set (S := Rabs (X - ex) + Rabs (Y - ey)) in *. assert (S0 : 0 <= S) by (unfold S; pose proof (Rabs_pos (X - ex)); pose proof (Rabs_pos (Y - ey)); lra).
  apply Rabs_le_inv in He. assert (K : S * (1 - 3 * u) <= val ftol) by nra.
  assert (SB : S <= val ftol * (1 + 4 * u)).
  { destruct (Rle_lt_dec S (val ftol * (1 + 4 * u))) as [|N]; [assumption|exfalso]. assert (val ftol * (1 + 4 * u) * (1 - 3 * u) < S * (1 - 3 * u)) by (apply Rmult_lt_compat_r; lra).
    assert (0 <= val ftol * (u * (1 - 12 * u))) by (apply Rmult_le_pos; [lra|nra]). nra. }
  unfold margin. rewrite bp48, bp1070. pose proof (bpow_gt_0 radix2 (-1075)). set (h := bpow radix2 (-1075)) in *.
  assert (Rabs X <= Rabs (X - ex) + Rabs ex) by (replace X with (X - ex + ex) at 1 by ring; apply Rabs_triang).
  assert (Rabs Y <= Rabs (Y - ey) + Rabs ey) by (replace Y with (Y - ey + ey) at 1 by ring; apply Rabs_triang).
  assert (0 <= u * M) by nra. assert (0 <= u * val ftol) by nra. unfold S in SB. lra.
Qed.
(** * Away from the edges *)
Lemma loop_clear M ftol q segs : finite_double ftol -> 0 <= val ftol <= bpow radix2 500 -> atmost M q -> M <= bpow radix2 500 ->
  (forall s, In s segs -> atmost M (fst s) /\ atmost M (snd s) /\ not_flat s /\ clear_of (margin (val ftol) M) q s) ->
  forall inside, exists b, odd_many (crossesR q) b segs /\ pf_loop ftol q segs inside = Some (xorb inside b).
Proof.
  intros Ff Hf Hq HM. induction segs as [|s r IH]; intros HS inside.
  - exists false. split; [constructor|]. cbn. rewrite xorb_false_r. reflexivity.
  - destruct (HS s (or_introl eq_refl)) as (Ha & Hb & NF & CL). assert (IH' := IH (fun x Hx => HS x (or_intror Hx))). clear IH.
    cbn [pf_loop]. destruct (pf_skip ftol q s) eqn:SK.
    + destruct (IH' inside) as (b & O & E). exists b. split; [|exact E]. apply om_no; [|exact O]. intros C. apply crosses_in in C. destruct C as (t & Ht & Et). exact (skip_ok M ftol q s Ff Hf Hq Ha Hb HM SK t Ht Et).
    + destruct (pf_boundary ftol q s) eqn:B.
      { destruct (boundary_sound M ftol q s Ff (proj1 Hf) Hq Ha Hb HM B) as (t & Ht & L). specialize (CL t Ht). lra. }
      assert (Hd : bpow radix2 (-48) * M <= margin (val ftol) M).
      { unfold margin. pose proof (bpow_gt_0 radix2 (-1070)). pose proof (bpow_gt_0 radix2 (-48)). assert (0 <= bpow radix2 (-48) * val ftol) by (apply Rmult_le_pos; lra). lra. }
      pose proof (crossing_ok M _ q s Hq Ha Hb HM NF Hd CL) as C. destruct (pf_crossing q s).
      * destruct (IH' (negb inside)) as (b & O & E). exists (negb b). split; [apply om_yes; [apply C; reflexivity|exact O]|]. rewrite E. destruct inside, b; reflexivity.
      * destruct (IH' inside) as (b & O & E). exists b. split; [|exact E]. apply om_no; [|exact O]. intros K. apply C in K. discriminate K.
Qed.
Lemma isfinite_ok x : finite_double x -> isfinite_f x = true.
Proof. intros [_ F]. destruct x; try discriminate; reflexivity. Qed.
Lemma point_clear M ftol q segs : finite_double ftol -> 0 <= val ftol <= bpow radix2 500 -> atmost M q -> M <= bpow radix2 500 ->
  (forall s, In s segs -> atmost M (fst s) /\ atmost M (snd s) /\ not_flat s /\ clear_of (margin (val ftol) M) q s) ->
  exists b, odd_many (crossesR q) b segs /\ pf_point ftol segs q = (b, false).
Proof.
  intros Ff Hf Hq HM HS. destruct (loop_clear M ftol q segs Ff Hf Hq HM HS false) as (b & O & E). exists b. split; [exact O|]. unfold pf_point. destruct Hq as ([Q1 Q2] & _ & _).
  rewrite (isfinite_ok _ Q1), (isfinite_ok _ Q2), E. destruct b; reflexivity.
Qed.
(** * On an edge *)
Section On.
  Variables (q a b : fpoint) (M tau : R).
  Hypothesis Hq : atmost M q. Hypothesis Ha : atmost M a. Hypothesis Hb : atmost M b.
  Hypothesis HM : M <= bpow radix2 500.
  Hypothesis NS : not_short (a, b).
  Hypothesis Ht : 0 <= tau <= 1.
  Hypothesis EX : RX q = at_x (a, b) tau. Hypothesis EY : RY q = at_y (a, b) tau.
  Let h := bpow radix2 (-1075).
  Let DX := RX b - RX a. Let DY := RY b - RY a.
  Let L := DX * DX + DY * DY.
  Lemma part_err P X0 X1 : representable P -> representable X0 -> representable X1 -> P = X0 + tau * (X1 - X0) ->
    let d := X1 - X0 in let r := rnd (rnd (P - X0) * rnd d) in let w := rnd (rnd d * rnd d) in
    0 <= r <= w /\ Rabs (r - tau * (d * d)) <= 4 * u * (d * d) + h /\ Rabs (w - d * d) <= 4 * u * (d * d) + h.
  Proof.
    intros RP R0 R1 E. cbv zeta. pose proof u_tiny as U. set (d := X1 - X0).
    assert (A : off u (tau * d) (rnd (P - X0))). { replace (tau * d) with (P - X0) by (unfold d; lra). apply sub_off; assumption. }
    assert (B : off u d (rnd d)) by (apply sub_off; assumption).
    assert (dd : 0 <= d * d) by nra.
    assert (C1 : off (2 * u + u * u) (tau * d * d) (rnd (P - X0) * rnd d)) by (eapply off_mul'; [exact A|exact B|lra]).
    assert (C2 : off (2 * u + u * u) (d * d) (rnd d * rnd d)) by (eapply off_mul'; [exact B|exact B|lra]).
    assert (k0 : 0 <= 2 * u + u * u) by nra. assert (k1 : 2 * u + u * u + u + (2 * u + u * u) * u <= 4 * u) by nra.
    assert (k2 : 0 <= (2 * u + u * u) * u) by (apply Rmult_le_pos; lra).
    pose proof (rnd_off _ _ _ k0 C1) as P1. pose proof (rnd_off _ _ _ k0 C2) as P2. fold h in P1, P2.
    rewrite (Rabs_pos_eq (d * d)) in P2 by exact dd. replace (tau * d * d) with (tau * (d * d)) in P1 by ring. assert (td : 0 <= tau * (d * d) <= d * d) by (split; [apply Rmult_le_pos; lra|nra]). rewrite (Rabs_pos_eq (tau * (d * d))) in P1 by lra.
    assert (Sg : 0 <= rnd (P - X0) * rnd d <= rnd d * rnd d).
    { assert (Mo : Rabs (rnd (P - X0)) <= Rabs (rnd d)). { apply rnd_abs_mono. replace (P - X0) with (tau * d) by (unfold d; lra). rewrite Rabs_mult, (Rabs_pos_eq tau) by lra. pose proof (Rabs_pos d). nra. }
      assert (N : 0 <= rnd (P - X0) * rnd d).
      { destruct A as (e & He & ->), B as (f & Hf & ->). apply Rabs_le_inv in He, Hf. replace (tau * d * (1 + e) * (d * (1 + f))) with (tau * (d * d) * ((1 + e) * (1 + f))) by ring. apply Rmult_le_pos; [lra|nra]. }
      split; [exact N|]. rewrite <- (Rabs_pos_eq (rnd (P - X0) * rnd d)) by exact N. rewrite <- (Rabs_pos_eq (rnd d * rnd d)) by nra. rewrite !Rabs_mult. apply Rmult_le_compat_r; [apply Rabs_pos|exact Mo]. }
    split; [split|split].
    - pose proof (rnd_le 0 _ (proj1 Sg)) as K. rewrite (rnd_id 0) in K by apply rep_0. exact K.
    - apply rnd_le. apply Sg.
    - eapply Rle_trans; [exact P1|]. apply Rplus_le_compat_r. apply Rmult_le_compat; lra.
    - eapply Rle_trans; [exact P2|]. apply Rplus_le_compat_r. apply Rmult_le_compat; lra.
  Qed.
  Lemma L_large : bpow radix2 (-1000) <= L.
  Proof.
    unfold L. change (-1000)%Z with (-500 + -500)%Z. rewrite bpow_plus. pose proof (bpow_gt_0 radix2 (-500)). destruct NS as [H1|H1]; cbn [fst snd] in H1.
    - fold DX in H1. assert (bpow radix2 (-500) * bpow radix2 (-500) <= Rabs DX * Rabs DX) by (apply Rmult_le_compat; lra). rewrite <- Rabs_mult, Rabs_pos_eq in H0 by nra. nra.
    - fold DY in H1. assert (bpow radix2 (-500) * bpow radix2 (-500) <= Rabs DY * Rabs DY) by (apply Rmult_le_compat; lra). rewrite <- Rabs_mult, Rabs_pos_eq in H0 by nra. nra.
  Qed.
  Lemma h_L : 100 * h <= u * L.
  Proof.
    unfold h. pose proof L_large as LL. pose proof u_tiny. apply Rle_trans with (u * bpow radix2 (-1000)); [|apply Rmult_le_compat_l; lra]. rewrite <- bp_u.
    change (-1000 - 53)%Z with (22 + -1075)%Z. rewrite bpow_plus. pose proof (bpow_gt_0 radix2 (-1075)). apply Rmult_le_compat_r; [lra|]. cbn. lra.
  Qed.
  Lemma param_err : exists t, pf_param q (a, b) = t /\ finite_double t /\ 0 <= val t <= 1 /\ Rabs (val t - tau) <= 16 * u.
  Proof.
    destruct (param_ok M q a b Hq Ha Hb HM) as (num & den & EP & Fn & Fd & Vn & Vd). pose proof u_tiny as U. pose proof h_L as HL. pose proof L_large as LL. pose proof (bpow_gt_0 radix2 (-1000)) as b0. pose proof (bpow_gt_0 radix2 (-1075)) as h0. fold h in h0.
    destruct Hq as ([Q1 Q2] & Q3 & Q4), Ha as ([A1 A2] & A3 & A4), Hb as ([B1 B2] & B3 & B4).
    destruct (part_err (RX q) (RX a) (RX b)) as (X1 & X2 & X3); try (apply format_val; assumption); [exact EX|].
    destruct (part_err (RY q) (RY a) (RY b)) as (Y1 & Y2 & Y3); try (apply format_val; assumption); [exact EY|].
    cbv zeta in X1, X2, X3, Y1, Y2, Y3. fold DX in X1, X2, X3, Vn, Vd. fold DY in Y1, Y2, Y3, Vn, Vd. set (r1 := rnd (rnd (RX q - RX a) * rnd DX)) in *. set (r2 := rnd (rnd (RY q - RY a) * rnd DY)) in *. set (w1 := rnd (rnd DX * rnd DX)) in *. set (w2 := rnd (rnd DY * rnd DY)) in *.
    assert (Rp : forall x y, representable (rnd (x * y))) by (intros; apply rnd_rep').
    assert (O1 : off u (r1 + r2) (val num)) by (rewrite Vn; apply add_off; apply Rp). assert (O2 : off u (w1 + w2) (val den)) by (rewrite Vd; apply add_off; apply Rp).
    assert (EL : L = DX * DX + DY * DY) by reflexivity.
    assert (DX2 : 0 <= DX * DX) by nra. assert (DY2 : 0 <= DY * DY) by nra.
    assert (S1 : Rabs (r1 + r2 - tau * L) <= 4 * u * L + 2 * h).
    { rewrite EL. replace (r1 + r2 - tau * (DX * DX + DY * DY)) with ((r1 - tau * (DX * DX)) + (r2 - tau * (DY * DY))) by ring. pose proof (Rabs_triang (r1 - tau * (DX * DX)) (r2 - tau * (DY * DY))). lra. }
    assert (S2 : Rabs (w1 + w2 - L) <= 4 * u * L + 2 * h).
    { rewrite EL. replace (w1 + w2 - (DX * DX + DY * DY)) with ((w1 - DX * DX) + (w2 - DY * DY)) by ring. pose proof (Rabs_triang (w1 - DX * DX) (w2 - DY * DY)). lra. }
    clearbody r1 r2 w1 w2. clear X2 X3 Y2 Y3. clearbody L.
    assert (L0 : 0 < L) by lra. set (uL := u * L) in *. assert (uL0 : 0 < uL) by (unfold uL; apply Rmult_lt_0_compat; lra).
    assert (uuL : u * uL <= / 100 * uL) by (apply Rmult_le_compat_r; lra).
    replace (4 * u * L) with (4 * uL) in * by (unfold uL; ring).
    apply Rabs_le_inv in S1, S2.
    assert (uL_L : uL <= / 100 * L) by (unfold uL; apply Rmult_le_compat_r; lra).
    assert (W : 0 < w1 + w2) by lra. assert (TL : 0 <= tau * L <= L) by (split; [apply Rmult_le_pos; lra|nra]).
    assert (VN : Rabs (val num - tau * L) <= 6 * uL).
    { destruct O1 as (e & He & ->). assert (Rabs ((r1 + r2) * e) <= u * (2 * L)).
      { rewrite Rabs_mult, Rmult_comm. apply Rmult_le_compat; try apply Rabs_pos; [exact He|]. rewrite Rabs_pos_eq by lra. lra. }
      replace (u * (2 * L)) with (2 * uL) in H by (unfold uL; ring). apply Rabs_le_inv in H.
      assert (Q : Rabs ((r1 + r2) * e) <= 11 / 10 * uL).
      { rewrite Rabs_mult, Rmult_comm. apply Rle_trans with (u * (11 / 10 * L)); [|unfold uL; lra]. apply Rmult_le_compat; try apply Rabs_pos; [exact He|]. rewrite Rabs_pos_eq by lra. lra. }
      apply Rabs_le_inv in Q. apply Rabs_le. lra. }
    assert (VD : Rabs (val den - L) <= 6 * uL).
    { destruct O2 as (e & He & ->).
      assert (Q : Rabs ((w1 + w2) * e) <= 11 / 10 * uL).
      { rewrite Rabs_mult, Rmult_comm. apply Rle_trans with (u * (11 / 10 * L)); [|unfold uL; lra]. apply Rmult_le_compat; try apply Rabs_pos; [exact He|]. rewrite Rabs_pos_eq by lra. lra. }
      apply Rabs_le_inv in Q. apply Rabs_le. lra. }
    apply Rabs_le_inv in VN, VD.
    assert (D0 : 0 < val den) by lra.
    assert (N0 : 0 <= val num). { rewrite Vn. pose proof (rnd_le 0 (r1 + r2)) as K. rewrite (rnd_id 0) in K by apply rep_0. apply K. lra. }
    assert (ND : val num <= val den). { rewrite Vn, Vd. apply rnd_le. lra. }
    assert (Q01 : 0 <= val num / val den <= 1).
    { split; apply Rmult_le_reg_r with (val den); try exact D0; unfold Rdiv; rewrite ?Rmult_assoc, ?Rinv_l by lra; lra. }
    assert (R01 : 0 <= rnd (val num / val den) <= 1).
    { split. - pose proof (rnd_le 0 _ (proj1 Q01)) as K. rewrite (rnd_id 0) in K by apply rep_0. exact K.
      - pose proof (rnd_le _ 1 (proj2 Q01)) as K. rewrite (rnd_id 1) in K by (apply (rep_bp 0); lia). exact K. }
    destruct (div_rounds num den Fn Fd) as [F V]; [lra|apply (lt_huge 0); [lia|]; rewrite Rabs_pos_eq by lra; apply R01|].
    exists (fdiv num den). split; [exact EP|]. split; [exact F|]. rewrite V. split; [exact R01|].
    assert (E1 : Rabs (val num / val den - tau) <= 13 * u).
    { replace (val num / val den - tau) with ((val num - tau * val den) / val den) by (field; lra). unfold Rdiv. rewrite Rabs_mult, Rabs_inv by lra. rewrite (Rabs_pos_eq (val den)) by lra.
      apply Rmult_le_reg_r with (val den); [exact D0|]. rewrite Rmult_assoc, Rinv_l, Rmult_1_r by lra.
      assert (Rabs (val num - tau * val den) <= 12 * uL).
      { replace (val num - tau * val den) with ((val num - tau * L) - tau * (val den - L)) by ring. assert (Rabs (tau * (val den - L)) <= 6 * uL).
        { rewrite Rabs_mult, (Rabs_pos_eq tau) by lra. assert (Rabs (val den - L) <= 6 * uL) by (apply Rabs_le; lra). pose proof (Rabs_pos (val den - L)). nra. }
        apply Rabs_le_inv in H. apply Rabs_le. lra. }
      apply Rle_trans with (12 * uL); [exact H|]. assert (u * (94 / 100 * L) <= u * val den) by (apply Rmult_le_compat_l; lra). unfold uL in *. lra. }
    destruct (rnd_ex (val num / val den)) as (e & n & He & Hn & ->). set (Q := val num / val den) in *.
    replace (Q * (1 + e) + n - tau) with ((Q - tau) + Q * e + n) by ring.
    assert (Rabs (Q * e) <= u). { rewrite Rabs_mult, (Rabs_pos_eq Q) by lra. pose proof (Rabs_pos e). nra. }
    assert (hu : h <= u). { unfold h. unfold u. apply bpow_le. lia. }
    fold h in Hn. pose proof (Rabs_triang (Q - tau + Q * e) n). pose proof (Rabs_triang (Q - tau) (Q * e)). lra.
  Qed.
  Lemma M_pos : h <= u * M.
  Proof.
    assert (ML : bpow radix2 (-501) <= M).
    { assert (E5 : bpow radix2 (-500) = 2 * bpow radix2 (-501)) by (change (-500)%Z with (1 + -501)%Z; rewrite bpow_plus; reflexivity).
      unfold not_short in NS. cbn [fst snd] in NS. rewrite E5 in NS.
      destruct Ha as (_ & A3 & A4), Hb as (_ & B3 & B4). destruct NS as [H|H].
      - assert (Rabs (RX b - RX a) <= 2 * M) by (apply Rabs_le_inv in A3, B3; apply Rabs_le; lra). lra.
      - assert (Rabs (RY b - RY a) <= 2 * M) by (apply Rabs_le_inv in A4, B4; apply Rabs_le; lra). lra. }
    unfold h. change (-1075)%Z with (-1022 - 53)%Z. rewrite bp_u. pose proof u_tiny. apply Rmult_le_compat_l; [lra|]. eapply Rle_trans; [|exact ML]. apply bpow_le. lia.
  Qed.
  Lemma boundary_found ftol : finite_double ftol -> bpow radix2 (-46) * M <= val ftol -> pf_boundary ftol q (a, b) = true.
  Proof.
    intros Ff Hf. destruct param_err as (t & Et & Ft & T01 & Te). pose proof u_tiny as U. pose proof (edge_M0 a M Ha) as M0. pose proof M_pos as hM.
    destruct (dist_ok q a b M t Hq Ha Hb HM Ft T01) as (ex & ey & Hex & Hey & FD & O).
    assert (ND : negb (SFeqb (fsub (fst b) (fst a)) f_zero) || negb (SFeqb (fsub (snd b) (snd a)) f_zero) = true).
    { destruct Ha as ([A1 A2] & A3 & A4), Hb as ([B1 B2] & B3 & B4). unfold RX, RY in *. pose proof (bpow_gt_0 radix2 (-500)).
      apply orb_true_iff. rewrite !negb_true_iff, <- !not_true_iff_false.
      destruct (diff_ok 500 (fst b) (fst a)) as (D1 & D2 & _); try assumption; [lia|lra|lra|]. destruct (diff_ok 500 (snd b) (snd a)) as (E1 & E2 & _); try assumption; [lia|lra|lra|].
      rewrite !zero_cmp by assumption. rewrite D2, E2. unfold not_short, RX, RY in NS. cbn [fst snd] in NS.
      destruct NS as [K|K]; [left; apply (off_nz u (val (fst b) - val (fst a)))|right; apply (off_nz u (val (snd b) - val (snd a)))]; try lra; try (apply sub_off; apply format_val; assumption); intros Z; rewrite Z, Rabs_R0 in K; lra. }
    destruct a as [x0 y0] eqn:Ea, b as [x1 y1] eqn:Eb. unfold pf_boundary. rewrite Et. cbn [fst snd] in *. rewrite ND.
    replace (SFleb f_zero t) with true by (symmetry; apply leb_val; [apply zero_fin|exact Ft|rewrite zero_val; apply T01]).
    replace (SFleb t f_one) with true by (symmetry; apply leb_val; [exact Ft|apply one_fin|rewrite one_val; apply T01]). cbn [andb].
    apply leb_val; [exact FD|exact Ff|]. eapply Rle_trans; [|exact Hf]. rewrite bp46. fold h in Hex, Hey.
    assert (SX : Rabs (RX q - at_x ((x0, y0), (x1, y1)) (val t)) <= 32 * u * M).
    { rewrite EX. unfold at_x, RX. cbn [fst snd]. replace (_ - _) with ((tau - val t) * (val x1 - val x0)) by ring. rewrite Rabs_mult, (Rabs_minus_sym tau). destruct Ha as (_ & A3 & _), Hb as (_ & B3 & _). unfold RX in A3, B3. cbn [fst snd] in A3, B3.
      assert (Rabs (val x1 - val x0) <= 2 * M) by (apply Rabs_le_inv in A3, B3; apply Rabs_le; lra). replace (32 * u * M) with (16 * u * (2 * M)) by ring. apply Rmult_le_compat; try apply Rabs_pos; assumption. }
    assert (SY : Rabs (RY q - at_y ((x0, y0), (x1, y1)) (val t)) <= 32 * u * M).
    { rewrite EY. unfold at_y, RY. cbn [fst snd]. replace (_ - _) with ((tau - val t) * (val y1 - val y0)) by ring. rewrite Rabs_mult, (Rabs_minus_sym tau). destruct Ha as (_ & _ & A3), Hb as (_ & _ & B3). unfold RY in A3, B3. cbn [fst snd] in A3, B3.
      assert (Rabs (val y1 - val y0) <= 2 * M) by (apply Rabs_le_inv in A3, B3; apply Rabs_le; lra). replace (32 * u * M) with (16 * u * (2 * M)) by ring. apply Rmult_le_compat; try apply Rabs_pos; assumption. }
    set (D := val _) in O |- *. set (X := RX q - _) in *. set (Y := RY q - _) in *. clearbody D X Y. destruct O as (e & He & ->). apply Rabs_le_inv in He.
    assert (Rabs (X - ex) <= Rabs X + Rabs ex) by (unfold Rminus; rewrite <- (Rabs_Ropp ex); apply Rabs_triang).
    assert (Rabs (Y - ey) <= Rabs Y + Rabs ey) by (unfold Rminus; rewrite <- (Rabs_Ropp ey); apply Rabs_triang).
    pose proof (Rabs_pos (X - ex)). pose proof (Rabs_pos (Y - ey)). set (S := Rabs (X - ex) + Rabs (Y - ey)) in *. set (uM := u * M) in *. assert (0 <= uM) by (unfold uM; nra).
    assert (S <= 86 * uM) by (unfold S, uM in *; lra). assert (S * (1 + e) <= S * 2) by (apply Rmult_le_compat_l; [unfold S; lra|lra]).
    assert (S * (1 + e) <= S * (11 / 10)) by (apply Rmult_le_compat_l; [unfold S; lra|lra]). unfold uM in *. lra.
  Qed.
End On.
Lemma point_on M ftol q segs s : finite_double ftol -> bpow radix2 (-46) * M <= val ftol <= bpow radix2 500 -> atmost M q -> M <= bpow radix2 500 ->
  In s segs -> atmost M (fst s) -> atmost M (snd s) -> not_short s -> on_segmentR q s -> pf_point ftol segs q = (true, true).
Proof.
  intros Ff Hf Hq HM HI Ha Hb NS (t & Ht & EX & EY). unfold pf_point. pose proof Hq as ([Q1 Q2] & _ & _). rewrite (isfinite_ok _ Q1), (isfinite_ok _ Q2). cbn [andb].
  assert (B : pf_boundary ftol q s = true). { destruct s as [a b]. apply (boundary_found q a b M t); try assumption. apply Hf. }
  assert (SK : pf_skip ftol q s = false).
  { apply not_true_iff_false. intros K. apply (skip_ok M ftol q s) with (t := t) in K; try assumption; [exact (K EY)|]. pose proof (edge_M0 (fst s) M Ha). pose proof (bpow_gt_0 radix2 (-46)). assert (0 <= bpow radix2 (-46) * M) by (apply Rmult_le_pos; lra). lra. }
  assert (E : forall i, pf_loop ftol q segs i = None).
  { clear - HI B SK. induction segs as [|x r IH]; [destruct HI|]. intros i. cbn [pf_loop]. destruct HI as [->|HI].
    - rewrite SK, B. reflexivity.
    - destruct (pf_skip ftol q x); [apply IH; exact HI|]. destruct (pf_boundary ftol q x); [reflexivity|]. apply IH, HI. }
  rewrite E. reflexivity.
Qed.
Lemma segs_same node edge : map (pf_lookup node) edge = segments node edge.
Proof. reflexivity. Qed.
Lemma seg_ends M node edge s : (forall e, In e edge -> (fst e < length node)%nat /\ (snd e < length node)%nat) -> Forall (atmost M) node -> In s (segments node edge) -> atmost M (fst s) /\ atmost M (snd s).
Proof.
  intros V F I. unfold segments in I. apply in_map_iff in I. destruct I as (e & <- & I). destruct (V e I) as [V1 V2]. cbn [fst snd].
  rewrite Forall_forall in F. split; apply F, nth_In; assumption.
Qed.
Lemma fast_clear M ftol node edge vert i q :
  finite_double ftol -> 0 <= val ftol <= bpow radix2 500 -> M <= bpow radix2 500 ->
  (forall e, In e edge -> (fst e < length node)%nat /\ (snd e < length node)%nat) -> Forall (atmost M) node ->
  nth_error vert i = Some q -> atmost M q ->
  (forall s, In s (segments node edge) -> not_flat s /\ clear_of (margin (val ftol) M) q s) ->
  exists b, odd_many (crossesR q) b (segments node edge) /\ nth_error (inpoly_fast_f ftol node edge vert) i = Some (b, false).
Proof.
  intros Ff Hf HM V F Hi Hq HS. destruct (point_clear M ftol q (segments node edge) Ff Hf Hq HM) as (b & O & E).
  { intros s I. destruct (seg_ends M node edge s V F I). destruct (HS s I). auto. }
  exists b. split; [exact O|]. unfold inpoly_fast_f. rewrite (map_nth_error _ i vert Hi), segs_same, E. reflexivity.
Qed.
Lemma fast_on M ftol node edge vert i q s :
  finite_double ftol -> bpow radix2 (-46) * M <= val ftol <= bpow radix2 500 -> M <= bpow radix2 500 ->
  (forall e, In e edge -> (fst e < length node)%nat /\ (snd e < length node)%nat) -> Forall (atmost M) node ->
  nth_error vert i = Some q -> atmost M q -> In s (segments node edge) -> not_short s -> on_segmentR q s ->
  nth_error (inpoly_fast_f ftol node edge vert) i = Some (true, true).
Proof.
  intros Ff Hf HM V F Hi Hq I NS O. destruct (seg_ends M node edge s V F I) as [A B]. unfold inpoly_fast_f. rewrite (map_nth_error _ i vert Hi), segs_same. f_equal. apply (point_on M ftol q _ s); assumption.
Qed.
Lemma fast_near M ftol node edge vert i q st :
  finite_double ftol -> 0 <= val ftol -> M <= bpow radix2 500 ->
  (forall e, In e edge -> (fst e < length node)%nat /\ (snd e < length node)%nat) -> Forall (atmost M) node ->
  nth_error vert i = Some q -> atmost M q -> nth_error (inpoly_fast_f ftol node edge vert) i = Some (st, true) ->
  st = true /\ exists s, In s (segments node edge) /\ ~ clear_of (margin (val ftol) M) q s.
Proof.
  intros Ff Hf HM V F Hi Hq E. unfold inpoly_fast_f in E. rewrite (map_nth_error _ i vert Hi), segs_same in E. injection E as E.
  assert (HS : forall s, In s (segments node edge) -> atmost M (fst s) /\ atmost M (snd s)) by (intros s; apply seg_ends; assumption).
  unfold pf_point in E. destruct (isfinite_f _ && isfinite_f _); [|discriminate E]. destruct (pf_loop ftol q (segments node edge) false) eqn:L; [discriminate E|]. injection E as <-. split; [reflexivity|].
  revert L HS. generalize false. generalize (segments node edge) as segs. clear V F. induction segs as [|s r IH]; intros i0 L HS; [discriminate L|]. cbn [pf_loop] in L.
  assert (HS' : forall x, In x r -> atmost M (fst x) /\ atmost M (snd x)) by (intros x Hx; apply HS; right; exact Hx).
  assert (REC : forall i1, pf_loop ftol q r i1 = None -> exists x, In x (s :: r) /\ ~ clear_of (margin (val ftol) M) q x).
  { intros i1 K. destruct (IH i1 K HS') as (x & I & N). exists x. split; [right; exact I|exact N]. }
  destruct (pf_skip ftol q s); [apply (REC _ L)|]. destruct (pf_boundary ftol q s) eqn:B; [|apply (REC _ L)].
  exists s. split; [left; reflexivity|]. destruct (HS s (or_introl eq_refl)) as [A1 A2]. destruct (boundary_sound M ftol q s Ff Hf Hq A1 A2 HM B) as (t & Ht & K). intros C. specialize (C t Ht). lra.
Qed.
Lemma fast_length ftol node edge vert : length (inpoly_fast_f ftol node edge vert) = length vert.
Proof. apply map_length. Qed.
Lemma fast_nonfinite ftol node edge vert i q : nth_error vert i = Some q -> ~ finite_point q -> valid_binary 53 1024 (fst q) = true -> valid_binary 53 1024 (snd q) = true ->
  nth_error (inpoly_fast_f ftol node edge vert) i = Some (false, false).
Proof.
  intros Hi N V1 V2. unfold inpoly_fast_f. rewrite (map_nth_error _ i vert Hi). f_equal. unfold pf_point.
  destruct (isfinite_f (fst q) && isfinite_f (snd q)) eqn:E; [|reflexivity]. exfalso. apply N. apply andb_true_iff in E. destruct E as [E1 E2].
  split; (split; [assumption|]); [destruct (fst q)|destruct (snd q)]; try discriminate; reflexivity.
Qed.
(** * Cases *)
Definition c_half : spec_float := S754_finite false 4503599627370496 (-53).
Definition c_four : spec_float := S754_finite false 4503599627370496 (-50).
Definition c_min : spec_float := S754_finite false 1 (-1074).
Definition c_ftol : spec_float := S754_finite false 7922816251426434 (-97).
Lemma half_val : val c_half = / 2. Proof. unfold val, SF2R, F2R. cbn. lra. Qed.
Lemma four_val : val c_four = 4. Proof. unfold val, SF2R, F2R. cbn. lra. Qed.
Lemma minus_one_val : val (SFopp f_one) = - 1. Proof. unfold val, SF2R, F2R. cbn. lra. Qed.
Lemma min_val : 0 < val c_min <= / 2.
Proof. unfold val, SF2R, F2R, c_min. cbn [Fnum Fexp cond_Zopp]. split; [pose proof (bpow_gt_0 radix2 (-1074)); lra|]. rewrite Rmult_1_l. apply (bpow_le radix2 (-1074) (-1)). lia. Qed.
Lemma ftol_val : 0 <= val c_ftol <= / 1000000000000. Proof. unfold val, SF2R, F2R. cbn. lra. Qed.
Lemma big_500 : 1000 <= bpow radix2 500.
Proof. apply Rle_trans with (bpow radix2 10); [cbn; lra|apply bpow_le; lia]. Qed.
Lemma margin_small M f : 0 <= M <= 1000 -> 0 <= f <= / 1000000000000 -> margin f M < / 4.
Proof.
  intros HM Hf. unfold margin. rewrite bp48. pose proof u_tiny as U. assert (bpow radix2 (-1070) <= / 1024) by (apply (bpow_le radix2 (-1070) (-10)); lia).
  assert (32 * u * (M + f) <= 32 * / 1000000000000000 * 1001) by (apply Rmult_le_compat; lra). lra.
Qed.
Definition tri : list fpoint := [(f_zero, f_zero); (c_four, f_zero); (f_zero, c_four)].
Definition ring3 : list (nat * nat) := [(0, 1); (1, 2); (2, 0)]%nat.
Lemma fin_zero : finite_double f_zero. Proof. apply zero_fin. Qed.
Lemma tri_atmost : Forall (atmost 4) tri.
Proof.
  unfold tri. repeat constructor; unfold RX, RY; cbn [fst snd]; rewrite ?zero_val, ?four_val; rewrite Rabs_pos_eq; lra.
Qed.
Lemma tri_flat s : In s (segments tri ring3) -> not_flat s /\ not_short s.
Proof.
  assert (B : bpow radix2 (-500) <= 4) by (apply Rle_trans with 1; [apply (bpow_le radix2 (-500) 0); lia|lra]).
  intros [<-|[<-|[<-|[]]]]; cbn [fst snd nth tri]; (split; [|]); unfold not_flat, not_short, RX, RY; cbn [fst snd]; rewrite ?zero_val, ?four_val.
  - left. reflexivity.
  - left. rewrite Rabs_pos_eq; lra.
  - right. rewrite Rabs_pos_eq; lra.
  - right. rewrite Rabs_pos_eq; lra.
  - right. rewrite Rabs_left; lra.
  - right. rewrite Rabs_left; lra.
Qed.
Lemma abs_ge x : x <= Rabs x. Proof. apply Rle_abs. Qed.
Lemma abs_ge' x : - x <= Rabs x. Proof. rewrite <- Rabs_Ropp. apply Rle_abs. Qed.
Lemma tri_clear s : In s (segments tri ring3) -> clear_of (margin (val c_ftol) 4) (f_one, f_one) s.
Proof.
  pose proof (margin_small 4 (val c_ftol) ltac:(lra) ftol_val) as MS.
  intros [<-|[<-|[<-|[]]]] t Ht; cbn [fst snd nth tri]; unfold at_x, at_y, RX, RY; cbn [fst snd]; rewrite ?zero_val, ?four_val, ?one_val;
  match goal with |- _ < Rabs ?a + Rabs ?b => pose proof (abs_ge a); pose proof (abs_ge' a); pose proof (abs_ge b); pose proof (abs_ge' b); pose proof (Rabs_pos a); pose proof (Rabs_pos b); lra end.
Qed.
Lemma tri_case : finite_double c_ftol /\ 0 <= val c_ftol <= bpow radix2 500 /\ 4 <= bpow radix2 500 /\
  (forall e, In e ring3 -> (fst e < length tri)%nat /\ (snd e < length tri)%nat) /\ Forall (atmost 4) tri /\ atmost 4 (f_one, f_one) /\
  (forall s, In s (segments tri ring3) -> not_flat s /\ clear_of (margin (val c_ftol) 4) (f_one, f_one) s) /\
  inpoly_fast_f c_ftol tri ring3 [(f_one, f_one); (c_four, c_four)] = [(true, false); (false, false)].
Proof.
  pose proof big_500. pose proof ftol_val. split; [split; reflexivity|]. split; [lra|]. split; [lra|].
  split. { intros e [<-|[<-|[<-|[]]]]; cbn; lia. } split; [apply tri_atmost|]. split.
  { split; [split; apply one_fin|]. unfold RX, RY. cbn [fst snd]. rewrite one_val, Rabs_pos_eq; lra. }
  split; [|vm_compute; reflexivity]. intros s I. split; [apply tri_flat, I|apply tri_clear, I].
Qed.
(** The middle of the long side, with a tolerance of 1/2. *)
Definition c_two : spec_float := S754_finite false 4503599627370496 (-51).
Lemma two_val : val c_two = 2. Proof. unfold val, SF2R, F2R. cbn. lra. Qed.
Lemma mid_case : finite_double c_half /\ bpow radix2 (-46) * 4 <= val c_half <= bpow radix2 500 /\ atmost 4 (c_two, c_two) /\
  on_segmentR (c_two, c_two) ((c_four, f_zero), (f_zero, c_four)) /\ In ((c_four, f_zero), (f_zero, c_four)) (segments tri ring3) /\ not_short ((c_four, f_zero), (f_zero, c_four)).
Proof.
  pose proof big_500. pose proof u_tiny. split; [split; reflexivity|]. split; [rewrite half_val, bp46; lra|]. split.
  { split; [split; split; reflexivity|]. unfold RX, RY. cbn [fst snd]. rewrite two_val, Rabs_pos_eq; lra. }
  split. { exists (/ 2). unfold at_x, at_y, RX, RY. cbn [fst snd]. rewrite two_val, four_val, zero_val. lra. }
  split; [right; left; reflexivity|]. apply (tri_flat ((c_four, f_zero), (f_zero, c_four))). right. left. reflexivity.
Qed.
(** An edge that rises by the least double: its slope overflows, the crossing is lost, and a point outside is reported inside. *)
Definition flat3 : list fpoint := [(f_zero, f_zero); (f_one, c_min); (c_half, f_one)].
Lemma flat_wrong : let q := (SFopp f_one, f_zero) in
  Forall (atmost 1) flat3 /\ atmost 1 q /\ (forall s, In s (segments flat3 ring3) -> clear_of (/ 2) q s) /\
  odd_many (crossesR q) false (segments flat3 ring3) /\ inpoly_fast_f c_ftol flat3 ring3 [q] = [(true, false)].
Proof.
  pose proof min_val as MV. cbv zeta. split; [|split; [|split; [|split]]].
  - unfold flat3. repeat constructor; unfold RX, RY; cbn [fst snd]; rewrite ?zero_val, ?one_val, ?half_val; rewrite Rabs_pos_eq; lra.
  - split; [split; split; reflexivity|]. unfold RX, RY. cbn [fst snd]. rewrite zero_val, minus_one_val. rewrite Rabs_R0, Rabs_left; lra.
  - intros s [<-|[<-|[<-|[]]]] t Ht; cbn [fst snd nth flat3]; unfold at_x, at_y, RX, RY; cbn [fst snd]; rewrite ?zero_val, ?one_val, ?half_val, ?minus_one_val;
    match goal with |- _ < Rabs ?a + Rabs ?b => pose proof (abs_ge' a); pose proof (Rabs_pos b); lra end.
  - unfold segments, ring3, flat3. cbn [map nth fst snd]. change false with (negb true). apply om_yes; [|apply om_no; [|change true with (negb false); apply om_yes; [|apply om_nil]]].
    + split; unfold RX, RY; cbn [fst snd]; [left; rewrite zero_val; lra|]. exists 0. unfold at_x, at_y, RX, RY. cbn [fst snd]. rewrite minus_one_val, zero_val. lra.
    + intros [[H|H] _]; unfold RY in H; cbn [fst snd] in H; rewrite zero_val, one_val in H; lra.
    + split; unfold RX, RY; cbn [fst snd]; [right; rewrite zero_val, one_val; lra|]. exists 1. unfold at_x, at_y, RX, RY. cbn [fst snd]. rewrite minus_one_val, half_val, zero_val, one_val. lra.
  - vm_compute. reflexivity.
Qed.
(** A triangle in degrees of longitude and latitude and a point exactly at 10/13 of its first edge: with the default tolerance it is reported outside and not on the boundary. *)
Definition deg3 : list fpoint := [(S754_finite false 8899985595458554 (-46), S754_finite true 8125148094556576 (-47));
  (S754_finite true 6291784173226871 (-45), S754_finite true 5923045508506876 (-46)); (S754_finite false 8899985595458554 (-46), S754_finite true 5923045508506876 (-46))].
Definition degq : fpoint := (S754_finite true 7625825129089366 (-46), S754_finite true 5493705940531048 (-46)).
Lemma deg_wrong : Forall (atmost 180) deg3 /\ atmost 180 degq /\
  (exists s, In s (segments deg3 ring3) /\ on_segmentR degq s /\ not_short s) /\ inpoly_fast_f c_ftol deg3 ring3 [degq] = [(false, false)].
Proof.
  split; [|split; [|split]].
  - assert (K : forall p, finite_point p -> -180 <= RX p <= 180 -> -180 <= RY p <= 180 -> atmost 180 p) by (intros p F X Y; split; [exact F|split; apply Rabs_le; lra]).
    unfold deg3. constructor; [|constructor; [|constructor; [|constructor]]]; (apply K; [split; split; reflexivity| |]); unfold RX, RY, val, SF2R, F2R; cbn; lra.
  - split; [split; split; reflexivity|]. unfold degq, RX, RY, val, SF2R, F2R. cbn. split; apply Rabs_le; lra.
  - eexists. split; [left; reflexivity|]. split.
    + exists (10 / 13). split; [lra|]. unfold degq, at_x, at_y, RX, RY, val, SF2R, F2R. cbn. split; lra.
    + left. apply Rle_trans with 1; [apply (bpow_le radix2 (-500) 0); lia|]. unfold RX, val, SF2R, F2R. cbn. rewrite Rabs_left; lra.
  - vm_compute. reflexivity.
Qed.
