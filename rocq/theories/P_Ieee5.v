(** Proofs about the orientation test of fix_mesh on doubles. *)
From Coq Require Import List ZArith Reals Lra Lia SpecFloat Psatz.
From Flocq Require Import Core IEEE754.BinarySingleNaN Plus_error Relative.
From Verif Require Import M_Base M_Edges M_FixMesh M_Ieee S_Double S_Ieee P_Double P_Ieee P_Ieee2 P_Ieee3.
Import ListNotations.
Open Scope R_scope.

Lemma diff_rel x y : representable x -> representable y -> exists e, Rabs e <= u /\ rnd (x - y) = (x - y) * (1 + e).
Proof.
  intros X Y. destruct (FLT_plus_error_N_ex radix2 (-1074) 53 (fun z => negb (Z.even z)) x (- y) X (rep_opp _ Y)) as (e & E & R).
  change (round radix2 (FLT_exp (-1074) 53) (Znearest (fun z : Z => negb (Z.even z))) (x + - y)) with (rnd (x - y)) in R. exists e. split; [|exact R].
  pose proof (u_rod1pu_ro_le_u_ro radix2 53) as L. rewrite u_ro_u in L, E. lra.
Qed.
Lemma prod_err x : exists e t, Rabs e <= u /\ Rabs t <= bpow radix2 (-1075) /\ rnd x = x * (1 + e) + t.
Proof.
  destruct (error_N_FLT radix2 (-1074) 53 eq_refl (fun z => negb (Z.even z)) x) as (e & t & E & T & _ & R).
  exists e, t. split; [|split; [|exact R]].
  - apply Rle_trans with (1 := E). unfold u. change (-53)%Z with (-1 + -52)%Z. rewrite bpow_plus. simpl. lra.
  - apply Rle_trans with (1 := T). change (-1075)%Z with (-1 + -1074)%Z. rewrite bpow_plus. apply Req_le. reflexivity.
Qed.
Lemma cube e1 e2 e3 : Rabs e1 <= u -> Rabs e2 <= u -> Rabs e3 <= u -> Rabs ((1 + e1) * (1 + e2) * (1 + e3) - 1) <= 4 * u.
Proof.
  intros A B C. pose proof u_bounds. apply Rabs_le_inv in A, B, C. apply Rabs_le.
  assert (M : - (2 * u + u * u) <= e1 + e2 + e1 * e2 <= 2 * u + u * u) by nra.
  set (q := e1 + e2 + e1 * e2) in *. replace ((1 + e1) * (1 + e2) * (1 + e3) - 1) with (q + e3 + q * e3) by (unfold q; ring).
  assert (U2 : u * u <= u * / 1000000) by (apply Rmult_le_compat_l; lra).
  assert (Q : - (3 * u) <= q <= 3 * u) by lra. nra.
Qed.
Lemma product_err x1 x2 y1 y2 : representable x1 -> representable x2 -> representable y1 -> representable y2 ->
  Rabs (rnd (rnd (x1 - x2) * rnd (y1 - y2)) - (x1 - x2) * (y1 - y2)) <= 4 * u * Rabs ((x1 - x2) * (y1 - y2)) + bpow radix2 (-1075).
Proof.
  intros X1 X2 Y1 Y2. destruct (diff_rel _ _ X1 X2) as (e1 & E1 & R1). destruct (diff_rel _ _ Y1 Y2) as (e2 & E2 & R2).
  destruct (prod_err (rnd (x1 - x2) * rnd (y1 - y2))) as (e3 & t & E3 & T & R3). rewrite R3, R1, R2.
  replace ((x1 - x2) * (1 + e1) * ((y1 - y2) * (1 + e2)) * (1 + e3) + t - (x1 - x2) * (y1 - y2)) with (((1 + e1) * (1 + e2) * (1 + e3) - 1) * ((x1 - x2) * (y1 - y2)) + t) by ring.
  apply Rle_trans with (1 := Rabs_triang _ _). rewrite Rabs_mult. apply Rplus_le_compat; [|exact T]. apply Rmult_le_compat_r; [apply Rabs_pos|]. apply cube; auto.
Qed.
Lemma two_val : finite_double ftwo /\ val ftwo = 2.
Proof. split; [split; reflexivity|]. unfold val. cbn. unfold F2R. cbn. field. Qed.
Lemma half_bpow e : bpow radix2 e + bpow radix2 e = bpow radix2 (e + 1).
Proof. rewrite bpow_plus. change (bpow radix2 1) with 2. ring. Qed.
Lemma diff_bounded x y e : (-1074 <= e)%Z -> Rabs x <= bpow radix2 e -> Rabs y <= bpow radix2 e -> Rabs (x - y) <= bpow radix2 (e + 1).
Proof. intros E X Y. rewrite <- half_bpow. apply Rle_trans with (1 := Rabs_triang _ _). rewrite Rabs_Ropp. lra. Qed.
Lemma prod_bounded x y a : Rabs x <= bpow radix2 a -> Rabs y <= bpow radix2 a -> Rabs (x * y) <= bpow radix2 (a + a).
Proof. intros X Y. rewrite Rabs_mult, bpow_plus. apply Rmult_le_compat; auto using Rabs_pos. Qed.

(** The computed determinant (before the division by two) in terms of roundings. *)
Definition det_r (xa ya xb yb xc yc : R) : R := rnd (rnd (rnd (xb - xa) * rnd (yc - ya)) - rnd (rnd (yb - ya) * rnd (xc - xa))).
Lemma neg_vol_det p i j k : let q n := nth n p (S754_nan, S754_nan) in moderate (q i) -> moderate (q j) -> moderate (q k) ->
  fneg_vol p (i, j, k) = true <-> rnd (det_r (val (fst (q i))) (val (snd (q i))) (val (fst (q j))) (val (snd (q j))) (val (fst (q k))) (val (snd (q k))) / 2) < 0.
Proof.
  intros q. unfold fneg_vol. fold (q i) (q j) (q k). destruct (q i) as [xa ya], (q j) as [xb yb], (q k) as [xc yc]. cbn [fst snd].
  intros ((Fxa & Fya) & Bxa & Bya) ((Fxb & Fyb) & Bxb & Byb) ((Fxc & Fyc) & Bxc & Byc). cbn [fst snd] in *.
  assert (D : forall x y, finite_double x -> finite_double y -> Rabs (val x) <= bpow radix2 500 -> Rabs (val y) <= bpow radix2 500 ->
    finite_double (fsub x y) /\ val (fsub x y) = rnd (val x - val y) /\ Rabs (rnd (val x - val y)) <= bpow radix2 501).
  { intros x y Fx Fy Bx By. assert (Bd : Rabs (rnd (val x - val y)) <= bpow radix2 501) by (apply rnd_abs_le; [lia|]; apply (diff_bounded _ _ 500); auto; lia).
    destruct (sub_rounds x y Fx Fy) as [S _]. destruct S as [S1 S2]; [apply (lt_huge _ 501); [lia|exact Bd]|]. auto. }
  assert (M : forall x y, finite_double x -> finite_double y -> Rabs (val x) <= bpow radix2 501 -> Rabs (val y) <= bpow radix2 501 ->
    finite_double (fmul x y) /\ val (fmul x y) = rnd (val x * val y) /\ Rabs (rnd (val x * val y)) <= bpow radix2 1002).
  { intros x y Fx Fy Bx By. assert (Bd : Rabs (rnd (val x * val y)) <= bpow radix2 1002) by (apply rnd_abs_le; [lia|]; apply (prod_bounded _ _ 501); auto).
    destruct (mul_rounds x y Fx Fy) as [S1 S2]; [apply (lt_huge _ 1002); [lia|exact Bd]|]. auto. }
  destruct (D xb xa) as (F1 & V1 & B1); auto. destruct (D yc ya) as (F2 & V2 & B2); auto. destruct (D yb ya) as (F3 & V3 & B3); auto. destruct (D xc xa) as (F4 & V4 & B4); auto.
  destruct (M (fsub xb xa) (fsub yc ya)) as (F5 & V5 & B5); auto; try (rewrite V1 || rewrite V2; auto).
  destruct (M (fsub yb ya) (fsub xc xa)) as (F6 & V6 & B6); auto; try (rewrite V3 || rewrite V4; auto).
  rewrite V1, V2 in V5, B5. rewrite V3, V4 in V6, B6.
  set (s := fsub (fmul (fsub xb xa) (fsub yc ya)) (fmul (fsub yb ya) (fsub xc xa))).
  assert (Bs : Rabs (det_r (val xa) (val ya) (val xb) (val yb) (val xc) (val yc)) <= bpow radix2 1003) by (unfold det_r; apply rnd_abs_le; [lia|]; apply (diff_bounded _ _ 1002); auto; lia).
  assert (Hs : finite_double s /\ val s = det_r (val xa) (val ya) (val xb) (val yb) (val xc) (val yc)).
  { destruct (sub_rounds _ _ F5 F6) as [S _]. destruct S as [S1 S2].
    - rewrite V5, V6. apply (lt_huge _ 1003); [lia|exact Bs].
    - split; [exact S1|]. rewrite V5, V6 in S2. exact S2. }
  destruct Hs as [Fs Vs]. destruct two_val as [F2' V2'].
  assert (Bh : Rabs (rnd (val s / val ftwo)) <= bpow radix2 1003).
  { apply rnd_abs_le; [lia|]. rewrite V2', Vs. unfold Rdiv. rewrite Rabs_mult, (Rabs_pos_eq (/ 2)) by lra. pose proof (Rabs_pos (det_r (val xa) (val ya) (val xb) (val yb) (val xc) (val yc))). lra. }
  destruct (div_rounds s ftwo Fs F2') as [Fd Vd]; [rewrite V2'; lra|apply (lt_huge _ 1003); [lia|exact Bh]|].
  destruct zero_double as [Fz Vz]. rewrite (ltb_val _ _ Fd Fz), Vz, Vd, V2', Vs. tauto.
Qed.

Lemma orientation_filter p i j k : let q n := nth n p (S754_nan, S754_nan) in moderate (q i) -> moderate (q j) -> moderate (q k) ->
  let slack := 4 * u * permanent2 (q i) (q j) (q k) + bpow radix2 (-1072) in
  (slack < Rarea2 (q i) (q j) (q k) -> fneg_vol p (i, j, k) = false) /\ (Rarea2 (q i) (q j) (q k) < - slack -> fneg_vol p (i, j, k) = true).
Proof.
  intros q Hi Hj Hk. pose proof (neg_vol_det p i j k Hi Hj Hk) as E. cbv beta zeta in E.
  change (nth i p (S754_nan, S754_nan)) with (q i) in E. change (nth j p (S754_nan, S754_nan)) with (q j) in E. change (nth k p (S754_nan, S754_nan)) with (q k) in E.
  unfold Rarea2, permanent2. destruct (q i) as [xa ya], (q j) as [xb yb], (q k) as [xc yc]. cbn [fst snd] in *.
  destruct Hi as ((Fxa & Fya) & _), Hj as ((Fxb & Fyb) & _), Hk as ((Fxc & Fyc) & _). cbn [fst snd] in *. apply format_val in Fxa, Fya, Fxb, Fyb, Fxc, Fyc.
  pose proof (product_err _ _ _ _ Fxb Fxa Fyc Fya) as P1. pose proof (product_err _ _ _ _ Fyb Fya Fxc Fxa) as P2.
  set (m1 := (val xb - val xa) * (val yc - val ya)) in *. set (m2 := (val yb - val ya) * (val xc - val xa)) in *.
  set (r1 := rnd (rnd (val xb - val xa) * rnd (val yc - val ya))) in *. set (r2 := rnd (rnd (val yb - val ya) * rnd (val xc - val xa))) in *.
  apply Rabs_le_inv in P1, P2.
  assert (B1 : bpow radix2 (-1075) + bpow radix2 (-1075) = bpow radix2 (-1074)) by apply half_bpow.
  assert (B2 : bpow radix2 (-1074) + bpow radix2 (-1074) = bpow radix2 (-1073)) by apply half_bpow.
  assert (B3 : bpow radix2 (-1073) + bpow radix2 (-1073) = bpow radix2 (-1072)) by apply half_bpow.
  pose proof (bpow_gt_0 radix2 (-1074)) as B0.
  unfold det_r in E. fold r1 r2 in E. cbv zeta. split; intros H.
  - destruct (fneg_vol p (i, j, k)); auto. exfalso. assert (rnd (rnd (r1 - r2) / 2) < 0) by (apply E; reflexivity).
    assert (0 <= rnd (r1 - r2)) by (apply rnd_sign_pos; lra). assert (0 <= rnd (rnd (r1 - r2) / 2)) by (apply rnd_sign_pos; lra). lra.
  - apply E. assert (L : rnd (r1 - r2) <= - bpow radix2 (-1073)).
    { rewrite <- (rnd_id (bpow radix2 (-1073))) by (apply rep_bpow; lia). rewrite <- rnd_opp. apply rnd_le. lra. }
    assert (L2 : rnd (rnd (r1 - r2) / 2) <= - bpow radix2 (-1074)).
    { rewrite <- (rnd_id (bpow radix2 (-1074))) by (apply rep_bpow; lia). rewrite <- rnd_opp. apply rnd_le. lra. }
    lra.
Qed.

(** Coordinates that are small integers times a common power of two: the test is exact. *)
Lemma orientation_exact p i j k s : let q n := nth n p (S754_nan, S754_nan) in (-400 <= s <= 400)%Z ->
  (forall n, In n [i; j; k] -> finite_point (q n) /\ on_grid s (fst (q n)) /\ on_grid s (snd (q n))) ->
  fneg_vol p (i, j, k) = true <-> Rarea2 (q i) (q j) (q k) < 0.
Proof.
  intros q Hs H.
  assert (Mod : forall n, In n [i; j; k] -> moderate (q n)).
  { intros n Hn. destruct (H n Hn) as (F & (z1 & Z1 & E1) & (z2 & Z2 & E2)).
    assert (G : forall z, (Z.abs z <= 2 ^ 25)%Z -> Rabs (IZR z * bpow radix2 s) <= bpow radix2 500).
    { intros z Hz. rewrite Rabs_mult, (Rabs_pos_eq (bpow radix2 s)) by apply bpow_ge_0. apply Rle_trans with (bpow radix2 25 * bpow radix2 s).
      - apply Rmult_le_compat_r; [apply bpow_ge_0|]. rewrite <- abs_IZR. change (bpow radix2 25) with (IZR (2 ^ 25)). apply IZR_le, Hz.
      - rewrite <- bpow_plus. apply bpow_le. lia. }
    split; [exact F|]. rewrite E1, E2. split; apply G; auto. }
  pose proof (neg_vol_det p i j k (Mod i ltac:(simpl; auto)) (Mod j ltac:(simpl; auto)) (Mod k ltac:(simpl; auto))) as E. cbv beta zeta in E.
  change (nth i p (S754_nan, S754_nan)) with (q i) in E. change (nth j p (S754_nan, S754_nan)) with (q j) in E. change (nth k p (S754_nan, S754_nan)) with (q k) in E.
  destruct (H i ltac:(simpl; auto)) as (_ & (xa & Bxa & Exa) & (ya & Bya & Eya)). destruct (H j ltac:(simpl; auto)) as (_ & (xb & Bxb & Exb) & (yb & Byb & Eyb)).
  destruct (H k ltac:(simpl; auto)) as (_ & (xc & Bxc & Exc) & (yc & Byc & Eyc)). unfold Rarea2. rewrite E, Exa, Eya, Exb, Eyb, Exc, Eyc. clear E H Mod Exa Eya Exb Eyb Exc Eyc.
  set (b := bpow radix2 s).
  assert (Df : forall v w, (Z.abs v <= 2 ^ 25)%Z -> (Z.abs w <= 2 ^ 25)%Z -> rnd (IZR v * b - IZR w * b) = IZR (v - w) * b).
  { intros v w Hv Hw. rewrite minus_IZR. replace (IZR v * b - IZR w * b) with ((IZR v - IZR w) * b) by ring. rewrite <- minus_IZR. apply rnd_id. apply rep_scaled; lia. }
  assert (Pr : forall v w, (Z.abs v <= 2 ^ 26)%Z -> (Z.abs w <= 2 ^ 26)%Z -> rnd (IZR v * b * (IZR w * b)) = IZR (v * w) * bpow radix2 (s + s)).
  { intros v w Hv Hw. replace (IZR v * b * (IZR w * b)) with (IZR (v * w) * bpow radix2 (s + s)) by (rewrite mult_IZR, bpow_plus; unfold b; ring). apply rnd_id. apply rep_scaled; [|lia]. rewrite Z.abs_mul. change (2 ^ 53)%Z with (2 * (2 ^ 26 * 2 ^ 26))%Z. nia. }
  unfold det_r. rewrite !Df by auto. rewrite !Pr by lia.
  set (v := ((xb - xa) * (yc - ya))%Z). set (w := ((yb - ya) * (xc - xa))%Z).
  assert (Hv : (Z.abs v <= 2 ^ 52)%Z) by (unfold v; rewrite Z.abs_mul; change (2 ^ 52)%Z with (2 ^ 26 * 2 ^ 26)%Z; apply Z.mul_le_mono_nonneg; lia).
  assert (Hw : (Z.abs w <= 2 ^ 52)%Z) by (unfold w; rewrite Z.abs_mul; change (2 ^ 52)%Z with (2 ^ 26 * 2 ^ 26)%Z; apply Z.mul_le_mono_nonneg; lia).
  assert (E1 : rnd (IZR v * bpow radix2 (s + s) - IZR w * bpow radix2 (s + s)) = IZR (v - w) * bpow radix2 (s + s)).
  { replace (IZR v * bpow radix2 (s + s) - IZR w * bpow radix2 (s + s)) with (IZR (v - w) * bpow radix2 (s + s)) by (rewrite minus_IZR; ring). apply rnd_id, rep_scaled; lia. }
  rewrite E1.
  assert (E2 : IZR (v - w) * bpow radix2 (s + s) / 2 = IZR (v - w) * bpow radix2 (s + s - 1)).
  { replace (s + s - 1)%Z with (s + s + -1)%Z by lia. rewrite (bpow_plus _ (s + s) (-1)). change (bpow radix2 (-1)) with (/ 2). field. }
  rewrite E2, rnd_id by (apply rep_scaled; lia).
  replace ((IZR xb * b - IZR xa * b) * (IZR yc * b - IZR ya * b) - (IZR yb * b - IZR ya * b) * (IZR xc * b - IZR xa * b)) with (IZR (v - w) * (b * b)).
  2:{ unfold v, w. rewrite minus_IZR, !mult_IZR, !minus_IZR. ring. }
  pose proof (bpow_gt_0 radix2 (s + s - 1)) as P1. assert (P2 : 0 < b * b) by (apply Rmult_lt_0_compat; apply bpow_gt_0).
  split; intros L; nra.
Qed.
