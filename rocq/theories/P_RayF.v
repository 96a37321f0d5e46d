(** Proofs about the python ray caster on doubles. *)
From Coq Require Import List Arith Bool ZArith Lia Reals Lra Psatz SpecFloat.
From Flocq Require Import Core IEEE754.BinarySingleNaN Relative.
From Verif Require Import M_Base M_FixMesh M_CutF M_LimitF M_LapF M_PipF M_SizeF M_RayF.
From Verif Require P_Inpoly.
From Verif Require Import S_Double S_Ieee S_Inpoly S_PipF S_RayF P_Double P_LimitF P_CutF P_LapF P_PipF.
Import ListNotations.
Open Scope R_scope.

(** * Sums of two products *)
Section Sums.
  Let h := bpow radix2 (-1075).
  Lemma h_pos : 0 < h. Proof. apply bpow_gt_0. Qed.
  Lemma prod_one A B a b : off u A a -> off u B b -> Rabs (rnd (a * b) - A * B) <= 4 * u * Rabs (A * B) + h.
  Proof.
    intros HA HB. pose proof u_tiny as U. assert (K : off (2 * u + u * u) (A * B) (a * b)) by (eapply off_mul'; [exact HA|exact HB|lra]).
    assert (k0 : 0 <= 2 * u + u * u) by nra. pose proof (rnd_off _ _ _ k0 K) as P. fold h in P. eapply Rle_trans; [exact P|]. apply Rplus_le_compat_r.
    apply Rmult_le_compat_r; [apply Rabs_pos|]. nra.
  Qed.
  Lemma comb A B p r : representable p -> representable r -> Rabs (p - A) <= 4 * u * Rabs A + h -> Rabs (r - B) <= 4 * u * Rabs B + h ->
    Rabs (rnd (p + r) - (A + B)) <= 6 * u * (Rabs A + Rabs B) + 3 * h.
  Proof.
    intros Rp Rr Hp Hr. pose proof u_tiny as U. pose proof h_pos as hp. pose proof (off_abs _ _ _ (add_off p r Rp Rr)) as O.
    set (T := Rabs A + Rabs B). assert (T0 : 0 <= T) by (unfold T; pose proof (Rabs_pos A); pose proof (Rabs_pos B); lra).
    assert (S : Rabs (p + r - (A + B)) <= 4 * u * T + 2 * h). { replace (p + r - (A + B)) with ((p - A) + (r - B)) by ring. eapply Rle_trans; [apply Rabs_triang|]. unfold T. lra. }
    assert (S' : Rabs (p + r) <= T + 4 * u * T + 2 * h).
    { replace (p + r) with ((p + r - (A + B)) + (A + B)) by ring. eapply Rle_trans; [apply Rabs_triang|]. pose proof (Rabs_triang A B). unfold T in *. lra. }
    assert (u * Rabs (p + r) <= u * (T + 4 * u * T + 2 * h)) by (apply Rmult_le_compat_l; lra).
    replace (rnd (p + r) - (A + B)) with ((rnd (p + r) - (p + r)) + (p + r - (A + B))) by ring. eapply Rle_trans; [apply Rabs_triang|].
    assert (u * (T + 4 * u * T + 2 * h) <= 2 * u * T + h). { assert (0 <= u * T) by nra. assert (u * (u * T) <= / 8 * (u * T)) by (apply Rmult_le_compat_r; lra). assert (u * h <= / 8 * h) by (apply Rmult_le_compat_r; lra). lra. }
    lra.
  Qed.
End Sums.
Lemma sq_le a b : 0 <= b -> a * a <= b * b -> a <= b.
Proof. intros B H. destruct (Rle_lt_dec a b) as [|N]; [assumption|]. exfalso. nra. Qed.
Lemma sq_le_abs a b : 0 <= b -> a * a <= b * b -> Rabs a <= b.
Proof. intros B H. apply sq_le; [exact B|]. rewrite <- Rabs_mult, Rabs_pos_eq by nra. exact H. Qed.
Lemma small_pow e : (e <= -60)%Z -> 0 < bpow radix2 e <= / 1000000.
Proof. intros H. split; [apply bpow_gt_0|]. apply Rle_trans with (bpow radix2 (-60)); [apply bpow_le; exact H|]. cbn. lra. Qed.

Section Core.
  Variables X0 Y0 X1 Y1 PX PY M : R.
  Hypothesis R1 : representable X0. Hypothesis R2 : representable Y0. Hypothesis R3 : representable X1. Hypothesis R4 : representable Y1.
  Hypothesis R5 : representable PX. Hypothesis R6 : representable PY.
  Hypothesis B1 : Rabs X0 <= M. Hypothesis B2 : Rabs Y0 <= M. Hypothesis B3 : Rabs X1 <= M. Hypothesis B4 : Rabs Y1 <= M.
  Hypothesis B5 : Rabs PX <= M. Hypothesis B6 : Rabs PY <= M.
  Let VX := X1 - X0. Let VY := Y1 - Y0. Let WX := PX - X0. Let WY := PY - Y0.
  Let L := VX * VX + VY * VY. Let l := sqrt L.
  Let C := VX * WY - VY * WX. Let D := VX * WX + VY * WY.
  Let vx := rnd VX. Let vy := rnd VY. Let wx := rnd WX. Let wy := rnd WY.
  Let L' := rnd (rnd (vx * vx) + rnd (vy * vy)).
  Let C' := rnd (rnd (vx * wy) - rnd (vy * wx)).
  Let D' := rnd (rnd (vx * wx) + rnd (vy * wy)).
  Let h := bpow radix2 (-1075).
  Hypothesis HL : bpow radix2 (-100) <= l.
  Lemma core_l : 0 < l /\ l * l = L /\ 0 < L.
  Proof.
    pose proof (bpow_gt_0 radix2 (-100)) as b. assert (l0 : 0 < l) by lra. assert (L0 : 0 <= L) by (unfold L; nra).
    assert (E : l * l = L) by (apply sqrt_sqrt; exact L0). split; [exact l0|]. split; [exact E|]. rewrite <- E. nra.
  Qed.
  Lemma core_span x y : Rabs x <= M -> Rabs y <= M -> - (2 * M) <= x - y <= 2 * M.
  Proof. intros A B. apply Rabs_le_inv in A, B. lra. Qed.
  Lemma core_M : l <= 3 * M /\ 0 < M.
  Proof.
    destruct core_l as (l0 & E & _). assert (M0 : 0 <= M) by (pose proof (Rabs_pos X0); lra).
    assert (A : l <= 3 * M). { apply sq_le; [lra|]. rewrite E. unfold L, VX, VY. pose proof (core_span X1 X0 B3 B1). pose proof (core_span Y1 Y0 B4 B2). nra. }
    split; [exact A|lra].
  Qed.
  (** What the least double amounts to. *)
  Lemma core_h : 3 * h <= u * (M * l) /\ 3 * h <= u * L /\ 5 * h * L <= / 2 * (L * (u * M * (u * M))) /\ 2 * h <= / 2 * (L * (u * M * (u * M))) /\ 0 < h.
  Proof.
    destruct core_l as (l0 & E & L0). destruct core_M as (LM & M0). pose proof u_tiny as U. pose proof h_pos as hp. fold h in hp.
    assert (M1 : bpow radix2 (-102) <= M).
    { assert (bpow radix2 (-100) = 4 * bpow radix2 (-102)) by (change (-100)%Z with (2 + -102)%Z; rewrite bpow_plus; reflexivity). pose proof (bpow_gt_0 radix2 (-102)). lra. }
    assert (A1 : bpow radix2 (-202) <= M * l). { change (-202)%Z with (-102 + -100)%Z. rewrite bpow_plus. apply Rmult_le_compat; try apply bpow_ge_0; assumption. }
    assert (A2 : bpow radix2 (-200) <= L). { rewrite <- E. change (-200)%Z with (-100 + -100)%Z. rewrite bpow_plus. apply Rmult_le_compat; try apply bpow_ge_0; assumption. }
    assert (A3 : bpow radix2 (-310) <= u * M * (u * M)).
    { assert (bpow radix2 (-155) <= u * M). { unfold u. change (-155)%Z with (-53 + -102)%Z. rewrite bpow_plus. apply Rmult_le_compat_l; [apply bpow_ge_0|exact M1]. }
      change (-310)%Z with (-155 + -155)%Z. rewrite bpow_plus. apply Rmult_le_compat; try apply bpow_ge_0; assumption. }
    assert (E8 : forall e, (e <= -515)%Z -> forall x, bpow radix2 e <= x -> True) by auto. clear E8.
    assert (H3 : 16 * h = bpow radix2 (-1071)) by (change (-1071)%Z with (4 + -1075)%Z; rewrite bpow_plus; reflexivity).
    assert (K1 : bpow radix2 (-1071) <= u * (M * l)).
    { apply Rle_trans with (u * bpow radix2 (-202)); [|apply Rmult_le_compat_l; lra]. rewrite <- bp_u. apply bpow_le. lia. }
    assert (K2 : bpow radix2 (-1071) <= u * L).
    { apply Rle_trans with (u * bpow radix2 (-200)); [|apply Rmult_le_compat_l; lra]. rewrite <- bp_u. apply bpow_le. lia. }
    assert (K3 : bpow radix2 (-1071) <= u * M * (u * M)) by (eapply Rle_trans; [|exact A3]; apply bpow_le; lia).
    assert (K4 : bpow radix2 (-1071) <= L * (u * M * (u * M))).
    { apply Rle_trans with (bpow radix2 (-200) * bpow radix2 (-310)); [rewrite <- bpow_plus; apply bpow_le; lia|]. apply Rmult_le_compat; try apply bpow_ge_0; assumption. }
    repeat split; try lra. replace (/ 2 * (L * (u * M * (u * M)))) with (/ 2 * (u * M * (u * M)) * L) by ring. apply Rmult_le_compat_r; lra.
  Qed.
  Lemma offs : off u VX vx /\ off u VY vy /\ off u WX wx /\ off u WY wy.
  Proof. repeat split; apply sub_off; assumption. Qed.
  Lemma T_bound a b c d : a * a + b * b = L -> c * c + d * d <= 8 * (M * M) -> Rabs (a * c) + Rabs (b * d) <= 3 * (M * l).
  Proof.
    intros E1 E2. destruct core_l as (l0 & E & L0). destruct core_M as (LM & M0). apply sq_le; [nra|].
    rewrite !Rabs_mult. set (a' := Rabs a). set (b' := Rabs b). set (c' := Rabs c). set (d' := Rabs d).
    assert (Ea : a' * a' = a * a) by (unfold a'; rewrite <- Rabs_mult; apply Rabs_pos_eq; nra). assert (Eb : b' * b' = b * b) by (unfold b'; rewrite <- Rabs_mult; apply Rabs_pos_eq; nra).
    assert (Ec : c' * c' = c * c) by (unfold c'; rewrite <- Rabs_mult; apply Rabs_pos_eq; nra). assert (Ed : d' * d' = d * d) by (unfold d'; rewrite <- Rabs_mult; apply Rabs_pos_eq; nra).
    assert (CS : (a' * c' + b' * d') * (a' * c' + b' * d') <= (a * a + b * b) * (c * c + d * d)).
    { rewrite <- Ea, <- Eb, <- Ec, <- Ed. pose proof (Rle_0_sqr (a' * d' - b' * c')) as K. unfold Rsqr in K. lra. }
    eapply Rle_trans; [exact CS|]. rewrite E1. replace (3 * (M * l) * (3 * (M * l))) with (l * l * (9 * (M * M))) by ring. rewrite E. apply Rmult_le_compat_l; nra.
  Qed.
  Lemma W_bound : WX * WX + WY * WY <= 8 * (M * M).
  Proof. unfold WX, WY. pose proof (core_span PX X0 B5 B1). pose proof (core_span PY Y0 B6 B2). nra. Qed.
  Lemma C_err : Rabs (C' - C) <= 19 * (u * (M * l)).
  Proof.
    destruct offs as (O1 & O2 & O3 & O4). destruct core_h as (h1 & _). pose proof u_tiny as U. pose proof W_bound as W.
    pose proof (prod_one _ _ _ _ O1 O4) as P1. pose proof (prod_one _ _ _ _ O2 O3) as P2.
    assert (P2' : Rabs (- rnd (vy * wx) - - (VY * WX)) <= 4 * u * Rabs (- (VY * WX)) + bpow radix2 (-1075)). { rewrite Rabs_Ropp. replace (- rnd (vy * wx) - - (VY * WX)) with (- (rnd (vy * wx) - VY * WX)) by ring. rewrite Rabs_Ropp. exact P2. }
    pose proof (comb _ _ _ _ (rnd_rep' _) (rep_opp _ (rnd_rep' _)) P1 P2') as K. rewrite Rabs_Ropp in K. fold h in K.
    assert (T : Rabs (VX * WY) + Rabs (VY * WX) <= 3 * (M * l)) by (apply T_bound; [reflexivity|lra]).
    assert (6 * u * (Rabs (VX * WY) + Rabs (VY * WX)) <= 6 * u * (3 * (M * l))) by (apply Rmult_le_compat_l; lra).
    unfold C', C. apply Rle_trans with (6 * u * (Rabs (VX * WY) + Rabs (VY * WX)) + 3 * h); [exact K|lra].
  Qed.
  Lemma D_err : Rabs (D' - D) <= 19 * (u * (M * l)).
  Proof.
    destruct offs as (O1 & O2 & O3 & O4). destruct core_h as (h1 & _). pose proof u_tiny as U. pose proof W_bound as W.
    pose proof (prod_one _ _ _ _ O1 O3) as P1. pose proof (prod_one _ _ _ _ O2 O4) as P2.
    pose proof (comb _ _ _ _ (rnd_rep' _) (rnd_rep' _) P1 P2) as K. fold h in K.
    assert (T : Rabs (VX * WX) + Rabs (VY * WY) <= 3 * (M * l)) by (apply T_bound; [reflexivity|lra]).
    assert (6 * u * (Rabs (VX * WX) + Rabs (VY * WY)) <= 6 * u * (3 * (M * l))) by (apply Rmult_le_compat_l; lra).
    unfold D', D. eapply Rle_trans; [exact K|]. lra.
  Qed.
  Lemma L_err : Rabs (L' - L) <= 7 * (u * L).
  Proof.
    destruct offs as (O1 & O2 & O3 & O4). destruct core_h as (_ & h1 & _). pose proof u_tiny as U.
    pose proof (prod_one _ _ _ _ O1 O1) as P1. pose proof (prod_one _ _ _ _ O2 O2) as P2.
    pose proof (comb _ _ _ _ (rnd_rep' _) (rnd_rep' _) P1 P2) as K. fold h in K.
    rewrite (Rabs_pos_eq (VX * VX)), (Rabs_pos_eq (VY * VY)) in K by nra. fold L in K. unfold L'. eapply Rle_trans; [exact K|]. lra.
  Qed.
  Lemma L'_pos : / 2 * L <= L' <= 2 * L.
  Proof. destruct core_l as (_ & _ & L0). pose proof L_err as E. pose proof u_tiny as U. apply Rabs_le_inv in E. assert (u * L <= / 100 * L) by (apply Rmult_le_compat_r; lra). lra. Qed.
  (** Across the edge. *)
  Lemma across F : 0 <= F -> rnd (rnd (C' * C') / L') <= rnd (F * F) -> Rabs C <= l * (F * (1 + 8 * u) + 20 * (u * M)).
  Proof.
    intros F0 H. destruct core_l as (l0 & E & L0). destruct core_M as (LM & M0). destruct core_h as (h1 & h2 & h3 & h4 & hp). pose proof u_tiny as U. pose proof L'_pos as LP. pose proof L_err as LE. pose proof C_err as CE.
    set (Q := C' * C') in *. assert (Q0 : 0 <= Q) by (unfold Q; nra).
    assert (N1 : forall x, 0 <= x -> x * (1 - u) - h <= rnd x <= x * (1 + u) + h).
    { intros x X. destruct (rnd_ex x) as (e & n & He & Hn & ->). fold h in Hn. apply Rabs_le_inv in He, Hn. split; nra. }
    assert (z0 : 0 <= rnd Q). { pose proof (rnd_le 0 Q Q0) as K. rewrite (rnd_id 0) in K by apply rep_0. exact K. }
    assert (zq : 0 <= rnd Q / L') by (apply Rmult_le_pos; [exact z0|left; apply Rinv_0_lt_compat; lra]).
    pose proof (N1 Q Q0) as [A1 _]. pose proof (N1 _ zq) as [A2 _]. assert (FF : 0 <= F * F) by nra. pose proof (N1 _ FF) as [_ A3].
    assert (S1 : rnd Q / L' * (1 - u) <= F * F * (1 + u) + 2 * h) by lra.
    assert (S2 : rnd Q / L' <= F * F * (1 + 3 * u) + 3 * h).
    { apply Rmult_le_reg_r with (1 - u); [lra|]. eapply Rle_trans; [exact S1|].
      assert (0 <= F * F * (u * (1 - 3 * u))) by (apply Rmult_le_pos; [exact FF|nra]). assert (u * h <= / 100 * h) by (apply Rmult_le_compat_r; lra).
      replace ((F * F * (1 + 3 * u) + 3 * h) * (1 - u)) with (F * F * (1 + u) + F * F * (u * (1 - 3 * u)) + 3 * h - 3 * (u * h)) by ring. lra. }
    assert (S3 : rnd Q <= L' * (F * F * (1 + 3 * u) + 3 * h)).
    { replace (rnd Q) with (L' * (rnd Q / L')) by (field; lra). apply Rmult_le_compat_l; [lra|exact S2]. }
    assert (S4 : rnd Q <= L * (F * F * (1 + 11 * u)) + 4 * h * L).
    { eapply Rle_trans; [exact S3|]. apply Rle_trans with (L * (1 + 7 * u) * (F * F * (1 + 3 * u) + 3 * h)).
      - apply Rmult_le_compat_r; [|apply Rabs_le_inv in LE; lra]. assert (0 <= F * F * (1 + 3 * u)) by (apply Rmult_le_pos; lra). lra.
      - replace (L * (1 + 7 * u) * (F * F * (1 + 3 * u) + 3 * h)) with (L * (F * F * ((1 + 7 * u) * (1 + 3 * u))) + 3 * (1 + 7 * u) * (h * L)) by ring.
        assert (0 <= h * L) by nra. assert (L * (F * F * ((1 + 7 * u) * (1 + 3 * u))) <= L * (F * F * (1 + 11 * u))) by (apply Rmult_le_compat_l; [lra|]; apply Rmult_le_compat_l; [exact FF|nra]).
        assert (3 * (1 + 7 * u) * (h * L) <= 4 * (h * L)) by (apply Rmult_le_compat_r; [assumption|lra]). lra. }
    assert (S5 : Q <= L * (F * F * (1 + 14 * u)) + 5 * h * L + 2 * h).
    { apply Rmult_le_reg_r with (1 - u); [lra|]. apply Rle_trans with (rnd Q + h); [lra|]. assert (0 <= h * L) by nra. assert (0 <= L * (F * F)) by (apply Rmult_le_pos; lra).
      assert (u * (h * L) <= / 100 * (h * L)) by (apply Rmult_le_compat_r; lra). assert (u * h <= / 100 * h) by (apply Rmult_le_compat_r; lra). assert (0 <= L * (F * F) * (u * (2 - 14 * u))) by (apply Rmult_le_pos; [assumption|nra]).
      replace ((L * (F * F * (1 + 14 * u)) + 5 * h * L + 2 * h) * (1 - u)) with (L * (F * F * (1 + 11 * u)) + L * (F * F) * (u * (2 - 14 * u)) + 5 * (h * L) - 5 * (u * (h * L)) + 2 * h - 2 * (u * h)) by ring. lra. }
    assert (S6 : Q <= (l * (F * (1 + 8 * u) + u * M)) * (l * (F * (1 + 8 * u) + u * M))).
    { eapply Rle_trans; [exact S5|]. replace ((l * (F * (1 + 8 * u) + u * M)) * (l * (F * (1 + 8 * u) + u * M))) with (l * l * (F * F * ((1 + 8 * u) * (1 + 8 * u)) + 2 * (F * (1 + 8 * u) * (u * M)) + u * M * (u * M))) by ring. rewrite E.
      assert (0 <= F * (1 + 8 * u) * (u * M)) by (apply Rmult_le_pos; [apply Rmult_le_pos; lra|nra]).
      assert (G : L * (F * F * (1 + 14 * u)) <= L * (F * F * ((1 + 8 * u) * (1 + 8 * u)))) by (apply Rmult_le_compat_l; [lra|]; apply Rmult_le_compat_l; [exact FF|nra]).
      assert (0 <= L * (2 * (F * (1 + 8 * u) * (u * M)))) by (apply Rmult_le_pos; lra). lra. }
    assert (S7 : Rabs C' <= l * (F * (1 + 8 * u) + u * M)).
    { apply sq_le_abs; [|exact S6]. apply Rmult_le_pos; [lra|]. assert (0 <= F * (1 + 8 * u)) by (apply Rmult_le_pos; lra). nra. }
    replace C with (C' - (C' - C)) by ring. unfold Rminus at 1. eapply Rle_trans; [apply Rabs_triang|]. rewrite Rabs_Ropp. lra.
  Qed.
  (** Along the edge. *)
  Lemma along F : 0 <= F -> - F <= D' -> D' <= rnd (L' + F) -> representable F -> - (F + 19 * (u * (M * l))) <= D <= L + F * (1 + u) + 47 * (u * (M * l)).
  Proof.
    intros F0 H1 H2 RF. destruct core_l as (l0 & E & L0). destruct core_M as (LM & M0). pose proof u_tiny as U. pose proof L'_pos as LP. pose proof L_err as LE. pose proof D_err as DE.
    apply Rabs_le_inv in DE, LE. split; [lra|].
    assert (A : rnd (L' + F) <= (L' + F) * (1 + u)).
    { destruct (add_off L' F (rnd_rep' _) RF) as (e & He & ->). apply Rabs_le_inv in He. apply Rmult_le_compat_l; lra. }
    assert (LL : L <= 3 * (M * l)) by (rewrite <- E; nra). assert (u * L <= 3 * (u * (M * l))) by nra.
    assert (u * (u * L) <= / 100 * (u * L)) by (apply Rmult_le_compat_r; nra). assert (0 <= u * L) by nra.
    assert ((L' + F) * (1 + u) <= L * (1 + 9 * u) + F * (1 + u)) by nra. lra.
  Qed.
  Lemma core_near F : 0 <= F -> representable F -> rnd (rnd (C' * C') / L') <= rnd (F * F) -> - F <= D' -> D' <= rnd (L' + F) ->
    exists t, 0 <= t <= 1 /\ sqrt ((PX - (X0 + t * VX)) * (PX - (X0 + t * VX)) + (PY - (Y0 + t * VY)) * (PY - (Y0 + t * VY))) <= (1 + 128 * u) * (F + F / l) + 128 * u * M.
  Proof.
    intros F0 RF H1 H2 H3. destruct core_l as (l0 & E & L0). destruct core_M as (LM & M0). pose proof u_tiny as U. pose proof (across F F0 H1) as AC. pose proof (along F F0 H2 H3 RF) as AL.
    set (K := F * (1 + u) + 47 * (u * (M * l))) in *. assert (uMl : 0 <= u * (M * l)) by (apply Rmult_le_pos; [lra|nra]).
    assert (CL : exists t, 0 <= t <= 1 /\ Rabs (D - t * L) <= K).
    { assert (uF : 0 <= F * u) by nra. destruct (Rle_lt_dec D 0) as [N|N]; [exists 0; split; [lra|]; unfold K; apply Rabs_le; lra|].
      destruct (Rle_lt_dec L D) as [N'|N']; [exists 1; split; [lra|]; unfold K in *; apply Rabs_le; lra|].
      exists (D / L). split.
      - split; apply Rmult_le_reg_r with L; try exact L0; unfold Rdiv; rewrite ?Rmult_assoc, ?Rinv_l by lra; lra.
      - replace (D - D / L * L) with 0 by (field; lra). rewrite Rabs_R0. unfold K. lra. }
    destruct CL as (t & Ht & Kt). exists t. split; [exact Ht|].
    set (S := _ + _). assert (ES : L * S = C * C + (D - t * L) * (D - t * L)) by (unfold S, L, C, D, WX, WY; ring).
    assert (S0 : 0 <= S) by (unfold S; apply Rplus_le_le_0_compat; apply Rle_0_sqr).
    set (P := F * (1 + 8 * u) + 20 * (u * M)). set (B := F * (1 + u) / l + 47 * (u * M)).
    assert (P0 : 0 <= P). { unfold P. assert (0 <= F * (1 + 8 * u)) by (apply Rmult_le_pos; lra). nra. }
    assert (EB : K = l * B) by (unfold K, B; field; lra).
    assert (Fl : 0 <= F / l) by (apply Rmult_le_pos; [lra|left; apply Rinv_0_lt_compat; lra]).
    assert (EB' : B = (F / l) * (1 + u) + 47 * (u * M)) by (unfold B; field; lra).
    assert (uM0 : 0 <= u * M) by nra.
    assert (B0 : 0 <= B) by (rewrite EB'; assert (0 <= F / l * (1 + u)) by (apply Rmult_le_pos; lra); lra).
    assert (sq : forall x y, 0 <= y -> Rabs x <= y -> x * x <= y * y). { intros x y Y X. apply Rabs_le_inv in X. nra. }
    assert (S1 : S <= P * P + B * B).
    { apply Rmult_le_reg_l with L; [exact L0|]. rewrite ES. rewrite EB in Kt. fold P in AC. assert (lP : 0 <= l * P) by nra. assert (lB : 0 <= l * B) by nra. pose proof (sq _ _ lP AC). pose proof (sq _ _ lB Kt).
      replace (L * (P * P + B * B)) with (l * P * (l * P) + l * B * (l * B)) by (rewrite <- E; ring). lra. }
    apply Rle_trans with (P + B).
    - apply sq_le; [lra|]. rewrite sqrt_sqrt by exact S0. nra.
    - unfold P. rewrite EB'. set (G := F / l) in *. assert (0 <= F * u) by nra. assert (0 <= G * u) by nra. lra.
  Qed.
  Lemma core_on F tau : 0 <= tau <= 1 -> WX = tau * VX -> WY = tau * VY -> 32 * (u * M) <= F ->
    rnd (rnd (C' * C') / L') <= rnd (F * F) /\ 0 <= D' <= L'.
  Proof.
    intros Ht EX EY HF. destruct core_l as (l0 & E & L0). destruct core_M as (LM & M0). destruct core_h as (h1 & h2 & h3 & h4 & hp). pose proof u_tiny as U. pose proof L'_pos as LP. pose proof L_err as LE. pose proof C_err as CE.
    destruct offs as (O1 & O2 & O3 & O4). assert (uM0 : 0 <= u * M) by nra. split.
    - assert (C0 : C = 0) by (unfold C; rewrite EX, EY; ring). rewrite C0 in CE. replace (C' - 0) with C' in CE by ring.
      apply rnd_le. assert (Q : C' * C' <= 361 * (L * (u * M * (u * M)))).
      { replace (361 * (L * (u * M * (u * M)))) with (19 * (u * (M * l)) * (19 * (u * (M * l)))) by (rewrite <- E; ring). assert (0 <= 19 * (u * (M * l))) by nra. apply Rabs_le_inv in CE. nra. }
      destruct (rnd_ex (C' * C')) as (e & n & He & Hn & ER). fold h in Hn. apply Rabs_le_inv in He, Hn.
      assert (Q' : rnd (C' * C') <= 365 * (L * (u * M * (u * M)))). { rewrite ER. assert (C' * C' * (1 + e) <= C' * C' * (1 + / 1000)) by (apply Rmult_le_compat_l; [nra|lra]). lra. }
      apply Rmult_le_reg_r with L'; [lra|]. unfold Rdiv. rewrite Rmult_assoc, Rinv_l, Rmult_1_r by lra. eapply Rle_trans; [exact Q'|].
      assert (FF : 1024 * (u * M * (u * M)) <= F * F) by nra. assert (0 <= u * M * (u * M)) by nra.
      apply Rle_trans with (1024 * (u * M * (u * M)) * (/ 2 * L)); [nra|]. apply Rmult_le_compat; nra.
    - assert (G : forall V W v w, off u V v -> off u W w -> W = tau * V -> v = rnd V -> w = rnd W -> 0 <= v * w <= v * v).
      { intros V W v w OV OW EW Ev Ew. assert (Mo : Rabs w <= Rabs v). { rewrite Ev, Ew. apply rnd_abs_mono. rewrite EW, Rabs_mult, (Rabs_pos_eq tau) by lra. pose proof (Rabs_pos V). nra. }
        assert (N : 0 <= v * w).
        { destruct OV as (e & He & ->), OW as (f & Hf & ->). apply Rabs_le_inv in He, Hf. rewrite EW. replace (V * (1 + e) * (tau * V * (1 + f))) with (tau * (V * V) * ((1 + e) * (1 + f))) by ring. apply Rmult_le_pos; nra. }
        split; [exact N|]. rewrite <- (Rabs_pos_eq (v * w)) by exact N. rewrite <- (Rabs_pos_eq (v * v)) by nra. rewrite !Rabs_mult. apply Rmult_le_compat_l; [apply Rabs_pos|exact Mo]. }
      destruct (G _ _ _ _ O1 O3 EX eq_refl eq_refl) as [G1 G2]. destruct (G _ _ _ _ O2 O4 EY eq_refl eq_refl) as [G3 G4].
      assert (Z : forall x, 0 <= x -> 0 <= rnd x). { intros x X. pose proof (rnd_le 0 x X) as K. rewrite (rnd_id 0) in K by apply rep_0. exact K. }
      unfold D', L'. split; [apply Z; pose proof (Z _ G1); pose proof (Z _ G3); lra|]. apply rnd_le. pose proof (rnd_le _ _ G2). pose proof (rnd_le _ _ G4). lra.
  Qed.
  Lemma core_sizes : Rabs C' <= 4 * (M * l) /\ Rabs D' <= 4 * (M * l).
  Proof.
    destruct core_l as (l0 & E & L0). destruct core_M as (LM & M0). pose proof u_tiny as U. pose proof C_err as CE. pose proof D_err as DE. pose proof W_bound as W.
    assert (0 <= M * l) by nra. assert (u * (M * l) <= / 100 * (M * l)) by (apply Rmult_le_compat_r; lra).
    assert (T1 : Rabs (VX * WY) + Rabs (VY * WX) <= 3 * (M * l)) by (apply T_bound; [reflexivity|lra]). assert (T2 : Rabs (VX * WX) + Rabs (VY * WY) <= 3 * (M * l)) by (apply T_bound; [reflexivity|lra]).
    assert (Rabs C <= 3 * (M * l)). { unfold C, Rminus. eapply Rle_trans; [apply Rabs_triang|]. rewrite Rabs_Ropp. exact T1. }
    assert (Rabs D <= 3 * (M * l)). { unfold D. eapply Rle_trans; [apply Rabs_triang|]. exact T2. }
    split; [replace C' with (C + (C' - C)) by ring|replace D' with (D + (D' - D)) by ring]; (eapply Rle_trans; [apply Rabs_triang|]); lra.
  Qed.
End Core.
(** * One edge on doubles *)
Lemma quad_sub e w x y z : (-500 <= e < 510)%Z -> finite_double w -> finite_double x -> finite_double y -> finite_double z ->
  Rabs (val w) <= bpow radix2 e -> Rabs (val x) <= bpow radix2 e -> Rabs (val y) <= bpow radix2 e -> Rabs (val z) <= bpow radix2 e ->
  finite_double (fsub (fmul w x) (fmul y z)) /\ val (fsub (fmul w x) (fmul y z)) = rnd (rnd (val w * val x) - rnd (val y * val z)).
Proof.
  intros He Fw Fx Fy Fz Bw Bx By Bz. destruct (mul_ok e w x) as (P1 & P2 & P3); try assumption; [lia|]. destruct (mul_ok e y z) as (Q1 & Q2 & Q3); try assumption; [lia|].
  destruct (diff_ok (e + e) (fmul w x) (fmul y z)) as (S1 & S2 & _); try assumption; [lia|]. split; [exact S1|]. rewrite S2, P2, Q2. reflexivity.
Qed.
Definition Cf (q a b : fpoint) : R := rnd (rnd (rnd (RX b - RX a) * rnd (RY q - RY a)) - rnd (rnd (RY b - RY a) * rnd (RX q - RX a))).
Definition Df (q a b : fpoint) : R := rnd (rnd (rnd (RX b - RX a) * rnd (RX q - RX a)) + rnd (rnd (RY b - RY a) * rnd (RY q - RY a))).
Definition Lf (a b : fpoint) : R := rnd (rnd (rnd (RX b - RX a) * rnd (RX b - RX a)) + rnd (rnd (RY b - RY a) * rnd (RY b - RY a))).
Lemma boundary_eq ftol q a b : rf_boundary ftol q (a, b) =
  let vx := fsub (fst b) (fst a) in let vy := fsub (snd b) (snd a) in let wx := fsub (fst q) (fst a) in let wy := fsub (snd q) (snd a) in
  let len := fadd (fmul vx vx) (fmul vy vy) in let cr := fsub (fmul vx wy) (fmul vy wx) in
  if SFltb f_zero len then if SFleb (fdiv (fmul cr cr) len) (fmul ftol ftol) then let dt := fadd (fmul vx wx) (fmul vy wy) in SFleb (SFopp ftol) dt && SFleb dt (fadd len ftol) else false else false.
Proof. destruct a, b. reflexivity. Qed.
Section Edge.
  Variables (q a b : fpoint) (M : R) (ftol : spec_float).
  Hypothesis Hq : atmost M q. Hypothesis Ha : atmost M a. Hypothesis Hb : atmost M b.
  Hypothesis HM : M <= bpow radix2 100.
  Hypothesis Ff : finite_double ftol. Hypothesis Hf : 0 <= val ftol <= bpow radix2 100.
  Lemma edge_vals : exists vx vy wx wy, finite_double vx /\ finite_double vy /\ finite_double wx /\ finite_double wy /\
    vx = fsub (fst b) (fst a) /\ vy = fsub (snd b) (snd a) /\ wx = fsub (fst q) (fst a) /\ wy = fsub (snd q) (snd a) /\
    val vx = rnd (RX b - RX a) /\ val vy = rnd (RY b - RY a) /\ val wx = rnd (RX q - RX a) /\ val wy = rnd (RY q - RY a) /\
    Rabs (val vx) <= bpow radix2 101 /\ Rabs (val vy) <= bpow radix2 101 /\ Rabs (val wx) <= bpow radix2 101 /\ Rabs (val wy) <= bpow radix2 101.
  Proof.
    destruct Hq as ([Q1 Q2] & Q3 & Q4), Ha as ([A1 A2] & A3 & A4), Hb as ([B1 B2] & B3 & B4). unfold RX, RY in *.
    destruct (diff_ok 100 (fst b) (fst a)) as (D1 & D2 & D3); try assumption; [lia|lra|lra|]. destruct (diff_ok 100 (snd b) (snd a)) as (E1 & E2 & E3); try assumption; [lia|lra|lra|].
    destruct (diff_ok 100 (fst q) (fst a)) as (F1 & F2 & F3); try assumption; [lia|lra|lra|]. destruct (diff_ok 100 (snd q) (snd a)) as (G1 & G2 & G3); try assumption; [lia|lra|lra|].
    change (100 + 1)%Z with 101%Z in *. eexists _, _, _, _. split; [exact D1|]. split; [exact E1|]. split; [exact F1|]. split; [exact G1|]. split; [reflexivity|]. split; [reflexivity|]. split; [reflexivity|]. split; [reflexivity|].
    repeat split; assumption.
  Qed.
  Lemma len_val : finite_double (fadd (fmul (fsub (fst b) (fst a)) (fsub (fst b) (fst a))) (fmul (fsub (snd b) (snd a)) (fsub (snd b) (snd a)))) /\
    val (fadd (fmul (fsub (fst b) (fst a)) (fsub (fst b) (fst a))) (fmul (fsub (snd b) (snd a)) (fsub (snd b) (snd a)))) = Lf a b.
  Proof.
    destruct edge_vals as (vx & vy & wx & wy & F1 & F2 & F3 & F4 & <- & <- & _ & _ & V1 & V2 & V3 & V4 & L1 & L2 & L3 & L4).
    destruct (quad_ok 101 vx vx vy vy) as [K1 K2]; try assumption; [lia|]. split; [exact K1|]. rewrite K2, V1, V2. reflexivity.
  Qed.
  Lemma point_edge : RX a = RX b -> RY a = RY b -> rf_boundary ftol q (a, b) = false.
  Proof.
    intros EX EY. destruct len_val as [K1 K2]. destruct a as [x1 y1] eqn:Ea, b as [x2 y2] eqn:Eb. unfold rf_boundary. cbn [fst snd] in *.
    replace (SFltb f_zero _) with false; [reflexivity|]. symmetry. apply not_true_iff_false. rewrite ltb_val by (assumption || apply zero_fin). rewrite K2, zero_val. unfold Lf. rewrite EX, EY, !Rminus_diag_eq by reflexivity.
    rewrite (rnd_id 0) by apply rep_0. rewrite Rmult_0_l, (rnd_id 0), Rplus_0_r, (rnd_id 0) by apply rep_0. lra.
  Qed.
  Hypothesis LE : bpow radix2 (-100) <= length_of (a, b).
  Lemma boundary_iff : rf_boundary ftol q (a, b) = true <->
    rnd (rnd (Cf q a b * Cf q a b) / Lf a b) <= rnd (val ftol * val ftol) /\ - val ftol <= Df q a b /\ Df q a b <= rnd (Lf a b + val ftol).
  Proof.
    destruct edge_vals as (vx & vy & wx & wy & F1 & F2 & F3 & F4 & E1 & E2 & E3 & E4 & V1 & V2 & V3 & V4 & L1 & L2 & L3 & L4).
    pose proof Hq as ([Q1 Q2] & Q3 & Q4). pose proof Ha as ([A1 A2] & A3 & A4). pose proof Hb as ([B1 B2] & B3 & B4).
    assert (R1 := format_val _ A1). assert (R2 := format_val _ A2). assert (R3 := format_val _ B1). assert (R4 := format_val _ B2). assert (R5 := format_val _ Q1). assert (R6 := format_val _ Q2).
    unfold length_of in LE. cbn [fst snd] in LE.
    pose proof (L'_pos (RX a) (RY a) (RX b) (RY b) (RX q) (RY q) M R1 R2 R3 R4 R5 R6 A3 A4 B3 B4 LE) as LP. pose proof (core_l (RX a) (RY a) (RX b) (RY b) LE) as (l0 & El & L0).
    pose proof (core_sizes (RX a) (RY a) (RX b) (RY b) (RX q) (RY q) M R1 R2 R3 R4 R5 R6 A3 A4 B3 B4 Q3 Q4 LE) as [SC SD].
    pose proof (core_M (RX a) (RY a) (RX b) (RY b) M A3 A4 B3 B4 LE) as [LM M0].
    fold (Cf q a b) in SC. fold (Df q a b) in SD. fold (Lf a b) in LP. set (l := sqrt _) in *. set (L := _ + _) in El, L0, LP.
    assert (Ml : M * l <= bpow radix2 202). { change 202%Z with (100 + 102)%Z. rewrite bpow_plus. assert (bpow radix2 102 = 4 * bpow radix2 100) by (change 102%Z with (2 + 100)%Z; rewrite (bpow_plus radix2 2 100); reflexivity). apply Rmult_le_compat; lra. }
    assert (B204 : bpow radix2 204 = 4 * bpow radix2 202) by (change 204%Z with (2 + 202)%Z; rewrite (bpow_plus radix2 2 202); reflexivity).
    assert (LfB : Lf a b <= bpow radix2 206). { assert (L <= 3 * (M * l)) by (rewrite <- El; assert (0 <= l * (3 * M - l)) by (apply Rmult_le_pos; lra); lra). assert (bpow radix2 206 = 16 * bpow radix2 202) by (change 206%Z with (4 + 202)%Z; rewrite (bpow_plus radix2 4 202); reflexivity). lra. }
    assert (LfS : bpow radix2 (-201) <= Lf a b). { assert (bpow radix2 (-200) <= L) by (rewrite <- El; change (-200)%Z with (-100 + -100)%Z; rewrite bpow_plus; apply Rmult_le_compat; try apply bpow_ge_0; assumption).
      change (-200)%Z with (1 + -201)%Z in H. rewrite bpow_plus in H. change (bpow radix2 1) with 2 in H. lra. }
    rewrite boundary_eq. cbv zeta. rewrite <- E1, <- E2, <- E3, <- E4.
    destruct (quad_ok 101 vx vx vy vy) as [K1 K2]; try assumption; [lia|]. destruct (quad_ok 101 vx wx vy wy) as [D1 D2]; try assumption; [lia|]. destruct (quad_sub 101 vx wy vy wx) as [C1 C2]; try assumption; [lia|].
    rewrite V1, V2 in K2. fold (Lf a b) in K2. rewrite V1, V2, V3, V4 in D2, C2. fold (Df q a b) in D2. fold (Cf q a b) in C2.
    set (len := fadd (fmul vx vx) (fmul vy vy)) in *. set (cr := fsub (fmul vx wy) (fmul vy wx)) in *. set (dt := fadd (fmul vx wx) (fmul vy wy)) in *.
    replace (SFltb f_zero len) with true by (symmetry; apply ltb_val; [apply zero_fin|exact K1|]; rewrite zero_val, K2; pose proof (bpow_gt_0 radix2 (-201)); lra).
    destruct (mul_ok 204 cr cr) as (M1 & M2 & M3); try assumption; try lia; try (rewrite C2; lra). change (204 + 204)%Z with 408%Z in M3.
    assert (LN : val len <> 0) by (rewrite K2; pose proof (bpow_gt_0 radix2 (-201)); lra).
    destruct (div_rounds (fmul cr cr) len M1 K1 LN) as [N1 N2].
    { apply (lt_huge 609); [lia|]. apply rnd_abs_le; [apply rep_bp; lia|]. unfold Rdiv. rewrite Rabs_mult, Rabs_inv by exact LN. change 609%Z with (408 + 201)%Z. rewrite bpow_plus. apply Rmult_le_compat; [apply Rabs_pos|left; apply Rinv_0_lt_compat, Rabs_pos_lt, LN|exact M3|].
      rewrite K2, Rabs_pos_eq by (pose proof (bpow_gt_0 radix2 (-201)); lra). replace (bpow radix2 201) with (/ bpow radix2 (-201)) by (rewrite <- bpow_opp; reflexivity). apply Rinv_le; [apply bpow_gt_0|exact LfS]. }
    destruct (mul_ok 100 ftol ftol) as (T1 & T2 & _); try assumption; try lia; try (rewrite Rabs_pos_eq; lra).
    destruct (opp_double ftol Ff) as [O1 O2].
    destruct (add_up 206 len ftol) as [G1 G2]; try assumption; try lia.
    { rewrite K2, Rabs_pos_eq by (pose proof (bpow_gt_0 radix2 (-201)); lra). exact LfB. }
    { rewrite Rabs_pos_eq by lra. eapply Rle_trans; [apply Hf|]. apply bpow_le. lia. }
    rewrite M2, C2, K2 in N2. rewrite <- N2, <- T2. rewrite <- (leb_val _ _ N1 T1).
    destruct (SFleb (fdiv (fmul cr cr) len) (fmul ftol ftol)).
    - rewrite andb_true_iff, (leb_val _ _ O1 D1), (leb_val _ _ D1 G1), O2, D2, G2, K2. intuition.
    - split; [discriminate|intros [H _]; discriminate H].
  Qed.
  Lemma ray_near : rf_boundary ftol q (a, b) = true -> exists t, 0 <= t <= 1 /\ dist_at q (a, b) t <= ray_margin (val ftol) M (a, b).
  Proof.
    intros H. apply boundary_iff in H. destruct H as (H1 & H2 & H3).
    pose proof Hq as ([Q1 Q2] & Q3 & Q4). pose proof Ha as ([A1 A2] & A3 & A4). pose proof Hb as ([B1 B2] & B3 & B4).
    assert (R1 := format_val _ A1). assert (R2 := format_val _ A2). assert (R3 := format_val _ B1). assert (R4 := format_val _ B2). assert (R5 := format_val _ Q1). assert (R6 := format_val _ Q2).
    pose proof LE as LE'. unfold length_of in LE'. cbn [fst snd] in LE'.
    destruct (core_near (RX a) (RY a) (RX b) (RY b) (RX q) (RY q) M R1 R2 R3 R4 R5 R6 A3 A4 B3 B4 Q3 Q4 LE' (val ftol) (proj1 Hf) (format_val _ Ff) H1 H2 H3) as (t & Ht & K).
    exists t. split; [exact Ht|]. unfold ray_margin, dist_at, at_x, at_y, length_of. cbn [fst snd]. rewrite bp46. exact K.
  Qed.
  Lemma ray_on : on_segmentR q (a, b) -> bpow radix2 (-48) * M <= val ftol -> rf_boundary ftol q (a, b) = true.
  Proof.
    intros (t & Ht & EX & EY) HF. apply boundary_iff.
    pose proof Hq as ([Q1 Q2] & Q3 & Q4). pose proof Ha as ([A1 A2] & A3 & A4). pose proof Hb as ([B1 B2] & B3 & B4).
    assert (R1 := format_val _ A1). assert (R2 := format_val _ A2). assert (R3 := format_val _ B1). assert (R4 := format_val _ B2). assert (R5 := format_val _ Q1). assert (R6 := format_val _ Q2).
    pose proof LE as LE'. unfold length_of in LE'. cbn [fst snd] in LE'. unfold at_x, at_y in EX, EY. cbn [fst snd] in EX, EY. rewrite bp48 in HF.
    destruct (core_on (RX a) (RY a) (RX b) (RY b) (RX q) (RY q) M R1 R2 R3 R4 R5 R6 A3 A4 B3 B4 Q3 Q4 LE' (val ftol) t Ht) as [H1 H2]; [lra|lra|lra|].
    fold (Df q a b) in H2. fold (Lf a b) in H2. split; [exact H1|]. split; [lra|]. apply Rle_trans with (Lf a b); [lra|]. rewrite <- (rnd_id (Lf a b)) at 1 by apply rnd_rep'. apply rnd_le. lra.
  Qed.
End Edge.
(** * The crossing *)
Section Cross.
  Variables X0 Y0 X1 Y1 PY M tau : R.
  Hypothesis R1 : representable X0. Hypothesis R2 : representable Y0. Hypothesis R3 : representable X1. Hypothesis R4 : representable Y1. Hypothesis R5 : representable PY.
  Hypothesis B1 : Rabs X0 <= M. Hypothesis B2 : Rabs Y0 <= M. Hypothesis B3 : Rabs X1 <= M. Hypothesis B4 : Rabs Y1 <= M.
  Hypothesis HY : bpow radix2 (-100) <= Rabs (Y1 - Y0).
  Hypothesis HT : 0 <= tau <= 1.
  Hypothesis HP : PY - Y0 = tau * (Y1 - Y0).
  Let h := bpow radix2 (-1075).
  Let p' := rnd (rnd (PY - Y0) * rnd (X1 - X0)). Let s' := rnd (p' / rnd (Y1 - Y0)).
  Lemma cross_M : bpow radix2 (-101) <= M.
  Proof.
    assert (Rabs (Y1 - Y0) <= 2 * M). { apply Rabs_le_inv in B2, B4. apply Rabs_le. lra. }
    change (-100)%Z with (-101 + 1)%Z in HY. rewrite bpow_plus in HY. change (bpow radix2 1) with 2 in HY. lra.
  Qed.
  Lemma quot_err : Rabs (p' / rnd (Y1 - Y0) - tau * (X1 - X0)) <= 12 * (u * M) /\ Rabs (s' - tau * (X1 - X0)) <= 16 * (u * M).
  Proof.
    pose proof u_tiny as U. pose proof cross_M as ML. assert (M0 : 0 < M) by (pose proof (bpow_gt_0 radix2 (-101)); lra). pose proof h_pos as hp. fold h in hp.
    set (DY := Y1 - Y0) in *. set (DX := X1 - X0) in *. assert (DYn : DY <> 0). { intros E. rewrite E, Rabs_R0 in HY. pose proof (bpow_gt_0 radix2 (-100)). lra. }
    assert (A : off u (PY - Y0) (rnd (PY - Y0))) by (apply sub_off; assumption). assert (X : off u DX (rnd DX)) by (apply sub_off; assumption). assert (Y : off u DY (rnd DY)) by (apply sub_off; assumption).
    pose proof (prod_one _ _ _ _ A X) as P. fold p' in P. fold h in P. rewrite HP in P. destruct Y as (e & He & EY). apply Rabs_le_inv in He.
    assert (T : Rabs (tau * DX) <= 2 * M).
    { rewrite Rabs_mult, (Rabs_pos_eq tau) by lra. assert (Rabs DX <= 2 * M) by (unfold DX; apply Rabs_le_inv in B1, B3; apply Rabs_le; lra). pose proof (Rabs_pos DX). nra. }
    assert (hM : h <= / 100 * (u * M * Rabs DY) /\ h <= / 100 * (u * M)).
    { assert (128 * h = bpow radix2 (-1068)) by (change (-1068)%Z with (7 + -1075)%Z; rewrite bpow_plus; reflexivity).
      assert (bpow radix2 (-154) <= u * M). { unfold u. change (-154)%Z with (-53 + -101)%Z. rewrite bpow_plus. apply Rmult_le_compat_l; [apply bpow_ge_0|exact ML]. }
      assert (bpow radix2 (-254) <= u * M * Rabs DY). { change (-254)%Z with (-154 + -100)%Z. rewrite bpow_plus. apply Rmult_le_compat; try apply bpow_ge_0; assumption. }
      assert (bpow radix2 (-1068) <= bpow radix2 (-254)) by (apply bpow_le; lia). assert (bpow radix2 (-1068) <= bpow radix2 (-154)) by (apply bpow_le; lia). lra. }
    destruct hM as [hM hM']. assert (aY : 0 < Rabs DY) by (apply Rabs_pos_lt; exact DYn). assert (uM : 0 < u * M) by (apply Rmult_lt_0_compat; lra).
    set (eps := p' - tau * DY * DX). assert (Pe : Rabs eps <= (8 + / 100) * (u * M) * Rabs DY).
    { unfold eps. eapply Rle_trans; [exact P|]. replace (tau * DY * DX) with (tau * DX * DY) by ring. rewrite Rabs_mult.
      assert (4 * u * (Rabs (tau * DX) * Rabs DY) <= 4 * u * (2 * M * Rabs DY)) by (apply Rmult_le_compat_l; [lra|]; apply Rmult_le_compat_r; lra). lra. }
    assert (Q1 : Rabs (p' / rnd DY - tau * DX) <= 12 * (u * M)).
    { rewrite EY. replace (p' / (DY * (1 + e)) - tau * DX) with ((eps / DY - tau * DX * e) / (1 + e)) by (unfold eps; field; split; lra).
      unfold Rdiv at 1. rewrite Rabs_mult, Rabs_inv by lra. rewrite (Rabs_pos_eq (1 + e)) by lra.
      assert (N : Rabs (eps / DY - tau * DX * e) <= (10 + / 100) * (u * M)).
      { unfold Rminus. eapply Rle_trans; [apply Rabs_triang|]. rewrite Rabs_Ropp, (Rabs_mult (tau * DX)). unfold Rdiv. rewrite Rabs_mult, Rabs_inv by exact DYn.
        assert (Rabs eps * / Rabs DY <= (8 + / 100) * (u * M)). { apply Rmult_le_reg_r with (Rabs DY); [exact aY|]. rewrite Rmult_assoc, Rinv_l by lra. rewrite Rmult_1_r. exact Pe. }
        assert (Rabs (tau * DX) * Rabs e <= 2 * M * u) by (apply Rmult_le_compat; try apply Rabs_pos; [exact T|apply Rabs_le; lra]). lra. }
      apply Rmult_le_reg_r with (1 + e); [lra|]. rewrite Rmult_assoc, Rinv_l by lra. rewrite Rmult_1_r. nra. }
    split; [exact Q1|]. unfold s'. destruct (rnd_ex (p' / rnd DY)) as (f & n & Hf & Hn & ->). fold h in Hn. set (z := p' / rnd DY) in *.
    assert (zB : Rabs z <= 3 * M). { replace z with ((z - tau * DX) + tau * DX) by ring. eapply Rle_trans; [apply Rabs_triang|]. nra. }
    replace (z * (1 + f) + n - tau * DX) with ((z - tau * DX) + z * f + n) by ring. pose proof (Rabs_triang (z - tau * DX + z * f) n). pose proof (Rabs_triang (z - tau * DX) (z * f)).
    assert (Rabs (z * f) <= 3 * M * u) by (rewrite Rabs_mult; apply Rmult_le_compat; try apply Rabs_pos; assumption). lra.
  Qed.
  Lemma cross_err : Rabs (rnd (X0 + s') - (X0 + tau * (X1 - X0))) <= 32 * (u * M).
  Proof.
    destruct quot_err as [_ Q]. pose proof u_tiny as U. pose proof cross_M as ML. assert (M0 : 0 < M) by (pose proof (bpow_gt_0 radix2 (-101)); lra).
    pose proof (off_abs _ _ _ (add_off X0 s' R1 (rnd_rep' _))) as A. assert (T : Rabs (tau * (X1 - X0)) <= 2 * M).
    { rewrite Rabs_mult, (Rabs_pos_eq tau) by lra. assert (Rabs (X1 - X0) <= 2 * M) by (apply Rabs_le_inv in B1, B3; apply Rabs_le; lra). pose proof (Rabs_pos (X1 - X0)). nra. }
    assert (S : Rabs (X0 + s') <= 4 * M).
    { replace (X0 + s') with (X0 + (s' - tau * (X1 - X0)) + tau * (X1 - X0)) by ring. eapply Rle_trans; [apply Rabs_triang|]. pose proof (Rabs_triang X0 (s' - tau * (X1 - X0))). assert (16 * (u * M) <= M) by nra. lra. }
    assert (u * Rabs (X0 + s') <= u * (4 * M)) by (apply Rmult_le_compat_l; lra).
    replace (rnd (X0 + s') - (X0 + tau * (X1 - X0))) with ((rnd (X0 + s') - (X0 + s')) + (s' - tau * (X1 - X0))) by ring. eapply Rle_trans; [apply Rabs_triang|]. nra.
  Qed.
End Cross.
Definition rf_x (q a b : fpoint) : spec_float := fadd (fst a) (fdiv (fmul (fsub (snd q) (snd a)) (fsub (fst b) (fst a))) (fsub (snd b) (snd a))).
Lemma crossing_eq ftol q a b : rf_crossing ftol q (a, b) =
  if SFleb (SFabs (fsub (snd b) (snd a))) ftol then false else if xorb (SFltb (snd q) (snd a)) (SFltb (snd q) (snd b)) then SFltb (fst q) (rf_x q a b) else false.
Proof. destruct a, b. reflexivity. Qed.
Lemma rf_x_ok M q a b tau : atmost M q -> atmost M a -> atmost M b -> M <= bpow radix2 100 -> bpow radix2 (-100) <= Rabs (RY b - RY a) -> 0 <= tau <= 1 -> RY q - RY a = tau * (RY b - RY a) ->
  finite_double (rf_x q a b) /\ Rabs (val (rf_x q a b) - at_x (a, b) tau) <= 32 * (u * M).
Proof.
  intros Hq Ha Hb HM HY HT HP. destruct (edge_vals q a b M Hq Ha Hb HM) as (vx & vy & wx & wy & F1 & F2 & F3 & F4 & E1 & E2 & E3 & E4 & V1 & V2 & V3 & V4 & L1 & L2 & L3 & L4).
  pose proof Hq as ([Q1 Q2] & Q3 & Q4). pose proof Ha as ([A1 A2] & A3 & A4). pose proof Hb as ([B1 B2] & B3 & B4).
  assert (R1 := format_val _ A1). assert (R2 := format_val _ A2). assert (R3 := format_val _ B1). assert (R4 := format_val _ B2). assert (R6 := format_val _ Q2).
  pose proof (quot_err (RX a) (RY a) (RX b) (RY b) (RY q) M tau R1 R2 R3 R4 R6 A3 A4 B3 B4 HY HT HP) as [_ K1]. pose proof (cross_err (RX a) (RY a) (RX b) (RY b) (RY q) M tau R1 R2 R3 R4 R6 A3 A4 B3 B4 HY HT HP) as K2.
  pose proof (cross_M (RY a) (RY b) M A4 B4 HY) as ML. assert (M0 : 0 < M) by (pose proof (bpow_gt_0 radix2 (-101)); lra). pose proof u_tiny as U.
  unfold rf_x. rewrite <- E1, <- E2, <- E4. destruct (mul_ok 101 wy vx) as (P1 & P2 & P3); try assumption; [lia|]. rewrite V4, V1 in P2.
  assert (DY : RY b - RY a <> 0). { intros E. rewrite E, Rabs_R0 in HY. pose proof (bpow_gt_0 radix2 (-100)). lra. }
  assert (NZ : val vy <> 0). { rewrite V2. eapply off_nz; [|exact DY|apply sub_off; assumption]. lra. }
  assert (T : Rabs (tau * (RX b - RX a)) <= 2 * M).
  { rewrite Rabs_mult, (Rabs_pos_eq tau) by lra. assert (Rabs (RX b - RX a) <= 2 * M) by (apply Rabs_le_inv in A3, B3; apply Rabs_le; lra). pose proof (Rabs_pos (RX b - RX a)). nra. }
  assert (uM : u * M <= / 100 * M) by (apply Rmult_le_compat_r; lra).
  destruct (div_rounds (fmul wy vx) vy P1 F2 NZ) as [S1 S2].
  { rewrite P2, V2. apply (lt_huge 102); [lia|]. change 102%Z with (2 + 100)%Z. rewrite bpow_plus. change (bpow radix2 2) with 4. set (s := rnd (_ / _)) in *. replace s with ((s - tau * (RX b - RX a)) + tau * (RX b - RX a)) by ring. eapply Rle_trans; [apply Rabs_triang|]. lra. }
  rewrite P2, V2 in S2. destruct (add_rounds (fst a) (fdiv (fmul wy vx) vy) A1 S1) as [Ad _]. rewrite S2 in Ad. destruct Ad as [F V].
  { apply (lt_huge 103); [lia|]. change 103%Z with (3 + 100)%Z. rewrite bpow_plus. change (bpow radix2 3) with 8. set (s := rnd (val (fst a) + _)). change (Rabs (s - (RX a + tau * (RX b - RX a))) <= 32 * (u * M)) in K2.
    replace s with ((s - (RX a + tau * (RX b - RX a))) + RX a + tau * (RX b - RX a)) by ring. eapply Rle_trans; [apply Rabs_triang|]. pose proof (Rabs_triang (s - (RX a + tau * (RX b - RX a))) (RX a)). lra. }
  split; [exact F|]. rewrite V. unfold at_x. cbn [fst snd]. exact K2.
Qed.
Lemma rises_level ftol q a b M : atmost M q -> atmost M a -> atmost M b -> M <= bpow radix2 100 -> finite_double ftol -> 0 <= val ftol -> RY a = RY b -> rf_crossing ftol q (a, b) = false.
Proof.
  intros Hq Ha Hb HM Ff Hf E. rewrite crossing_eq. destruct (edge_vals q a b M Hq Ha Hb HM) as (vx & vy & wx & wy & F1 & F2 & F3 & F4 & E1 & E2 & E3 & E4 & V1 & V2 & V3 & V4 & _). rewrite <- E2.
  destruct (abs_ok vy F2) as [A1 A2]. replace (SFleb (SFabs vy) ftol) with true; [reflexivity|]. symmetry. apply leb_val; [exact A1|exact Ff|]. rewrite A2, V2, E, Rminus_diag_eq by reflexivity. rewrite (rnd_id 0), Rabs_R0 by apply rep_0. exact Hf.
Qed.
Lemma dist_x q s t : RY q - at_y s t = 0 -> dist_at q s t = Rabs (RX q - at_x s t).
Proof. intros E. unfold dist_at. rewrite E. replace (_ + 0 * 0) with (Rsqr (RX q - at_x s t)) by (unfold Rsqr; ring). apply sqrt_Rsqr_abs. Qed.
Lemma ray_crossing M d ftol q a b : atmost M q -> atmost M a -> atmost M b -> M <= bpow radix2 100 -> finite_double ftol -> 0 <= val ftol -> rises (val ftol) (a, b) ->
  32 * (u * M) <= d -> far_of d q (a, b) -> rf_crossing ftol q (a, b) = true <-> crossesR q (a, b).
Proof.
  intros Hq Ha Hb HM Ff Hf RI Hd FA. destruct (Req_dec (RY a) (RY b)) as [LV|NL].
  { rewrite (rises_level ftol q a b M) by assumption. split; [discriminate|]. intros [H _]. cbn [fst snd] in H. lra. }
  destruct RI as [E|[RI1 RI2]]; [contradiction|]. cbn [fst snd] in RI1, RI2. pose proof u_tiny as U.
  pose proof Hq as ([Q1 Q2] & Q3 & Q4). pose proof Ha as ([A1 A2] & A3 & A4). pose proof Hb as ([B1 B2] & B3 & B4).
  rewrite crossing_eq. destruct (edge_vals q a b M Hq Ha Hb HM) as (vx & vy & wx & wy & F1 & F2 & F3 & F4 & E1 & E2 & E3 & E4 & V1 & V2 & V3 & V4 & _). rewrite <- E2.
  destruct (abs_ok vy F2) as [C1 C2]. replace (SFleb (SFabs vy) ftol) with false.
  2:{ symmetry. apply not_true_iff_false. rewrite leb_val by assumption. rewrite C2, V2. destruct (sub_off (RY b) (RY a) (format_val _ B2) (format_val _ A2)) as (e & He & ->). rewrite Rabs_mult. apply Rabs_le_inv in He. rewrite (Rabs_pos_eq (1 + e)) by lra.
      intros N. assert (E50 : bpow radix2 (-50) = 8 * u) by (unfold u; cbn; lra). rewrite E50 in RI1. set (r := Rabs (RY b - RY a)) in *. set (f := val ftol) in *. assert (0 < r) by (assert (0 <= f * (8 * u)) by nra; lra). assert (r * (1 - u) <= f) by nra.
      assert (f * (1 + 8 * u) * (1 - u) < r * (1 - u)) by (apply Rmult_lt_compat_r; lra). assert (0 <= f * (u * (7 - 8 * u))) by (apply Rmult_le_pos; [lra|nra]). lra. }
  unfold crossesR. cbn [fst snd]. change (RY a) with (val (snd a)) in *. change (RY b) with (val (snd b)) in *. change (RY q) with (val (snd q)) in *.
  set (c := xorb _ _). assert (C : c = true <-> (val (snd a) <= val (snd q) < val (snd b) \/ val (snd b) <= val (snd q) < val (snd a))).
  { unfold c. destruct (SFltb (snd q) (snd a)) eqn:S1, (SFltb (snd q) (snd b)) eqn:S2; cbn [xorb];
    (try (apply ltb_val in S1; [|assumption|assumption])); (try (apply ltb_val in S2; [|assumption|assumption])); try (apply not_true_iff_false in S1; rewrite ltb_val in S1 by assumption); try (apply not_true_iff_false in S2; rewrite ltb_val in S2 by assumption); split; intros; try discriminate; try reflexivity; lra. }
  destruct c.
  2:{ split; [discriminate|]. intros [H _]. apply C in H. discriminate H. }
  assert (R := proj1 C eq_refl). set (dy := val (snd b) - val (snd a)) in *. assert (DY : dy <> 0) by (unfold dy; lra).
  set (tau := (val (snd q) - val (snd a)) / dy).
  assert (HP : val (snd q) - val (snd a) = tau * dy) by (unfold tau; field; exact DY).
  assert (HT : 0 <= tau <= 1).
  { unfold tau. destruct R as [R|R]; split.
    - apply Rmult_le_reg_r with dy; unfold Rdiv; rewrite ?Rmult_assoc, ?Rinv_l by exact DY; unfold dy; lra.
    - apply Rmult_le_reg_r with dy; unfold Rdiv; rewrite ?Rmult_assoc, ?Rinv_l by exact DY; unfold dy; lra.
    - apply Rmult_le_reg_r with (- dy); [unfold dy; lra|]. replace ((val (snd q) - val (snd a)) / dy * - dy) with (- (val (snd q) - val (snd a))) by (field; exact DY). lra.
    - apply Rmult_le_reg_r with (- dy); [unfold dy; lra|]. replace ((val (snd q) - val (snd a)) / dy * - dy) with (- (val (snd q) - val (snd a))) by (field; exact DY). unfold dy. lra. }
  destruct (rf_x_ok M q a b tau Hq Ha Hb HM) as [Fx Ex]; [exact RI2|exact HT|exact HP|].
  rewrite ltb_val by assumption. specialize (FA tau HT).
  assert (Y0 : RY q - at_y (a, b) tau = 0). { unfold at_y, RY. cbn [fst snd]. fold dy. lra. }
  rewrite (dist_x _ _ _ Y0) in FA. change (val (fst q)) with (RX q). set (xs := at_x _ tau) in *. set (xc := val (rf_x q a b)) in *.
  assert (Hx : RX q < xc <-> RX q < xs).
  { assert (B : Rabs (xc - xs) <= d) by lra. apply Rabs_le_inv in B. clearbody xc xs. clear - B FA. unfold Rabs in FA. destruct (Rcase_abs (RX q - xs)); split; intros; lra. }
  rewrite Hx. split.
  - intros H. split; [exact R|]. exists tau. split; [exact H|]. change (val (snd q)) with (RY q). lra.
  - intros (_ & t & H & E). replace t with tau in H; [exact H|]. unfold at_y, RY in E. cbn [fst snd] in E. fold dy in E. assert (K : (t - tau) * dy = 0) by lra. apply Rmult_integral in K. destruct K; [lra|contradiction].
Qed.
(** * The quick checks *)
Lemma nan_fin x : finite_double x -> is_nan_f x = false.
Proof. intros [_ F]. destruct x; try discriminate; reflexivity. Qed.
Lemma np_min_ok a b : finite_double a -> finite_double b -> (np_min_f a b = a \/ np_min_f a b = b) /\ val (np_min_f a b) <= val a /\ val (np_min_f a b) <= val b.
Proof.
  intros Fa Fb. unfold np_min_f. rewrite nan_fin by exact Fa. cbn [orb]. destruct (SFltb a b) eqn:L.
  - apply ltb_val in L; [|assumption|assumption]. split; [auto|lra].
  - apply not_true_iff_false in L. rewrite ltb_val in L by assumption. split; [auto|lra].
Qed.
Lemma np_max_ok a b : finite_double a -> finite_double b -> (np_max_f a b = a \/ np_max_f a b = b) /\ val a <= val (np_max_f a b) /\ val b <= val (np_max_f a b).
Proof.
  intros Fa Fb. unfold np_max_f. rewrite nan_fin by exact Fa. cbn [orb]. destruct (SFltb b a) eqn:L.
  - apply ltb_val in L; [|assumption|assumption]. split; [auto|lra].
  - apply not_true_iff_false in L. rewrite ltb_val in L by assumption. split; [auto|lra].
Qed.
Lemma low_ok e x f q : (-1074 <= e < 1022)%Z -> finite_double x -> finite_double f -> finite_double q -> Rabs (val x) <= bpow radix2 e -> 0 <= val f <= bpow radix2 e -> val x <= val q -> val (fsub x f) <= val q /\ finite_double (fsub x f).
Proof.
  intros He Fx F0 Fq B Hf H. destruct (diff_ok e x f) as (D1 & D2 & _); try assumption; [rewrite Rabs_pos_eq; lra|]. split; [|exact D1]. rewrite D2.
  pose proof (rnd_le (val x - val f) (val x)) as K. rewrite (rnd_id (val x)) in K by (apply format_val; exact Fx). specialize (K ltac:(lra)). lra.
Qed.
Lemma high_ok e x f q : (-1074 <= e < 1022)%Z -> finite_double x -> finite_double f -> finite_double q -> Rabs (val x) <= bpow radix2 e -> 0 <= val f <= bpow radix2 e -> val q <= val x -> val q <= val (fadd x f) /\ finite_double (fadd x f).
Proof.
  intros He Fx F0 Fq B Hf H. destruct (add_up e x f) as (D1 & D2); try assumption; [rewrite Rabs_pos_eq; lra|lia|]. split; [|exact D1]. rewrite D2.
  pose proof (rnd_le (val x) (val x + val f)) as K. rewrite (rnd_id (val x)) in K by (apply format_val; exact Fx). specialize (K ltac:(lra)). lra.
Qed.
Lemma ray_skip M ftol q a b : atmost M q -> atmost M a -> atmost M b -> M <= bpow radix2 100 -> finite_double ftol -> 0 <= val ftol <= bpow radix2 100 ->
  rf_skip ftol q (a, b) = true -> forall t, 0 <= t <= 1 -> RY q <> at_y (a, b) t.
Proof.
  intros Hq Ha Hb HM Ff Hf HS t Ht E. pose proof Hq as ([Q1 Q2] & Q3 & Q4). pose proof Ha as ([A1 A2] & A3 & A4). pose proof Hb as ([B1 B2] & B3 & B4). unfold RY in *. unfold at_y, RY in E. cbn [fst snd] in E.
  assert (K : rf_skip ftol q (a, b) = SFltb (snd q) (fsub (np_min_f (snd a) (snd b)) ftol) || SFltb (fadd (np_max_f (snd a) (snd b)) ftol) (snd q)) by (destruct a, b; reflexivity).
  rewrite K in HS. clear K. destruct (np_min_ok (snd a) (snd b) A2 B2) as (I1 & I2 & I3). destruct (np_max_ok (snd a) (snd b) A2 B2) as (J1 & J2 & J3).
  assert (Fi : finite_double (np_min_f (snd a) (snd b)) /\ Rabs (val (np_min_f (snd a) (snd b))) <= bpow radix2 100) by (destruct I1 as [-> | ->]; split; try assumption; lra).
  assert (Fj : finite_double (np_max_f (snd a) (snd b)) /\ Rabs (val (np_max_f (snd a) (snd b))) <= bpow radix2 100) by (destruct J1 as [-> | ->]; split; try assumption; lra).
  destruct (low_ok 100 (np_min_f (snd a) (snd b)) ftol (snd q)) as [L1 L2]; try apply Fi; try assumption; [lia|nra|].
  destruct (high_ok 100 (np_max_f (snd a) (snd b)) ftol (snd q)) as [H1 H2]; try apply Fj; try assumption; [lia|nra|].
  apply orb_true_iff in HS. destruct HS as [S|S]; rewrite ltb_val in S by assumption; lra.
Qed.
(** * The loop *)
Definition edge_fit (ftol M : R) (q : fpoint) (s : fseg) : Prop :=
  rises ftol s /\ ((RX (fst s) = RX (snd s) /\ RY (fst s) = RY (snd s)) \/ (long_edge s /\ far_of (ray_margin ftol M s) q s)).
Lemma margin_ge M ftol a b : 0 <= M -> 0 <= ftol -> long_edge (a, b) -> 32 * (u * M) <= ray_margin ftol M (a, b) /\ ftol <= ray_margin ftol M (a, b).
Proof.
  intros M0 F0 L. unfold long_edge in L. unfold ray_margin. set (l := length_of (a, b)) in *. pose proof (bpow_gt_0 radix2 (-100)). rewrite bp46. pose proof u_tiny as U.
  assert (0 <= ftol / l) by (apply Rmult_le_pos; [lra|left; apply Rinv_0_lt_compat; lra]). assert (0 <= u * M) by nra. assert (0 <= u * (ftol + ftol / l)) by nra. split; nra.
Qed.
Lemma far_mono d d' q s : d <= d' -> far_of d' q s -> far_of d q s.
Proof. intros L H t Ht. specialize (H t Ht). lra. Qed.
Lemma ray_loop M ftol q segs : finite_double ftol -> 0 <= val ftol <= bpow radix2 100 -> atmost M q -> M <= bpow radix2 100 ->
  (forall s, In s segs -> atmost M (fst s) /\ atmost M (snd s) /\ edge_fit (val ftol) M q s) ->
  forall c, exists b c', odd_many (crossesR q) b segs /\ rf_loop ftol q segs c = Some c' /\ Nat.odd c' = xorb (Nat.odd c) b.
Proof.
  intros Ff Hf Hq HM. induction segs as [|s r IH]; intros HS c.
  - exists false, c. split; [constructor|]. split; [reflexivity|]. rewrite xorb_false_r. reflexivity.
  - destruct (HS s (or_introl eq_refl)) as (Ha & Hb & RI & FI). assert (IH' := IH (fun x Hx => HS x (or_intror Hx))). clear IH. destruct s as [a b]. cbn [fst snd] in *. pose proof (edge_M0 a M Ha) as M0.
    cbn [rf_loop]. destruct (rf_skip ftol q (a, b)) eqn:SK.
    + destruct (IH' c) as (o & c' & O & E & P). exists o, c'. split; [|auto]. apply om_no; [|exact O]. intros C. apply crosses_in in C. destruct C as (t & Ht & Et). exact (ray_skip M ftol q a b Hq Ha Hb HM Ff Hf SK t Ht Et).
    + assert (NB : rf_boundary ftol q (a, b) = false).
      { destruct FI as [[EX EY]|[LE FA]]; [apply (point_edge q a b M); assumption|]. apply not_true_iff_false. intros B. destruct (ray_near q a b M ftol Hq Ha Hb HM Ff Hf LE B) as (t & Ht & K). specialize (FA t Ht). lra. }
      rewrite NB. assert (C : rf_crossing ftol q (a, b) = true <-> crossesR q (a, b)).
      { destruct FI as [[EX EY]|[LE FA]].
        - rewrite (rises_level ftol q a b M) by (assumption || apply Hf). split; [discriminate|]. intros [H _]. cbn [fst snd] in H. lra.
        - apply (ray_crossing M (ray_margin (val ftol) M (a, b))); try assumption; [apply Hf|]. apply margin_ge; try assumption. apply Hf. }
      destruct (rf_crossing ftol q (a, b)).
      * destruct (IH' (S c)) as (o & c' & O & E & P). exists (negb o), c'. split; [apply om_yes; [apply C; reflexivity|exact O]|]. split; [exact E|]. rewrite P, Nat.odd_succ, <- Nat.negb_odd. destruct (Nat.odd c), o; reflexivity.
      * destruct (IH' c) as (o & c' & O & E & P). exists o, c'. split; [|auto]. apply om_no; [|exact O]. intros K. apply C in K. discriminate K.
Qed.
(** * The box *)
Definition within (M : R) (x : spec_float) : Prop := finite_double x /\ Rabs (val x) <= M.
Lemma fold_min M l : forall x, within M x -> Forall (within M) l -> let m := fold_left np_min_f l x in within M m /\ val m <= val x /\ Forall (fun y => val m <= val y) l.
Proof.
  induction l as [|y l IH]; intros x Wx Wl; cbv zeta; cbn [fold_left]; [split; [exact Wx|split; [lra|constructor]]|].
  inversion Wl as [|? ? Wy Wr]; subst. destruct (np_min_ok x y (proj1 Wx) (proj1 Wy)) as (K1 & K2 & K3). assert (W : within M (np_min_f x y)) by (destruct K1 as [-> | ->]; assumption).
  destruct (IH _ W Wr) as (A & B & C). split; [exact A|]. split; [lra|]. constructor; [lra|exact C].
Qed.
Lemma fold_max M l : forall x, within M x -> Forall (within M) l -> let m := fold_left np_max_f l x in within M m /\ val x <= val m /\ Forall (fun y => val y <= val m) l.
Proof.
  induction l as [|y l IH]; intros x Wx Wl; cbv zeta; cbn [fold_left]; [split; [exact Wx|split; [lra|constructor]]|].
  inversion Wl as [|? ? Wy Wr]; subst. destruct (np_max_ok x y (proj1 Wx) (proj1 Wy)) as (K1 & K2 & K3). assert (W : within M (np_max_f x y)) by (destruct K1 as [-> | ->]; assumption).
  destruct (IH _ W Wr) as (A & B & C). split; [exact A|]. split; [lra|]. constructor; [lra|exact C].
Qed.
Lemma amin_ok M l : l <> [] -> Forall (within M) l -> within M (amin_f l) /\ forall y, In y l -> val (amin_f l) <= val y.
Proof.
  intros N W. destruct l as [|x r]; [contradiction|]. inversion W as [|? ? Wx Wr]; subst. destruct (fold_min M r x Wx Wr) as (A & B & C). cbv zeta in *. cbn [amin_f]. split; [exact A|].
  rewrite Forall_forall in C. intros y [<-|I]; [exact B|apply C, I].
Qed.
Lemma amax_ok M l : l <> [] -> Forall (within M) l -> within M (amax_l l) /\ forall y, In y l -> val y <= val (amax_l l).
Proof.
  intros N W. destruct l as [|x r]; [contradiction|]. inversion W as [|? ? Wx Wr]; subst. destruct (fold_max M r x Wx Wr) as (A & B & C). cbv zeta in *. cbn [amax_l]. split; [exact A|].
  rewrite Forall_forall in C. intros y [<-|I]; [exact B|apply C, I].
Qed.
Lemma box_low_ok M (c : fpoint -> spec_float) segs : segs <> [] -> (forall s, In s segs -> within M (c (fst s)) /\ within M (c (snd s))) ->
  within M (box_low c segs) /\ forall s, In s segs -> val (box_low c segs) <= val (c (fst s)) /\ val (box_low c segs) <= val (c (snd s)).
Proof.
  intros N W. unfold box_low, py_min_f.
  destruct (amin_ok M (map (fun s => c (fst s)) segs)) as [A1 A2]; [destruct segs; [contradiction|discriminate]|apply Forall_forall; intros x Hx; apply in_map_iff in Hx; destruct Hx as (s & <- & I); apply W, I|].
  destruct (amin_ok M (map (fun s => c (snd s)) segs)) as [B1 B2]; [destruct segs; [contradiction|discriminate]|apply Forall_forall; intros x Hx; apply in_map_iff in Hx; destruct Hx as (s & <- & I); apply W, I|].
  set (x := amin_f (map (fun s => c (fst s)) segs)) in *. set (y := amin_f (map (fun s => c (snd s)) segs)) in *.
  assert (L : (if SFltb y x then y else x) = y /\ val y <= val x \/ (if SFltb y x then y else x) = x /\ val x <= val y).
  { destruct (SFltb y x) eqn:E; [apply ltb_val in E; [|apply B1|apply A1]; left; split; [reflexivity|lra]|]. apply not_true_iff_false in E. rewrite ltb_val in E by (apply B1 || apply A1). right. split; [reflexivity|lra]. }
  destruct L as [[-> L]|[-> L]]; (split; [assumption|]); intros s I; pose proof (A2 (c (fst s)) (in_map (fun s => c (fst s)) _ _ I)); pose proof (B2 (c (snd s)) (in_map (fun s => c (snd s)) _ _ I)); lra.
Qed.
Lemma box_high_ok M (c : fpoint -> spec_float) segs : segs <> [] -> (forall s, In s segs -> within M (c (fst s)) /\ within M (c (snd s))) ->
  within M (box_high c segs) /\ forall s, In s segs -> val (c (fst s)) <= val (box_high c segs) /\ val (c (snd s)) <= val (box_high c segs).
Proof.
  intros N W. unfold box_high, py_max_f.
  destruct (amax_ok M (map (fun s => c (fst s)) segs)) as [A1 A2]; [destruct segs; [contradiction|discriminate]|apply Forall_forall; intros x Hx; apply in_map_iff in Hx; destruct Hx as (s & <- & I); apply W, I|].
  destruct (amax_ok M (map (fun s => c (snd s)) segs)) as [B1 B2]; [destruct segs; [contradiction|discriminate]|apply Forall_forall; intros x Hx; apply in_map_iff in Hx; destruct Hx as (s & <- & I); apply W, I|].
  set (x := amax_l (map (fun s => c (fst s)) segs)) in *. set (y := amax_l (map (fun s => c (snd s)) segs)) in *.
  assert (L : (if SFltb x y then y else x) = y /\ val x <= val y \/ (if SFltb x y then y else x) = x /\ val y <= val x).
  { destruct (SFltb x y) eqn:E; [apply ltb_val in E; [|apply A1|apply B1]; left; split; [reflexivity|lra]|]. apply not_true_iff_false in E. rewrite ltb_val in E by (apply B1 || apply A1). right. split; [reflexivity|lra]. }
  destruct L as [[-> L]|[-> L]]; (split; [assumption|]); intros s I; pose proof (A2 (c (fst s)) (in_map (fun s => c (fst s)) _ _ I)); pose proof (B2 (c (snd s)) (in_map (fun s => c (snd s)) _ _ I)); lra.
Qed.
Definition beyond (q : fpoint) (segs : list fseg) : Prop :=
  (forall s, In s segs -> RX q < RX (fst s) /\ RX q < RX (snd s)) \/ (forall s, In s segs -> RX (fst s) < RX q /\ RX (snd s) < RX q) \/
  (forall s, In s segs -> RY q < RY (fst s) /\ RY q < RY (snd s)) \/ (forall s, In s segs -> RY (fst s) < RY q /\ RY (snd s) < RY q).
Lemma box_out M ftol q segs : segs <> [] -> finite_double ftol -> 0 <= val ftol <= bpow radix2 100 -> atmost M q -> M <= bpow radix2 100 ->
  (forall s, In s segs -> atmost M (fst s) /\ atmost M (snd s)) -> in_bbox_f ftol segs q = false -> beyond q segs.
Proof.
  intros N Ff Hf Hq HM W H. pose proof Hq as ([Q1 Q2] & Q3 & Q4).
  assert (WX : forall s, In s segs -> within M (fst (fst s)) /\ within M (fst (snd s))). { intros s I. destruct (W s I) as [((A1 & A2) & A3 & A4) ((B1 & B2) & B3 & B4)]. unfold RX, RY in *. split; split; assumption. }
  assert (WY : forall s, In s segs -> within M (snd (fst s)) /\ within M (snd (snd s))). { intros s I. destruct (W s I) as [((A1 & A2) & A3 & A4) ((B1 & B2) & B3 & B4)]. unfold RX, RY in *. split; split; assumption. }
  destruct (box_low_ok M fst segs N WX) as ([L1 L2] & L3). destruct (box_high_ok M fst segs N WX) as ([H1 H2] & H3). destruct (box_low_ok M snd segs N WY) as ([L4 L5] & L6). destruct (box_high_ok M snd segs N WY) as ([H4 H5] & H6).
  unfold beyond, RX, RY.
  destruct (Rlt_le_dec (val (fst q)) (val (box_low fst segs))) as [X|X1]; [left; intros s I; specialize (L3 s I); lra|].
  destruct (Rlt_le_dec (val (box_high fst segs)) (val (fst q))) as [X|X2]; [right; left; intros s I; specialize (H3 s I); lra|].
  destruct (Rlt_le_dec (val (snd q)) (val (box_low snd segs))) as [X|X3]; [right; right; left; intros s I; specialize (L6 s I); lra|].
  destruct (Rlt_le_dec (val (box_high snd segs)) (val (snd q))) as [X|X4]; [right; right; right; intros s I; specialize (H6 s I); lra|].
  exfalso. apply not_true_iff_false in H. apply H. unfold in_bbox_f.
  destruct (low_ok 100 (box_low fst segs) ftol (fst q)) as [a1 a2]; try assumption; [lia|lra|]. destruct (high_ok 100 (box_high fst segs) ftol (fst q)) as [a3 a4]; try assumption; [lia|lra|].
  destruct (low_ok 100 (box_low snd segs) ftol (snd q)) as [a5 a6]; try assumption; [lia|lra|]. destruct (high_ok 100 (box_high snd segs) ftol (snd q)) as [a7 a8]; try assumption; [lia|lra|].
  rewrite !andb_true_iff, !leb_val by assumption. auto.
Qed.
(** * Closed polygons: outside the box an even number of edges is crossed *)
Lemma even_numbers f l : (forall c, P_Inpoly.par (Nat.eqb c) l = false) -> P_Inpoly.par f l = false.
Proof.
  intros H. remember (length l) as n eqn:En. assert (Hn : (length l <= n)%nat) by lia. clear En. revert l Hn H.
  induction n as [|n IH]; intros l Hn H; [destruct l; [reflexivity|simpl in Hn; lia]|].
  destruct l as [|c l]; [reflexivity|]. rewrite (P_Inpoly.par_split f (Nat.eqb c)).
  rewrite (P_Inpoly.par_const f (Nat.eqb c) (f c)) by (intros x _ E; apply Nat.eqb_eq in E; subst; reflexivity).
  rewrite H, andb_false_r, xorb_false_l. apply IH.
  - cbn [filter]. rewrite Nat.eqb_refl. cbn [negb]. pose proof (P_Inpoly.filter_len (fun x => negb (Nat.eqb c x)) l). simpl in Hn. lia.
  - intros c'. destruct (Nat.eqb c c') eqn:E.
    + apply Nat.eqb_eq in E. subst c'. apply P_Inpoly.par_none. intros x Hx. apply filter_In in Hx. apply negb_true_iff, Hx.
    + specialize (H c'). rewrite (P_Inpoly.par_split _ (Nat.eqb c)) in H. rewrite (P_Inpoly.par_none _ (filter (Nat.eqb c) (c :: l))) in H; [now rewrite xorb_false_l in H|].
      intros x Hx. apply filter_In in Hx. destruct Hx as [_ Hx]. apply Nat.eqb_eq in Hx. subst x. rewrite Nat.eqb_sym. exact E.
Qed.
Lemma par_map {A B} (g : A -> B) f l : P_Inpoly.par f (map g l) = P_Inpoly.par (fun x => f (g x)) l.
Proof. induction l as [|x l IH]; [reflexivity|]. cbn. unfold P_Inpoly.par in IH. rewrite IH. reflexivity. Qed.
Definition over (q p : fpoint) : bool := if Rlt_dec (RY q) (RY p) then true else false.
Lemma straddle_even node edge q : closed_edges edge -> P_Inpoly.par (fun s => xorb (over q (fst s)) (over q (snd s))) (segments node edge) = false.
Proof.
  intros CL. unfold segments. rewrite par_map. cbn [fst snd]. set (f := fun v => over q (nth v node nan2)).
  assert (E : P_Inpoly.par (fun e : nat * nat => xorb (f (fst e)) (f (snd e))) edge = P_Inpoly.par f (flat_map (fun e => [fst e; snd e]) edge)).
  { clear CL. induction edge as [|e r IH]; [reflexivity|]. cbn. unfold P_Inpoly.par in IH. rewrite IH, xorb_assoc. reflexivity. }
  change (P_Inpoly.par (fun e : nat * nat => xorb (f (fst e)) (f (snd e))) edge = false). rewrite E. apply even_numbers. intros c. specialize (CL c).
  rewrite (P_Inpoly.om_par (eq c) (Nat.eqb c)) in CL by (intros; apply Nat.eqb_eq). symmetry. exact CL.
Qed.
Lemma straddle_over q (s : fseg) : xorb (over q (fst s)) (over q (snd s)) = true <-> (RY (fst s) <= RY q < RY (snd s) \/ RY (snd s) <= RY q < RY (fst s)).
Proof. unfold over. destruct (Rlt_dec (RY q) (RY (fst s))), (Rlt_dec (RY q) (RY (snd s))); cbn; split; intros; try discriminate; try reflexivity; lra. Qed.
Lemma straddle_at q (s : fseg) : RY (fst s) <= RY q < RY (snd s) \/ RY (snd s) <= RY q < RY (fst s) -> exists t, 0 <= t <= 1 /\ RY q = at_y s t.
Proof.
  intros R. assert (DY : RY (snd s) - RY (fst s) <> 0) by lra. exists ((RY q - RY (fst s)) / (RY (snd s) - RY (fst s))). split; [|unfold at_y; field; exact DY].
  set (dy := RY (snd s) - RY (fst s)) in *. destruct R as [R|R]; split.
  - apply Rmult_le_reg_r with dy; unfold Rdiv; rewrite ?Rmult_assoc, ?Rinv_l by exact DY; unfold dy; lra.
  - apply Rmult_le_reg_r with dy; unfold Rdiv; rewrite ?Rmult_assoc, ?Rinv_l by exact DY; unfold dy; lra.
  - apply Rmult_le_reg_r with (- dy); [unfold dy; lra|]. replace ((RY q - RY (fst s)) / dy * - dy) with (- (RY q - RY (fst s))) by (field; exact DY). lra.
  - apply Rmult_le_reg_r with (- dy); [unfold dy; lra|]. replace ((RY q - RY (fst s)) / dy * - dy) with (- (RY q - RY (fst s))) by (field; exact DY). unfold dy. lra.
Qed.
Lemma conv_gt a b c t : 0 <= t <= 1 -> c < a -> c < b -> c < a + t * (b - a).
Proof.
  intros Ht A B. assert (0 <= t * (b - c)) by (apply Rmult_le_pos; lra). assert (0 <= (1 - t) * (a - c)) by (apply Rmult_le_pos; lra).
  destruct (Rle_lt_dec t (/ 2)) as [K|K]; [assert (0 < (1 - t) * (a - c)) by (apply Rmult_lt_0_compat; lra)|assert (0 < t * (b - c)) by (apply Rmult_lt_0_compat; lra)]; lra.
Qed.
Lemma conv_lt a b c t : 0 <= t <= 1 -> a < c -> b < c -> a + t * (b - a) < c.
Proof. intros Ht A B. pose proof (conv_gt (- a) (- b) (- c) t Ht). lra. Qed.
Lemma none_odd {A} (P : A -> Prop) l : (forall x, In x l -> ~ P x) -> odd_many P false l.
Proof. induction l as [|x l IH]; intros H; [constructor|]. apply om_no; [apply H; left; reflexivity|apply IH; intros y Hy; apply H; right; exact Hy]. Qed.
Lemma beyond_even node edge q : closed_edges edge -> beyond q (segments node edge) -> odd_many (crossesR q) false (segments node edge).
Proof.
  intros CL [H|[H|[H|H]]].
  - rewrite (P_Inpoly.om_par (crossesR q) (fun s => xorb (over q (fst s)) (over q (snd s)))); [symmetry; apply straddle_even, CL|].
    intros s I. rewrite straddle_over. split; [|intros [R _]; exact R]. intros R. split; [exact R|]. destruct (straddle_at q s R) as (t & Ht & E). exists t. split; [|exact E]. destruct (H s I). unfold at_x. apply conv_gt; assumption.
  - apply none_odd. intros s I C. destruct (H s I) as [h1 h2]. pose proof C as [_ (t' & X & E')]. destruct C as [R _]. destruct (straddle_at q s R) as (t & Ht & E). assert (t' = t). { unfold at_y in E, E'. assert (K : (t' - t) * (RY (snd s) - RY (fst s)) = 0) by lra. apply Rmult_integral in K. destruct K; lra. }
    subst t'. unfold at_x in X. pose proof (conv_lt (RX (fst s)) (RX (snd s)) (RX q) t Ht h1 h2). lra.
  - apply none_odd. intros s I [R _]. destruct (H s I). lra.
  - apply none_odd. intros s I [R _]. destruct (H s I). lra.
Qed.
(** * The whole function *)
Lemma mod2 c : Nat.eqb (Nat.modulo c 2) 1 = Nat.odd c.
Proof. apply P_Inpoly.mod2_odd. Qed.
Lemma ray_index ftol node edge vert i q : (3 <= length node)%nat -> nth_error vert i = Some q -> edge <> [] ->
  nth_error (inpoly_ray_f ftol node edge vert) i = Some (rf_point ftol (segments node edge) q).
Proof.
  intros N Hi E. unfold inpoly_ray_f. destruct edge as [|e r]; [contradiction|]. destruct vert as [|v w]; [destruct i; discriminate Hi|].
  replace (Nat.ltb (length node) 3) with false by (symmetry; apply Nat.ltb_ge; exact N). cbn [orb]. rewrite (map_nth_error _ i (v :: w) Hi). reflexivity.
Qed.
Lemma ray_clear M ftol node edge vert i q :
  finite_double ftol -> 0 <= val ftol <= bpow radix2 100 -> M <= bpow radix2 100 -> (3 <= length node)%nat ->
  (forall e, In e edge -> (fst e < length node)%nat /\ (snd e < length node)%nat) -> closed_edges edge -> Forall (atmost M) node ->
  nth_error vert i = Some q -> atmost M q ->
  (forall s, In s (segments node edge) -> rises (val ftol) s /\ ((RX (fst s) = RX (snd s) /\ RY (fst s) = RY (snd s)) \/ (long_edge s /\ far_of (ray_margin (val ftol) M s) q s))) ->
  exists b, odd_many (crossesR q) b (segments node edge) /\ nth_error (inpoly_ray_f ftol node edge vert) i = Some (b, false).
Proof.
  intros Ff Hf HM N V CL F Hi Hq HS. destruct edge as [|e0 r0] eqn:Ee.
  { exists false. split; [constructor|]. unfold inpoly_ray_f. cbn [orb]. apply map_nth_error with (f := fun _ : fpoint => (false, false)) in Hi. exact Hi. }
  rewrite <- Ee in *. assert (NE : edge <> []) by (rewrite Ee; discriminate). assert (NS : segments node edge <> []) by (rewrite Ee; discriminate).
  rewrite (ray_index ftol node edge vert i q N Hi NE). unfold rf_point. destruct (in_bbox_f ftol (segments node edge) q) eqn:IB.
  - destruct (ray_loop M ftol q (segments node edge) Ff Hf Hq HM) with (c := 0%nat) as (b & c' & O & E & P).
    { intros s I. destruct (seg_ends M node edge s V F I). split; [assumption|]. split; [assumption|]. apply HS, I. }
    exists b. split; [exact O|]. rewrite E, mod2, P. cbn. destruct b; reflexivity.
  - exists false. split; [|reflexivity]. apply beyond_even; [exact CL|]. apply (box_out M ftol q (segments node edge) NS Ff Hf Hq HM); [|exact IB]. intros s I. apply (seg_ends M node edge s V F I).
Qed.
Lemma rf_loop_hit ftol q segs s : In s segs -> rf_skip ftol q s = false -> rf_boundary ftol q s = true -> forall c, rf_loop ftol q segs c = None.
Proof.
  induction segs as [|x r IH]; intros I SK B c; [destruct I|]. cbn [rf_loop]. destruct I as [->|I]; [rewrite SK, B; reflexivity|].
  destruct (rf_skip ftol q x); [apply IH; assumption|]. destruct (rf_boundary ftol q x); [reflexivity|apply IH; assumption].
Qed.
Lemma ray_on_edge M ftol node edge vert i q s :
  finite_double ftol -> bpow radix2 (-48) * M <= val ftol <= bpow radix2 100 -> M <= bpow radix2 100 -> (3 <= length node)%nat ->
  (forall e, In e edge -> (fst e < length node)%nat /\ (snd e < length node)%nat) -> Forall (atmost M) node ->
  nth_error vert i = Some q -> atmost M q -> In s (segments node edge) -> long_edge s -> on_segmentR q s ->
  nth_error (inpoly_ray_f ftol node edge vert) i = Some (true, true).
Proof.
  intros Ff Hf HM N V F Hi Hq I LE O. assert (NE : edge <> []) by (intros E; rewrite E in I; destruct I). assert (NS : segments node edge <> []) by (intros E; rewrite E in I; destruct I).
  destruct (seg_ends M node edge s V F I) as [A B]. destruct s as [a b]. cbn [fst snd] in *. pose proof (edge_M0 a M A) as M0. pose proof (bpow_gt_0 radix2 (-48)).
  assert (Hf' : 0 <= val ftol <= bpow radix2 100) by (split; [apply Rle_trans with (bpow radix2 (-48) * M); [apply Rmult_le_pos; lra|lra]|lra]).
  rewrite (ray_index ftol node edge vert i q N Hi NE). unfold rf_point.
  assert (IB : in_bbox_f ftol (segments node edge) q = true).
  { destruct (in_bbox_f ftol (segments node edge) q) eqn:IB; [reflexivity|exfalso]. destruct (box_out M ftol q (segments node edge) NS Ff Hf' Hq HM) as [K|[K|[K|K]]]; try assumption; try (intros s Is; apply (seg_ends M node edge s V F Is));
    destruct (K (a, b) I) as [k1 k2]; cbn [fst snd] in k1, k2; destruct O as (t & Ht & EX & EY); unfold at_x, at_y in EX, EY; cbn [fst snd] in EX, EY; [pose proof (conv_gt _ _ _ t Ht k1 k2)|pose proof (conv_lt _ _ _ t Ht k1 k2)|pose proof (conv_gt _ _ _ t Ht k1 k2)|pose proof (conv_lt _ _ _ t Ht k1 k2)]; lra. }
  rewrite IB. rewrite (rf_loop_hit ftol q (segments node edge) (a, b)); [reflexivity|exact I| |].
  - destruct (rf_skip ftol q (a, b)) eqn:SK; [exfalso|reflexivity]. destruct O as (t & Ht & _ & EY). exact (ray_skip M ftol q a b Hq A B HM Ff Hf' SK t Ht EY).
  - apply (ray_on q a b M); try assumption. apply Hf.
Qed.
Lemma ray_reported M ftol node edge vert i q st :
  finite_double ftol -> 0 <= val ftol <= bpow radix2 100 -> M <= bpow radix2 100 ->
  (forall e, In e edge -> (fst e < length node)%nat /\ (snd e < length node)%nat) -> Forall (atmost M) node ->
  (forall s, In s (segments node edge) -> (RX (fst s) = RX (snd s) /\ RY (fst s) = RY (snd s)) \/ long_edge s) ->
  nth_error vert i = Some q -> atmost M q -> nth_error (inpoly_ray_f ftol node edge vert) i = Some (st, true) ->
  st = true /\ exists s, In s (segments node edge) /\ ~ far_of (ray_margin (val ftol) M s) q s.
Proof.
  intros Ff Hf HM V F HL Hi Hq E. unfold inpoly_ray_f in E. destruct (_ || _) in E; [rewrite (map_nth_error _ i vert Hi) in E; discriminate E|].
  rewrite (map_nth_error _ i vert Hi), segs_same in E. injection E as E. unfold rf_point in E. destruct (in_bbox_f _ _ _); [|discriminate E]. destruct (rf_loop ftol q (segments node edge) 0) eqn:L; [discriminate E|]. injection E as <-. split; [reflexivity|].
  assert (HS : forall s, In s (segments node edge) -> atmost M (fst s) /\ atmost M (snd s) /\ ((RX (fst s) = RX (snd s) /\ RY (fst s) = RY (snd s)) \/ long_edge s)).
  { intros s I. destruct (seg_ends M node edge s V F I). auto. }
  revert L HS. generalize 0%nat. generalize (segments node edge) as segs. clear V F HL. induction segs as [|s r IH]; intros c L HS; [discriminate L|]. cbn [rf_loop] in L.
  assert (REC : forall c1, rf_loop ftol q r c1 = None -> exists x, In x (s :: r) /\ ~ far_of (ray_margin (val ftol) M x) q x).
  { intros c1 K. destruct (IH c1 K (fun x Hx => HS x (or_intror Hx))) as (x & I & N). exists x. split; [right; exact I|exact N]. }
  destruct (rf_skip ftol q s); [apply (REC _ L)|]. destruct (rf_boundary ftol q s) eqn:B; [|apply (REC _ L)].
  exists s. split; [left; reflexivity|]. destruct (HS s (or_introl eq_refl)) as (A1 & A2 & LE). destruct s as [a b]. cbn [fst snd] in *. destruct LE as [[EX EY]|LE]; [rewrite (point_edge q a b M) in B by assumption; discriminate B|].
  destruct (ray_near q a b M ftol Hq A1 A2 HM Ff Hf LE B) as (t & Ht & K). intros C. specialize (C t Ht). lra.
Qed.
(** * Both kernels *)
Lemma om_fun {A} (P : A -> Prop) l : forall b b', odd_many P b l -> odd_many P b' l -> b = b'.
Proof.
  induction l as [|x l IH]; intros b b' H H'; inversion H; subst; inversion H'; subst; try reflexivity; try contradiction; [f_equal; apply IH; assumption|apply IH; assumption].
Qed.
Lemma dist_sum q s t : dist_at q s t <= Rabs (RX q - at_x s t) + Rabs (RY q - at_y s t).
Proof.
  unfold dist_at. set (x := RX q - at_x s t). set (y := RY q - at_y s t). pose proof (Rabs_pos x). pose proof (Rabs_pos y). apply sq_le; [lra|]. rewrite sqrt_sqrt by nra.
  assert (Rabs x * Rabs x = x * x) by (rewrite <- Rabs_mult; apply Rabs_pos_eq; nra). assert (Rabs y * Rabs y = y * y) by (rewrite <- Rabs_mult; apply Rabs_pos_eq; nra). nra.
Qed.
Lemma sum_dist q s t : Rabs (RX q - at_x s t) + Rabs (RY q - at_y s t) <= 2 * dist_at q s t.
Proof.
  unfold dist_at. set (x := RX q - at_x s t). set (y := RY q - at_y s t). set (d := sqrt (x * x + y * y)). assert (d0 : 0 <= d) by apply sqrt_pos. assert (E : d * d = x * x + y * y) by (apply sqrt_sqrt; nra).
  assert (Rabs x <= d) by (apply sq_le_abs; nra). assert (Rabs y <= d) by (apply sq_le_abs; nra). lra.
Qed.
Lemma both_agree M ftol node edge vert i q :
  finite_double ftol -> 0 <= val ftol <= bpow radix2 100 -> M <= bpow radix2 100 -> (3 <= length node)%nat ->
  (forall e, In e edge -> (fst e < length node)%nat /\ (snd e < length node)%nat) -> closed_edges edge -> Forall (atmost M) node ->
  nth_error vert i = Some q -> atmost M q ->
  (forall s, In s (segments node edge) -> rises (val ftol) s /\ long_edge s /\ far_of (ray_margin (val ftol) M s) q s) ->
  nth_error (inpoly_ray_f ftol node edge vert) i = nth_error (inpoly_fast_f ftol node edge vert) i.
Proof.
  intros Ff Hf HM N V CL F Hi Hq HS. pose proof (bpow_le radix2 100 500 ltac:(lia)) as P.
  destruct (ray_clear M ftol node edge vert i q) as (b & O & E); try assumption. { intros s I. destruct (HS s I) as (A & B & C). auto. }
  destruct (fast_clear M ftol node edge vert i q) as (b' & O' & E'); try assumption; try lra.
  - intros s I. destruct (HS s I) as (RI & LE & FA). destruct (seg_ends M node edge s V F I) as [A B]. split.
    + destruct RI as [K|[_ K]]; [left; exact K|right; eapply Rle_trans; [|exact K]; apply bpow_le; lia].
    + intros t Ht. specialize (FA t Ht). eapply Rle_lt_trans; [|eapply Rlt_le_trans; [exact FA|apply dist_sum]].
      destruct s as [a c]. cbn [fst snd] in *. unfold long_edge, length_of in LE. cbn [fst snd] in LE. destruct A as (_ & A3 & A4), B as (_ & B3 & B4).
      pose proof (core_M (RX a) (RY a) (RX c) (RY c) M A3 A4 B3 B4 LE) as [LM M0]. unfold margin, ray_margin, length_of. cbn [fst snd]. set (l := sqrt _) in *. pose proof (bpow_gt_0 radix2 (-100)).
      assert (0 <= val ftol / l) by (apply Rmult_le_pos; [lra|left; apply Rinv_0_lt_compat; lra]). rewrite bp48, bp46. pose proof u_tiny as U.
      assert (S : bpow radix2 (-1070) <= u * M).
      { assert (bpow radix2 (-102) <= M). { assert (bpow radix2 (-100) = 4 * bpow radix2 (-102)) by (change (-100)%Z with (2 + -102)%Z; rewrite bpow_plus; reflexivity). pose proof (bpow_gt_0 radix2 (-102)). lra. }
        apply Rle_trans with (u * bpow radix2 (-102)); [rewrite <- bp_u; apply bpow_le; lia|apply Rmult_le_compat_l; lra]. }
      assert (0 <= u * val ftol) by nra. assert (0 <= u * (val ftol / l)) by nra. assert (0 <= u * M) by nra. lra.
  - rewrite E, E'. f_equal. f_equal. exact (om_fun _ _ _ _ O O').
Qed.
Lemma ray_length ftol node edge vert : length (inpoly_ray_f ftol node edge vert) = length vert.
Proof. unfold inpoly_ray_f. destruct (_ || _); apply map_length. Qed.
(** * Cases *)
Lemma ring3_closed : closed_edges ring3.
Proof.
  intros v. rewrite (P_Inpoly.om_par (eq v) (Nat.eqb v)) by (intros; apply Nat.eqb_eq). cbn. destruct v as [|[|[|v]]]; reflexivity.
Qed.
Lemma big_100 : 1000000 <= bpow radix2 100.
Proof. apply Rle_trans with (bpow radix2 20); [cbn; lra|apply bpow_le; lia]. Qed.
Lemma far_clear d q s : clear_of (2 * d) q s -> far_of d q s.
Proof. intros C t Ht. specialize (C t Ht). pose proof (sum_dist q s t). lra. Qed.
Lemma ray_margin_small M f s : 0 <= M <= 1000 -> 0 <= f <= / 1000000000000 -> 1 <= length_of s -> ray_margin f M s < / 8.
Proof.
  intros HM Hf HL. unfold ray_margin. rewrite bp46. pose proof u_tiny as U. set (l := length_of s) in *. assert (f / l <= f). { apply Rmult_le_reg_r with l; [lra|]. unfold Rdiv. rewrite Rmult_assoc, Rinv_l by lra. nra. }
  assert (0 <= f / l) by (apply Rmult_le_pos; [lra|left; apply Rinv_0_lt_compat; lra]).
  assert (128 * u * M <= 128 * / 1000000000000000 * 1000) by (apply Rmult_le_compat; lra). nra.
Qed.
Lemma length_ge s d : 0 <= d -> d <= Rabs (RX (snd s) - RX (fst s)) \/ d <= Rabs (RY (snd s) - RY (fst s)) -> d <= length_of s.
Proof.
  intros D H. unfold length_of. set (x := RX (snd s) - RX (fst s)) in *. set (y := RY (snd s) - RY (fst s)) in *. apply sq_le; [apply sqrt_pos|]. rewrite sqrt_sqrt by nra.
  assert (Rabs x * Rabs x = x * x) by (rewrite <- Rabs_mult; apply Rabs_pos_eq; nra). assert (Rabs y * Rabs y = y * y) by (rewrite <- Rabs_mult; apply Rabs_pos_eq; nra). destruct H; nra.
Qed.
Lemma one_pow : bpow radix2 (-100) <= 1. Proof. apply (bpow_le radix2 (-100) 0). lia. Qed.
Lemma tri_long s : In s (segments tri ring3) -> 1 <= length_of s.
Proof.
  intros [<-|[<-|[<-|[]]]]; apply length_ge; try lra; cbn [fst snd nth tri]; unfold RX, RY; cbn [fst snd]; rewrite ?zero_val, ?four_val.
  - left. rewrite Rabs_pos_eq; lra.
  - right. rewrite Rabs_pos_eq; lra.
  - right. rewrite Rabs_left; lra.
Qed.
Lemma tri_rises s : In s (segments tri ring3) -> rises (val c_ftol) s.
Proof.
  assert (B : bpow radix2 (-100) <= 4) by (pose proof one_pow; lra). pose proof ftol_val as FV. assert (E50 : bpow radix2 (-50) = 8 * u) by (unfold u; cbn; lra). pose proof u_tiny as U. assert (K : val c_ftol * (1 + bpow radix2 (-50)) < 4) by (rewrite E50; nra).
  intros [<-|[<-|[<-|[]]]]; cbn [fst snd nth tri]; unfold rises, RX, RY; cbn [fst snd]; rewrite ?zero_val, ?four_val; [left; reflexivity| |]; right.
  - rewrite Rabs_pos_eq by lra. replace (4 - 0) with 4 by ring. auto.
  - rewrite Rabs_left by lra. replace (- (0 - 4)) with 4 by ring. auto.
Qed.
Lemma tri_ray : finite_double c_ftol /\ 0 <= val c_ftol <= bpow radix2 100 /\ 4 <= bpow radix2 100 /\ (3 <= length tri)%nat /\
  (forall e, In e ring3 -> (fst e < length tri)%nat /\ (snd e < length tri)%nat) /\ closed_edges ring3 /\ Forall (atmost 4) tri /\ atmost 4 (f_one, f_one) /\
  (forall s, In s (segments tri ring3) -> rises (val c_ftol) s /\ long_edge s /\ far_of (ray_margin (val c_ftol) 4 s) (f_one, f_one) s) /\
  inpoly_ray_f c_ftol tri ring3 [(f_one, f_one); (c_four, c_four)] = [(true, false); (false, false)].
Proof.
  pose proof big_100. pose proof ftol_val. split; [split; reflexivity|]. split; [lra|]. split; [lra|]. split; [cbn; lia|].
  split. { intros e [<-|[<-|[<-|[]]]]; cbn; lia. } split; [apply ring3_closed|]. split; [apply tri_atmost|]. split.
  { split; [split; apply one_fin|]. unfold RX, RY. cbn [fst snd]. rewrite one_val, Rabs_pos_eq; lra. }
  split; [|vm_compute; reflexivity]. intros s I. split; [apply tri_rises, I|]. split; [unfold long_edge; pose proof (tri_long s I); pose proof one_pow; lra|].
  apply far_mono with (/ 8); [left; apply ray_margin_small; [lra|exact ftol_val|apply tri_long, I]|]. apply far_clear.
  destruct I as [<-|[<-|[<-|[]]]]; intros t Ht; cbn [fst snd nth tri]; unfold at_x, at_y, RX, RY; cbn [fst snd]; rewrite ?zero_val, ?four_val, ?one_val;
  match goal with |- _ < Rabs ?a + Rabs ?b => pose proof (abs_ge a); pose proof (abs_ge' a); pose proof (abs_ge b); pose proof (abs_ge' b); pose proof (Rabs_pos a); pose proof (Rabs_pos b); lra end.
Qed.
Lemma tri_on : finite_double c_half /\ bpow radix2 (-48) * 4 <= val c_half <= bpow radix2 100 /\ atmost 4 (c_two, c_two) /\
  on_segmentR (c_two, c_two) ((c_four, f_zero), (f_zero, c_four)) /\ In ((c_four, f_zero), (f_zero, c_four)) (segments tri ring3) /\ long_edge ((c_four, f_zero), (f_zero, c_four)).
Proof.
  pose proof big_100. pose proof u_tiny. destruct mid_case as (_ & _ & A & B & C & _). split; [split; reflexivity|]. split; [rewrite half_val, bp48; lra|]. split; [exact A|]. split; [exact B|]. split; [exact C|]. unfold long_edge. pose proof (tri_long _ C). pose proof one_pow. lra.
Qed.
(** An edge that rises by 2^-45, less than the default tolerance: it is not counted, and a query far outside is reported inside. *)
Definition c_rise : spec_float := S754_finite false 4503599627370496 (-97).
Lemma rise_val : 0 < val c_rise <= / 1000000. Proof. unfold val, SF2R, F2R. cbn. lra. Qed.
Definition ring4 : list (nat * nat) := [(0, 1); (1, 2); (2, 3); (3, 0)]%nat.
Lemma ring4_closed : closed_edges ring4.
Proof.
  intros v. rewrite (P_Inpoly.om_par (eq v) (Nat.eqb v)) by (intros; apply Nat.eqb_eq). cbn. destruct v as [|[|[|[|v]]]]; reflexivity.
Qed.
Definition low4 : list fpoint := [(f_zero, f_zero); (f_one, c_rise); (c_half, f_one); (SFopp c_two, f_one)].
Lemma minus_two_val : val (SFopp c_two) = - 2. Proof. unfold val, SF2R, F2R. cbn. lra. Qed.
Ltac l1_bound := match goal with |- _ < Rabs ?a + Rabs ?b => pose proof (abs_ge a); pose proof (abs_ge' a); pose proof (abs_ge b); pose proof (abs_ge' b); pose proof (Rabs_pos a); pose proof (Rabs_pos b); lra end.
Lemma low_wrong : let q := (SFopp f_one, f_zero) in
  Forall (atmost 2) low4 /\ atmost 2 q /\ closed_edges ring4 /\ (forall s, In s (segments low4 ring4) -> far_of (/ 5) q s /\ / 2 <= length_of s) /\
  odd_many (crossesR q) false (segments low4 ring4) /\ inpoly_ray_f c_ftol low4 ring4 [q] = [(true, false)] /\ inpoly_fast_f c_ftol low4 ring4 [q] = [(false, false)].
Proof.
  pose proof rise_val as MV. cbv zeta. split; [|split; [|split; [|split; [|split]]]].
  - unfold low4. constructor; [|constructor; [|constructor; [|constructor; [|constructor]]]]; (split; [split; split; reflexivity|]); unfold RX, RY; cbn [fst snd]; rewrite ?zero_val, ?one_val, ?half_val, ?minus_two_val; split; apply Rabs_le; lra.
  - split; [split; split; reflexivity|]. unfold RX, RY. cbn [fst snd]. rewrite zero_val, minus_one_val. rewrite Rabs_R0, Rabs_left; lra.
  - apply ring4_closed.
  - intros s I. split.
    + apply far_clear. intros t Ht. destruct I as [<-|[<-|[<-|[<-|[]]]]]; cbn [fst snd nth low4]; unfold at_x, at_y, RX, RY; cbn [fst snd]; rewrite ?zero_val, ?one_val, ?half_val, ?minus_one_val, ?minus_two_val; l1_bound.
    + apply length_ge; [lra|]. destruct I as [<-|[<-|[<-|[<-|[]]]]]; cbn [fst snd nth low4]; unfold RX, RY; cbn [fst snd]; rewrite ?zero_val, ?one_val, ?half_val, ?minus_two_val.
      * left. rewrite Rabs_pos_eq; lra.
      * right. rewrite Rabs_pos_eq; lra.
      * left. rewrite Rabs_left; lra.
      * right. rewrite Rabs_left; lra.
  - unfold segments, ring4, low4. cbn [map nth fst snd]. change false with (negb true). apply om_yes; [|apply om_no; [|apply om_no; [|change true with (negb false); apply om_yes; [|apply om_nil]]]].
    + split; unfold RX, RY; cbn [fst snd]; [left; rewrite zero_val; lra|]. exists 0. unfold at_x, at_y, RX, RY. cbn [fst snd]. rewrite minus_one_val, zero_val. lra.
    + intros [[H|H] _]; unfold RY in H; cbn [fst snd] in H; rewrite zero_val, one_val in H; lra.
    + intros [[H|H] _]; unfold RY in H; cbn [fst snd] in H; rewrite zero_val, one_val in H; lra.
    + split; unfold RX, RY; cbn [fst snd]; [right; rewrite zero_val, one_val; lra|]. exists 1. unfold at_x, at_y, RX, RY. cbn [fst snd]. rewrite minus_one_val, minus_two_val, zero_val, one_val. lra.
  - split; vm_compute; reflexivity.
Qed.
(** An edge of length 2^-40: a query at distance 1/32 from the polygon is reported on its boundary. *)
Definition c_40 : spec_float := S754_finite false 4503599627370496 (-92).
Definition c_32 : spec_float := S754_finite true 4503599627370496 (-57).
Lemma c40_val : 0 < val c_40 <= / 1000000. Proof. unfold val, SF2R, F2R. cbn. lra. Qed.
Lemma c32_val : val c_32 = - / 32. Proof. unfold val, SF2R, F2R. cbn. lra. Qed.
Definition short4 : list fpoint := [(f_zero, f_zero); (c_40, f_zero); (f_zero, f_one); (SFopp f_one, f_one)].
Lemma short_wrong : let q := (c_32, f_zero) in
  Forall (atmost 1) short4 /\ atmost 1 q /\ closed_edges ring4 /\ (forall s, In s (segments short4 ring4) -> far_of (/ 65) q s /\ long_edge s /\ rises (val c_ftol) s) /\
  odd_many (crossesR q) false (segments short4 ring4) /\ inpoly_ray_f c_ftol short4 ring4 [q] = [(true, true)] /\ inpoly_fast_f c_ftol short4 ring4 [q] = [(false, false)].
Proof.
  pose proof c40_val as MV. cbv zeta. split; [|split; [|split; [|split; [|split]]]].
  - unfold short4. constructor; [|constructor; [|constructor; [|constructor; [|constructor]]]]; (split; [split; split; reflexivity|]); unfold RX, RY; cbn [fst snd]; rewrite ?zero_val, ?one_val, ?minus_one_val; split; apply Rabs_le; lra.
  - split; [split; split; reflexivity|]. unfold RX, RY. cbn [fst snd]. rewrite zero_val, c32_val. rewrite Rabs_R0, Rabs_left; lra.
  - apply ring4_closed.
  - intros s I. pose proof one_pow as OP. pose proof ftol_val as FV. assert (E50 : bpow radix2 (-50) = 8 * u) by (unfold u; cbn; lra). pose proof u_tiny as U. assert (K : val c_ftol * (1 + bpow radix2 (-50)) < 1) by (rewrite E50; nra). split; [|split].
    + apply far_clear. intros t Ht. destruct I as [<-|[<-|[<-|[<-|[]]]]]; cbn [fst snd nth short4]; unfold at_x, at_y, RX, RY; cbn [fst snd]; rewrite ?zero_val, ?one_val, ?c32_val, ?minus_one_val.
      * assert (0 <= t * (val c_40 - 0)) by (apply Rmult_le_pos; lra). l1_bound.
      * assert (0 <= (1 - t) * val c_40) by (apply Rmult_le_pos; lra). l1_bound.
      * l1_bound.
      * l1_bound.
    + unfold long_edge. apply length_ge; [apply bpow_ge_0|]. destruct I as [<-|[<-|[<-|[<-|[]]]]]; cbn [fst snd nth short4]; unfold RX, RY; cbn [fst snd]; rewrite ?zero_val, ?one_val, ?minus_one_val.
      * left. rewrite Rabs_pos_eq by lra. rewrite Rminus_0_r. replace (val c_40) with (bpow radix2 (-40)) by (unfold val, SF2R, F2R; cbn; lra). apply bpow_le. lia.
      * right. rewrite Rabs_pos_eq; lra.
      * left. rewrite Rabs_left; lra.
      * right. rewrite Rabs_left; lra.
    + destruct I as [<-|[<-|[<-|[<-|[]]]]]; cbn [fst snd nth short4]; unfold rises, RX, RY; cbn [fst snd]; rewrite ?zero_val, ?one_val; try (left; reflexivity); right.
      * rewrite Rabs_pos_eq by lra. lra.
      * rewrite Rabs_left by lra. lra.
  - unfold segments, ring4, short4. cbn [map nth fst snd]. change false with (negb true). apply om_no; [|apply om_yes; [|apply om_no; [|change true with (negb false); apply om_yes; [|apply om_nil]]]].
    + intros [[H|H] _]; unfold RY in H; cbn [fst snd] in H; rewrite zero_val in H; lra.
    + split; unfold RX, RY; cbn [fst snd]; [left; rewrite zero_val, one_val; lra|]. exists 0. unfold at_x, at_y, RX, RY. cbn [fst snd]. rewrite c32_val, zero_val. lra.
    + intros [[H|H] _]; unfold RY in H; cbn [fst snd] in H; rewrite zero_val, one_val in H; lra.
    + split; unfold RX, RY; cbn [fst snd]; [right; rewrite zero_val, one_val; lra|]. exists 1. unfold at_x, at_y, RX, RY. cbn [fst snd]. rewrite c32_val, minus_one_val, zero_val, one_val. lra.
  - split; vm_compute; reflexivity.
Qed.
(** A triangle in metres and a point exactly at 39/41 of its first edge. *)
Definition met3 : list fpoint := [(S754_finite true 5344468632095944 (-33), S754_finite true 7189875304118072 (-35));
  (S754_finite false 8263013363639666 (-34), S754_finite false 5734656029837336 (-35)); (S754_finite true 5344468632095944 (-33), S754_finite false 5734656029837336 (-35))].
Definition metq : fpoint := (S754_finite false 7338527967160078 (-34), S754_finite false 5104191086717560 (-35)).
Lemma met_wrong : Forall (atmost 700000) met3 /\ atmost 700000 metq /\
  (exists s, In s (segments met3 ring3) /\ on_segmentR metq s /\ long_edge s) /\ exists b, inpoly_ray_f c_ftol met3 ring3 [metq] = [(b, false)].
Proof.
  split; [|split; [|split]].
  - assert (K : forall p, finite_point p -> -700000 <= RX p <= 700000 -> -700000 <= RY p <= 700000 -> atmost 700000 p) by (intros p F X Y; split; [exact F|split; apply Rabs_le; lra]).
    unfold met3. constructor; [|constructor; [|constructor; [|constructor]]]; (apply K; [split; split; reflexivity| |]); unfold RX, RY, val, SF2R, F2R; cbn; lra.
  - split; [split; split; reflexivity|]. unfold metq, RX, RY, val, SF2R, F2R. cbn. split; apply Rabs_le; lra.
  - eexists. split; [left; reflexivity|]. split.
    + exists (39 / 41). split; [lra|]. unfold metq, at_x, at_y, RX, RY, val, SF2R, F2R. cbn. split; lra.
    + unfold long_edge. apply length_ge; [apply bpow_ge_0|]. left. pose proof one_pow. unfold RX, val, SF2R, F2R. cbn. rewrite Rabs_pos_eq; lra.
  - eexists. vm_compute. reflexivity.
Qed.
(** One vertical edge alone: to its left the ray crosses one edge, but the box excludes the query. *)
Lemma open_wrong : let q := (SFopp f_one, f_one) in let e := [(2, 0)]%nat in
  Forall (atmost 4) tri /\ atmost 4 q /\ (forall s, In s (segments tri e) -> rises (val c_ftol) s /\ long_edge s /\ far_of (ray_margin (val c_ftol) 4 s) q s) /\
  odd_many (crossesR q) true (segments tri e) /\ inpoly_ray_f c_ftol tri e [q] = [(false, false)] /\ inpoly_fast_f c_ftol tri e [q] = [(true, false)].
Proof.
  cbv zeta. assert (IN : In ((f_zero, c_four), (f_zero, f_zero)) (segments tri ring3)) by (right; right; left; reflexivity).
  split; [apply tri_atmost|]. split; [|split; [|split]].
  - split; [split; split; reflexivity|]. unfold RX, RY. cbn [fst snd]. rewrite one_val, minus_one_val. rewrite Rabs_left, Rabs_pos_eq; lra.
  - intros s [<-|[]]. cbn [nth tri fst snd]. split; [apply tri_rises, IN|]. split; [unfold long_edge; pose proof (tri_long _ IN); pose proof one_pow; lra|].
    apply far_mono with (/ 8); [left; apply ray_margin_small; [lra|exact ftol_val|apply tri_long, IN]|]. apply far_clear. intros t Ht. unfold at_x, at_y, RX, RY. cbn [fst snd]. rewrite ?zero_val, ?four_val, ?one_val, ?minus_one_val. l1_bound.
  - unfold segments. cbn [map nth fst snd tri]. change true with (negb false). apply om_yes; [|apply om_nil]. split; unfold RX, RY; cbn [fst snd]; [right; rewrite zero_val, four_val, one_val; lra|].
    exists (3 / 4). unfold at_x, at_y, RX, RY. cbn [fst snd]. rewrite minus_one_val, four_val, zero_val, one_val. lra.
  - split; vm_compute; reflexivity.
Qed.
Lemma kernels_differ :
  (let q := (SFopp f_one, f_zero) in inpoly_ray_f c_ftol low4 ring4 [q] <> inpoly_fast_f c_ftol low4 ring4 [q] /\ (forall s, In s (segments low4 ring4) -> far_of (/ 5) q s)) /\
  (let q := (c_32, f_zero) in inpoly_ray_f c_ftol short4 ring4 [q] <> inpoly_fast_f c_ftol short4 ring4 [q] /\ (forall s, In s (segments short4 ring4) -> far_of (/ 65) q s)).
Proof.
  cbv zeta. destruct low_wrong as (_ & _ & _ & A1 & _ & A2 & A3). destruct short_wrong as (_ & _ & _ & B1 & _ & B2 & B3). rewrite A2, A3, B2, B3.
  split; (split; [discriminate|]); intros s I; [apply A1, I|apply B1, I].
Qed.
