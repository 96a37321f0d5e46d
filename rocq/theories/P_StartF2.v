(** The default start and the fixed points, on doubles. *)
From Coq Require Import List Arith Bool ZArith Lia Reals Lra SpecFloat.
From Flocq Require Import Core IEEE754.BinarySingleNaN.
From Verif Require Import M_Base M_Edges M_FixMesh M_LapF M_QualF M_Ieee M_ForceF M_ProjF M_GenF M_StartF S_FixMesh S_Double S_Ieee S_LapF S_ForceF S_GenF S_StartF P_Double P_LimitF P_Ieee2 P_Ieee3 P_ForceF P_ForceF2 P_ProjF P_GenF P_GenF2 P_StartF.
Import ListNotations.
Open Scope R_scope.

Lemma start_prefix h geps x0 x1 y0 y1 fh fd pfix rand p : generate_initial_points_f h geps x0 x1 y0 y1 fh fd pfix rand = Ok p -> exists p2, p = pfix ++ p2.
Proof.
  unfold generate_initial_points_f. intros E. destruct (mgrid1_f x0 x1 h) as [xs| |]; cbn [bind] in E; try discriminate. destruct (mgrid1_f y0 y1 h) as [ys| |]; cbn [bind] in E; try discriminate.
  destruct (fh (lattice_f xs ys)) as [r0| |]; cbn [bind] in E; try discriminate. destruct (smallest_f h r0) as [m| |]; cbn [bind] in E; try discriminate. destruct (negb (length rand =? length r0)%nat); [discriminate|].
  destruct (M_Generate.bool_index _ _) as [p1| |]; cbn [bind] in E; try discriminate. injection E as <-. eexists. reflexivity.
Qed.
Lemma start_present pfix p2 x : In x pfix -> present (pfix ++ p2) x.
Proof.
  intros H. destruct (In_nth pfix x nan2 H) as (i & Hi & E). exists i. split; [rewrite app_length; lia|]. unfold pt. rewrite app_nth1 by exact Hi. rewrite E. apply same_refl.
Qed.
Theorem start_fixed tr locked fh geps deps dt mult pfix x0 xN y0 yN kleb h rand : total_order kleb -> finite_double geps -> 0 <= val geps ->
  forall M e, M <= bpow radix2 440 -> within_size M (x0, y0) /\ within_size M (xN, yN) ->
  forall n p p' t', keeps_places tr -> finite_double dt -> Forall moderate pfix -> distinguishable pfix -> (forall x, In x pfix -> val x0 <= val (fst x) <= val xN /\ val y0 <= val (snd x) <= val yN) ->
  generate_initial_points_f h geps x0 xN y0 yN fh (fun q => bbox_f x0 xN y0 yN (fst q) (snd q)) pfix rand = Ok p ->
  generate_mesh_f tr locked (fun q => bbox_f x0 xN y0 yN (fst q) (snd q)) fh geps deps dt mult pfix kleb n p = Ok (p', t') ->
  exists q pd td p1, tr (n - 1)%nat q = Ok (pd, td) /\ length p1 = length pd /\ (forall j, nth j p1 nan2 = nth j pd nan2 \/ In (nth j p1 nan2) pfix) /\
    forall x, In x pfix -> exists i, (i < length p1)%nat /\ same_place x (pt p1 i) /\
      (Forall (within_size M) p1 -> extent_atmost p1 e -> extent_atleast p1 (bpow radix2 (-340)) ->
       forall t, In t td -> In i (corners t) -> box_depth (val x0) (val xN) (val y0) (val yN) (corner3 p1 t) < - (1 + 2 * u) * val geps - 2 * centroid_error M ->
       exists j, (j < length p')%nat /\ Rabs (val (fst (pt p' j)) - val (fst x)) <= merge_error e M /\ Rabs (val (snd (pt p' j)) - val (snd x)) <= merge_error e M).
Proof.
  intros K FG PG M e HM HB n p p' t' Tr Dt Mf Df In_f ES E. destruct (start_prefix _ _ _ _ _ _ _ _ _ _ _ ES) as [p2 ->].
  exact (box_fixed tr locked fh geps deps dt mult pfix x0 xN y0 yN kleb K FG PG M e HM HB n (pfix ++ p2) p' t' Tr Dt Mf Df In_f (fun x Hx => start_present pfix p2 x Hx) E).
Qed.
Definition s_tiny : spec_float := S754_finite false 4503599627370496 (-652).
Lemma tiny_rejected : exists m, finite_double m /\ 0 < val m /\ accepted_f m (f_0, m) = false.
Proof. exists s_tiny. split; [split; reflexivity|]. split; [unfold val, s_tiny, SF2R, F2R; cbn [Fnum Fexp cond_Zopp]; apply Rmult_lt_0_compat; [lra|apply bpow_gt_0]|vm_compute; reflexivity]. Qed.
(** Start and two iterations in the unit square, step 1, with opposite corners fixed. *)
Definition s_start : res (list fpt) := generate_initial_points_f g_1 g_eps f_0 g_1 f_0 g_1 g_fh unit_box [(f_0, f_0); (g_1, g_1)] [f_0; f_0; f_0; f_0].
Definition s_t : list tri := [(0, 4, 3); (4, 1, 3)]%nat.
Lemma s_case : keeps_places (same_points s_t) /\ s_start = Ok [(f_0, f_0); (g_1, g_1); (f_0, f_0); (f_0, g_1); (g_1, f_0); (g_1, g_1)] /\
  generate_mesh_f (same_points s_t) no_lock unit_box g_fh g_eps deps_f g_02 L0mult_f [(f_0, f_0); (g_1, g_1)] zedge_leb 2 [(f_0, f_0); (g_1, g_1); (f_0, f_0); (f_0, g_1); (g_1, f_0); (g_1, g_1)] =
    Ok ([(f_0, f_0); (g_1, g_1); (g_1, g_low); (g_low, g_1)], [(0, 2, 3); (2, 1, 3)]%nat).
Proof. split; [apply same_keeps|]. split; vm_compute; reflexivity. Qed.

(** * A box whose sides are exchanged *)
Local Notation bp := (bpow radix2).
Lemma quotient_back M lo hi h : good_axis M hi lo h -> let q := fdiv (fsub (fadd hi h) lo) h in finite_double q /\ Rabs (val q * val h - (val hi + val h - val lo)) <= 10 * u * M.
Proof.
  intros G q. destruct (axis_facts M hi lo h G) as (Hh & HM & T & T1 & UM & B & R). destruct G as (F2 & F1 & F3 & L2 & L1 & L3 & [L4 L4'] & L5 & L6). pose proof u_bounds as U. assert (U0 : 0 < u * M) by (apply Rmult_lt_0_compat; lra).
  assert (U1 : u * M <= M / 1000000) by (replace (M / 1000000) with (/ 1000000 * M) by field; apply Rmult_le_compat_r; lra).
  apply Rabs_le_inv in L1, L2.
  destruct (add_ok hi h F2 F3) as [Fs Vs]; [apply Rabs_le; lra|]. pose proof (err_in (val hi + val h) (2 * M) M) as E1. specialize (E1 ltac:(apply Rabs_le; lra) T). rewrite <- Vs in E1. apply Rabs_le_inv in E1. set (s := fadd hi h) in *.
  destruct (sub_ok s lo Fs F1) as [Fd Vd]; [apply Rabs_le; lra|]. pose proof (err_in (val s - val lo) (31 / 10 * M) M) as E2. specialize (E2 ltac:(apply Rabs_le; lra) T). rewrite <- Vd in E2. apply Rabs_le_inv in E2. set (d := fsub s lo) in *.
  assert (Dh : Rabs (val d / val h) <= 5 * 2 ^ 40). { unfold Rdiv. rewrite Rabs_mult, (Rabs_pos_eq (/ val h)) by (left; apply Rinv_0_lt_compat, Hh). apply Rle_trans with (5 * M * / val h); [apply Rmult_le_compat_r; [left; apply Rinv_0_lt_compat, Hh|apply Rabs_le; lra]|]. unfold Rdiv in R. lra. }
  assert (Bq : 5 * 2 ^ 40 <= big). { apply Rle_trans with (bp 43); [rewrite two_pow; change (bp 43) with 8796093022208; change (bp (Z.of_nat 40)) with 1099511627776; lra|apply bpow_le; lia]. }
  destruct (div_ok d h Fd F3) as [Fq Vq]; [lra|lra|]. split; [exact Fq|]. fold q in Vq. rewrite Vq. pose proof (rnd_err (val d / val h)) as E3.
  assert (E3h : Rabs ((rnd (val d / val h) - val d / val h) * val h) <= u * (33 / 10 * M) + u * (M / 1000)).
  { rewrite Rabs_mult, (Rabs_pos_eq (val h)) by lra. apply Rle_trans with ((u * Rabs (val d / val h) + bp (-1075)) * val h); [apply Rmult_le_compat_r; lra|]. rewrite Rmult_plus_distr_r.
    apply Rplus_le_compat.
    - rewrite Rmult_assoc. apply Rmult_le_compat_l; [lra|]. unfold Rdiv. rewrite Rabs_mult, (Rabs_pos_eq (/ val h)) by (left; apply Rinv_0_lt_compat, Hh). rewrite Rmult_assoc, Rinv_l, Rmult_1_r by lra. apply Rabs_le. lra.
    - apply Rle_trans with (bp (-1075) * M); [apply Rmult_le_compat_l; [apply bpow_ge_0|lra]|]. replace (u * (M / 1000)) with (u / 1000 * M) by field. apply Rmult_le_compat_r; [lra|]. apply Rle_trans with (bp (-53) * bp (-10)); [rewrite <- bpow_plus; apply bpow_le; lia|]. unfold u, Rdiv. apply Rmult_le_compat_l; [apply bpow_ge_0|]. change (bp (-10)) with (/ 1024). lra. }
  rewrite Rmult_minus_distr_r in E3h. replace (val d / val h * val h) with (val d) in E3h by (field; lra). apply Rabs_le_inv in E3h. apply Rabs_le. lra.
Qed.
Theorem exchanged_rejected M lo hi h : good_axis M hi lo h -> val hi + 2 * val h + axis_error M < val lo -> mgrid1_f lo hi h = Raise ValueError.
Proof.
  intros G H. destruct (quotient_back M lo hi h G) as [Fq Eq]. destruct (axis_facts M hi lo h G) as (Hh & HM & _). unfold mgrid1_f. set (q := fdiv (fsub (fadd hi h) lo) h) in *. destruct (ceil_ok q Fq) as (n & En & N1 & N2). rewrite En. cbn [bind].
  pose proof u_bounds as U. assert (U0 : 0 < u * M) by (apply Rmult_lt_0_compat; lra). unfold axis_error in H. apply Rabs_le_inv in Eq.
  assert (Q : val q < - (1)). { apply Rmult_lt_reg_r with (val h); [exact Hh|]. lra. }
  destruct (Z.ltb_spec n 0) as [C|C]; [reflexivity|]. apply IZR_le in C. lra.
Qed.
Lemma exchanged_case : good_axis 8 f_0 (S754_finite false 4503599627370496 (-50)) g_1 /\ val f_0 + 2 * val g_1 + axis_error 8 < val (S754_finite false 4503599627370496 (-50)).
Proof.
  assert (V4 : val (S754_finite false 4503599627370496 (-50)) = 4) by (unfold val, SF2R, F2R; cbn; lra). assert (V1 : val g_1 = 1) by (unfold val, g_1, SF2R, F2R; cbn; lra). change (val f_0) with 0.
  pose proof tiny_900 as [T1 T2]. pose proof u_bounds as U. unfold axis_error. rewrite V4, V1. split; [|lra].
  split; [split; reflexivity|]. split; [split; reflexivity|]. split; [split; reflexivity|]. rewrite V4, V1. change (val f_0) with 0. rewrite Rabs_R0, Rabs_pos_eq by lra. repeat split; lra.
Qed.
