(** Exact values of doubles as rationals, and the witnesses. *)
From Coq Require Import List Arith ZArith QArith Reals Qreals Lra Lia SpecFloat.
From Flocq Require Import Core IEEE754.BinarySingleNaN.
From Verif Require Import M_Base M_Numpy M_Edges M_FixMesh S_FixMesh M_Ieee S_Double S_Ieee P_Double P_Ieee P_Ieee2 P_Ieee3 P_FixMesh P_Ieee4 P_Ieee5.
Import ListNotations.
Open Scope R_scope.

Lemma Q2R_val x : is_finite_SF x = true -> Q2R (Qval x) = val x.
Proof.
  destruct x as [s|s| |s m e]; try discriminate; intros _; [unfold Q2R; cbn; lra|].
  unfold val, SF2R, F2R. cbn [Fnum Fexp Qval]. replace (cond_Zopp s (Z.pos m)) with (if s then Z.neg m else Z.pos m) by (destruct s; reflexivity).
  set (z := if s then Z.neg m else Z.pos m). destruct e as [|p|p]; cbv zeta.
  - unfold Q2R. cbn. lra.
  - unfold Q2R. cbn [Qnum Qden inject_Z]. rewrite mult_IZR. rewrite Rinv_1, Rmult_1_r. reflexivity.
  - unfold Q2R. cbn [Qnum Qden]. f_equal. rewrite Pos2Z.inj_pow. change (Z.neg p) with (- Z.pos p)%Z. rewrite bpow_opp. f_equal.
Qed.
Lemma Q2R_area a b c : finite_point a -> finite_point b -> finite_point c -> Q2R (Qarea2 a b c) = Rarea2 a b c.
Proof.
  intros [[_ A1] [_ A2]] [[_ B1] [_ B2]] [[_ C1] [_ C2]]. unfold Qarea2, Rarea2. rewrite !Q2R_minus, !Q2R_mult, !Q2R_minus, !Q2R_val by auto. reflexivity.
Qed.
Lemma wpts_finite : Forall finite_point wpts.
Proof. repeat constructor. Qed.
Lemma misoriented : exists p, Forall finite_point p /\ Rarea2 (nth 0 p nan2) (nth 1 p nan2) (nth 2 p nan2) <> 0 /\ forall kleb du, total_order kleb ->
  exists p' a b c jx, fix_mesh_f kleb f2em13 p [(0, 1, 2)%nat] du = Ok (p', [(a, b, c)], jx) /\ Rarea2 (nth a p' nan2) (nth b p' nan2) (nth c p' nan2) < 0.
Proof.
  exists wpts. split; [exact wpts_finite|]. pose proof wpts_finite as W. split.
  { rewrite <- Q2R_area by (repeat constructor). replace 0 with (Q2R 0) by (unfold Q2R; cbn; lra). first [apply Rlt_not_eq; apply Qlt_Rlt; vm_compute; reflexivity|apply Rgt_not_eq; apply Qlt_Rlt; vm_compute; reflexivity]. }
  intros kleb du Hk. destruct (fix_mesh_f_negative kleb du Hk) as (p' & a & b & c & jx & E & L).
  exists p', a, b, c, jx. split; [exact E|].
  destruct (fix_mesh_gen_spec nan2 (fsnap_row f2em13) kleb key_eqb fneg_vol key_eqb_eq Hk wpts [(0, 1, 2)%nat] du)
    as (p1 & t1 & jx1 & m & E1 & A1 & A2 & A3 & A4 & A5 & A6 & A7 & A8 & A9 & A10); [discriminate|repeat constructor; simpl; lia|].
  unfold fix_mesh_f in E. rewrite E1 in E. injection E as -> -> ->.
  pose proof (A8 _ (or_introl eq_refl)) as Rg. unfold in_range in Rg. cbn [corners] in Rg. inversion Rg as [|? ? Ra Rg2]; subst. inversion Rg2 as [|? ? Rb Rg3]; subst. inversion Rg3 as [|? ? Rc _]; subst.
  rewrite Forall_forall in W.
  rewrite <- Q2R_area by (apply W, A3, nth_In; auto). replace 0 with (Q2R 0) by (unfold Q2R; cbn; lra). apply Qlt_Rlt, L.
Qed.
Lemma circle_points_R : exists ts, length ts = 63%nat /\ nth_error ts 0 = Some (S754_zero false) /\
  (forall k t, nth_error ts k = Some t -> Rabs (val t - INR k / 10) <= / 100000000000000) /\
  forall cosf sinf cx cy r, create_circle cosf sinf cx cy r = Ok (map (fun t => (fadd (fmul r (cosf t)) cx, fadd (fmul r (sinf t)) cy)) ts).
Proof.
  destruct circle_points as (ts & A & B & C & D). exists ts. split; [exact A|]. split; [exact B|]. split; [|exact D].
  intros k t Hk. destruct (C k t Hk) as (F & L1 & L2). apply Qle_Rle in L1, L2. rewrite Q2R_minus, Q2R_val in L1, L2 by exact F.
  assert (E1 : Q2R (Z.of_nat k # 10) = INR k / 10) by (unfold Q2R; cbn [Qnum Qden]; rewrite INR_IZR_INZ; reflexivity).
  assert (E2 : Q2R (1 # 100000000000000) = / 100000000000000) by (unfold Q2R; cbn [Qnum Qden]; lra).
  rewrite E1, E2 in L1, L2. apply Rabs_le. lra.
Qed.
(** 1.0, 15.0 and 16.0, 9.0 *)
Definition f9 : spec_float := S754_finite false 5066549580791808 (-49).
Definition f15 : spec_float := S754_finite false 8444249301319680 (-49).
Definition f16 : spec_float := S754_finite false 4503599627370496 (-48).
Lemma idw_above : exists ds, Forall finite_double ds /\ Forall (fun d => 0 < val d) ds /\ 1 < val (idw_f [f_one; f_one] ds).
Proof.
  exists [f15; f16]. split; [repeat constructor|]. split; [repeat constructor; unfold val; cbn; apply F2R_gt_0; reflexivity|].
  rewrite <- Q2R_val by (vm_compute; reflexivity). replace 1 with (Q2R 1) by (unfold Q2R; cbn; lra). apply Qlt_Rlt. vm_compute. reflexivity.
Qed.
Lemma idw_below : exists ds, Forall finite_double ds /\ Forall (fun d => 0 < val d) ds /\ val (idw_f [f_one; f_one] ds) < 1.
Proof.
  exists [f_one; f9]. split; [repeat constructor|]. split; [repeat constructor; unfold val; cbn; apply F2R_gt_0; reflexivity|].
  rewrite <- Q2R_val by (vm_compute; reflexivity). replace 1 with (Q2R 1) by (unfold Q2R; cbn; lra). apply Qlt_Rlt. vm_compute. reflexivity.
Qed.

(** Small doubles for the cases below: 0, 1/2, -10. *)
Definition z0 := S754_zero false.
Definition half := S754_finite false 4503599627370496 (-53).
Definition mten := S754_finite true 5629499534213120 (-49).

Definition square := [(z0, z0); (f_one, z0); (z0, f_one)].
Lemma square_vals : val (fst (nth 0 square nan2)) = 0 /\ val (snd (nth 0 square nan2)) = 0 /\ val (fst (nth 1 square nan2)) = 1 /\ val (snd (nth 1 square nan2)) = 0 /\ val (fst (nth 2 square nan2)) = 0 /\ val (snd (nth 2 square nan2)) = 1.
Proof. destruct one_val as [_ E1]. cbn [nth square fst snd]. rewrite E1. repeat split. Qed.
Lemma square_bounded : bounded_points 1 square.
Proof. destruct one_val as [_ E1]. repeat constructor; cbn [fst snd]; rewrite ?E1; try (change (val z0) with 0); rewrite ?Rabs_R0, ?Rabs_R1; lra. Qed.
