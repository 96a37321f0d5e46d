(** Proofs about circles of points. *)
From Coq Require Import List Arith ZArith QArith Qround Qreals Reals Lia Lra Lqa.
From Verif Require Import M_Base M_Circle S_Circle.
Import ListNotations.
Open Scope R_scope.
Ltac lra := first [Lqa.lra | Lra.lra].

Lemma point_on_circle : forall r c arc k, on_circle r c (circle_point r c arc k).
Proof.
  intros r c arc k. unfold on_circle, circle_point. cbn [fst snd]. pose proof (sin2_cos2 (angle arc k)) as E. unfold Rsqr in E.
  replace (fst c + r * cos (angle arc k) - fst c) with (r * cos (angle arc k)) by ring. replace (snd c + r * sin (angle arc k) - snd c) with (r * sin (angle arc k)) by ring.
  transitivity (r * r * (sin (angle arc k) * sin (angle arc k) + cos (angle arc k) * cos (angle arc k))); [ring|]. rewrite E. ring.
Qed.
Lemma angle_step : forall arc k, angle arc (S k) = angle arc k + Q2R arc * PI / 180.
Proof.
  intros arc k. unfold angle. rewrite !Q2R_mult. assert (E : forall n, Q2R (inject_Z (Z.of_nat n)) = INR n).
  { intro n. unfold Q2R, inject_Z. cbn [Qnum Qden]. rewrite INR_IZR_INZ. field. }
  rewrite !E, S_INR. field.
Qed.
Lemma angle_0 : forall arc, angle arc 0 = 0.
Proof. intro arc. unfold angle. change (inject_Z (Z.of_nat 0)) with 0%Q. rewrite Q2R_mult. unfold Q2R at 1. cbn [Qnum Qden]. field. Qed.
(** The number of points. *)
Lemma len_bounds : forall arc, (0 < arc)%Q -> (2 <= arange_len arc)%nat /\
  (360 <= inject_Z (Z.of_nat (arange_len arc - 1)) * arc)%Q /\ (inject_Z (Z.of_nat (arange_len arc - 1)) * arc < 360 + arc)%Q.
Proof.
  intros arc A. unfold arange_len. set (x := ((360 + arc) / arc)%Q).
  assert (X : (x * arc == 360 + arc)%Q) by (unfold x; field; lra).
  assert (X1 : (1 < x)%Q) by (unfold x; apply Qlt_shift_div_l; lra).
  pose proof (Qle_ceiling x) as C1. pose proof (Qceiling_lt x) as C2. set (n := Qceiling x) in *.
  assert (N : (1 < n)%Z) by (rewrite Zlt_Qlt; eapply Qlt_le_trans; [exact X1|exact C1]).
  split; [lia|]. replace (Z.of_nat (Z.to_nat n - 1)) with (n - 1)%Z by lia.
  assert (M1 : (x * arc <= inject_Z n * arc)%Q) by (apply Qmult_le_compat_r; lra).
  assert (M2 : (inject_Z (n - 1) * arc < x * arc)%Q) by (apply Qmult_lt_compat_r; [exact A|exact C2]).
  split; [|lra]. unfold Z.sub. rewrite inject_Z_plus. change (inject_Z (-(1))) with (-(1))%Q. lra.
Qed.
Lemma len_least : forall arc k, (0 < arc)%Q -> (k < arange_len arc)%nat <-> (inject_Z (Z.of_nat k) * arc < 360 + arc)%Q.
Proof.
  intros arc k A. unfold arange_len. set (x := ((360 + arc) / arc)%Q).
  assert (X : (x * arc == 360 + arc)%Q) by (unfold x; field; lra). rewrite <- X. rewrite Qmult_lt_r by exact A.
  pose proof (Qle_ceiling x) as C1. pose proof (Qceiling_lt x) as C2. set (n := Qceiling x) in *. split.
  - intro K. eapply Qle_lt_trans; [|exact C2]. rewrite <- Zle_Qle. lia.
  - intro K. assert (Z.of_nat k < n)%Z; [|lia]. rewrite Zlt_Qlt. eapply Qlt_le_trans; [exact K|exact C1].
Qed.
Lemma circle_points : forall r c arc, (0 < arc)%Q -> exists l, create_circle_coords r c arc = Ok l /\ length l = arange_len arc /\
  (forall k, (k < length l)%nat -> nth k l (0, 0) = circle_point r c arc k) /\ first_point l = circle_point r c arc 0 /\ last_point l = circle_point r c arc (arange_len arc - 1).
Proof.
  intros r c arc A. unfold create_circle_coords. assert (Qeq_bool arc 0 = false) as ->. { apply Bool.not_true_iff_false. rewrite Qeq_bool_iff. lra. }
  eexists. split; [reflexivity|]. rewrite map_length, seq_length. split; [reflexivity|]. destruct (len_bounds arc A) as [L _].
  assert (N : forall k, (k < arange_len arc)%nat -> nth k (map (circle_point r c arc) (seq 0 (arange_len arc))) (0, 0) = circle_point r c arc k).
  { intros k K. rewrite (nth_indep _ _ (circle_point r c arc 0)) by (rewrite map_length, seq_length; exact K). rewrite map_nth, seq_nth by exact K. reflexivity. }
  split; [exact N|]. split.
  - unfold first_point. rewrite <- (N 0%nat) by lia. destruct (map _ _); reflexivity.
  - unfold last_point. rewrite <- N by lia. set (l := map _ _). assert (length l = arange_len arc) by (unfold l; rewrite map_length, seq_length; reflexivity). rewrite <- H.
    destruct l as [|a l] using rev_ind; [cbn in H; lia|]. rewrite last_last, app_length. cbn [length]. rewrite Nat.add_sub, app_nth2 by lia. rewrite Nat.sub_diag. reflexivity.
Qed.
Lemma circle_shape : forall r c arc l, (0 < arc)%Q -> create_circle_coords r c arc = Ok l ->
  (forall p, In p l -> on_circle r c p) /\ first_point l = (fst c + r, snd c) /\
  (forall k, (k < length l)%nat <-> (inject_Z (Z.of_nat k) * arc < 360 + arc)%Q) /\
  (forall k, (arc < 180)%Q -> 0 < r -> (S k < length l)%nat -> turns_left c (nth k l (0, 0)) (nth (S k) l (0, 0))).
Proof.
  intros r c arc l A H. destruct (circle_points r c arc A) as (l' & E & L & N & F & _). assert (l' = l) by congruence. subst l'. clear E.
  split; [|split; [|split]].
  - intros p I. apply (In_nth _ _ (0, 0)) in I. destruct I as (k & K & <-). rewrite N by exact K. apply point_on_circle.
  - rewrite F. unfold circle_point. rewrite angle_0, cos_0, sin_0. f_equal; ring.
  - intro k. rewrite L. apply len_least. exact A.
  - intros k B R K. rewrite !N by lia. unfold turns_left, circle_point. cbn [fst snd]. rewrite angle_step. set (t := angle arc k). set (d := Q2R arc * PI / 180).
    assert (D : 0 < sin d).
    { apply sin_gt_0; unfold d.
      - apply Qlt_Rlt in A. replace (Q2R 0) with 0 in A by (unfold Q2R; cbn; field). pose proof PI_RGT_0. assert (0 < Q2R arc * PI) by (apply Rmult_lt_0_compat; assumption). lra.
      - apply Qlt_Rlt in B. replace (Q2R 180) with 180 in B by (unfold Q2R; cbn; field). pose proof PI_RGT_0. assert (Q2R arc * PI < 180 * PI) by (apply Rmult_lt_compat_r; assumption). lra. }
    replace ((fst c + r * cos t - fst c) * (snd c + r * sin (t + d) - snd c) - (snd c + r * sin t - snd c) * (fst c + r * cos (t + d) - fst c))
      with (r * r * (sin (t + d) * cos t - cos (t + d) * sin t)) by ring.
    rewrite <- sin_minus. replace (t + d - t) with d by ring. apply Rmult_lt_0_compat; [apply Rmult_lt_0_compat; exact R|exact D].
Qed.
Lemma circle_closed : forall r c arc l, (0 < arc)%Q -> (arc <= 360)%Q -> 0 < r -> create_circle_coords r c arc = Ok l -> first_point l = last_point l <-> divides_360 arc.
Proof.
  intros r c arc l A B R H. destruct (circle_points r c arc A) as (l' & E & L & N & F & G). assert (l' = l) by congruence. subst l'. clear E.
  rewrite F, G. destruct (len_bounds arc A) as (L2 & L3 & L4). set (m := (arange_len arc - 1)%nat) in *. unfold circle_point. rewrite angle_0, cos_0, sin_0.
  set (q := (inject_Z (Z.of_nat m) * arc)%Q) in *. pose proof PI_RGT_0 as P.
  assert (T : angle arc m = Q2R q * PI / 180) by reflexivity. rewrite T. split.
  - intro E. injection E as E1 E2. assert (C : cos (Q2R q * PI / 180) = 1) by (apply Rmult_eq_reg_l with r; lra). assert (S : sin (Q2R q * PI / 180) = 0) by (apply Rmult_eq_reg_l with r; lra).
    apply sin_eq_0_0 in S. destruct S as (k & K). rewrite K in C.
    assert (QK : Q2R q = 180 * IZR k) by (apply Rmult_eq_reg_r with (PI / 180); lra).
    assert (Q1 : (q == inject_Z (180 * k))%Q). { apply eqR_Qeq. rewrite QK. unfold Q2R, inject_Z. cbn [Qnum Qden]. rewrite mult_IZR. field. }
    assert (K1 : (2 <= k)%Z). { assert (360 <= 180 * k)%Z; [|lia]. rewrite Zle_Qle. rewrite <- Q1. exact L3. }
    assert (K2 : (k < 4)%Z). { assert (180 * k < 720)%Z; [|lia]. rewrite Zlt_Qlt. rewrite <- Q1. change (inject_Z 720) with (720)%Q. lra. }
    assert (k = 2 \/ k = 3)%Z as [->| ->] by lia.
    + exists (Z.of_nat m). fold q. rewrite Q1. reflexivity.
    + exfalso. replace (3 * PI) with (PI + 2 * 1 * PI) in C by ring. rewrite cos_period with (k := 1%nat) in C || (replace (2 * 1 * PI) with (2 * INR 1 * PI) in C by (cbn; ring); rewrite cos_period in C). rewrite cos_PI in C. lra.
  - intros (k & K). assert (E : (q == 360)%Q).
    { assert (KP : (0 < k)%Z). { rewrite Zlt_Qlt. change (inject_Z 0) with 0%Q. apply Qmult_lt_r with arc; [exact A|]. lra. }
      assert (M : (inject_Z k <= inject_Z (Z.of_nat m))%Q). { apply Qmult_le_r with arc; [exact A|]. fold q. lra. }
      assert (M' : (inject_Z (Z.of_nat m) < inject_Z (k + 1))%Q). { apply Qmult_lt_r with arc; [exact A|]. fold q. rewrite inject_Z_plus. change (inject_Z 1) with 1%Q. lra. }
      rewrite <- Zle_Qle in M. rewrite <- Zlt_Qlt in M'. assert (Z.of_nat m = k) by lia. unfold q. rewrite H0. exact K. }
    apply Qeq_eqR in E. rewrite E. replace (Q2R 360) with 360 by (unfold Q2R; cbn; field). replace (360 * PI / 180) with (2 * PI) by field. rewrite cos_2PI, sin_2PI. reflexivity.
Qed.
Lemma seven_not_dividing : ~ divides_360 7.
Proof. intros (k & K). unfold Qeq, Qmult, inject_Z in K. cbn [Qnum Qden Pos.mul] in K. lia. Qed.
