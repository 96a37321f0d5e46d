(** Orientation on doubles: arithmetics that keep the contract, boxes, and a convex outline that is taken for clockwise. *)
From Coq Require Import List Arith Bool ZArith Lia Reals Lra SpecFloat.
From Flocq Require Import Core IEEE754.BinarySingleNaN.
From Verif Require Import Util M_Base M_FixMesh M_QualF M_Ieee M_ForceF M_OrientF S_Double S_Ieee S_OrientF P_Double P_LimitF P_Ieee P_Ieee2 P_Ieee3 P_ForceF P_ForceF2 P_ProjF P_StartF P_DensifyF P_OrientF.
Import ListNotations.
Open Scope R_scope.
Local Notation bp := (bpow radix2).

(** * Arithmetics that keep the contract *)
Definition by_reciprocal (q p : spec_float) : spec_float := fmul (fdiv f_one p) q.
Definition plain_elim (a l b : spec_float) : spec_float := fsub a (fmul l b).
Definition plain_magnitude (p q : spec_float) : spec_float := SFabs (fmul p q).
Lemma t_u : / 2 ^ 1075 <= u / 1000.
Proof. rewrite <- t_pow. apply Rle_trans with (bp (-53) * bp (-10)); [rewrite <- bpow_plus; apply bpow_le; lia|]. unfold u, Rdiv. apply Rmult_le_compat_l; [apply bpow_ge_0|]. change (bp (-10)) with (/ 1024). lra. Qed.
Lemma small_ratio q p : p <> 0 -> Rabs q <= Rabs p -> Rabs (q / p) <= 1.
Proof. intros N L. unfold Rdiv. rewrite Rabs_mult, Rabs_inv. apply Rmult_le_reg_r with (Rabs p); [apply Rabs_pos_lt, N|]. rewrite Rmult_assoc, Rinv_l by (apply Rabs_no_R0, N). lra. Qed.
Lemma nonzero_of p : / 2 ^ 900 <= Rabs p -> p <> 0.
Proof. intros L E. rewrite E, Rabs_R0 in L. pose proof (Rinv_0_lt_compat _ (pow_pos 900)). lra. Qed.
Lemma one_big : 1 <= big. Proof. rewrite big_900. apply pow_R1_Rle. lra. Qed.
Lemma div_contract : ratio_contract fdiv.
Proof.
  split; [|split; [intros p; reflexivity|intros [[]|[]| |[]]; reflexivity]]. intros q p Fq Fp L [L0 _]. pose proof (nonzero_of _ L0) as N. pose proof (small_ratio _ _ N L) as S. pose proof u_bounds as U. pose proof t_u as T.
  destruct (div_ok q p Fq Fp N) as [F V]; [pose proof one_big; lra|]. split; [exact F|]. rewrite V. eapply Rle_trans; [apply rnd_err|]. rewrite t_pow. assert (u * Rabs (val q / val p) <= u * 1) by (apply Rmult_le_compat_l; lra). lra.
Qed.
Lemma reciprocal_contract : ratio_contract by_reciprocal.
Proof.
  split; [|split; [intros p; unfold by_reciprocal; destruct (fdiv f_one p) as [[]|[]| |[]]; reflexivity|intros q; destruct q; reflexivity]]. intros q p Fq Fp L [L0 L1]. pose proof (nonzero_of _ L0) as N. pose proof (small_ratio _ _ N L) as S. pose proof u_bounds as U. pose proof t_u as T.
  destruct one_ok as [Fo Vo]. assert (I : Rabs (1 / val p) <= 2 ^ 900). { unfold Rdiv. rewrite Rmult_1_l, Rabs_inv. rewrite <- (Rinv_inv (2 ^ 900)). apply Rinv_le_contravar; [apply Rinv_0_lt_compat, pow_pos|exact L0]. }
  destruct (div_ok f_one p Fo Fp N) as [Fi Vi]; [rewrite Vo, big_900; exact I|]. rewrite Vo in Vi. set (i := fdiv f_one p) in *. pose proof (rnd_err (1 / val p)) as E. rewrite <- Vi, t_pow in E.
  assert (P : Rabs (val i * val q - val q / val p) <= 2 * u).
  { replace (val i * val q - val q / val p) with ((val i - 1 / val p) * val q) by (field; exact N). rewrite Rabs_mult. apply Rle_trans with ((u * Rabs (1 / val p) + / 2 ^ 1075) * Rabs (val p)); [apply Rmult_le_compat; auto using Rabs_pos|].
    rewrite Rmult_plus_distr_r. replace (u * Rabs (1 / val p) * Rabs (val p)) with u by (unfold Rdiv; rewrite Rmult_1_l, Rabs_inv; field; apply Rabs_no_R0, N).
    assert (/ 2 ^ 1075 * Rabs (val p) <= u). { apply Rle_trans with (/ 2 ^ (175 + 900) * 2 ^ 900); [apply Rmult_le_compat_l; [left; apply Rinv_0_lt_compat, pow_pos|exact L1]|]. rewrite ipow_mul. unfold u. change (-53)%Z with (- Z.of_nat 53)%Z. rewrite tiny_pow. apply ipow_up. lia. }
    lra. }
  assert (B : Rabs (val i * val q) <= 2) by (replace (val i * val q) with (val q / val p + (val i * val q - val q / val p)) by ring; eapply Rle_trans; [apply Rabs_triang|]; lra).
  destruct (mul_ok i q Fi Fq) as [F V]; [rewrite big_900; eapply Rle_trans; [exact B|]; rewrite <- (pow_1 2) at 1; apply pow_up; lia|]. split; [exact F|]. unfold by_reciprocal. fold i. rewrite V.
  pose proof (rnd_err (val i * val q)) as E2. rewrite t_pow in E2. assert (u * Rabs (val i * val q) <= u * (1001 / 1000)). { apply Rmult_le_compat_l; [lra|]. replace (val i * val q) with (val q / val p + (val i * val q - val q / val p)) by ring. eapply Rle_trans; [apply Rabs_triang|]. lra. }
  replace (rnd (val i * val q) - val q / val p) with ((rnd (val i * val q) - val i * val q) + (val i * val q - val q / val p)) by ring. eapply Rle_trans; [apply Rabs_triang|]. lra.
Qed.
Lemma plain_elim_contract : elim_contract plain_elim.
Proof.
  split; [|split; [intros l b; reflexivity|split; [intros a b; unfold plain_elim; destruct a as [[]|[]| |[]]; reflexivity|intros a l; unfold plain_elim; destruct l as [[]|[]| |[]]; destruct a as [[]|[]| |[]]; reflexivity]]].
  intros a l b Fa Fl Fb La Ll Lb. pose proof u_bounds as U. pose proof (mul_le _ _ _ _ Ll Lb) as M. unfold plain_elim.
  assert (H2 : 2 * 2 ^ 800 = 2 ^ 801) by (rewrite tech_pow_Rmult; reflexivity).
  destruct (mul_ok l b Fl Fb) as [Fm Vm]; [rewrite big_900; eapply Rle_trans; [exact M|]; rewrite H2; apply pow_up; lia|]. set (m := fmul l b) in *. pose proof (rnd_err (val l * val b)) as E1. rewrite <- Vm, t_pow in E1.
  assert (T1 : / 2 ^ 1075 <= / 4 * / 2 ^ 1000). { replace (/ 4) with (/ 2 ^ 2) by (f_equal; lra). rewrite <- Rinv_mult, <- pow_add. apply ipow_up. lia. }
  assert (T0 : / 2 ^ 1000 <= 1) by (rewrite <- Rinv_1; apply Rinv_le_contravar; [lra|apply pow_R1_Rle; lra]). assert (One : 1 <= 2 ^ 800) by (apply pow_R1_Rle; lra).
  assert (Bm : Rabs (val m) <= 3 / 2 * Rabs (val l * val b) + / 4 * / 2 ^ 1000).
  { replace (val m) with (val l * val b + (val m - val l * val b)) by ring. eapply Rle_trans; [apply Rabs_triang|]. assert (u * Rabs (val l * val b) <= / 2 * Rabs (val l * val b)) by (apply Rmult_le_compat_r; [apply Rabs_pos|lra]). lra. }
  assert (Bd : Rabs (val a - val m) <= Rabs (val a) + 3 / 2 * Rabs (val l * val b) + / 4 * / 2 ^ 1000) by (eapply Rle_trans; [apply Rabs_triang|]; rewrite Rabs_Ropp; lra).
  destruct (sub_ok a m Fa Fm) as [F V].
  { eapply Rle_trans; [exact Bd|]. rewrite big_900. apply Rle_trans with (8 * 2 ^ 800); [lra|]. replace (8 * 2 ^ 800) with (2 ^ 803) by (replace 803%nat with (3 + 800)%nat by lia; rewrite pow_add; lra). apply pow_up. lia. }
  split; [exact F|]. rewrite V. pose proof (rnd_err (val a - val m)) as E2. rewrite t_pow in E2.
  assert (u * Rabs (val a - val m) <= u * (Rabs (val a) + 3 / 2 * Rabs (val l * val b) + / 4 * / 2 ^ 1000)) by (apply Rmult_le_compat_l; lra). assert (u * (/ 4 * / 2 ^ 1000) <= 1 * (/ 4 * / 2 ^ 1000)). { apply Rmult_le_compat_r; [|lra]. pose proof (Rinv_0_lt_compat _ (pow_pos 1000)). lra. }
  assert (0 <= u * Rabs (val a)) by (apply Rmult_le_pos; [lra|apply Rabs_pos]). assert (0 <= u * Rabs (val l * val b)) by (apply Rmult_le_pos; [lra|apply Rabs_pos]).
  replace (rnd (val a - val m) - (val a - val l * val b)) with ((rnd (val a - val m) - (val a - val m)) - (val m - val l * val b)) by ring. eapply Rle_trans; [apply Rabs_triang|]. rewrite Rabs_Ropp. pose proof (Rinv_0_lt_compat _ (pow_pos 1000)). lra.
Qed.
Lemma plain_magnitude_contract : magnitude_contract plain_magnitude.
Proof.
  split; [|split; [intros q; reflexivity|intros q; unfold plain_magnitude; destruct q as [[]|[]| |[]]; reflexivity]]. intros p q Fp Fq _ _ B. pose proof u_bounds as U. destruct (mul_ok p q Fp Fq) as [F V]; [rewrite big_900; exact B|].
  destruct (abs_val _ F) as [Fa Va]. unfold plain_magnitude. split; [exact Fa|]. rewrite Va, V. pose proof (rnd_err (val p * val q)) as E. rewrite t_pow in E.
  eapply Rle_trans; [apply Rabs_triang_inv2|]. eapply Rle_trans; [exact E|]. apply Rplus_le_compat; [apply Rmult_le_compat_r; [apply Rabs_pos|]|apply ipow_up; lia]. unfold u. change (-53)%Z with (- Z.of_nat 53)%Z. rewrite tiny_pow. apply ipow_up. lia.
Qed.
Lemma plain_contract : det_contract fdiv plain_elim plain_magnitude /\ det_contract by_reciprocal plain_elim plain_magnitude.
Proof. split; (split; [first [exact div_contract|exact reciprocal_contract]|split; [exact plain_elim_contract|exact plain_magnitude_contract]]). Qed.

(** * Boxes *)
Theorem box_ccw ratio elim magnitude x0 x1 y0 y1 : det_contract ratio elim magnitude -> tame (x0, y0) -> tame (x1, y1) -> val x0 < val x1 -> val y0 < val y1 -> / 10 ^ 8 * (1 + / 2 ^ 19) <= (val x1 - val x0) * (val y1 - val y0) ->
  is_path_ccw_f ratio elim magnitude [(x0, y0); (x1, y0); (x1, y1); (x0, y1); (x0, y0)] = Ok true /\ is_path_ccw_f ratio elim magnitude [(x0, y0); (x0, y1); (x1, y1); (x1, y0); (x0, y0)] = Ok false.
Proof.
  intros OK T0 T1 LX LY A. destruct T0 as ([F1 F2] & B1 & B2). destruct T1 as ([F3 F4] & B3 & B4). cbn [fst snd] in *.
  assert (T : forall x y, (x = x0 \/ x = x1) -> (y = y0 \/ y = y1) -> tame (x, y)) by (intros x y [-> | ->] [-> | ->]; (split; [split|split]); assumption).
  pose proof u_val as UV. destruct powers as (_ & _ & P2 & _ & P8). assert (P19 : / 2 ^ 19 = / 524288) by (f_equal; lra). set (w := val x1 - val x0) in *. set (h := val y1 - val y0) in *. assert (0 < w) by (unfold w; lra). assert (0 < h) by (unfold h; lra).
  assert (P4 : / 2 ^ 400 <= / 10 ^ 8 * / 2 ^ 30). { replace (/ 10 ^ 8) with (/ 100000000) by (f_equal; lra). apply Rle_trans with (/ 2 ^ (30 + 30)); [apply ipow_up; lia|]. rewrite pow_add, Rinv_mult. apply Rmult_le_compat_r; [left; apply Rinv_0_lt_compat, pow_pos|]. replace (/ 2 ^ 30) with (/ 1073741824) by (f_equal; lra). lra. }
  replace (/ 2 ^ 30) with (/ 1073741824) in P4 by (f_equal; lra). rewrite P8, P19 in *.
  split.
  - destruct (decides ratio elim magnitude OK [(x0, y0); (x1, y0); (x1, y1); (x0, y1); (x0, y0)] 0 (x0, y0) (x1, y0) (x1, y1) (x0, y1)) as (r & E & R); try reflexivity.
    + repeat (apply Forall_cons; [apply T; auto|]). apply Forall_nil.
    + intros j ? ? ? Hj. lia.
    + unfold clear_turn, turn_error, turn, reach. cbn [fst snd]. fold w. fold h. replace (val y0 - val y0) with 0 by ring. rewrite Rmult_0_r, Rminus_0_r, Rabs_R0, (Rabs_pos_eq w), (Rabs_pos_eq h), (Rabs_pos_eq (w * h)) by (try apply Rmult_le_pos; lra). rewrite (Rmax_left w w), (Rmax_right 0 h) by lra. rewrite P2, P8, UV. lra.
    + rewrite E. f_equal. apply R. unfold turn. cbn [fst snd]. fold w. fold h. replace (val y0 - val y0) with 0 by ring. rewrite Rmult_0_r, Rminus_0_r. apply Rmult_lt_0_compat; assumption.
  - destruct (decides ratio elim magnitude OK [(x0, y0); (x0, y1); (x1, y1); (x1, y0); (x0, y0)] 0 (x0, y0) (x0, y1) (x1, y1) (x1, y0)) as (r & E & R); try reflexivity.
    + repeat (apply Forall_cons; [apply T; auto|]). apply Forall_nil.
    + intros j ? ? ? Hj. lia.
    + unfold clear_turn, turn_error, turn, reach. cbn [fst snd]. fold w. fold h. replace (val x0 - val x0) with 0 by ring. rewrite Rmult_0_l, Rminus_0_l, Rabs_Ropp, Rabs_R0, (Rabs_pos_eq w), (Rabs_pos_eq h), (Rabs_pos_eq (w * h)) by (try apply Rmult_le_pos; lra). rewrite (Rmax_left h h), (Rmax_right 0 w) by lra. rewrite P2, P8, UV. lra.
    + rewrite E. f_equal. destruct r; [|reflexivity]. pose proof (proj1 R eq_refl) as W. unfold turn in W. cbn [fst snd] in W. fold w h in W. replace (val x0 - val x0) with 0 in W by ring. pose proof (Rmult_lt_0_compat w h). lra.
Qed.

(** * A convex outline in metres *)
Definition m_b : fpt := (S754_finite false 5141659968864256 (-34), S754_finite false 8757300284411349 (-35)).
Definition m_c : fpt := (S754_finite false 5003722799185920 (-33), S754_finite false 8522365025648640 (-34)).
Definition m_e : fpt := (f_0, S754_finite false 8589934592000000 (-33)).
Definition m_a : fpt := (f_0, f_0).
Definition m_v : spec_float := S754_finite false 4503599627370496 (-87).
Lemma m_vals : val (fst m_b) = 299284 /\ val (snd m_b) = 8757300284411349 / 34359738368 /\ val (fst m_c) = 582510 /\ val (snd m_c) = 507972540 / 1024 /\ val (snd m_e) = 1000000 /\ val m_v = / 34359738368.
Proof. unfold val, m_b, m_c, m_e, m_v, SF2R, F2R. cbn. lra. Qed.
Theorem outline_refuted : exists a b c e, 0 < turn a b c /\ 0 < turn b c e /\ 0 < turn c e a /\ 0 < turn e a b /\ / 10 ^ 8 * 100 < turn a b c /\ Forall tame [a; b; c; e; a] /\
  (forall ratio elim magnitude, ratio = fdiv \/ ratio = by_reciprocal -> elim = plain_elim -> magnitude_contract magnitude -> is_path_ccw_f ratio elim magnitude [a; b; c; e; a] = Ok false).
Proof.
  exists m_a, m_b, m_c, m_e. destruct m_vals as (V1 & V2 & V3 & V4 & V5 & V6). unfold turn. change (val (fst m_a)) with 0. change (val (snd m_a)) with 0. change (val (fst m_e)) with 0. rewrite V1, V2, V3, V4, V5.
  split; [lra|]. split; [lra|]. split; [lra|]. split; [lra|]. split; [replace (/ 10 ^ 8) with (/ 100000000) by (f_equal; lra); lra|]. split.
  - assert (P : 1000000 <= 2 ^ 400) by (apply Rle_trans with (2 ^ 20); [lra|apply pow_up; lia]).
    assert (Tm : forall p x y, finite_point p -> val (fst p) = x -> val (snd p) = y -> 0 <= x <= 1000000 -> 0 <= y <= 1000000 -> tame p) by (intros p x y F <- <- X Y; split; [exact F|]; rewrite !Rabs_pos_eq by lra; lra).
    assert (Ta : tame m_a) by (apply (Tm m_a 0 0); try reflexivity; try lra; split; split; reflexivity).
    repeat apply Forall_cons; try apply Forall_nil; try exact Ta.
    + apply (Tm m_b _ _ ltac:(split; split; reflexivity) V1 V2); lra.
    + apply (Tm m_c _ _ ltac:(split; split; reflexivity) V3 V4); lra.
    + apply (Tm m_e 0 _ ltac:(split; split; reflexivity) eq_refl V5); lra.
  - intros ratio elim magnitude HR -> [CM _]. assert (D : det3_f ratio plain_elim magnitude m_a m_b m_c = SFopp (magnitude (fst m_c) m_v)) by (destruct HR as [-> | ->]; vm_compute; reflexivity).
    destruct (CM (fst m_c) m_v) as [Fm Vm]; [split; reflexivity|split; reflexivity|rewrite V3; lra|rewrite V6; lra|rewrite V3, V6; rewrite Rabs_pos_eq by lra; rewrite <- big_900; eapply Rle_trans; [|exact one_big]; lra|].
    rewrite V3, V6 in Vm. rewrite (Rabs_pos_eq (582510 * / 34359738368)) in Vm by lra. destruct powers as (P9 & P3 & _ & P6 & P8). rewrite P3, P6 in *. apply Rabs_le_inv in Vm. set (m := magnitude (fst m_c) m_v) in *. destruct (opp_double m Fm) as [Fo Vo].
    assert (NC : isclose0_f (SFopp m) = false). { destruct (isclose0_f (SFopp m)) eqn:E; [|reflexivity]. apply (close_val _ Fo) in E. rewrite Vo, Rabs_Ropp, Rabs_pos_eq in E by lra. pose proof atol_val as AT. rewrite P6, P8 in AT. lra. }
    unfold is_path_ccw_f. rewrite orient_step by reflexivity. rewrite D, orient_stop by exact NC. rewrite NC. f_equal. destruct (SFltb f_0 (SFopp m)) eqn:E; [|reflexivity]. apply ltb_val in E; [|apply zero_ok|exact Fo]. rewrite Vo, (proj2 zero_ok) in E. lra.
Qed.
Definition f_2 : spec_float := S754_finite false 4503599627370496 (-51).
Lemma clear_case : Forall tame [m_a; (fst m_b, f_0); m_b; m_e; m_a] /\ clear_turn m_a (fst m_b, f_0) m_b /\ 0 < turn m_a (fst m_b, f_0) m_b /\ straight_turn m_a (f_one, f_one) (f_2, f_2).
Proof.
  destruct m_vals as (V1 & V2 & V3 & V4 & V5 & V6). assert (P : 1000000 <= 2 ^ 400) by (apply Rle_trans with (2 ^ 20); [lra|apply pow_up; lia]).
  assert (Tm : forall p x y, finite_point p -> val (fst p) = x -> val (snd p) = y -> 0 <= x <= 1000000 -> 0 <= y <= 1000000 -> tame p) by (intros p x y F <- <- X Y; split; [exact F|]; rewrite !Rabs_pos_eq by lra; lra).
  assert (Ta : tame m_a) by (apply (Tm m_a 0 0); try reflexivity; try lra; split; split; reflexivity). destruct powers as (_ & _ & P2 & _ & P8). pose proof u_val as UV.
  assert (P4 : / 2 ^ 400 <= / 2 ^ 60) by (apply ipow_up; lia). replace (/ 2 ^ 60) with (/ 1152921504606846976) in P4 by (f_equal; lra). pose proof (Rinv_0_lt_compat _ (pow_pos 400)) as Q4.
  split; [repeat apply Forall_cons; try apply Forall_nil; try exact Ta|].
  - apply (Tm (fst m_b, f_0) _ 0 ltac:(split; split; reflexivity) V1 eq_refl); lra.
  - apply (Tm m_b _ _ ltac:(split; split; reflexivity) V1 V2); lra.
  - apply (Tm m_e 0 _ ltac:(split; split; reflexivity) eq_refl V5); lra.
  - assert (V7 : val f_2 = 2) by (unfold val, f_2, SF2R, F2R; cbn; lra). destruct one_ok as [_ V8].
    unfold clear_turn, straight_turn, turn_error, turn, reach. cbn [fst snd]. change (fst m_a) with f_0. change (snd m_a) with f_0. rewrite (proj2 zero_ok), V1, V2, V7, V8, P2, P8, UV, !Rminus_0_r, Rabs_R0, !(Rmax_right 0) by apply Rabs_pos. rewrite !Rmult_0_r, !Rminus_0_r, !Rabs_pos_eq by lra. rewrite !Rmax_left by lra. rewrite !Rmax_right by lra.
    split; [lra|]. split; [lra|]. split; [right; apply Rle_trans with (/ 2 ^ 0); [apply ipow_up; lia|cbn; lra]|]. lra.
Qed.
