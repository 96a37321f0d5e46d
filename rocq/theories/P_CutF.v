(** Proofs about corner cutting on doubles. *)
From Coq Require Import List Arith Bool ZArith Lia Reals Lra Psatz SpecFloat.
From Flocq Require Import Core IEEE754.BinarySingleNaN Relative.
From Verif Require Import M_Base M_FixMesh M_Shore S_Double S_Ieee P_Double P_LimitF P_Shore M_CutF S_CutF.
Import ListNotations.
Open Scope R_scope.

(** * Three quarters and a quarter of the same number add up to it *)
Notation fe := (FLT_exp (-1074) 53).
Notation bp := (bpow radix2).
Lemma rnd_at x e z : cexp radix2 fe x = e -> ZnearestE (x * bp (- e)) = z -> rnd x = IZR z * bp e.
Proof. intros <- <-. unfold rnd, round, scaled_mantissa, F2R. cbn. reflexivity. Qed.
Lemma near_int z x : Rabs (x - IZR z) < / 2 -> ZnearestE x = z.
Proof. apply Znearest_imp. Qed.
Lemma near_half z : ZnearestE (IZR z + / 2) = if Z.even z then z else (z + 1)%Z.
Proof.
  assert (F : Zfloor (IZR z + / 2) = z) by (apply Zfloor_imp; rewrite plus_IZR; lra).
  unfold ZnearestE, Znearest. rewrite F. rewrite Rcompare_Eq by lra. destruct (Z.even z); cbn [negb]; [reflexivity|].
  apply Zceil_imp. rewrite minus_IZR, plus_IZR. lra.
Qed.
Lemma cexp_normal x e : (-1074 <= e)%Z -> bp (52 + e) <= x < bp (53 + e) -> cexp radix2 fe x = e.
Proof.
  intros He [H1 H2]. unfold cexp. rewrite (mag_unique_pos radix2 x (53 + e)) by (split; [replace (53 + e - 1)%Z with (52 + e)%Z by lia|]; assumption).
  unfold FLT_exp. lia.
Qed.
Lemma cexp_sub x : 0 < x < bp (-1021) -> cexp radix2 fe x = (-1074)%Z.
Proof.
  intros [P H]. unfold cexp. assert (M : (mag radix2 x <= -1021)%Z) by (apply mag_le_bpow; [lra|rewrite Rabs_pos_eq by lra; exact H]).
  unfold FLT_exp. lia.
Qed.
Lemma settle m d e : (2 ^ 52 < m < 2 ^ 53)%Z -> (-1074 <= e)%Z -> Rabs d < / 2 \/ (Z.even m = true /\ (d = / 2 \/ d = - / 2)) ->
  rnd ((IZR m + d) * bp e) = IZR m * bp e.
Proof.
  intros [M1 M2] He D. assert (Dh : - / 2 <= d <= / 2) by (destruct D as [D|[_ [->| ->]]]; [apply Rabs_def2 in D; lra|lra|lra]).
  assert (P : 0 < bp e) by apply bpow_gt_0.
  assert (R1 : IZR (2 ^ 52) + 1 <= IZR m) by (rewrite <- plus_IZR; apply IZR_le; lia). assert (R2 : IZR m + 1 <= IZR (2 ^ 53)) by (rewrite <- plus_IZR; apply IZR_le; lia).
  apply rnd_at.
  - apply cexp_normal; [exact He|]. rewrite !bpow_plus. replace (bp 52) with (IZR (2 ^ 52)) by reflexivity. replace (bp 53) with (IZR (2 ^ 53)) by reflexivity. nra.
  - rewrite Rmult_assoc, <- bpow_plus, Z.add_opp_diag_r. change (bp 0) with 1. rewrite Rmult_1_r.
    destruct D as [D|[Ev [->| ->]]].
    + apply near_int. replace (IZR m + d - IZR m) with d by lra. exact D.
    + rewrite near_half, Ev. reflexivity.
    + replace (IZR m + - / 2) with (IZR (m - 1) + / 2) by (rewrite minus_IZR; lra). rewrite near_half.
      replace (Z.even (m - 1)) with false by (rewrite <- Z.odd_pred in Ev; unfold Z.pred in Ev; replace (m - 1)%Z with (m + -1)%Z by lia; rewrite <- Z.negb_odd, Ev; reflexivity). lia.
Qed.
Lemma even_2 k z : (z = 2 * k)%Z -> Z.even z = true. Proof. intros ->. rewrite Z.even_mul. reflexivity. Qed.
Lemma odd_2 k z : (z = 2 * k + 1)%Z -> Z.even z = false. Proof. intros ->. rewrite Z.add_1_r, Z.even_succ, Z.odd_mul. reflexivity. Qed.
(** m is 4 k + r: the error of rounding 3 m / 4, and of m / 4 with the other sign. *)
Definition dq (k r : Z) : R := if (r =? 1)%Z then / 4 else if (r =? 3)%Z then - / 4 else if (r =? 2)%Z then (if Z.even k then / 2 else - / 2) else 0.
Lemma three_quarters k r : (0 <= r < 4)%Z -> IZR (ZnearestE (IZR (4 * k + r) * (3 / 4))) = IZR (4 * k + r) * (3 / 4) + dq k r.
Proof.
  intros R. assert (C : (r = 0 \/ r = 1 \/ r = 2 \/ r = 3)%Z) by lia. unfold dq.
  destruct C as [->|[->|[->| ->]]]; cbn [Z.eqb Pos.eqb].
  - rewrite (near_int (3 * k)); [rewrite plus_IZR, !mult_IZR; lra|]. rewrite plus_IZR, !mult_IZR. replace (_ - _) with 0 by lra. rewrite Rabs_R0; lra.
  - rewrite (near_int (3 * k + 1)); [rewrite !plus_IZR, !mult_IZR; lra|]. rewrite !plus_IZR, !mult_IZR. apply Rabs_def1; lra.
  - assert (E : IZR (4 * k + 2) * (3 / 4) = IZR (3 * k + 1) + / 2) by (rewrite !plus_IZR, !mult_IZR; lra). rewrite E, near_half.
    replace (Z.even (3 * k + 1)) with (negb (Z.even k)) by (rewrite Z.add_1_r, Z.even_succ, Z.odd_mul; cbn; apply Z.negb_even).
    destruct (Z.even k); cbn [negb]; [rewrite (plus_IZR _ 1)|]; lra.
  - rewrite (near_int (3 * k + 2)); [rewrite !plus_IZR, !mult_IZR; lra|]. rewrite !plus_IZR, !mult_IZR. apply Rabs_def1; lra.
Qed.
Lemma one_quarter k r : (0 <= r < 4)%Z -> IZR (ZnearestE (IZR (4 * k + r) * / 4)) = IZR (4 * k + r) * / 4 - dq k r.
Proof.
  intros R. assert (C : (r = 0 \/ r = 1 \/ r = 2 \/ r = 3)%Z) by lia. unfold dq.
  destruct C as [->|[->|[->| ->]]]; cbn [Z.eqb Pos.eqb].
  - rewrite (near_int k); [rewrite plus_IZR, !mult_IZR; lra|]. rewrite plus_IZR, !mult_IZR. replace (_ - _) with 0 by lra. rewrite Rabs_R0; lra.
  - rewrite (near_int k); [rewrite !plus_IZR, !mult_IZR; lra|]. rewrite !plus_IZR, !mult_IZR. apply Rabs_def1; lra.
  - assert (E : IZR (4 * k + 2) * / 4 = IZR k + / 2) by (rewrite !plus_IZR, !mult_IZR; lra). rewrite E, near_half.
    destruct (Z.even k); [|rewrite (plus_IZR _ 1)]; lra.
  - rewrite (near_int (k + 1)); [rewrite !plus_IZR, !mult_IZR; lra|]. rewrite !plus_IZR, !mult_IZR. apply Rabs_def1; lra.
Qed.
Lemma three_halves k r : (0 <= r < 4)%Z -> IZR (ZnearestE (IZR (4 * k + r) * (3 / 2))) = IZR (4 * k + r) * (3 / 2) + (if (r =? 1)%Z then / 2 else if (r =? 3)%Z then - / 2 else 0).
Proof.
  intros R. assert (C : (r = 0 \/ r = 1 \/ r = 2 \/ r = 3)%Z) by lia. destruct C as [->|[->|[->| ->]]]; cbn [Z.eqb Pos.eqb].
  - rewrite (near_int (6 * k)); [rewrite plus_IZR, !mult_IZR; lra|]. rewrite plus_IZR, !mult_IZR. replace (_ - _) with 0 by lra. rewrite Rabs_R0; lra.
  - replace (IZR (4 * k + 1) * (3 / 2)) with (IZR (6 * k + 1) + / 2) by (rewrite !plus_IZR, !mult_IZR; lra). rewrite near_half, (odd_2 (3 * k)) by lia.
    rewrite (plus_IZR _ 1). lra.
  - rewrite (near_int (6 * k + 3)); [rewrite !plus_IZR, !mult_IZR; lra|]. rewrite !plus_IZR, !mult_IZR. replace (_ - _) with 0 by lra. rewrite Rabs_R0; lra.
  - replace (IZR (4 * k + 3) * (3 / 2)) with (IZR (6 * k + 4) + / 2) by (rewrite !plus_IZR, !mult_IZR; lra). rewrite near_half, (even_2 (3 * k + 2)) by lia. lra.
Qed.
Lemma one_half k r : (0 <= r < 4)%Z -> IZR (ZnearestE (IZR (4 * k + r) * / 2)) = IZR (4 * k + r) * / 2 + (if (r =? 1)%Z then - / 2 else if (r =? 3)%Z then / 2 else 0).
Proof.
  intros R. assert (C : (r = 0 \/ r = 1 \/ r = 2 \/ r = 3)%Z) by lia. destruct C as [->|[->|[->| ->]]]; cbn [Z.eqb Pos.eqb].
  - rewrite (near_int (2 * k)); [rewrite plus_IZR, !mult_IZR; lra|]. rewrite plus_IZR, !mult_IZR. replace (_ - _) with 0 by lra. rewrite Rabs_R0; lra.
  - replace (IZR (4 * k + 1) * / 2) with (IZR (2 * k) + / 2) by (rewrite !plus_IZR, !mult_IZR; lra). rewrite near_half, (even_2 k) by lia. lra.
  - rewrite (near_int (2 * k + 1)); [rewrite !plus_IZR, !mult_IZR; lra|]. rewrite !plus_IZR, !mult_IZR. replace (_ - _) with 0 by lra. rewrite Rabs_R0; lra.
  - replace (IZR (4 * k + 3) * / 2) with (IZR (2 * k + 1) + / 2) by (rewrite !plus_IZR, !mult_IZR; lra). rewrite near_half, (odd_2 k) by lia. rewrite (plus_IZR _ 1). lra.
Qed.
Lemma quarters_pos a : representable a -> 0 < a -> rnd (rnd (a * (3 / 4)) + rnd (a * / 4)) = a.
Proof.
  intros Ra Pa. pose proof Ra as Rb. unfold representable, generic_format in Rb. set (e := cexp radix2 fe a) in *.
  set (m := Ztrunc (scaled_mantissa radix2 fe a)) in *. unfold F2R in Rb. cbn [Fnum Fexp] in Rb.
  assert (Pe : 0 < bp e) by apply bpow_gt_0.
  assert (Pm : (0 < m)%Z) by (apply lt_IZR; nra).
  assert (He : (-1074 <= e)%Z) by (unfold e, cexp, FLT_exp; lia).
  assert (G : exists g, e = Z.max (g - 53) (-1074) /\ bp (g - 1) <= a < bp g).
  { exists (mag radix2 a). split; [reflexivity|]. destruct (mag radix2 a) as [g Hg]. cbn. specialize (Hg ltac:(lra)). rewrite Rabs_pos_eq in Hg by lra. exact Hg. }
  destruct G as (g & Ee & Hg).
  assert (Mu : IZR m < IZR (2 ^ 53)).
  { change (IZR (2 ^ 53)) with (bp 53). apply Rmult_lt_reg_r with (bp e); [exact Pe|]. rewrite <- Rb, <- bpow_plus.
    eapply Rlt_le_trans; [apply Hg|]. apply bpow_le. lia. }
  assert (Ml : e <> (-1074)%Z -> IZR (2 ^ 52) <= IZR m).
  { intros N. change (IZR (2 ^ 52)) with (bp 52). apply Rmult_le_reg_r with (bp e); [exact Pe|]. rewrite <- Rb, <- bpow_plus.
    eapply Rle_trans; [|apply Hg]. apply bpow_le. lia. }
  apply lt_IZR in Mu.
  set (k := (m / 4)%Z). set (r := (m mod 4)%Z). assert (Er : (0 <= r < 4)%Z) by (apply Z.mod_pos_bound; lia).
  assert (Ek : m = (4 * k + r)%Z) by (apply Z.div_mod; lia).
  assert (SC : forall x, x * bp e * bp (- e) = x) by (intro x; rewrite Rmult_assoc, <- bpow_plus, Z.add_opp_diag_r; change (bp 0) with 1; lra).
  assert (Q1 : cexp radix2 fe (a * (3 / 4)) = e -> rnd (a * (3 / 4)) = (IZR m * (3 / 4) + dq k r) * bp e).
  { intros C. rewrite (rnd_at _ _ _ C eq_refl). replace (a * (3 / 4)) with (IZR m * (3 / 4) * bp e) by lra.
    rewrite SC, Ek, three_quarters by exact Er. reflexivity. }
  assert (Hu : a < bp (53 + e)) by (rewrite Rb, bpow_plus; apply IZR_lt in Mu; change (bp 53) with (IZR (2 ^ 53)); nra).
  destruct (Z.eq_dec e (-1074)) as [E0|N0].
  - (* subnormal numbers: the sum is exact *)
    assert (Hs : a < bp (-1021)) by (rewrite E0 in Hu; exact Hu).
    rewrite Q1 by (rewrite E0; apply cexp_sub; lra).
    rewrite (rnd_at (a * / 4) e _ ltac:(rewrite E0; apply cexp_sub; lra) eq_refl).
    replace (a * / 4) with (IZR m * / 4 * bp e) by lra. rewrite SC. rewrite Ek at 2. rewrite one_quarter by exact Er. rewrite <- Ek.
    replace (_ + _) with a by lra. apply rnd_id. exact Ra.
  - specialize (Ml N0). apply le_IZR in Ml.
    assert (H1 : (-1073 <= e)%Z) by lia.
    assert (HalfE : bp e = 2 * bp (e - 1)) by (replace e with (1 + (e - 1))%Z at 1 by lia; rewrite bpow_plus; reflexivity).
    assert (Pe1 : 0 < bp (e - 1)) by apply bpow_gt_0.
    assert (SC1 : forall x, x * bp e * bp (- (e - 1)) = x * 2) by (intro x; rewrite HalfE; replace (x * (2 * bp (e - 1)) * bp (- (e - 1))) with (x * 2 * (bp (e - 1) * bp (- (e - 1)))) by ring;
      rewrite <- bpow_plus, Z.add_opp_diag_r; change (bp 0) with 1; lra).
    assert (B51 : bp (51 + e) = IZR (2 ^ 51) * bp e) by (rewrite bpow_plus; reflexivity).
    assert (B52 : bp (52 + e) = IZR (2 ^ 52) * bp e) by (rewrite bpow_plus; reflexivity).
    assert (B53 : bp (53 + e) = IZR (2 ^ 53) * bp e) by (rewrite bpow_plus; reflexivity).
    assert (RM : IZR (2 ^ 52) <= IZR m /\ IZR m < IZR (2 ^ 53)) by (split; [apply IZR_le|apply IZR_lt]; lia).
    change (IZR (2 ^ 52)) with 4503599627370496 in *. change (IZR (2 ^ 53)) with 9007199254740992 in *. change (IZR (2 ^ 51)) with 2251799813685248 in *.
    (* three quarters *)
    assert (Q : exists d, rnd (a * (3 / 4)) = (IZR m * (3 / 4) + d) * bp e /\ (m = 4503599627370496%Z -> d = 0) /\
      (d = dq k r \/ d = (if (r =? 1)%Z then / 4 else if (r =? 3)%Z then - / 4 else 0))).
    { destruct (Rle_lt_dec (bp (52 + e)) (a * (3 / 4))) as [L|L].
      - exists (dq k r). split; [apply Q1, cexp_normal; [lia|split; [exact L|lra]]|]. split; [|auto].
        intros ->. rewrite B52, Rb in L. lra.
      - exists (if (r =? 1)%Z then / 4 else if (r =? 3)%Z then - / 4 else 0). split; [|split; [|auto]].
        + assert (C : cexp radix2 fe (a * (3 / 4)) = (e - 1)%Z).
          { apply cexp_normal; [lia|]. replace (52 + (e - 1))%Z with (51 + e)%Z by lia. replace (53 + (e - 1))%Z with (52 + e)%Z by lia. split; [rewrite B51, Rb; nra|exact L]. }
          rewrite (rnd_at _ _ _ C eq_refl). replace (a * (3 / 4)) with (IZR m * (3 / 4) * bp e) by lra. rewrite SC1.
          replace (IZR m * (3 / 4) * 2) with (IZR m * (3 / 2)) by lra. rewrite Ek at 1. rewrite three_halves by exact Er. rewrite <- Ek, HalfE.
          destruct (r =? 1)%Z; [|destruct (r =? 3)%Z]; lra.
        + intros ->. unfold r. reflexivity. }
    (* one quarter *)
    assert (Q4 : rnd (a * / 4) = IZR m * / 4 * bp e \/ (r = 1%Z /\ rnd (a * / 4) = (IZR m * / 4 - / 4) * bp e) \/ (r = 3%Z /\ rnd (a * / 4) = (IZR m * / 4 + / 4) * bp e)).
    { destruct (Z.eq_dec e (-1073)) as [E1|N1].
      - assert (C : cexp radix2 fe (a * / 4) = (e - 1)%Z).
        { rewrite E1. apply cexp_sub. split; [lra|]. assert (a < bp (2 + -1022)) by (rewrite E1 in Hu; exact Hu). rewrite bpow_plus in H. change (bp 2) with 4 in H.
          eapply Rlt_trans with (bp (-1022)); [lra|apply bpow_lt; lia]. }
        rewrite (rnd_at _ _ _ C eq_refl). replace (a * / 4) with (IZR m * / 4 * bp e) by lra. rewrite SC1.
        replace (IZR m * / 4 * 2) with (IZR m * / 2) by lra. rewrite Ek at 1 3 5. rewrite one_half by exact Er. rewrite <- Ek, HalfE.
        destruct (Z.eqb_spec r 1); [right; left; split; [assumption|lra]|]. destruct (Z.eqb_spec r 3); [right; right; split; [assumption|lra]|]. left. lra.
      - left. replace (a * / 4) with (IZR m * / 4 * bp e) by lra. apply rnd_id.
        replace (IZR m * / 4 * bp e) with (F2R (Float radix2 m (e - 2))).
        + apply generic_format_FLT. exists (Float radix2 m (e - 2)); [reflexivity|cbn [Fnum]; rewrite Z.abs_eq by lia; exact Mu|cbn [Fexp]; lia].
        + unfold F2R. cbn [Fnum Fexp]. unfold Z.sub. rewrite bpow_plus. change (bp (Z.opp 2)) with (/ 4). lra. }
    destruct Q as (d & Qa & Qb & Qd). rewrite Qa.
    destruct (Z.eq_dec m 4503599627370496) as [Em|Nm].
    + rewrite (Qb Em). assert (R0 : r = 0%Z) by (unfold r; rewrite Em; reflexivity). destruct Q4 as [->|[[? _]|[? _]]]; try lia.
      replace (_ + _) with a by lra. apply rnd_id. exact Ra.
    + assert (Hm : (2 ^ 52 < m < 2 ^ 53)%Z) by lia. rewrite Rb at 2.
      assert (Dr : (r = 1%Z -> d = / 4) /\ (r = 3%Z -> d = - / 4) /\ (r = 2%Z -> d = / 2 \/ d = - / 2 \/ d = 0) /\ (r = 0%Z -> d = 0)).
      { unfold dq in Qd. repeat split; intros ->; cbn [Z.eqb Pos.eqb] in Qd; destruct (Z.even k); tauto. }
      destruct Dr as (D1 & D3 & D2 & D0).
      destruct Q4 as [->|[[R1 ->]|[R3 ->]]].
      * replace (_ + _) with ((IZR m + d) * bp e) by lra. apply settle; [exact Hm|lia|].
        assert (C : (r = 0 \/ r = 1 \/ r = 2 \/ r = 3)%Z) by lia. destruct C as [C|[C|[C|C]]].
        -- left. rewrite (D0 C), Rabs_R0. lra.
        -- left. rewrite (D1 C). apply Rabs_def1; lra.
        -- destruct (D2 C) as [->|[->| ->]]; [right|right|left; rewrite Rabs_R0; lra]; (split; [apply (even_2 (2 * k + 1)); lia|auto]).
        -- left. rewrite (D3 C). apply Rabs_def1; lra.
      * rewrite (D1 R1). replace (_ + _) with a by lra. rewrite <- Rb. apply rnd_id. exact Ra.
      * rewrite (D3 R3). replace (_ + _) with a by lra. rewrite <- Rb. apply rnd_id. exact Ra.
Qed.
Lemma quarters a : representable a -> rnd (rnd (a * (3 / 4)) + rnd (a * / 4)) = a.
Proof.
  intros Ra. destruct (Rtotal_order a 0) as [N|[->|P]].
  - replace (a * (3 / 4)) with (- (- a * (3 / 4))) by lra. replace (a * / 4) with (- (- a * / 4)) by lra. rewrite !rnd_opp.
    replace (- rnd (- a * (3 / 4)) + - rnd (- a * / 4)) with (- (rnd (- a * (3 / 4)) + rnd (- a * / 4))) by lra. rewrite rnd_opp, quarters_pos; [lra|apply rep_opp; exact Ra|lra].
  - rewrite !Rmult_0_l, !(rnd_id 0 rep_0), Rplus_0_l. apply rnd_id, rep_0.
  - apply quarters_pos; assumption.
Qed.

(** * One coordinate *)
Lemma val_3_4 : val f_3_4 = 3 / 4. Proof. unfold val, f_3_4, SF2R, F2R. cbn. lra. Qed.
Lemma val_1_4 : val f_1_4 = / 4. Proof. unfold val, f_1_4, SF2R, F2R. cbn. lra. Qed.
Lemma fin_3_4 : finite_double f_3_4. Proof. apply finite_check. reflexivity. Qed.
Lemma fin_1_4 : finite_double f_1_4. Proof. apply finite_check. reflexivity. Qed.
Lemma rnd_abs_le x m : representable m -> Rabs x <= m -> Rabs (rnd x) <= m.
Proof.
  intros Rm H. apply Rabs_le_inv in H. apply Rabs_le. split.
  - rewrite <- (rnd_id (- m)) by (apply rep_opp; exact Rm). apply rnd_le. lra.
  - rewrite <- (rnd_id m) by exact Rm. apply rnd_le. lra.
Qed.
Lemma rep_abs x : representable x -> representable (Rabs x).
Proof. intros H. unfold Rabs. destruct (Rcase_abs x); [apply rep_opp; exact H|exact H]. Qed.
Lemma fin_abs_lt x : finite_double x -> Rabs (val x) < huge.
Proof. intros F. destruct (opp_double x F) as [F' E]. pose proof (fin_lt_huge x F). pose proof (fin_lt_huge _ F'). rewrite E in H0. apply Rabs_def1; lra. Qed.
Definition mixed (a b : R) : R := rnd (rnd (a * (3 / 4)) + rnd (b * / 4)).
Lemma mixed_mono a b a' b' : a <= a' -> b <= b' -> mixed a b <= mixed a' b'.
Proof. intros A B. apply rnd_le, Rplus_le_compat; apply rnd_le; lra. Qed.
Lemma mixed_between a b : representable a -> representable b -> between a b (mixed a b).
Proof.
  intros A B. unfold between. split.
  - assert (Rm : representable (Rmin a b)) by (unfold Rmin; destruct (Rle_dec a b); assumption).
    rewrite <- (quarters _ Rm). apply mixed_mono; [apply Rmin_l|apply Rmin_r].
  - assert (Rm : representable (Rmax a b)) by (unfold Rmax; destruct (Rle_dec a b); assumption).
    rewrite <- (quarters _ Rm). apply mixed_mono; [apply Rmax_l|apply Rmax_r].
Qed.
Lemma between_abs a b x : between a b x -> Rabs x <= Rmax (Rabs a) (Rabs b).
Proof.
  intros [L U]. pose proof (Rmax_l (Rabs a) (Rabs b)). pose proof (Rmax_r (Rabs a) (Rabs b)).
  pose proof (Rle_abs a). pose proof (Rle_abs b). pose proof (Rle_abs (- a)). pose proof (Rle_abs (- b)). rewrite Rabs_Ropp in *.
  set (m := Rmax (Rabs a) (Rabs b)) in *. apply Rabs_le. unfold Rmin in L. unfold Rmax in U. destruct (Rle_dec a b); lra.
Qed.
Lemma rnd_near x : Rabs (rnd x - x) <= bp (-53) * Rabs x + bp (-1075).
Proof.
  destruct (error_N_FLT radix2 (-1074) 53 eq_refl (fun x => negb (Z.even x)) x) as (eps & eta & H1 & H2 & _ & H3).
  unfold rnd. rewrite H3. replace (x * (1 + eps) + eta - x) with (eps * x + eta) by ring.
  eapply Rle_trans; [apply Rabs_triang|]. apply Rplus_le_compat.
  - rewrite Rabs_mult. apply Rmult_le_compat_r; [apply Rabs_pos|]. eapply Rle_trans; [exact H1|]. apply Req_le. change (/ 2) with (bp (-1)). rewrite <- bpow_plus. reflexivity.
  - eapply Rle_trans; [exact H2|]. apply Req_le. change (/ 2) with (bp (-1)). rewrite <- bpow_plus. reflexivity.
Qed.
Lemma rnd_near' x : Rabs (rnd x - x) <= bp (-53) * Rabs (rnd x) + bp (-1075).
Proof.
  unfold rnd. eapply Rle_trans; [apply error_le_half_ulp_round; typeclasses eauto|]. set (y := round radix2 fe ZnearestE x).
  destruct (Rle_lt_dec (bp (-1022)) (Rabs y)) as [L|L].
  - pose proof (ulp_FLT_le radix2 (-1074) 53 y L) as U. pose proof (bpow_gt_0 radix2 (-1075)).
    assert (E : bp (1 - 53) = 2 * bp (-53)) by (change 2 with (bp 1); rewrite <- bpow_plus; reflexivity). rewrite E in U. lra.
  - rewrite ulp_FLT_small by first [typeclasses eauto | eapply Rlt_le_trans; [exact L|apply bpow_le; lia]].
    pose proof (bpow_gt_0 radix2 (-53)). pose proof (Rabs_pos y).
    assert (E : bp (-1074) = 2 * bp (-1075)) by (change 2 with (bp 1); rewrite <- bpow_plus; reflexivity). rewrite E. nra.
Qed.
Lemma mixed_near a b : representable a -> representable b -> near_quarter a b (mixed a b).
Proof.
  intros A B. unfold near_quarter. pose proof (between_abs _ _ _ (mixed_between a b A B)) as M. unfold mixed in *.
  pose proof (rnd_near (a * (3 / 4))) as E1. pose proof (rnd_near (b * / 4)) as E2. pose proof (rnd_near' (rnd (a * (3 / 4)) + rnd (b * / 4))) as E3.
  set (x := rnd (a * (3 / 4))) in *. set (y := rnd (b * / 4)) in *. set (s := rnd (x + y)) in *.
  rewrite Rabs_mult, (Rabs_pos_eq (3 / 4)) in E1 by lra. rewrite Rabs_mult, (Rabs_pos_eq (/ 4)) in E2 by lra.
  pose proof (Rmax_l (Rabs a) (Rabs b)). pose proof (Rmax_r (Rabs a) (Rabs b)). set (m := Rmax (Rabs a) (Rabs b)) in *.
  assert (P : 0 < bp (-53)) by apply bpow_gt_0. assert (Ph : 0 < bp (-1075)) by apply bpow_gt_0.
  replace (bp (-52)) with (2 * bp (-53)) by (change 2 with (bp 1); rewrite <- bpow_plus; reflexivity).
  replace (bp (-1073)) with (4 * bp (-1075)) by (change 4 with (bp 2); rewrite <- bpow_plus; reflexivity).
  replace (s - (3 * a + b) / 4) with ((s - (x + y)) + ((x - a * (3 / 4)) + (y - b * / 4))) by lra.
  eapply Rle_trans; [apply Rabs_triang|]. eapply Rle_trans; [apply Rplus_le_compat_l, Rabs_triang|]. nra.
Qed.
Lemma mix1_ok x y : finite_double x -> finite_double y -> finite_double (mix1_f x y) /\ val (mix1_f x y) = mixed (val x) (val y).
Proof.
  intros Fx Fy. unfold mix1_f.
  destruct (mul_rounds x f_3_4 Fx fin_3_4) as [F1 V1].
  { rewrite val_3_4. eapply Rle_lt_trans; [apply (rnd_abs_le _ (Rabs (val x)))|apply fin_abs_lt; exact Fx]; [apply rep_abs, format_val; exact Fx|].
    rewrite Rabs_mult, (Rabs_pos_eq (3 / 4)) by lra. pose proof (Rabs_pos (val x)). lra. }
  destruct (mul_rounds y f_1_4 Fy fin_1_4) as [F2 V2].
  { rewrite val_1_4. eapply Rle_lt_trans; [apply (rnd_abs_le _ (Rabs (val y)))|apply fin_abs_lt; exact Fy]; [apply rep_abs, format_val; exact Fy|].
    rewrite Rabs_mult, (Rabs_pos_eq (/ 4)) by lra. pose proof (Rabs_pos (val y)). lra. }
  rewrite val_3_4 in V1. rewrite val_1_4 in V2. destruct (add_rounds _ _ F1 F2) as [H _]. rewrite V1, V2 in H. apply H.
  eapply Rle_lt_trans; [apply (between_abs (val x) (val y)), mixed_between; apply format_val; assumption|].
  apply Rmax_lub_lt; apply fin_abs_lt; assumption.
Qed.
Lemma val_inj x y : finite_double x -> finite_double y -> val x = val y -> val x <> 0 -> x = y.
Proof.
  intros Fx Fy E N. destruct (lift x Fx) as (b & B1 & B2 & B3). destruct (lift y Fy) as (c & C1 & C2 & C3). rewrite <- B1, <- C1. f_equal.
  apply B2R_inj.
  - destruct b; try reflexivity; try discriminate. exfalso. apply N. rewrite <- B3. reflexivity.
  - destruct c; try reflexivity; try discriminate. exfalso. apply N. rewrite E, <- C3. reflexivity.
  - rewrite B3, C3. exact E.
Qed.
Lemma mix1_self x : finite_double x -> mix1_f x x = x.
Proof.
  intros F. destruct (mix1_ok x x F F) as [F' V]. unfold mixed in V. rewrite quarters in V by (apply format_val; exact F).
  destruct (Req_dec (val x) 0) as [Z|N].
  - destruct x as [s|s| |s m e]; [destruct s; reflexivity|destruct F; discriminate|destruct F; discriminate|].
    exfalso. unfold val, SF2R in Z. apply eq_0_F2R in Z. destruct s; discriminate.
  - apply val_inj; [assumption|assumption|assumption|rewrite V; exact N].
Qed.
Lemma mix_self_f p : finite_point p -> mix_f p p = p.
Proof. intros [A B]. unfold mix_f. rewrite !mix1_self by assumption. destruct p; reflexivity. Qed.
Lemma mix_cut p q : finite_point p -> finite_point q -> cut_point p q (mix_f p q).
Proof.
  intros [A1 A2] [B1 B2]. destruct (mix1_ok _ _ A1 B1) as [F1 V1]. destruct (mix1_ok _ _ A2 B2) as [F2 V2]. unfold cut_point, mix_f. cbn [fst snd]. rewrite V1, V2.
  split; [split; assumption|]. split; [apply mixed_between; apply format_val; assumption|]. split; [apply mixed_between; apply format_val; assumption|].
  split; apply mixed_near; apply format_val; assumption.
Qed.

(** * One pass *)
(** The model on exact numbers is the same function. *)
Lemma pass_same l : chaikin_pass l = cut_pass mix l. Proof. reflexivity. Qed.
Lemma loop_same k : forall l, chaikin k l = cut_loop mix k l.
Proof. induction k as [|k IH]; intro l; [reflexivity|]. cbn [chaikin cut_loop]. rewrite pass_same. destruct (cut_pass mix l); cbn [bind]; auto. Qed.
Section Pass.
  Context {A : Type} (mx : A -> A -> A).
  Lemma cut_nth : forall ps qs j a b, cut_pass mx ps = Ok qs -> nth_error (twice ps) j = Some a ->
    nth_error (twice ps) (if (j =? 0)%nat then 0%nat else if (j =? 2 * length ps - 1)%nat then (2 * length ps - 1)%nat else if Nat.even j then (j - 1)%nat else (j + 1)%nat) = Some b ->
    nth_error qs j = Some (mx a b).
  Proof.
    intros ps qs j a b H X Y. destruct ps as [|p0 ps]; [discriminate|]. cbn [cut_pass] in H. set (L := twice (p0 :: ps)) in *.
    assert (LL : length L = (2 * length (p0 :: ps))%nat) by apply twice_length.
    match type of H with Ok ?v = Ok _ => assert (E : qs = v) by congruence end. clear H. subst qs. rewrite nth_error_map.
    assert (JL : (j < length L)%nat) by (apply nth_error_Some; congruence).
    erewrite nth_combine; [reflexivity|exact X|].
    rewrite nth_error_map, (nth_error_nth' _ 0%nat) by (rewrite seq_length; exact JL). rewrite seq_nth by exact JL. cbn [option_map Nat.add]. f_equal.
    rewrite <- LL in Y. destruct (Nat.eqb_spec j 0); [apply nth_error_nth; exact Y|].
    destruct (Nat.eqb_spec j (length L - 1)); [|destruct (Nat.even j); apply nth_error_nth; exact Y].
    rewrite (last_nth_error L p0) in Y by (intro E; rewrite E in JL; cbn in JL; lia). congruence.
  Qed.
  Lemma cut_length : forall ps qs, cut_pass mx ps = Ok qs -> length qs = (2 * length ps)%nat.
  Proof.
    intros [|p0 ps] qs H; [discriminate|]. cbn [cut_pass] in H. set (L := twice (p0 :: ps)) in *.
    assert (LL : length L = (2 * length (p0 :: ps))%nat) by apply twice_length.
    match type of H with Ok ?v = Ok _ => assert (E : qs = v) by congruence end. rewrite E. rewrite map_length, combine_length, map_length, seq_length. lia.
  Qed.
  Lemma cut_first ps qs p : cut_pass mx ps = Ok qs -> nth_error ps 0 = Some p -> nth_error qs 0 = Some (mx p p).
  Proof.
    intros H E. assert (T : nth_error (twice ps) 0 = Some p) by (rewrite <- E; exact (proj1 (nth_twice ps 0))).
    eapply cut_nth; [exact H|exact T|cbn [Nat.eqb]; exact T].
  Qed.
  Lemma cut_last ps qs p : cut_pass mx ps = Ok qs -> nth_error ps (length ps - 1) = Some p -> nth_error qs (2 * length ps - 1) = Some (mx p p).
  Proof.
    intros H E. assert (P : (0 < length ps)%nat) by (destruct ps; [discriminate|cbn; lia]).
    assert (T : nth_error (twice ps) (2 * length ps - 1) = Some p).
    { rewrite <- E. replace (2 * length ps - 1)%nat with (2 * (length ps - 1) + 1)%nat by lia. apply nth_twice. }
    eapply cut_nth; [exact H|exact T|]. destruct (Nat.eqb_spec (2 * length ps - 1) 0); [lia|]. rewrite Nat.eqb_refl. exact T.
  Qed.
  Lemma cut_inner ps qs i p p' : cut_pass mx ps = Ok qs -> nth_error ps i = Some p -> nth_error ps (S i) = Some p' ->
    nth_error qs (2 * i + 1) = Some (mx p p') /\ nth_error qs (2 * i + 2) = Some (mx p' p).
  Proof.
    intros H E E'. assert (I : (S i < length ps)%nat) by (apply nth_error_Some; congruence). split.
    - eapply cut_nth; [exact H|eapply eq_trans; [exact (proj2 (nth_twice ps i))|exact E]|].
      destruct (Nat.eqb_spec (2 * i + 1) 0); [lia|]. destruct (Nat.eqb_spec (2 * i + 1) (2 * length ps - 1)); [lia|].
      replace (Nat.even (2 * i + 1)) with false by (symmetry; rewrite Nat.add_1_r, Nat.even_succ, Nat.odd_mul; reflexivity).
      replace (2 * i + 1 + 1)%nat with (2 * (S i))%nat by lia. exact (eq_trans (proj1 (nth_twice ps (S i))) E').
    - eapply cut_nth; [exact H|replace (2 * i + 2)%nat with (2 * (S i))%nat by lia; eapply eq_trans; [exact (proj1 (nth_twice ps (S i)))|exact E']|].
      destruct (Nat.eqb_spec (2 * i + 2) 0); [lia|]. destruct (Nat.eqb_spec (2 * i + 2) (2 * length ps - 1)); [lia|].
      replace (Nat.even (2 * i + 2)) with true by (symmetry; replace (2 * i + 2)%nat with (2 * (S i))%nat by lia; rewrite Nat.even_mul; reflexivity).
      replace (2 * i + 2 - 1)%nat with (2 * i + 1)%nat by lia. exact (eq_trans (proj2 (nth_twice ps i)) E).
  Qed.
End Pass.
Lemma nth_In' {A} (l : list A) i x : nth_error l i = Some x -> In x l. Proof. apply nth_error_In. Qed.
Lemma pass_once ps qs : cut_pass mix_f ps = Ok qs -> Forall finite_point ps -> cut_once ps qs.
Proof.
  intros H F. rewrite Forall_forall in F. assert (P : (0 < length ps)%nat) by (destruct ps; [discriminate|cbn; lia]).
  split; [eapply cut_length; exact H|]. split; [|split].
  - destruct (nth_error ps 0) as [p|] eqn:E; [|apply nth_error_None in E; lia]. rewrite (cut_first _ _ _ _ H E), mix_self_f; [reflexivity|]. apply F. eapply nth_In'. exact E.
  - destruct (nth_error ps (length ps - 1)) as [p|] eqn:E; [|apply nth_error_None in E; lia]. rewrite (cut_last _ _ _ _ H E), mix_self_f; [reflexivity|]. apply F. eapply nth_In'. exact E.
  - intros i p p' E E'. destruct (cut_inner _ _ _ _ _ _ H E E') as [X Y].
    assert (Fp : finite_point p) by (apply F; eapply nth_In'; exact E). assert (Fp' : finite_point p') by (apply F; eapply nth_In'; exact E').
    split; [exists (mix_f p p')|exists (mix_f p' p)]; (split; [assumption|apply mix_cut; assumption]).
Qed.
(** From the specification alone. *)
Lemma position n j : (j < 2 * n)%nat -> (j = 0 \/ j = 2 * n - 1 \/ exists i, S i < n /\ (j = 2 * i + 1 \/ j = 2 * i + 2))%nat.
Proof.
  intros H. destruct (Nat.eq_dec j 0); [auto|]. destruct (Nat.eq_dec j (2 * n - 1)); [auto|]. right; right. exists ((j - 1) / 2)%nat.
  pose proof (Nat.div_mod (j - 1) 2 ltac:(lia)). pose proof (Nat.mod_upper_bound (j - 1) 2 ltac:(lia)). lia.
Qed.
Lemma once_points ps qs q : cut_once ps qs -> In q qs -> In q ps \/ exists p p', In p ps /\ In p' ps /\ cut_point p p' q.
Proof.
  intros (L & F & La & I) H. destruct (In_nth_error _ _ H) as [j J]. assert (Lj : (j < 2 * length ps)%nat) by (rewrite <- L; apply nth_error_Some; congruence).
  destruct (position _ _ Lj) as [->|[->|(i & Li & Ji)]].
  - left. rewrite F in J. eapply nth_error_In. exact J.
  - left. rewrite La in J. eapply nth_error_In. exact J.
  - right. destruct (nth_error ps i) as [p|] eqn:E; [|apply nth_error_None in E; lia]. destruct (nth_error ps (S i)) as [p'|] eqn:E'; [|apply nth_error_None in E'; lia].
    destruct (I _ _ _ E E') as [(q1 & X1 & Y1) (q2 & X2 & Y2)]. apply nth_error_In in E, E'.
    destruct Ji as [->| ->].
    + rewrite X1 in J. injection J as <-. exists p, p'. auto.
    + rewrite X2 in J. injection J as <-. exists p', p. auto.
Qed.
Lemma once_finite ps qs : cut_once ps qs -> Forall finite_point ps -> Forall finite_point qs.
Proof.
  intros C F. rewrite Forall_forall in *. intros q H. destruct (once_points _ _ _ C H) as [I|(p & p' & _ & _ & D)]; [auto|exact (proj1 D)].
Qed.
Lemma chaikin_f_ok k : forall ps, ps <> [] -> Forall finite_point ps -> exists qs, chaikin_f k ps = Ok qs /\ cut_times k ps qs.
Proof.
  induction k as [|k IH]; intros ps N F; [exists ps; split; [reflexivity|constructor]|]. unfold chaikin_f. cbn [cut_loop].
  destruct (cut_pass mix_f ps) as [c|e|] eqn:E; [|destruct ps; [congruence|discriminate]|destruct ps; [congruence|discriminate]]. cbn [bind].
  pose proof (pass_once _ _ E F) as C. destruct (IH c) as (qs & Q1 & Q2).
  - intros ->. destruct C as [L _]. destruct ps; [congruence|cbn in L; lia].
  - eapply once_finite; eassumption.
  - exists qs. split; [exact Q1|]. econstructor; eassumption.
Qed.
Lemma times_facts k ps qs : cut_times k ps qs -> Forall finite_point ps ->
  length qs = (length ps * 2 ^ k)%nat /\ Forall finite_point qs /\ nth_error qs 0 = nth_error ps 0 /\ nth_error qs (length qs - 1) = nth_error ps (length ps - 1).
Proof.
  induction 1 as [ps|k ps qs rs C T IH]; intro F; [cbn; repeat split; auto; lia|]. pose proof (once_finite _ _ C F) as Fq. destruct (IH Fq) as (L & Fr & H0 & H1).
  destruct C as (Lq & Q0 & Q1 & _). split; [rewrite L, Lq; cbn [Nat.pow]; lia|]. split; [exact Fr|]. split; [congruence|]. rewrite H1, Lq. exact Q1.
Qed.
Lemma between_box lo hi a b x : lo <= a <= hi -> lo <= b <= hi -> between a b x -> lo <= x <= hi.
Proof. intros A B [L U]. split; [eapply Rle_trans; [apply Rmin_glb|exact L]; lra|eapply Rle_trans; [exact U|apply Rmax_lub]; lra]. Qed.
Lemma times_box k ps qs : cut_times k ps qs -> forall xmin xmax ymin ymax,
  (forall p, In p ps -> xmin <= val (fst p) <= xmax /\ ymin <= val (snd p) <= ymax) ->
  forall q, In q qs -> xmin <= val (fst q) <= xmax /\ ymin <= val (snd q) <= ymax.
Proof.
  induction 1 as [ps|k ps qs rs C T IH]; intros xmin xmax ymin ymax H; [exact H|]. apply IH. intros q I.
  destruct (once_points _ _ _ C I) as [J|(p & p' & J & J' & _ & Bx & By & _)]; [auto|]. destruct (H p J) as [X Y]. destruct (H p' J') as [X' Y'].
  split; [exact (between_box _ _ _ _ _ X X' Bx)|exact (between_box _ _ _ _ _ Y Y' By)].
Qed.
Lemma ring_closed k ps qs : cut_times k ps qs -> ps <> [] -> Forall finite_point ps -> nth_error ps 0 = nth_error ps (length ps - 1) -> nth_error qs 0 = nth_error qs (length qs - 1).
Proof. intros T _ F E. destruct (times_facts _ _ _ T F) as (_ & _ & A & B). congruence. Qed.
