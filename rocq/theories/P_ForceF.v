(** Proofs about bar forces on doubles. *)
From Coq Require Import List Arith Bool ZArith Lia Reals Lra Psatz SpecFloat Permutation.
From Flocq Require Import Core IEEE754.BinarySingleNaN Relative Plus_error.
From Verif Require Import Util M_Base M_Numpy M_Edges M_FixMesh M_LimitF M_QualF M_Forces M_ForceF.
From Verif Require Import S_Double S_Ieee S_Quality S_QualF S_Forces S_ForceF S_LapF P_Quality P_Double P_LimitF P_CutF P_LapF P_Ieee3 P_QualF P_Forces.
Import ListNotations.
Open Scope R_scope.

#[local] Hint Resolve factor1 factor_mul factor_1 factor_pow : fac.

Lemma near_nr n v e : (n <= 100)%nat -> nr (v1 ^ n) v e -> near (2 * INR n) v e.
Proof.
  intros L N. assert (F : factor (v1 ^ n)) by auto with fac. destruct (nr_close _ _ _ F N) as [A B]. pose proof (proj1 N) as E0. pose proof u_bounds as U.
  assert (BE : 1 - INR n * u <= v1 ^ n) by (apply bernoulli; lra). assert (LN : INR n <= 100) by (replace 100 with (INR 100) by (cbn; lra); apply le_INR; lia). pose proof (pos_INR n) as P0.
  assert (IN : / v1 ^ n <= 1 + 2 * INR n * u).
  { assert (G : 0 < 1 - INR n * u) by nra. apply Rle_trans with (/ (1 - INR n * u)); [apply Rinv_le_contravar; assumption|].
    apply Rmult_le_reg_l with (1 - INR n * u); [exact G|]. rewrite Rinv_r by lra. set (t := INR n * u) in *. assert (0 <= t <= / 10000) by (unfold t; nra). replace (2 * INR n * u) with (2 * t) by (unfold t; ring). nra. }
  unfold near. rewrite (Rabs_pos_eq e) by exact E0. assert (e * / v1 ^ n <= e * (1 + 2 * INR n * u)) by (apply Rmult_le_compat_l; assumption). assert (e * (1 - INR n * u) <= e * v1 ^ n) by (apply Rmult_le_compat_l; assumption).
  assert (0 <= e * (INR n * u)) by (apply Rmult_le_pos; [assumption|nra]). apply Rabs_le. lra.
Qed.

(** * Values up to sign *)
Definition sg (w v e : R) : Prop := (0 <= e /\ nr w v e) \/ (e <= 0 /\ nr w (- v) (- e)).
Lemma sg_near n v e : (n <= 100)%nat -> sg (v1 ^ n) v e -> near (2 * INR n) v e.
Proof.
  intros L [[_ N]|[_ N]]; apply near_nr in N; try exact L; [exact N|]. unfold near in *. rewrite Rabs_Ropp in N. replace (- v - - e) with (- (v - e)) in N by ring. rewrite Rabs_Ropp in N. exact N.
Qed.
Lemma sub_comp x y : finite_double x -> finite_double y -> Rabs (val x) <= 2 ^ 60 -> Rabs (val y) <= 2 ^ 60 -> spaced x y ->
  finite_double (fsub x y) /\ sg v1 (val (fsub x y)) (val x - val y) /\ ((val x = val y /\ val (fsub x y) = 0) \/ rng 61 (Rabs (val (fsub x y)))).
Proof.
  intros Fx Fy Bx By S. assert (T60 : 2 ^ 60 = bp 60). { rewrite bpow_powerRZ. reflexivity. } rewrite T60 in *.
  assert (B1 : Rabs (val x - val y) <= bp 61). { change 61%Z with (60 + 1)%Z. rewrite bpow_plus. change (bp 1) with 2. replace (val x - val y) with (val x + - val y) by ring. apply Rle_trans with (1 := Rabs_triang _ _). rewrite Rabs_Ropp. lra. }
  assert (B2 : Rabs (rnd (val x - val y)) <= bp 61) by (apply rnd_abs_le; [apply rep_bp; lia|exact B1]).
  destruct (proj1 (sub_rounds x y Fx Fy)) as [F V]. { apply huge_big with 61%Z; [lia|exact B2]. }
  rewrite V. split; [exact F|]. destruct (Req_dec (val x) (val y)) as [E|E].
  - rewrite E. replace (val y - val y) with 0 by ring. rewrite (rnd_id 0) by apply rep_0. split; [left; split; [lra|]; repeat split; lra|]. left. auto.
  - destruct S as [S|S]; [contradiction|]. rewrite T60 in S. rewrite <- bpow_opp in S.
    assert (LO : bp (-1022) <= Rabs (val x - val y)). { apply Rle_trans with (2 := S). apply bpow_le. lia. }
    assert (RL : bp (-60) <= Rabs (rnd (val x - val y))). { apply abs_round_ge_generic; [apply FLT_exp_valid; reflexivity|apply valid_rnd_N|apply (rep_bp (-60)); lia|exact S]. }
    split.
    + destruct (Rle_dec 0 (val x - val y)) as [P|P].
      * left. split; [exact P|]. rewrite (Rabs_pos_eq _ P) in LO. apply rnd_nr, LO.
      * right. split; [lra|]. rewrite <- rnd_opp. rewrite Rabs_left in LO by lra. apply rnd_nr, LO.
    + right. split; [|exact B2]. apply Rle_trans with (2 := RL). apply bpow_le. lia.
Qed.
Lemma mul_sg w w' k j q E d D : factor w -> factor w' -> (0 <= k + j <= 1000)%Z -> finite_double q -> finite_double d -> nr w (val q) E -> sg w' (val d) D ->
  val q = 0 \/ rng k (val q) -> val d = 0 \/ rng j (Rabs (val d)) ->
  finite_double (fmul q d) /\ sg (v1 * (w * w')) (val (fmul q d)) (E * D) /\ Rabs (val (fmul q d)) <= bp (k + j).
Proof.
  intros W W' K Fq Fd N S Q Dd.
  assert (Z : val q = 0 \/ val d = 0 -> finite_double (fmul q d) /\ sg (v1 * (w * w')) (val (fmul q d)) (E * D) /\ Rabs (val (fmul q d)) <= bp (k + j)).
  { intros Z. destruct (mul_zero q d Fq Fd Z) as [F V]. split; [exact F|]. rewrite V, Rabs_R0. split; [|apply bpow_ge_0].
    assert (ED : E * D = 0). { destruct Z as [Z|Z].
      - rewrite Z in N. destruct N as (N0 & N1 & _). destruct W as [W _]. assert (E = 0) by nra. subst E. ring.
      - rewrite Z in S. assert (D = 0). { destruct W' as [W' _]. destruct S as [[S0 (_ & S1 & _)]|[S0 (_ & S1 & _)]]; nra. } subst D. ring. }
    rewrite ED. left. split; [lra|]. repeat split; lra. }
  destruct Q as [Q|Q]; [apply Z; auto|]. destruct Dd as [Dd|Dd]; [apply Z; auto|]. clear Z.
  pose proof (rng_pos _ _ Q) as Pq. assert (RM : rng (k + j) (Rabs (val q * val d))) by (rewrite Rabs_mult, (Rabs_pos_eq (val q)) by lra; apply rng_mul; assumption).
  assert (RR : rng (k + j) (rnd (Rabs (val q * val d))) /\ Rabs (rnd (Rabs (val q * val d))) < huge /\ bp (-1022) <= Rabs (val q * val d)) by (apply rng_rnd; assumption).
  destruct RR as ([R1 R2] & R3 & R4).
  assert (AB : Rabs (rnd (val q * val d)) = rnd (Rabs (val q * val d))).
  { destruct (Rle_dec 0 (val q * val d)) as [P|P]; [rewrite !Rabs_pos_eq by (try apply rnd_sign_pos; assumption); reflexivity|].
    rewrite (Rabs_left (val q * val d)) by lra. rewrite rnd_opp. rewrite Rabs_left1; [reflexivity|apply rnd_sign_neg; lra]. }
  destruct (mul_rounds q d Fq Fd) as [F V]. { rewrite AB. rewrite Rabs_pos_eq in R3; [exact R3|]. apply Rle_trans with (2 := R1). apply bpow_ge_0. }
  split; [exact F|]. rewrite V, AB. split; [|exact R2].
  pose proof (proj1 N) as E0. destruct S as [[S0 S1]|[S0 S1]].
  - left. split; [apply Rmult_le_pos; assumption|]. pose proof (nr_nn _ _ _ W' S1) as D0.
    apply nr_trans with (val q * val d); auto with fac; [|apply nr_mul; assumption]. apply rnd_nr. rewrite Rabs_pos_eq in R4; [exact R4|]. apply Rmult_le_pos; lra.
  - right. split; [nra|]. pose proof (nr_nn _ _ _ W' S1) as D0. rewrite <- rnd_opp. replace (- (val q * val d)) with (val q * - val d) by ring. replace (- (E * D)) with (E * - D) by ring.
    apply nr_trans with (val q * - val d); auto with fac; [|apply nr_mul; assumption]. apply rnd_nr. rewrite <- Rabs_Ropp in R4. replace (- (val q * val d)) with (val q * - val d) in R4 by ring.
    rewrite Rabs_pos_eq in R4; [exact R4|]. apply Rmult_le_pos; lra.
Qed.

(** * Bar lengths *)
Lemma eps_ok : fside f_finfo_eps /\ val f_finfo_eps = / 2 ^ 52.
Proof.
  assert (V : val f_finfo_eps = bp (-52)). { unfold val, f_finfo_eps, SF2R, F2R. cbn [Fnum Fexp cond_Zopp]. change (IZR (Z.pos 4503599627370496)) with (bp 52). rewrite <- bpow_plus. reflexivity. }
  assert (F : finite_double f_finfo_eps) by (apply finite_check; reflexivity).
  split; [|rewrite V; change (-52)%Z with (- (52))%Z; rewrite bpow_opp, bpow_powerRZ; reflexivity]. split; [exact F|]. split; [apply format_val, F|]. rewrite V. split; apply bpow_le; lia.
Qed.
Lemma eqb_zero x : finite_double x -> SFeqb x f_0 = true <-> val x = 0.
Proof.
  intros F. split.
  - destruct x as [s|s| |s m e]; cbn; try reflexivity; try discriminate; destruct s; discriminate.
  - intros V. destruct (fdouble x F V) as [s ->]. reflexivity.
Qed.
Lemma bar_length_ok p q : moderate p -> moderate q -> spaced2 p q -> fside (bar_length_f (rsub_f p q)) /\
  nr (v1 ^ 3) (val (bar_length_f (rsub_f p q))) (if Req_EM_T (dist2d (at_point p) (at_point q)) 0 then / 2 ^ 52 else dist2d (at_point p) (at_point q)).
Proof.
  intros Mp Mq Sp. destruct (length_case p q Mp Mq Sp) as [_ [(E & F & V)|(NE & F & N)]]; unfold bar_length_f.
  - assert (EQ : SFeqb (length_f (rsub_f p q)) f_0 = true) by (apply eqb_zero; assumption). rewrite EQ. destruct eps_ok as [E1 E2]. split; [exact E1|]. rewrite E, E2.
    destruct (Req_EM_T (dist2d (at_point q) (at_point q)) 0) as [_|B].
    + assert (0 < / 2 ^ 52) by (apply Rinv_0_lt_compat, pow_lt; lra). apply nr_weaken with 1; auto with fac; [|apply nr_refl; lra]. assert (factor (v1 ^ 3)) as [W1 W2] by auto with fac. lra.
    + exfalso. apply B. unfold dist2d. replace (_ + _) with 0 by ring. apply sqrt_0.
  - assert (P : 0 < val (length_f (rsub_f p q))) by (apply side_pos, F). assert (EQ : SFeqb (length_f (rsub_f p q)) f_0 = false).
    { destruct (SFeqb _ _) eqn:E; [|reflexivity]. apply eqb_zero in E; [lra|apply F]. }
    rewrite EQ. split; [exact F|]. destruct (Req_EM_T _ 0) as [B|B]; [|exact N]. rewrite B in N. destruct N as (_ & _ & N). assert (factor (v1 ^ 3)) as [W1 W2] by auto with fac. nra.
Qed.

(** * Medians *)
Lemma leb_val x y : finite_double x -> finite_double y -> SFleb x y = rleb (val x) (val y).
Proof.
  intros Fx Fy. assert (E : SFleb x y = negb (SFltb y x)).
  { destruct (lift x Fx) as (a & <- & Fa & _). destruct (lift y Fy) as (b & <- & Fb & _).
    change (SFleb (B2SF a) (B2SF b)) with (Bleb a b). change (SFltb (B2SF b) (B2SF a)) with (Bltb b a). rewrite Bleb_correct, Bltb_correct by assumption.
    destruct (Rle_bool_spec (B2R a) (B2R b)); destruct (Rlt_bool_spec (B2R b) (B2R a)); try reflexivity; lra. }
  rewrite E. unfold rleb. destruct (Rle_dec (val x) (val y)) as [L|L].
  - destruct (SFltb y x) eqn:G; [|reflexivity]. apply ltb_val in G; auto. lra.
  - assert (G : SFltb y x = true) by (apply ltb_val; auto; lra). rewrite G. reflexivity.
Qed.
Lemma insert_map x l : finite_double x -> Forall finite_double l -> map val (insert SFleb x l) = insert rleb (val x) (map val l) /\ Forall finite_double (insert SFleb x l).
Proof.
  intros Fx Fl. induction Fl as [|y l Fy Fl IH]; cbn [insert map]; [split; auto|]. rewrite (leb_val x y Fx Fy). destruct (rleb (val x) (val y)).
  - split; [reflexivity|auto].
  - cbn [map]. destruct IH as [IH1 IH2]. rewrite IH1. split; [reflexivity|auto].
Qed.
Lemma isort_map l : Forall finite_double l -> map val (isort SFleb l) = isort rleb (map val l) /\ Forall finite_double (isort SFleb l).
Proof.
  induction l as [|x l IH]; intros Fl; [split; auto|]. inversion_clear Fl as [|? ? Fx Fl']. destruct (IH Fl') as [IH1 IH2]. cbn [isort fold_right map]. change (fold_right (insert SFleb) [] l) with (isort SFleb l). change (fold_right (insert rleb) [] (map val l)) with (isort rleb (map val l)).
  destruct (insert_map x _ Fx IH2) as [A B]. rewrite A, IH1. auto.
Qed.
Lemma nth_map_val s i d : (i < length s)%nat -> nth i (map val s) 0 = val (nth i s d).
Proof. intros L. rewrite (nth_indep _ 0 (val d)) by (rewrite map_length; exact L). apply map_nth. Qed.
Lemma median_ok l : l <> [] -> Forall fside l -> fside (median_f l) /\ nr (v1 ^ 2) (val (median_f l)) (median (map val l)).
Proof.
  intros NE Fs. assert (Fl : Forall finite_double l) by (eapply Forall_impl; [|exact Fs]; intros a H; apply H).
  destruct (isort_map l Fl) as [E1 E2]. set (s := isort SFleb l) in *.
  assert (PM : Permutation s l) by apply isort_perm. assert (LN : length s = length l) by (apply Permutation_length, PM).
  assert (L0 : (0 < length s)%nat) by (rewrite LN; clear - NE; destruct l; [congruence|cbn; lia]).
  assert (Ss : forall i, (i < length s)%nat -> fside (nth i s S754_nan)).
  { intros i Hi. rewrite Forall_forall in Fs. apply Fs. apply (Permutation_in _ PM). apply nth_In, Hi. }
  unfold median_f, median. fold s. rewrite <- E1. rewrite map_length.
  assert (H2 : (length s / 2 < length s)%nat) by (apply Nat.div_lt; lia).
  destruct (Nat.even (length s)) eqn:EV.
  - assert (H1 : (length s / 2 - 1 < length s)%nat) by lia. rewrite !(nth_map_val _ _ S754_nan) by assumption.
    pose proof (Ss _ H1) as A. pose proof (Ss _ H2) as B. set (a := nth (length s / 2 - 1) s S754_nan) in *. set (b := nth (length s / 2) s S754_nan) in *.
    destruct (sum_f a b (conj (proj1 A) (proj2 A)) (conj (proj1 B) (proj2 B))) as [F V].
    destruct A as [Fa Sa], B as [Fb Sb]. destruct (sum_ge _ _ Sa Sb) as (G1 & G2 & G3). pose proof (side_pos _ Sa) as Pa. pose proof (side_pos _ Sb) as Pb.
    assert (NP : nr v1 (val (fadd a b)) (val a + val b)). { rewrite V. apply plus_nr; try lra; [apply Sa|apply Sb]. }
    assert (LB : bp (-60) <= rnd (val a + val b) / 2). { assert (K : bp (-59) <= rnd (val a + val b)). { apply rnd_ge; [apply rep_bp; lia|]. destruct Sa as (_ & Sa & _), Sb as (_ & Sb & _). change (-59)%Z with (-60 + 1)%Z. rewrite bpow_plus. change (bp 1) with 2. lra. }
      change (-59)%Z with (-60 + 1)%Z in K. rewrite bpow_plus in K. change (bp 1) with 2 in K. lra. }
    assert (UB : rnd (val a + val b) / 2 <= bp 62). { change 63%Z with (62 + 1)%Z in G3. rewrite bpow_plus in G3. change (bp 1) with 2 in G3. lra. }
    assert (RL : bp (-60) <= rnd (rnd (val a + val b) / 2) <= bp 62). { split; [apply rnd_ge; [apply rep_bp; lia|exact LB]|]. rewrite <- (rnd_id (bp 62)) by (apply rep_bp; lia). apply rnd_le, UB. }
    destruct (div_rounds (fadd a b) ftwo F two_double) as [F' V'].
    { rewrite val_two. lra. } { rewrite val_two, V. apply huge_big with 62%Z; [lia|]. rewrite Rabs_pos_eq; [apply RL|]. apply Rle_trans with (2 := proj1 RL). apply bpow_ge_0. }
    rewrite val_two, V in V'. split.
    + split; [exact F'|]. rewrite V'. split; [apply rnd_rep|exact RL].
    + rewrite V'. replace (v1 ^ 2) with (v1 * v1) by ring. apply nr_trans with (rnd (val a + val b) / 2); auto with fac.
      * apply rnd_nr. apply Rle_trans with (2 := LB). apply bpow_le. lia.
      * rewrite <- V. destruct NP as (N0 & N1 & N2). repeat split; lra.
  - rewrite (nth_map_val _ _ S754_nan) by assumption. pose proof (Ss _ H2) as B. split; [exact B|]. pose proof (side_pos _ (proj2 B)).
    assert (factor (v1 ^ 2)) as [W1 W2] by auto with fac. apply nr_weaken with 1; auto with fac. apply nr_refl. lra.
Qed.
Lemma not_nan_fin x : finite_double x -> not_nan x = true. Proof. intros [_ F]. destruct x; try reflexivity. discriminate. Qed.
Lemma filter_id {A} (f : A -> bool) l : (forall x, In x l -> f x = true) -> filter f l = l.
Proof. induction l as [|x l IH]; intros H; [reflexivity|]. cbn [filter]. rewrite (H x) by (left; reflexivity). f_equal. apply IH. intros y Y. apply H. right. exact Y. Qed.
Lemma nanmedian_ok l : l <> [] -> Forall fside l -> fside (nanmedian_f l) /\ nr (v1 ^ 2) (val (nanmedian_f l)) (median (map val l)).
Proof.
  intros NE Fs. assert (E : nanmedian_f l = median_f l).
  { unfold nanmedian_f. rewrite filter_id by (intros x X; apply not_nan_fin; rewrite Forall_forall in Fs; apply Fs, X). destruct l; [congruence|reflexivity]. }
  rewrite E. apply median_ok; assumption.
Qed.

(** * One bar *)
Lemma whole_far x : representable x -> bp (-187) <= Rabs x -> exists n, x = IZR n * bp (-239).
Proof.
  intros F L. assert (G : generic_format radix2 (FIX_exp (-239)) x).
  { apply (generic_inclusion_ge radix2 (FLT_exp (-1074) 53) (FIX_exp (-239)) (-187)); [|exact L|exact F]. intros e E. unfold FIX_exp, FLT_exp. lia. }
  destruct (FIX_format_generic _ _ _ G) as [f E Ef]. exists (Fnum f). rewrite E. unfold F2R. rewrite Ef. reflexivity.
Qed.
Lemma excess_ok a b : finite_double a -> finite_double b -> rng 187 (val a) -> rng 187 (val b) ->
  let F := fsub a b in let F' := if SFltb F f_0 then f_0 else F in
  finite_double F' /\ nr v1 (val F') (Rmax 0 (val a - val b)) /\ (val F' = 0 \/ rng 240 (val F')).
Proof.
  intros Fa Fb Ra Rb F F'. pose proof (rng_pos _ _ Ra) as Pa. pose proof (rng_pos _ _ Rb) as Pb.
  assert (AB : Rabs (val a - val b) <= bp 187). { destruct Ra as [_ Ra], Rb as [_ Rb]. apply Rabs_le. lra. }
  assert (RB : Rabs (rnd (val a - val b)) <= bp 187) by (apply rnd_abs_le; [apply rep_bp; lia|exact AB]).
  destruct (proj1 (sub_rounds a b Fa Fb)) as [FF V]. { apply huge_big with 187%Z; [lia|exact RB]. }
  assert (Z0 : finite_double f_0 /\ val f_0 = 0) by (split; [split; reflexivity|reflexivity]).
  assert (LT : SFltb F f_0 = true <-> rnd (val a - val b) < 0). { rewrite <- V. rewrite <- (proj2 Z0). apply ltb_val; [exact FF|apply Z0]. }
  destruct (Rle_dec (val a) (val b)) as [L|L].
  - assert (V0 : val F' = 0 /\ finite_double F').
    { unfold F'. case_eq (SFltb F f_0); intros E; [split; apply Z0|]. split; [|exact FF]. fold F in V. rewrite V.
      assert (rnd (val a - val b) <= 0) by (apply rnd_sign_neg; lra). destruct (Rle_lt_or_eq_dec _ _ H) as [K|K]; [apply LT in K; congruence|exact K]. }
    destruct V0 as [V0 F0]. split; [exact F0|]. rewrite V0. rewrite Rmax_left by lra. split; [repeat split; lra|left; reflexivity].
  - assert (E : F' = F). { unfold F'. case_eq (SFltb F f_0); intros E; [|reflexivity]. apply LT in E. assert (0 <= rnd (val a - val b)) by (apply rnd_sign_pos; lra). lra. }
    rewrite E. fold F in V, FF. rewrite V, Rmax_right by lra. split; [exact FF|].
    assert (LB : bp (-239) <= val a - val b).
    { destruct (whole_far (val a)) as [n N]; [apply format_val, Fa|rewrite Rabs_pos_eq by lra; apply Ra|]. destruct (whole_far (val b)) as [k K]; [apply format_val, Fb|rewrite Rabs_pos_eq by lra; apply Rb|].
      rewrite N, K in L |- *. assert (B0 : 0 < bp (-239)) by apply bpow_gt_0. assert (G : (1 <= n - k)%Z). { apply Znot_gt_le. intros G. assert (IZR n <= IZR k) by (apply IZR_le; lia). apply L. apply Rmult_le_compat_r; lra. }
      apply IZR_le in G. rewrite minus_IZR in G. rewrite <- Rmult_minus_distr_r. rewrite <- (Rmult_1_l (bp (-239))) at 1. apply Rmult_le_compat_r; lra. }
    split; [apply rnd_nr; apply Rle_trans with (2 := LB); apply bpow_le; lia|]. right. split.
    + apply Rle_trans with (bp (-239)); [apply bpow_le; lia|]. apply rnd_ge; [apply rep_bp; lia|exact LB].
    + apply Rle_trans with (1 := Rle_abs _). apply Rle_trans with (1 := RB). apply bpow_le. lia.
Qed.
Lemma div_zero x y : finite_double x -> finite_double y -> val x = 0 -> 0 < val y -> finite_double (fdiv x y) /\ val (fdiv x y) = 0.
Proof.
  intros Fx Fy E P. assert (Z : val x / val y = 0) by (rewrite E; unfold Rdiv; ring).
  destruct (div_rounds x y Fx Fy) as [F V]; [lra|rewrite Z, (rnd_id 0), Rabs_R0 by apply rep_0; apply huge_pos|]. split; [exact F|]. rewrite V, Z. apply rnd_id, rep_0.
Qed.
Definition wanted_f (m scale h : spec_float) : spec_float := fmul (fmul h m) scale.
Lemma wanted_ok m scale h S : finite_double m -> 1 <= val m <= 2 -> finite_double h -> rng 62 (val h) -> good (v1 ^ 5) 124 scale S ->
  good (v1 ^ 7) 187 (wanted_f m scale h) (val h * val m * S).
Proof.
  intros Fm Bm Fh Rh G. assert (Gm : good 1 1 m (val m)). { apply good_exact; [exact Fm|]. split; [change (bp (- (1))) with (/ 2); lra|change (bp 1) with 2; lra]. }
  assert (Gh : good 1 62 h (val h)) by (apply good_exact; assumption).
  unfold wanted_f. pose proof (gmul _ _ _ _ _ _ _ _ (gmul _ _ _ _ _ _ _ _ Gh Gm factor_1 factor_1 ltac:(lia)) G ltac:(auto with fac) ltac:(auto with fac) ltac:(lia)) as K.
  replace (v1 ^ 7) with (v1 * (v1 * (1 * 1) * v1 ^ 5)) by ring. exact K.
Qed.
Lemma bar_force_ok m scale h S p q : finite_double m -> 1 <= val m <= 2 -> finite_double h -> rng 62 (val h) -> good (v1 ^ 5) 124 scale S ->
  moderate p -> moderate q -> spaced2 p q ->
  let v := rsub_f p q in let f := bar_force_f m scale h v in let w := Rmax 0 (val (wanted_f m scale h) - val (bar_length_f v)) / val (bar_length_f v) in
  finite_double (fst f) /\ finite_double (snd f) /\ Rabs (val (fst f)) <= bp 363 /\ Rabs (val (snd f)) <= bp 363 /\
  sg (v1 ^ 4) (val (fst f)) (w * (val (fst p) - val (fst q))) /\ sg (v1 ^ 4) (val (snd f)) (w * (val (snd p) - val (snd q))).
Proof.
  intros Fm Bm Fh Rh G Mp Mq Sp v f w. destruct (bar_length_ok p q Mp Mq Sp) as [[FL SL] _]. fold v in FL, SL. pose proof (side_pos _ SL) as PL. pose proof (side_rng _ SL) as RL.
  destruct (wanted_ok m scale h S Fm Bm Fh Rh G) as (FW & _ & RW). set (W := wanted_f m scale h) in *.
  destruct (excess_ok W (bar_length_f v) FW FL RW) as (FF & NF & RF). { apply rng_le with 62%Z; [lia|exact RL]. }
  set (F' := if SFltb (fsub W (bar_length_f v)) f_0 then f_0 else fsub W (bar_length_f v)) in *.
  assert (Q : finite_double (fdiv F' (bar_length_f v)) /\ nr (v1 * v1) (val (fdiv F' (bar_length_f v))) w /\ (val (fdiv F' (bar_length_f v)) = 0 \/ rng 302 (val (fdiv F' (bar_length_f v))))).
  { destruct RF as [Z|RF].
    - destruct (div_zero F' (bar_length_f v) FF FL Z PL) as [FD VD]. rewrite VD. split; [exact FD|]. split; [|left; reflexivity].
      assert (E : Rmax 0 (val W - val (bar_length_f v)) = 0). { rewrite Z in NF. destruct NF as (N0 & N1 & _). pose proof factor1 as [W1 _]. nra. }
      unfold w. rewrite E. unfold Rdiv. rewrite Rmult_0_l. repeat split; lra.
    - assert (GF : good v1 240 F' (Rmax 0 (val W - val (bar_length_f v)))) by (repeat split; try apply FF; try apply NF; apply RF).
      assert (GL : good 1 62 (bar_length_f v) (val (bar_length_f v))) by (apply good_exact; assumption).
      destruct (gdiv _ _ _ _ _ _ _ _ GF GL factor1 factor_1 ltac:(lia)) as (D1 & D2 & D3). split; [exact D1|]. split; [|right; exact D3].
      replace (v1 * v1) with (v1 * (v1 * 1)) by ring. exact D2. }
  destruct Q as (FQ & NQ & RQ).
  destruct Mp as (Fp1 & Fp2 & Bp1 & Bp2), Mq as (Fq1 & Fq2 & Bq1 & Bq2), Sp as [S1 S2].
  destruct (sub_comp _ _ Fp1 Fq1 Bp1 Bq1 S1) as (Fx & Gx & Dx). destruct (sub_comp _ _ Fp2 Fq2 Bp2 Bq2 S2) as (Fy & Gy & Dy).
  assert (Dx' : val (fsub (fst p) (fst q)) = 0 \/ rng 61 (Rabs (val (fsub (fst p) (fst q))))) by (destruct Dx as [[_ Dx]|Dx]; auto).
  assert (Dy' : val (fsub (snd p) (snd q)) = 0 \/ rng 61 (Rabs (val (fsub (snd p) (snd q))))) by (destruct Dy as [[_ Dy]|Dy]; auto).
  destruct (mul_sg (v1 * v1) v1 302 61 _ _ _ _ ltac:(auto with fac) factor1 ltac:(lia) FQ Fx NQ Gx RQ Dx') as (X1 & X2 & X3).
  destruct (mul_sg (v1 * v1) v1 302 61 _ _ _ _ ltac:(auto with fac) factor1 ltac:(lia) FQ Fy NQ Gy RQ Dy') as (Y1 & Y2 & Y3).
  replace (v1 ^ 4) with (v1 * (v1 * v1 * v1)) by ring.
  repeat (split; [assumption|]). assumption.
Qed.

(** * Sizes *)
Lemma positive_fin x : valid_binary 53 1024 x = true -> valid_f x = true -> positive_double x.
Proof.
  intros V P. destruct x as [s|s| |s m e]; try discriminate. destruct s; [discriminate|]. split; [split; [exact V|reflexivity]|].
  unfold val, SF2R. cbn [cond_Zopp]. apply F2R_gt_0. reflexivity.
Qed.
Lemma positive_valid x : positive_double x -> valid_f x = true.
Proof.
  intros [[_ F] P]. destruct x as [s|s| |s m e]; try discriminate; [unfold val in P; cbn in P; lra|]. destruct s; [|reflexivity].
  exfalso. unfold val, SF2R in P. cbn [cond_Zopp] in P. apply (Rlt_not_le _ _ P), Rlt_le. exact (F2R_lt_0 radix2 (Float radix2 (Z.neg m) e) eq_refl).
Qed.
Lemma size_side x : ordinary_size x -> valid_f x = true -> fside x.
Proof.
  intros [V O] P. pose proof (positive_fin x V P) as PD. destruct (O PD) as [A B]. split; [apply PD|]. split; [apply format_val, PD|].
  assert (T60 : 2 ^ 60 = bp 60) by (rewrite bpow_powerRZ; reflexivity). rewrite T60 in A, B. rewrite <- bpow_opp in A. split; [exact A|]. apply Rle_trans with (1 := B). apply bpow_le. lia.
Qed.
Lemma repair_f_ok h0 h : (forall x, In x h0 -> ordinary_size x) -> repair_f h0 = Ok h ->
  length h = length h0 /\ Forall fside h /\
  forall k, (k < length h0)%nat -> let x := nth k h0 S754_nan in
    (is_positive x = true -> nth k h S754_nan = x) /\ (is_positive x = false -> exists md, is_median (positive_values h0) md /\ nr (v1 ^ 2) (val (nth k h S754_nan)) md).
Proof.
  intros O E. unfold repair_f in E. destruct (existsb valid_f h0) eqn:EX; [|discriminate]. injection E as <-. set (repl := nanmedian_f (filter valid_f h0)).
  assert (FV : Forall fside (filter valid_f h0)). { apply Forall_forall. intros x X. apply filter_In in X. destruct X as [X1 X2]. apply size_side; auto. }
  assert (NE : filter valid_f h0 <> []). { apply existsb_exists in EX. destruct EX as (x & X1 & X2). assert (In x (filter valid_f h0)) by (apply filter_In; auto). intros Z. rewrite Z in H. exact H. }
  destruct (nanmedian_ok _ NE FV) as [RS RN]. fold repl in RS, RN.
  split; [apply map_length|]. split.
  - apply Forall_forall. intros y Y. apply in_map_iff in Y. destruct Y as (x & <- & X). destruct (valid_f x) eqn:V; [apply size_side; auto|exact RS].
  - intros k K x. change is_positive with valid_f. rewrite (nth_indep _ S754_nan (if valid_f S754_nan then S754_nan else repl)) by (rewrite map_length; exact K).
    rewrite (map_nth (fun x => if valid_f x then x else repl) h0 S754_nan k). fold x. split; intros V; rewrite V; [reflexivity|].
    exists (median (map val (filter valid_f h0))). split; [apply median_spec|exact RN].
Qed.

(** * Looking up by bar *)
Fixpoint look (bars : list edge) (h : list spec_float) (e : edge) : spec_float :=
  match bars, h with b :: bars', x :: h' => if edge_eqb b e then x else look bars' h' e | _, _ => S754_nan end.
Lemma edge_eqb_iff a b : edge_eqb a b = true <-> a = b.
Proof. destruct a as [a a'], b as [b b']. unfold edge_eqb. cbn. rewrite andb_true_iff, !Nat.eqb_eq. split; [intros [-> ->]; reflexivity|intros E; injection E; auto]. Qed.
Lemma combine_look bars : forall h (vf : edge -> fpt), NoDup bars -> length h = length bars -> combine h (map vf bars) = map (fun e => (look bars h e, vf e)) bars.
Proof.
  induction bars as [|b bars IH]; intros h vf ND L; destruct h as [|x h]; try discriminate; [reflexivity|]. inversion_clear ND as [|? ? NI ND']. cbn [map combine look].
  assert (E : edge_eqb b b = true) by (apply edge_eqb_iff; reflexivity). rewrite E. f_equal. rewrite IH by (auto; cbn in L; lia). apply map_ext_in. intros e I.
  destruct (edge_eqb b e) eqn:EB; [apply edge_eqb_iff in EB; subst; contradiction|reflexivity].
Qed.
Lemma look_nth bars : forall h k, NoDup bars -> length h = length bars -> (k < length bars)%nat -> look bars h (nth k bars (0, 0)%nat) = nth k h S754_nan.
Proof.
  induction bars as [|b bars IH]; intros h k ND L K; [cbn in K; lia|]. destruct h as [|x h]; [discriminate|]. inversion_clear ND as [|? ? NI ND']. cbn [look]. destruct k as [|k]; cbn [nth].
  - assert (E : edge_eqb b b = true) by (apply edge_eqb_iff; reflexivity). rewrite E. reflexivity.
  - cbn in L, K. destruct (edge_eqb b (nth k bars (0, 0)%nat)) eqn:EB; [apply edge_eqb_iff in EB; subst; exfalso; apply NI, nth_In; lia|]. apply IH; auto; lia.
Qed.
Lemma look_all bars h : NoDup bars -> length h = length bars -> map (look bars h) bars = h.
Proof.
  intros ND L. apply nth_ext with S754_nan S754_nan; [rewrite map_length; auto|]. intros k K. rewrite map_length in K.
  rewrite (nth_indep _ S754_nan (look bars h (0, 0)%nat)) by (rewrite map_length; exact K). rewrite map_nth. apply look_nth; assumption.
Qed.

(** * Sums at one point *)
Lemma bars_count t : (length (get_bars t) <= 3 * length t)%nat.
Proof.
  set (all := flat_map (fun s : tri => let '(x, y, z) := s in [(Nat.min x y, Nat.max x y); (Nat.min y z, Nat.max y z); (Nat.min z x, Nat.max z x)]) t).
  assert (L : length all = (3 * length t)%nat). { unfold all. clear. induction t as [|[[x y] z] t IH]; [reflexivity|]. cbn [flat_map]. rewrite app_length, IH. cbn [length]. lia. }
  rewrite <- L. apply NoDup_incl_length; [apply get_bars_NoDup|]. intros [a b] I. apply get_bars_spec in I. destruct I as [AB U].
  unfold all. apply in_flat_map. assert (S : exists x y z, In (x, y, z) t /\ ((a = Nat.min x y /\ b = Nat.max x y) \/ (a = Nat.min y z /\ b = Nat.max y z) \/ (a = Nat.min z x /\ b = Nat.max z x))).
  { destruct U as [(x & y & z & I & C)|(x & y & z & I & C)]; exists x, y, z; (split; [exact I|]); destruct C as [[-> ->]|[[-> ->]|[-> ->]]]; lia. }
  destruct S as (x & y & z & I & C). exists (x, y, z). split; [exact I|]. cbn. destruct C as [[-> ->]|[[-> ->]|[-> ->]]]; auto.
Qed.
Lemma Rsum_cons x l : S_LapF.Rsum (x :: l) = x + S_LapF.Rsum l. Proof. reflexivity. Qed.
Section At.
  Variables (i : nat) (g : edge -> spec_float).
  Definition parts (bars : list edge) : list spec_float :=
    flat_map (fun e => (if fst e =? i then [g e] else []) ++ (if snd e =? i then [SFopp (g e)] else [])) bars.
  Lemma parts_sum bars : (forall e, In e bars -> finite_double (g e)) -> (forall e, In e bars -> fst e = snd e -> val (g e) = 0) ->
    Forall finite_double (parts bars) /\ S_LapF.Rsum (map val (parts bars)) = sum_over (fun e => incidence i e * val (g e)) bars /\
    Rabssum (parts bars) = sum_over (fun e => Rabs (incidence i e * val (g e))) bars /\ (length (parts bars) <= 2 * bars_at i bars)%nat.
  Proof.
    induction bars as [|e bars IH]; intros Fg loop0; [split; [constructor|]; split; [reflexivity|]; split; [reflexivity|cbn; lia]|]. destruct IH as (I1 & I2 & I3 & I4); [intros x X; apply Fg; right; exact X|intros x X; apply loop0; right; exact X|].
    assert (Fe : finite_double (g e)) by (apply Fg; left; reflexivity). destruct (opp_double _ Fe) as [Fo Vo].
    unfold parts. cbn [flat_map]. fold (parts bars). unfold bars_at. cbn [filter]. change (length (filter (at_end i) bars)) with (bars_at i bars) in *. cbn [sum_over]. unfold at_end, incidence. unfold incidence in I2, I3.
    pose proof (loop0 e (or_introl eq_refl)) as LP. unfold Rabssum in *. destruct (fst e =? i) eqn:E1; destruct (snd e =? i) eqn:E2; cbn [app orb]; cbn [map length]; rewrite ?Rsum_cons; rewrite ?I2, ?I3, ?Vo.
    - apply Nat.eqb_eq in E1, E2. rewrite LP by congruence. split; [auto|]. replace (- 0) with 0 by ring. replace ((1 - 1) * 0) with 0 by ring. rewrite ?Rabs_R0. change (length (filter (fun e0 : edge => (fst e0 =? i) || (snd e0 =? i)) bars)) with (bars_at i bars). split; [ring|]. split; [ring|lia].
    - split; [auto|]. replace ((1 - 0) * val (g e)) with (val (g e)) by ring. change (length (filter (fun e0 : edge => (fst e0 =? i) || (snd e0 =? i)) bars)) with (bars_at i bars). split; [ring|]. split; [ring|lia].
    - split; [auto|]. replace ((0 - 1) * val (g e)) with (- val (g e)) by ring. rewrite ?Rabs_Ropp. change (length (filter (fun e0 : edge => (fst e0 =? i) || (snd e0 =? i)) bars)) with (bars_at i bars). split; [ring|]. split; [ring|lia].
    - split; [auto|]. replace ((0 - 0) * val (g e)) with 0 by ring. rewrite ?Rabs_R0. change (length (filter (fun e0 : edge => (fst e0 =? i) || (snd e0 =? i)) bars)) with (bars_at i bars). split; [ring|]. split; [ring|lia].
  Qed.
  Lemma pow_two k : (Z.of_nat k <= 2 ^ 26)%Z -> (1 + u) ^ k <= 1 + 2 * INR k * u /\ (1 + u) ^ k <= 2.
  Proof.
    intros K. pose proof (pow_above k K) as A. assert (B : INR k <= bp 26). { rewrite INR_IZR_INZ. change (bp 26) with (IZR (2 ^ 26)). apply IZR_le, K. }
    assert (T : 0 <= INR k * u <= bp (-27)). { split; [apply Rmult_le_pos; [apply pos_INR|apply bpow_ge_0]|]. unfold u. change (-27)%Z with (26 + -53)%Z. rewrite bpow_plus. apply Rmult_le_compat_r; [apply bpow_ge_0|exact B]. }
    assert (L : bp (-27) <= / 2) by (change (/ 2) with (bp (-1)); apply bpow_le; lia). set (x := INR k * u) in *. replace (2 * INR k * u) with (2 * x) by (unfold x; ring). assert (x * x <= x) by nra. lra.
  Qed.
  Lemma total_ok bars : (Z.of_nat (length bars) <= 2 ^ 25)%Z -> (forall e, In e bars -> finite_double (g e) /\ Rabs (val (g e)) <= bp 363) -> (forall e, In e bars -> fst e = snd e -> val (g e) = 0) ->
    finite_double (fold_left fadd (parts bars) f_0) /\
    Rabs (val (fold_left fadd (parts bars) f_0) - sum_over (fun e => incidence i e * val (g e)) bars) <= 4 * INR (bars_at i bars) * u * sum_over (fun e => Rabs (incidence i e * val (g e))) bars.
  Proof.
    intros LB Fg loop0. destruct (parts_sum bars (fun e I => proj1 (Fg e I)) loop0) as (P1 & P2 & P3 & P4).
    assert (BA : (bars_at i bars <= length bars)%nat). { unfold bars_at. clear. induction bars as [|e l IH]; [cbn; lia|]. cbn [filter]. destruct (at_end i e); cbn [length]; lia. }
    assert (LP : (Z.of_nat (length (parts bars)) <= 2 ^ 26)%Z) by lia. destruct (pow_two _ LP) as [W1 W2].
    assert (BD : Rabssum (parts bars) <= bp 26 * bp 363).
    { apply Rle_trans with (INR (length (parts bars)) * bp 363).
      - apply abssum_le. intros x X. unfold parts in X. apply in_flat_map in X. destruct X as (e & Ie & X). destruct (Fg e Ie) as [Fe Be]. apply in_app_or in X.
        destruct X as [X|X]; [destruct (fst e =? i); [destruct X as [<-|[]]; exact Be|destruct X]|destruct (snd e =? i); [destruct X as [<-|[]]; rewrite (proj2 (opp_double _ Fe)), Rabs_Ropp; exact Be|destruct X]].
      - apply Rmult_le_compat_r; [apply bpow_ge_0|]. rewrite INR_IZR_INZ. change (bp 26) with (IZR (2 ^ 26)). apply IZR_le, LP. }
    assert (Z0 : finite_double f_0) by (split; reflexivity). assert (V0 : val f_0 = 0) by reflexivity.
    destruct (fold_sum (parts bars) f_0 Z0 P1) as [A B].
    { rewrite V0, Rabs_R0, Rplus_0_l. pose proof (Rabssum_nn (parts bars)) as N. apply Rle_lt_trans with (bp 26 * bp 363 * 2); [apply Rmult_le_compat; try assumption; apply pow_le; pose proof u_bounds; lra|].
      change 2 with (bp 1). rewrite <- !bpow_plus. apply bpow_lt. lia. }
    split; [exact A|]. rewrite V0, Rabs_R0, !Rplus_0_l, P2, P3 in B. apply Rle_trans with (1 := B). apply Rmult_le_compat_r; [rewrite <- P3; apply Rabssum_nn|].
    assert (N : INR (length (parts bars)) <= 2 * INR (bars_at i bars)). { replace 2 with (INR 2) by reflexivity. rewrite <- mult_INR. apply le_INR. lia. }
    pose proof u_bounds as U. nra.
  Qed.
End At.

(** * All forces *)
Lemma sum_over_le {A} (f g : A -> R) l : (forall x, In x l -> f x <= g x) -> sum_over f l <= sum_over g l.
Proof. induction l as [|x l IH]; intros H; [cbn; lra|]. cbn [sum_over]. assert (f x <= g x) by (apply H; left; reflexivity). assert (sum_over f l <= sum_over g l) by (apply IH; intros y Y; apply H; right; exact Y). lra. Qed.
Lemma sum_over_abs {A} (f : A -> R) l : Rabs (sum_over f l) <= sum_over (fun x => Rabs (f x)) l.
Proof. induction l as [|x l IH]; [cbn; rewrite Rabs_R0; lra|]. cbn [sum_over]. apply Rle_trans with (1 := Rabs_triang _ _). lra. Qed.
Lemma incidence_zero n e : (fst e < n)%nat -> (snd e < n)%nat -> sum_over (fun i => incidence i e) (seq 0 n) = 0.
Proof.
  intros A B. unfold incidence. pose proof (sum_over_pick (fun _ => 1) n 0 (fst e) ltac:(lia)) as P. pose proof (sum_over_pick (fun _ => 1) n 0 (snd e) ltac:(lia)) as Q.
  rewrite (sum_over_ext _ (fun i => (if fst e =? i then 1 else 0) * 1 + -1 * ((if snd e =? i then 1 else 0) * 1))) by (intros; ring). rewrite sum_over_plus, sum_over_scal, P, Q. ring.
Qed.
Lemma incidence_two n e c : (fst e < n)%nat -> (snd e < n)%nat -> sum_over (fun i => Rabs (incidence i e * c)) (seq 0 n) <= 2 * Rabs c.
Proof.
  intros A B. pose proof (sum_over_pick (fun _ => Rabs c) n 0 (fst e) ltac:(lia)) as P. pose proof (sum_over_pick (fun _ => Rabs c) n 0 (snd e) ltac:(lia)) as Q.
  apply Rle_trans with (sum_over (fun i => (if fst e =? i then 1 else 0) * Rabs c + (if snd e =? i then 1 else 0) * Rabs c) (seq 0 n)); [|rewrite sum_over_plus, P, Q; lra].
  apply sum_over_le. intros i _. unfold incidence. rewrite Rabs_mult. pose proof (Rabs_pos c). destruct (fst e =? i), (snd e =? i); rewrite ?Rminus_0_r, ?Rminus_eq_0, ?Rabs_R0, ?Rabs_R1; try lra.
  replace (0 - 1) with (- (1)) by ring. rewrite Rabs_Ropp, Rabs_R1. lra.
Qed.
Lemma balance n bars (fx : edge -> R) (T : nat -> R) D : (forall e, In e bars -> (fst e < n)%nat /\ (snd e < n)%nat) -> (forall i, (bars_at i bars <= D)%nat) ->
  (forall i, (i < n)%nat -> Rabs (T i - sum_over (fun e => incidence i e * fx e) bars) <= 4 * INR (bars_at i bars) * u * sum_over (fun e => Rabs (incidence i e * fx e)) bars) ->
  Rabs (sum_over T (seq 0 n)) <= 8 * INR D * u * sum_over (fun e => Rabs (fx e)) bars.
Proof.
  intros HB HD HT. pose proof u_bounds as U.
  assert (Z : sum_over (fun i => sum_over (fun e => incidence i e * fx e) bars) (seq 0 n) = 0).
  { rewrite sum_over_swap. rewrite (sum_over_ext _ (fun _ => 0)); [apply sum_over_zero|]. intros e I. destruct (HB e I) as [A B].
    rewrite (sum_over_ext _ (fun i => fx e * incidence i e)) by (intros; ring). rewrite sum_over_scal, incidence_zero by assumption. ring. }
  assert (E : sum_over T (seq 0 n) = sum_over (fun i => T i - sum_over (fun e => incidence i e * fx e) bars) (seq 0 n)).
  { rewrite (sum_over_ext (fun i => T i - _) (fun i => T i + -1 * sum_over (fun e => incidence i e * fx e) bars)) by (intros; ring). rewrite sum_over_plus, sum_over_scal, Z. ring. }
  rewrite E. apply Rle_trans with (1 := sum_over_abs _ _).
  apply Rle_trans with (sum_over (fun i => 4 * INR D * u * sum_over (fun e => Rabs (incidence i e * fx e)) bars) (seq 0 n)).
  - apply sum_over_le. intros i I. apply in_seq in I. apply Rle_trans with (1 := HT i ltac:(lia)). apply Rmult_le_compat_r.
    + apply Rle_trans with (2 := sum_over_abs _ _). apply Rabs_pos.
    + apply Rmult_le_compat_r; [lra|]. apply Rmult_le_compat_l; [lra|]. apply le_INR, HD.
  - rewrite sum_over_scal, sum_over_swap. assert (K : 0 <= 4 * INR D * u) by (pose proof (pos_INR D); nra).
    apply Rle_trans with (4 * INR D * u * sum_over (fun e => 2 * Rabs (fx e)) bars).
    + apply Rmult_le_compat_l; [exact K|]. apply sum_over_le. intros e I. destruct (HB e I) as [A B]. apply incidence_two; assumption.
    + rewrite sum_over_scal. lra.
Qed.
Lemma scatter_parts bars (g : edge -> fpt) n i : (i < n)%nat -> nth i (scatter_f n bars (map g bars)) zero2 =
  (fold_left fadd (parts i (fun e => fst (g e)) bars) f_0, fold_left fadd (parts i (fun e => snd (g e)) bars) f_0).
Proof.
  intros Hi. unfold scatter_f. set (F := fun i : nat => _).
  rewrite (nth_indep _ zero2 (F 0%nat)) by (rewrite map_length, seq_length; exact Hi). rewrite (map_nth F). rewrite seq_nth by exact Hi. cbn [Nat.add]. unfold F.
  assert (E : forall c : fpt -> spec_float, flat_map (ends_f c i) (combine bars (map g bars)) = parts i (fun e => c (g e)) bars).
  { intros c. unfold parts. induction bars as [|e l IH]; [reflexivity|]. cbn [map combine flat_map]. rewrite IH. reflexivity. }
  rewrite (E fst), (E snd). reflexivity.
Qed.
Theorem forces_f fh m p t F : finite_double m -> 1 <= val m <= 2 -> ordinary_points p -> (forall q h x, fh q = Ok h -> In x h -> ordinary_size x) -> (Z.of_nat (length t) <= 2 ^ 23)%Z ->
  compute_forces_f fh m p t = Ok F ->
  length F = length p /\ exists bars L size L0 fx fy mL mh,
    NoDup bars /\ (forall a b, In (a, b) bars <-> (a <= b)%nat /\ undirected_side t a b) /\
    is_median (map L bars) mL /\ is_median (map size bars) mh /\
    (forall e, In e bars -> near 6 (L e) (length_or (/ 2 ^ 52) (points p) e) /\ 0 < L e /\ 0 < size e /\ near 14 (L0 e) (size e * val m * (mL / mh)) /\
       near 8 (fx e) (Rmax 0 (L0 e - L e) / L e * (px (points p) (fst e) - px (points p) (snd e))) /\
       near 8 (fy e) (Rmax 0 (L0 e - L e) / L e * (py (points p) (fst e) - py (points p) (snd e)))) /\
    (exists h, fh (map (middle p) bars) = Ok h /\ length h = length bars /\ forall k, (k < length bars)%nat -> let x := nth k h S754_nan in let e := nth k bars (0, 0)%nat in
       (is_positive x = true -> size e = val x) /\ (is_positive x = false -> exists md, is_median (positive_values h) md /\ near 4 (size e) md)) /\
    (forall i, (i < length p)%nat -> finite_double (fst (nth i F (S754_nan, S754_nan))) /\ finite_double (snd (nth i F (S754_nan, S754_nan))) /\
       Rabs (val (fst (nth i F (S754_nan, S754_nan))) - sum_over (fun e => incidence i e * fx e) bars) <= 4 * INR (bars_at i bars) * u * sum_over (fun e => Rabs (incidence i e * fx e)) bars /\
       Rabs (val (snd (nth i F (S754_nan, S754_nan))) - sum_over (fun e => incidence i e * fy e) bars) <= 4 * INR (bars_at i bars) * u * sum_over (fun e => Rabs (incidence i e * fy e)) bars) /\
    (forall D, (forall i, (bars_at i bars <= D)%nat) ->
       Rabs (sum_over (fun q => val (fst q)) F) <= 8 * INR D * u * sum_over (fun e => Rabs (fx e)) bars /\
       Rabs (sum_over (fun q => val (snd q)) F) <= 8 * INR D * u * sum_over (fun e => Rabs (fy e)) bars).
Proof.
  intros Fm Bm [OM OS] OF LT E. unfold compute_forces_f in E. set (bars := get_bars t) in *.
  destruct (forallb _ bars) eqn:FB; [|discriminate]. destruct (fh (map (midpoint_f p) bars)) as [h0|ex|] eqn:EH; try discriminate. cbn [bind] in E.
  destruct (repair_f h0) as [h|ex|] eqn:ER; try discriminate. cbn [bind] in E. destruct (length h =? length bars) eqn:EL; [|discriminate]. apply Nat.eqb_eq in EL. injection E as <-.
  assert (HB : forall e, In e bars -> (fst e < length p)%nat /\ (snd e < length p)%nat).
  { intros e I. rewrite forallb_forall in FB. apply FB in I. apply andb_true_iff in I. rewrite !Nat.ltb_lt in I. exact I. }
  assert (ND : NoDup bars) by apply get_bars_NoDup.
  destruct (repair_f_ok h0 h (fun x => OF _ _ x EH) ER) as (LH & SH & RH).
  assert (BL : forall e, In e bars -> fside (bar_length_f (barvec_f p e)) /\ nr (v1 ^ 3) (val (bar_length_f (barvec_f p e))) (length_or (/ 2 ^ 52) (points p) e)).
  { intros e I. destruct (HB e I) as [A B]. unfold barvec_f. assert (IA : In (nth (fst e) p zero2) p) by (apply nth_In, A). assert (IB : In (nth (snd e) p zero2) p) by (apply nth_In, B).
    destruct (bar_length_ok _ _ (OM _ IA) (OM _ IB) (OS _ _ IA IB)) as [S1 S2]. split; [exact S1|].
    assert (ED : distance (points p) e = dist2d (at_point (nth (fst e) p zero2)) (at_point (nth (snd e) p zero2))).
    { unfold distance, dist2d, px, py, points. change (0, 0) with (at_point zero2). rewrite !map_nth. f_equal; ring. }
    unfold length_or. rewrite ED. exact S2. }
  destruct bars as [|b0 bars0] eqn:EBars.
  { exfalso. destruct h; [|discriminate]. destruct h0; [|discriminate]. discriminate ER. }
  rewrite <- EBars in *. assert (NEb : bars <> []) by (rewrite EBars; discriminate).
  assert (SL : Forall fside (map bar_length_f (map (barvec_f p) bars))). { apply Forall_forall. intros x X. apply in_map_iff in X. destruct X as (v & <- & X). apply in_map_iff in X. destruct X as (e & <- & X). apply BL, X. }
  assert (NEL : map bar_length_f (map (barvec_f p) bars) <> []) by (rewrite EBars; discriminate).
  assert (NEH : h <> []) by (intros Z; rewrite Z, EBars in EL; discriminate).
  destruct (nanmedian_ok _ NEL SL) as [ML1 ML2]. destruct (nanmedian_ok _ NEH SH) as [MH1 MH2].
  set (ls := map bar_length_f (map (barvec_f p) bars)) in *. set (scale := fdiv (nanmedian_f ls) (nanmedian_f h)).
  set (mL := median (map val ls)) in *. set (mh := median (map val h)) in *.
  assert (GS : good (v1 ^ 5) 124 scale (mL / mh)).
  { assert (G1 : good (v1 ^ 2) 62 (nanmedian_f ls) mL). { split; [apply ML1|]. split; [exact ML2|]. apply side_rng, ML1. }
    assert (G2 : good (v1 ^ 2) 62 (nanmedian_f h) mh). { split; [apply MH1|]. split; [exact MH2|]. apply side_rng, MH1. }
    replace (v1 ^ 5) with (v1 * (v1 ^ 2 * v1 ^ 2)) by ring. exact (gdiv _ _ _ _ _ _ _ _ G1 G2 ltac:(auto with fac) ltac:(auto with fac) ltac:(lia)). }
  rewrite (combine_look bars h (barvec_f p) ND EL), map_map. cbn [fst snd].
  set (g := fun e => bar_force_f m scale (look bars h e) (barvec_f p e)).
  assert (LK : forall e, In e bars -> fside (look bars h e)).
  { intros e I. rewrite Forall_forall in SH. apply SH. pose proof (in_map (look bars h) bars e I) as K. rewrite (look_all bars h ND EL) in K. exact K. }
  assert (G : forall e, In e bars -> let w := Rmax 0 (val (wanted_f m scale (look bars h e)) - val (bar_length_f (barvec_f p e))) / val (bar_length_f (barvec_f p e)) in
    finite_double (fst (g e)) /\ finite_double (snd (g e)) /\ Rabs (val (fst (g e))) <= bp 363 /\ Rabs (val (snd (g e))) <= bp 363 /\
    near 8 (val (fst (g e))) (w * (px (points p) (fst e) - px (points p) (snd e))) /\ near 8 (val (snd (g e))) (w * (py (points p) (fst e) - py (points p) (snd e)))).
  { intros e I w. destruct (HB e I) as [A B]. assert (IA : In (nth (fst e) p zero2) p) by (apply nth_In, A). assert (IB : In (nth (snd e) p zero2) p) by (apply nth_In, B).
    pose proof (LK e I) as [LK1 LK2].
    destruct (bar_force_ok m scale (look bars h e) _ _ _ Fm Bm LK1 (side_rng _ LK2) GS (OM _ IA) (OM _ IB) (OS _ _ IA IB)) as (Q1 & Q2 & Q3 & Q4 & Q5 & Q6).
    apply (sg_near 4) in Q5; [|lia]. apply (sg_near 4) in Q6; [|lia]. replace (2 * INR 4) with 8 in Q5, Q6 by (cbn; ring).
    unfold px, py, points. change (0, 0) with (at_point zero2). rewrite !map_nth. repeat (split; [assumption|]). assumption. }
  set (fx := fun e => val (fst (g e))). set (fy := fun e => val (snd (g e))).
  assert (LOOP : forall e, In e bars -> fst e = snd e -> val (fst (g e)) = 0 /\ val (snd (g e)) = 0).
  { intros e I EE. destruct (G e I) as (_ & _ & _ & _ & N1 & N2). rewrite EE in N1, N2. unfold near in N1, N2. rewrite !Rminus_eq_0, !Rmult_0_r, Rabs_R0, Rmult_0_r, Rminus_0_r in N1, N2.
    split; apply Rabs_eq_R0; apply Rle_antisym; auto using Rabs_pos. }
  assert (LB : (Z.of_nat (length bars) <= 2 ^ 25)%Z) by (pose proof (bars_count t) as K; fold bars in K; lia).
  assert (TX : forall i, _) by exact (fun i => total_ok i (fun e => fst (g e)) bars LB (fun e I => conj (proj1 (G e I)) (proj1 (proj2 (proj2 (G e I))))) (fun e I EE => proj1 (LOOP e I EE))).
  assert (TY : forall i, _) by exact (fun i => total_ok i (fun e => snd (g e)) bars LB (fun e I => conj (proj1 (proj2 (G e I))) (proj1 (proj2 (proj2 (proj2 (G e I)))))) (fun e I EE => proj2 (LOOP e I EE))).
  assert (LS : length (scatter_f (length p) bars (map g bars)) = length p) by (unfold scatter_f; rewrite map_length, seq_length; reflexivity).
  split; [exact LS|].
  exists bars, (fun e => val (bar_length_f (barvec_f p e))), (fun e => val (look bars h e)), (fun e => val (wanted_f m scale (look bars h e))), fx, fy, mL, mh.
  split; [exact ND|]. split; [apply get_bars_spec|]. split; [|split; [|split; [|split; [|split]]]].
  - replace (map (fun e => val (bar_length_f (barvec_f p e))) bars) with (map val ls) by (unfold ls; rewrite !map_map; reflexivity). apply median_spec.
  - replace (map (fun e => val (look bars h e)) bars) with (map val h) by (rewrite <- (look_all bars h ND EL) at 1; rewrite map_map; reflexivity). apply median_spec.
  - intros e I. destruct (BL e I) as [S1 S2]. pose proof (LK e I) as [LK1 LK2]. destruct (G e I) as (_ & _ & _ & _ & N1 & N2).
    split; [replace 6 with (2 * INR 3) by (cbn; ring); apply near_nr; [lia|exact S2]|]. split; [apply side_pos, S1|]. split; [apply side_pos, LK2|]. split; [|split; [exact N1|exact N2]].
    destruct (wanted_ok m scale (look bars h e) _ Fm Bm LK1 (side_rng _ LK2) GS) as (_ & W & _). apply (near_nr 7) in W; [|lia].
    replace 14 with (2 * INR 7) by (cbn; ring). exact W.
  - exists h0. split; [|split; [congruence|]].
    + rewrite <- EH. f_equal. apply map_ext_in. intros e I. destruct (HB e I) as [A B]. unfold middle, midpoint_f. rewrite (nth_indep p (S754_nan, S754_nan) zero2 A), (nth_indep p (S754_nan, S754_nan) zero2 B). reflexivity.
    + intros k K. destruct (RH k ltac:(lia)) as [R1 R2]. cbv zeta in R1, R2. cbv zeta. rewrite (look_nth bars h k ND EL K). split; intros P.
      * rewrite (R1 P). reflexivity.
      * destruct (R2 P) as (md & M1 & M2). exists md. split; [exact M1|]. replace 4 with (2 * INR 2) by (cbn; ring). apply near_nr; [lia|exact M2].
  - intros i Hi. rewrite (nth_indep _ (S754_nan, S754_nan) zero2) by (rewrite LS; exact Hi). rewrite scatter_parts by exact Hi. cbn [fst snd]. destruct (TX i) as [X1 X2]. destruct (TY i) as [Y1 Y2]. auto.
  - intros D HD. assert (SE : forall c : fpt -> R, sum_over c (scatter_f (length p) bars (map g bars)) = sum_over (fun i => c (nth i (scatter_f (length p) bars (map g bars)) zero2)) (seq 0 (length p))).
    { intros c. rewrite <- LS at 2. generalize (scatter_f (length p) bars (map g bars)). clear. intros l. rewrite <- (sum_over_map (fun i => nth i l zero2) c (seq 0 (length l))).
      f_equal. apply nth_ext with zero2 zero2; [rewrite map_length, seq_length; reflexivity|]. intros n Hn. rewrite (nth_indep (map (fun i => nth i l zero2) (seq 0 (length l))) zero2 (nth 0 l zero2)) by (rewrite map_length, seq_length; exact Hn).
      rewrite (map_nth (fun i => nth i l zero2)). rewrite seq_nth by exact Hn. reflexivity. }
    rewrite (SE (fun q => val (fst q))), (SE (fun q => val (snd q))). split; apply balance; try assumption; intros i Hi; rewrite scatter_parts by exact Hi; cbn [fst snd]; [apply TX|apply TY].
Qed.
