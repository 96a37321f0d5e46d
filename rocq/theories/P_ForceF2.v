(** Bar forces on doubles: failures and counterexamples; centroids and the removal of elements on doubles. *)
From Coq Require Import List Arith Bool ZArith Lia Reals Lra Psatz SpecFloat.
From Flocq Require Import Core IEEE754.BinarySingleNaN Relative Plus_error.
From Verif Require Import Util M_Base M_Numpy M_Edges M_FixMesh M_LimitF M_QualF M_Ieee M_Forces M_ForceF.
From Verif Require Import S_Double S_Ieee S_Quality S_QualF S_Forces S_ForceF P_Double P_LimitF P_CutF P_LapF P_Ieee P_Ieee3 P_QualF P_Forces P_ForceF.
Import ListNotations.
Open Scope R_scope.

(** * When no size is usable *)
Lemma raises_f fh m p t h0 : (forall a b, undirected_side t a b -> (a < length p)%nat /\ (b < length p)%nat) -> fh (map (middle p) (get_bars t)) = Ok h0 -> length h0 = length (get_bars t) ->
  (forall x, In x h0 -> valid_binary 53 1024 x = true) ->
  ((exists F, compute_forces_f fh m p t = Ok F) <-> exists x, In x h0 /\ positive_double x) /\
  (compute_forces_f fh m p t = Raise ValueError <-> forall x, In x h0 -> ~ positive_double x).
Proof.
  intros R EH LH VH. unfold compute_forces_f. assert (HB : forall e, In e (get_bars t) -> (fst e < length p)%nat /\ (snd e < length p)%nat).
  { intros [a b] I. apply get_bars_spec in I. apply R, I. }
  assert (EF : forallb (fun e => (fst e <? length p) && (snd e <? length p))%nat (get_bars t) = true).
  { apply forallb_forall. intros e I. apply HB in I. apply andb_true_iff. rewrite !Nat.ltb_lt. exact I. }
  rewrite EF. assert (EM : map (midpoint_f p) (get_bars t) = map (middle p) (get_bars t)).
  { apply map_ext_in. intros e I. destruct (HB e I) as [A B]. unfold middle, midpoint_f. rewrite (nth_indep p (S754_nan, S754_nan) zero2 A), (nth_indep p (S754_nan, S754_nan) zero2 B). reflexivity. }
  rewrite EM, EH. cbn [bind]. unfold repair_f. destruct (existsb valid_f h0) eqn:EX; cbn [bind].
  - rewrite map_length, LH, Nat.eqb_refl. apply existsb_exists in EX. destruct EX as (x & X1 & X2). pose proof (positive_fin x (VH x X1) X2) as P. split; split; intros H; eauto; [discriminate|]. exfalso. apply (H x X1 P).
  - assert (NO : forall x, In x h0 -> ~ positive_double x). { intros x I P. apply positive_valid in P. assert (existsb valid_f h0 = true) by (apply existsb_exists; eauto). congruence. }
    split; split; intros H; auto; [destruct H; discriminate|]. destruct H as (x & X1 & X2). exfalso. apply (NO x X1 X2).
Qed.

(** * Witnesses *)
Definition w_1 : spec_float := S754_finite false 4503599627370496 (-52).
Definition w_3 : spec_float := S754_finite false 5404319552844595 (-54).
Definition w_7 : spec_float := S754_finite false 6305039478318694 (-53).
Definition w_p : list fpt := [(f_0, f_0); (w_1, f_0); (w_3, w_7)].
Definition w_t : list tri := [(0, 1, 2)]%nat.
Definition w_h : list fpt -> res (list spec_float) := fun q => Ok (map (fun _ => w_1) q).
Lemma w_vals : finite_double f_0 /\ val f_0 = 0 /\ finite_double w_1 /\ val w_1 = 1 /\ finite_double w_3 /\ 2 / 10 <= val w_3 <= 4 / 10 /\ finite_double w_7 /\ 6 / 10 <= val w_7 <= 8 / 10.
Proof.
  assert (B : bp (-52) = / 4503599627370496) by reflexivity. assert (B3 : bp (-54) = / 18014398509481984) by reflexivity. assert (B7 : bp (-53) = / 9007199254740992) by reflexivity.
  split; [split; reflexivity|]. split; [reflexivity|]. split; [apply finite_check; reflexivity|]. split; [unfold val, w_1, SF2R, F2R; cbn [Fnum Fexp cond_Zopp]; rewrite B; lra|].
  split; [apply finite_check; reflexivity|]. split; [unfold val, w_3, SF2R, F2R; cbn [Fnum Fexp cond_Zopp]; rewrite B3; lra|].
  split; [apply finite_check; reflexivity|]. unfold val, w_7, SF2R, F2R; cbn [Fnum Fexp cond_Zopp]; rewrite B7; lra.
Qed.
Lemma two60 : / 2 ^ 60 <= / 100 /\ 100 <= 2 ^ 60.
Proof. assert (100 <= 2 ^ 60) by (rewrite <- (Rmult_1_l 100); cbn; lra). split; [apply Rinv_le_contravar; lra|assumption]. Qed.
Lemma w_ordinary : ordinary_points w_p.
Proof.
  destruct w_vals as (F0 & V0 & F1 & V1 & F3 & V3 & F7 & V7). destruct two60 as [T1 T2]. split.
  - intros a [<-|[<-|[<-|[]]]]; unfold moderate; cbn [fst snd]; (split; [assumption|]); (split; [assumption|]); rewrite ?V0, ?V1; split; apply Rabs_le; lra.
  - assert (SP : forall x y, / 100 <= val x - val y \/ / 100 <= val y - val x \/ val x = val y -> spaced x y).
    { intros x y [H|[H|H]]; [right|right|left; exact H]; [rewrite Rabs_pos_eq by lra; lra|rewrite Rabs_left by lra; lra]. }
    intros a b A B. destruct A as [<-|[<-|[<-|[]]]]; destruct B as [<-|[<-|[<-|[]]]]; split; cbn [fst snd]; apply SP; lra.
Qed.
Lemma w_sizes q h x : w_h q = Ok h -> In x h -> ordinary_size x.
Proof.
  intros E I. injection E as <-. apply in_map_iff in I. destruct I as (y & <- & _). destruct w_vals as (_ & _ & F1 & V1 & _). destruct two60. split; [apply F1|]. intros _. rewrite V1. lra.
Qed.
Lemma mult_ok : finite_double L0mult_f /\ Rabs (val L0mult_f - 6 / 5) <= / 10 ^ 15.
Proof.
  assert (E : L0mult_f = S754_finite false 5404319552844595 (-52)) by (vm_compute; reflexivity). rewrite E. split; [apply finite_check; reflexivity|].
  unfold val, SF2R, F2R; cbn [Fnum Fexp cond_Zopp]. replace (bp (-52)) with (/ 4503599627370496) by reflexivity. apply Rabs_le. cbn. lra.
Qed.
Definition w_F : list fpt := match compute_forces_f w_h L0mult_f w_p w_t with Ok F => F | _ => [] end.
Lemma w_result : compute_forces_f w_h L0mult_f w_p w_t = Ok w_F.
Proof. vm_compute. reflexivity. Qed.
Lemma w_sum : sum_over (fun q => val (fst q)) w_F <> 0.
Proof.
  assert (E : w_F = [(S754_finite true 6411173912011590 (-54), S754_finite true 7059637204216293 (-54)); (S754_finite false 5907630901532084 (-54), S754_finite true 5044031582654952 (-55));
     (S754_finite false 8056688167672104 (-58), S754_finite false 4790826497771884 (-53))]) by (vm_compute; reflexivity).
  rewrite E. cbn [sum_over fst]. unfold val, SF2R, F2R; cbn [Fnum Fexp cond_Zopp Z.opp]. change (-54)%Z with (4 + -58)%Z. rewrite bpow_plus. change (bp 4) with 16. assert (0 < bp (-58)) by apply bpow_gt_0. lra.
Qed.
Lemma zero_sum_refuted : exists fh p t F, ordinary_points p /\ (forall q h x, fh q = Ok h -> In x h -> ordinary_size x) /\ compute_forces_f fh L0mult_f p t = Ok F /\ sum_over (fun q => val (fst q)) F <> 0.
Proof. exists w_h, w_p, w_t, w_F. split; [exact w_ordinary|]. split; [exact w_sizes|]. split; [exact w_result|exact w_sum]. Qed.
Definition w_big : spec_float := S754_finite false 4503599627370496 448.
Definition w_tiny : spec_float := S754_finite false 4503599627370496 (-582).
Lemma extreme : exists p t F, Forall (fun q => finite_double (fst q) /\ finite_double (snd q)) p /\ compute_forces_f w_h L0mult_f p t = Ok F /\ In (S754_nan, S754_infinity true) F.
Proof.
  exists [(f_0, f_0); (f_0, w_tiny); (w_big, f_0)], w_t. eexists. assert (F0 : finite_double f_0) by (split; reflexivity). assert (FB : finite_double w_big) by (apply finite_check; reflexivity). assert (FT : finite_double w_tiny) by (apply finite_check; reflexivity).
  split; [repeat (constructor; [split; assumption|]); constructor|]. split; [vm_compute; reflexivity|]. left. reflexivity.
Qed.

(** * Centroids *)
Lemma three_ok : finite_double f_3 /\ val f_3 = 3.
Proof. split; [apply finite_check; reflexivity|]. unfold val, f_3, SF2R, F2R; cbn [Fnum Fexp cond_Zopp]. replace (bp (-51)) with (/ 2251799813685248) by reflexivity. lra. Qed.
Lemma rnd_err x : Rabs (rnd x - x) <= u * Rabs x + bp (-1075).
Proof.
  unfold rnd. destruct (error_N_FLT radix2 (-1074) 53 ltac:(lia) (fun z => negb (Z.even z)) x) as (eps & eta & A & B & _ & C). rewrite C.
  replace (x * (1 + eps) + eta - x) with (x * eps + eta) by ring. apply Rle_trans with (1 := Rabs_triang _ _). rewrite Rabs_mult.
  assert (A' : Rabs eps <= u). { apply Rle_trans with (1 := A). unfold u_ro. change (- (53) + 1)%Z with (-52)%Z. unfold u. change (-52)%Z with (-53 + 1)%Z. rewrite bpow_plus. change (bp 1) with 2. lra. }
  assert (B' : Rabs eta <= bp (-1075)). { apply Rle_trans with (1 := B). change (-1074)%Z with (-1075 + 1)%Z. rewrite bpow_plus. change (bp 1) with 2. lra. }
  pose proof (Rabs_pos x). nra.
Qed.
Lemma centroid_coord a b c M : finite_double a -> finite_double b -> finite_double c -> Rabs (val a) <= M -> Rabs (val b) <= M -> Rabs (val c) <= M -> M <= bp 900 ->
  finite_double (fdiv (fadd (fadd a b) c) f_3) /\ Rabs (val (fdiv (fadd (fadd a b) c) f_3) - mean3 (val a) (val b) (val c)) <= centroid_error M.
Proof.
  intros Fa Fb Fc Ba Bb Bc HM. pose proof u_bounds as U. assert (M0 : 0 <= M) by (apply Rle_trans with (2 := Ba), Rabs_pos).
  assert (S1 : Rabs (val a + val b) <= 2 * M) by (apply Rle_trans with (1 := Rabs_triang _ _); lra).
  pose proof (add_rel (val a) (val b) (format_val _ Fa) (format_val _ Fb)) as E1.
  assert (U1 : u * Rabs (val a + val b) <= u * (2 * M)) by (apply Rmult_le_compat_l; lra).
  assert (B1 : Rabs (rnd (val a + val b)) <= 3 * M). { replace (rnd (val a + val b)) with ((rnd (val a + val b) - (val a + val b)) + (val a + val b)) by ring. apply Rle_trans with (1 := Rabs_triang _ _). nra. }
  assert (BM : 8 * M <= bp 903). { change 903%Z with (3 + 900)%Z. rewrite bpow_plus. change (bp 3) with 8. lra. }
  destruct (proj1 (add_rounds a b Fa Fb)) as [F1 V1]. { apply huge_big with 903%Z; [lia|lra]. }
  assert (S2 : Rabs (val (fadd a b) + val c) <= 4 * M) by (rewrite V1; apply Rle_trans with (1 := Rabs_triang _ _); lra).
  pose proof (add_rel (val (fadd a b)) (val c) (format_val _ F1) (format_val _ Fc)) as E2.
  assert (S3 : Rabs (val (fadd a b) + val c) <= 3 * M + u * (2 * M)).
  { rewrite V1. replace (rnd (val a + val b) + val c) with ((rnd (val a + val b) - (val a + val b)) + (val a + val b + val c)) by ring. apply Rle_trans with (1 := Rabs_triang _ _).
    assert (Rabs (val a + val b + val c) <= 3 * M) by (apply Rle_trans with (1 := Rabs_triang _ _); lra). lra. }
  assert (U2 : u * Rabs (val (fadd a b) + val c) <= u * (3 * M + u * (2 * M))) by (apply Rmult_le_compat_l; lra).
  assert (UU : u * (u * M) <= / 1000000 * (u * M)) by (apply Rmult_le_compat_r; [apply Rmult_le_pos|]; lra). assert (UM : 0 <= u * M <= / 1000000 * M) by (split; [apply Rmult_le_pos; lra|apply Rmult_le_compat_r; lra]).
  assert (B2 : Rabs (rnd (val (fadd a b) + val c)) <= 4 * M). { replace (rnd (val (fadd a b) + val c)) with ((rnd (val (fadd a b) + val c) - (val (fadd a b) + val c)) + (val (fadd a b) + val c)) by ring. apply Rle_trans with (1 := Rabs_triang _ _). lra. }
  destruct (proj1 (add_rounds (fadd a b) c F1 Fc)) as [F2 V2]. { apply huge_big with 903%Z; [lia|lra]. }
  set (s := val (fadd (fadd a b) c)) in *. pose proof (rnd_err (s / 3)) as E3.
  assert (B3 : Rabs (s / 3) <= 4 / 3 * M). { rewrite V2. unfold Rdiv. rewrite Rabs_mult, (Rabs_pos_eq (/ 3)) by lra. lra. }
  assert (P75 : bp (-1075) <= bp 900) by (apply bpow_le; lia). assert (P0 : 0 < bp (-1075)) by apply bpow_gt_0.
  destruct three_ok as [F3 V3]. destruct (div_rounds (fadd (fadd a b) c) f_3 F2 F3) as [F V].
  { rewrite V3. lra. } { rewrite V3. fold s. apply huge_big with 903%Z; [lia|]. replace (rnd (s / 3)) with ((rnd (s / 3) - s / 3) + s / 3) by ring. apply Rle_trans with (1 := Rabs_triang _ _).
    assert (u * Rabs (s / 3) <= / 1000000 * (4 / 3 * M)) by (apply Rmult_le_compat; try apply Rabs_pos; lra). assert (8 * bp 900 = bp 903) by (change 8 with (bp 3); rewrite <- bpow_plus; reflexivity). assert (0 <= M) by exact M0. lra. }
  split; [exact F|]. rewrite V, V3. fold s. unfold mean3, centroid_error.
  assert (T : / 2 ^ 1074 = 2 * bp (-1075)). { replace (2 * bp (-1075)) with (bp (-1074)) by (change (-1074)%Z with (1 + -1075)%Z; rewrite bpow_plus; reflexivity). change (-1074)%Z with (- (1074))%Z. rewrite bpow_opp, bpow_powerRZ. reflexivity. }
  rewrite T. assert (SE : Rabs (s - (val a + val b + val c)) <= 5 * (u * M) + 2 * (/ 1000000 * (u * M))).
  { rewrite V2. replace (rnd (val (fadd a b) + val c) - (val a + val b + val c)) with ((rnd (val (fadd a b) + val c) - (val (fadd a b) + val c)) + (val (fadd a b) - (val a + val b))) by ring. rewrite V1 in *. apply Rle_trans with (1 := Rabs_triang _ _). lra. }
  assert (S3' : Rabs (s / 3) <= M + 2 * (u * M)). { replace (s / 3) with ((s - (val a + val b + val c)) / 3 + (val a + val b + val c) / 3) by field. apply Rle_trans with (1 := Rabs_triang _ _). unfold Rdiv. rewrite !Rabs_mult, (Rabs_pos_eq (/ 3)) by lra.
    assert (Rabs (val a + val b + val c) <= 3 * M) by (apply Rle_trans with (1 := Rabs_triang _ _); lra). lra. }
  assert (U3 : u * Rabs (s / 3) <= u * (M + 2 * (u * M))) by (apply Rmult_le_compat_l; lra).
  replace (rnd (s / 3) - (val a + val b + val c) / 3) with ((rnd (s / 3) - s / 3) + (s - (val a + val b + val c)) / 3) by field. apply Rle_trans with (1 := Rabs_triang _ _).
  unfold Rdiv at 3. rewrite (Rabs_mult (s - _)), (Rabs_pos_eq (/ 3)) by lra. lra.
Qed.
Theorem centroid_ok a b c M : within_size M a -> within_size M b -> within_size M c -> M <= 2 ^ 900 ->
  finite_double (fst (centroid_f a b c)) /\ finite_double (snd (centroid_f a b c)) /\
  Rabs (val (fst (centroid_f a b c)) - fst (true_centroid a b c)) <= centroid_error M /\ Rabs (val (snd (centroid_f a b c)) - snd (true_centroid a b c)) <= centroid_error M.
Proof.
  intros (A1 & A2 & A3 & A4) (B1 & B2 & B3 & B4) (C1 & C2 & C3 & C4) HM. assert (T : 2 ^ 900 = bp 900) by (rewrite bpow_powerRZ; reflexivity). rewrite T in HM.
  destruct (centroid_coord _ _ _ M A1 B1 C1 A3 B3 C3 HM) as [X1 X2]. destruct (centroid_coord _ _ _ M A2 B2 C2 A4 B4 C4 HM) as [Y1 Y2]. auto.
Qed.
Definition c_lo : spec_float := S754_finite false 9007199254740006 (-53).
Definition c_hi : spec_float := S754_finite false 9007199254740007 (-53).
Lemma own_box_refuted : exists a b c, within_size 1 a /\ within_size 1 b /\ within_size 1 c /\ val (fst (centroid_f a b c)) < Rmin (val (fst a)) (Rmin (val (fst b)) (val (fst c))) /\
  val (fst a) <> val (fst b) /\ val (snd a) <> val (snd c).
Proof.
  destruct w_vals as (F0 & V0 & F1 & V1 & _). assert (FL : finite_double c_lo) by (apply finite_check; reflexivity). assert (FH : finite_double c_hi) by (apply finite_check; reflexivity).
  assert (B7 : bp (-53) = / 9007199254740992) by reflexivity.
  assert (VL : val c_lo = 9007199254740006 / 9007199254740992) by (unfold val, c_lo, SF2R, F2R; cbn [Fnum Fexp cond_Zopp]; rewrite B7; reflexivity).
  assert (VH : val c_hi = 9007199254740007 / 9007199254740992) by (unfold val, c_hi, SF2R, F2R; cbn [Fnum Fexp cond_Zopp]; rewrite B7; reflexivity).
  exists (c_lo, f_0), (c_hi, f_0), (c_lo, w_1). unfold within_size. cbn [fst snd]. rewrite VL, VH, V0, V1.
  split; [split; [assumption|]; split; [assumption|]; split; apply Rabs_le; lra|]. split; [split; [assumption|]; split; [assumption|]; split; apply Rabs_le; lra|].
  split; [split; [assumption|]; split; [assumption|]; split; apply Rabs_le; lra|]. split; [|lra].
  assert (E : fst (centroid_f (c_lo, f_0) (c_hi, f_0) (c_lo, w_1)) = S754_finite false 9007199254740005 (-53)) by (vm_compute; reflexivity). rewrite E.
  unfold val, SF2R, F2R; cbn [Fnum Fexp cond_Zopp]; rewrite B7. apply Rmin_glb_lt; [lra|]. apply Rmin_glb_lt; lra.
Qed.

(** * Elements kept inside a box *)
Lemma max_shift a b c d e : Rabs (a - c) <= e -> Rabs (b - d) <= e -> Rabs (Rmax a b - Rmax c d) <= e.
Proof. intros A B. unfold Rmax. apply Rabs_le_inv in A, B. apply Rabs_le. destruct (Rle_dec a b), (Rle_dec c d); lra. Qed.
Lemma depth_shift x0 xN y0 yN q q' e : Rabs (fst q - fst q') <= e -> Rabs (snd q - snd q') <= e -> Rabs (box_depth x0 xN y0 yN q - box_depth x0 xN y0 yN q') <= e.
Proof.
  intros A B. apply Rabs_le_inv in A, B. unfold box_depth. repeat apply max_shift; apply Rabs_le; lra.
Qed.
Lemma mapM_filter {A} (f : A -> res bool) l ks : mapM f l = Ok ks -> map fst (filter snd (combine l ks)) = filter (fun x => match f x with Ok true => true | _ => false end) l /\ forall x, In x l -> exists b, f x = Ok b.
Proof.
  revert ks. induction l as [|x l IH]; intros ks E; [injection E as <-; split; [reflexivity|intros ? []]|]. cbn [mapM bind] in E. destruct (f x) as [b|ex|] eqn:EF; try discriminate. cbn [bind] in E.
  destruct (mapM f l) as [bs|ex|]; try discriminate. injection E as <-. destruct (IH _ eq_refl) as [I1 I2]. split; [|intros y [<-|Y]; eauto].
  cbn [combine filter snd]. rewrite EF. destruct b; cbn [map fst]; rewrite I1; reflexivity.
Qed.
Theorem kept_ok p t x0 xN y0 yN geps M T : Forall (within_size M) p -> within_size M (x0, y0) -> within_size M (xN, yN) -> M <= 2 ^ 900 -> finite_double geps -> 0 <= val geps ->
  remove_triangles_outside_f p t (fun q => bbox_f x0 xN y0 yN (fst q) (snd q)) geps = Ok T ->
  exists keep, T = filter keep t /\ forall f, In f t ->
    let d := box_depth (val x0) (val xN) (val y0) (val yN) (corner3 p f) in
    (keep f = true -> d < - val geps + centroid_error M) /\ (keep f = false -> - (1 + 2 * u) * val geps - 2 * centroid_error M <= d).
Proof.
  intros HP (X1 & X2 & X3 & X4) (Y1 & Y2 & Y3 & Y4) HM FG PG E. cbn [fst snd] in *. unfold remove_triangles_outside_f in E.
  set (kf := fun f : tri => _) in E. destruct (mapM kf t) as [ks|ex|] eqn:EM; try discriminate. cbn [bind] in E. injection E as <-.
  destruct (mapM_filter _ _ _ EM) as [A B]. exists (fun x => match kf x with Ok true => true | _ => false end). split; [exact A|].
  intros [[i j] k] I. cbv zeta. destruct (B _ I) as [b Eb]. rewrite Eb. unfold kf in Eb.
  destruct (get p i) as [a|ex|] eqn:Gi; try discriminate. destruct (get p j) as [b'|ex|] eqn:Gj; try discriminate. destruct (get p k) as [c|ex|] eqn:Gk; try discriminate. cbn [bind] in Eb. injection Eb as Eb.
  assert (GN : forall n x, get p n = Ok x -> nth n p (S754_nan, S754_nan) = x /\ within_size M x).
  { intros n x G. unfold get in G. destruct (nth_error p n) as [y|] eqn:N; [|discriminate]. injection G as ->. split; [apply nth_error_nth, N|]. rewrite Forall_forall in HP. apply HP. eapply nth_error_In, N. }
  destruct (GN _ _ Gi) as [Ni Wi]. destruct (GN _ _ Gj) as [Nj Wj]. destruct (GN _ _ Gk) as [Nk Wk].
  destruct (centroid_ok a b' c M Wi Wj Wk HM) as (C1 & C2 & C3 & C4). assert (CE : corner3 p (i, j, k) = true_centroid a b' c) by (unfold corner3; rewrite Ni, Nj, Nk; reflexivity).
  rewrite CE. set (g := centroid_f a b' c) in *. set (q := (val (fst g), val (snd g))).
  pose proof (depth_shift (val x0) (val xN) (val y0) (val yN) q (true_centroid a b' c) (centroid_error M) C3 C4) as DS. apply Rabs_le_inv in DS.
  set (e := box_depth (val x0) (val xN) (val y0) (val yN) q) in *.
  assert (T9 : 2 ^ 900 = bp 900) by (rewrite bpow_powerRZ; reflexivity). rewrite T9 in HM. pose proof u_bounds as U.
  assert (M0 : 0 <= M) by (apply Rle_trans with (2 := X3), Rabs_pos).
  assert (CB : forall v w, Rabs (v - w) <= centroid_error M -> Rabs w <= M -> Rabs v <= 2 * bp 900).
  { intros v w H1 H2. replace v with ((v - w) + w) by ring. apply Rle_trans with (1 := Rabs_triang _ _). unfold centroid_error in H1. assert (/ 2 ^ 1074 <= / 2). { apply Rinv_le_contravar; [lra|]. rewrite <- (pow_1 2) at 1. apply Rle_pow; [lra|lia]. }
    assert (u * M <= / 1000000 * M) by (apply Rmult_le_compat_r; lra). assert (1 <= bp 900) by (change 1 with (bp 0); apply bpow_le; lia). lra. }
  assert (MM : forall x y z, Rabs x <= M -> Rabs y <= M -> Rabs z <= M -> Rabs (mean3 x y z) <= M). { intros x y z HX HY HZ. apply Rabs_le_inv in HX, HY, HZ. unfold mean3. apply Rabs_le. lra. }
  assert (Q1 : Rabs (val (fst g)) <= 2 * bp 900). { apply CB with (1 := C3). destruct Wi as (_ & _ & Wi & _), Wj as (_ & _ & Wj & _), Wk as (_ & _ & Wk & _). cbn [fst snd true_centroid]. auto. }
  assert (Q2 : Rabs (val (snd g)) <= 2 * bp 900). { apply CB with (1 := C4). destruct Wi as (_ & _ & _ & Wi), Wj as (_ & _ & _ & Wj), Wk as (_ & _ & _ & Wk). cbn [fst snd true_centroid]. auto. }
  assert (EB : Rabs e <= bp 902). { change 902%Z with (2 + 900)%Z. rewrite bpow_plus. change (bp 2) with 4. apply Rabs_le_inv in Q1, Q2, X3, X4, Y3, Y4. unfold e, box_depth, q. cbn [fst snd]. unfold Rmax. apply Rabs_le. repeat destruct (Rle_dec _ _); lra. }
  assert (RB : Rabs (rnd e) < bp 1024). { apply Rle_lt_trans with (bp 902); [apply rnd_abs_le; [apply rep_bp; lia|exact EB]|apply bpow_lt; lia]. }
  destruct (box_value x0 xN y0 yN (fst g) (snd g) X1 Y1 X2 Y2 C1 C2 RB) as [FV VV]. change (val (bbox_f x0 xN y0 yN (fst g) (snd g)) = rnd e) in VV.
  destruct (opp_double geps FG) as [FO VO].
  assert (LT : b = true <-> rnd e < - val geps). { rewrite <- Eb, <- VV, <- VO. apply ltb_val; assumption. }
  destruct b; split; intros K; try discriminate.
  - assert (H : rnd e < - val geps) by (apply LT; reflexivity). assert (e < - val geps). { apply Rnot_le_lt. intros G. assert (- val geps <= rnd e) by (apply rnd_ge; [rewrite <- VO; apply format_val, FO|exact G]). lra. } lra.
  - assert (H : - val geps <= rnd e). { apply Rnot_lt_le. intros G. apply LT in G. discriminate. }
    pose proof (rnd_err e) as RE. apply Rabs_le_inv in RE.
    assert (T : / 2 ^ 1074 = 2 * bp (-1075)). { replace (2 * bp (-1075)) with (bp (-1074)) by (change (-1074)%Z with (1 + -1075)%Z; rewrite bpow_plus; reflexivity). change (-1074)%Z with (- (1074))%Z. rewrite bpow_opp, bpow_powerRZ. reflexivity. }
    assert (P0 : 0 < bp (-1075)) by apply bpow_gt_0. assert (UM : 0 <= u * M) by (apply Rmult_le_pos; lra). unfold centroid_error in *. rewrite T in *.
    assert (e >= - (1 + 2 * u) * val geps - 2 * bp (-1075)); [|lra].
    destruct (Rle_dec 0 e) as [P|P]; [nra|]. rewrite Rabs_left in RE by lra. set (z := - e) in *. assert (Hz : z * (1 - u) <= val geps + bp (-1075)) by (replace (z * (1 - u)) with (z - u * z) by ring; unfold z in *; lra).
    assert (z <= (val geps + bp (-1075)) * (1 + 2 * u)). { apply Rle_trans with (z * (1 - u) * (1 + 2 * u)); [|apply Rmult_le_compat_r; lra]. assert (0 < z) by (unfold z; lra). assert (0 <= u * (1 - 2 * u)) by nra. replace (z * (1 - u) * (1 + 2 * u)) with (z + z * (u * (1 - 2 * u))) by ring. nra. }
    assert (bp (-1075) * u <= bp (-1075) * / 1000000) by (apply Rmult_le_compat_l; lra). unfold z in *. nra.
Qed.
Lemma w_within : within_size 1 (f_0, f_0) /\ within_size 1 (w_1, f_0) /\ within_size 1 (f_0, w_1) /\ within_size 1 (w_1, w_1).
Proof.
  destruct w_vals as (F0 & V0 & F1 & V1 & _). assert (A0 : Rabs (val f_0) <= 1) by (rewrite V0, Rabs_R0; lra). assert (A1 : Rabs (val w_1) <= 1) by (rewrite V1, Rabs_R1; lra).
  unfold within_size. cbn [fst snd]. auto 10.
Qed.
