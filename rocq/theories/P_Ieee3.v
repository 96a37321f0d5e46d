(** Proofs about circles and inverse-distance weighting on doubles. *)
From Coq Require Import List ZArith QArith SpecFloat Reals Lra Lia Bool Psatz.
From Flocq Require Import Core IEEE754.BinarySingleNaN Plus_error Relative.
From Verif Require Import M_Base M_FixMesh M_Ieee S_Double S_Ieee P_Double P_Ieee P_Ieee2.
Import ListNotations.
Open Scope R_scope.

Definition d1 : spec_float := f_one.
Lemma one_val : finite_double f_one /\ val f_one = 1.
Proof. split; [split; reflexivity|]. unfold val. cbn. unfold F2R. cbn. field. Qed.
Lemma vector_tie : exists x0 dx n i j a b, finite_double x0 /\ finite_double dx /\ 0 < val dx /\ (i < j)%nat /\ nth_error (vector_f x0 dx n) i = Some a /\ nth_error (vector_f x0 dx n) j = Some b /\ a = b.
Proof.
  exists f_one, (S754_finite false 4503599627370496 (-106)), 2%nat, 0%nat, 1%nat. eexists. eexists. split; [split; reflexivity|]. split; [split; reflexivity|].
  split; [unfold val; cbn; apply F2R_gt_0; reflexivity|]. split; [lia|]. split; [vm_compute; reflexivity|]. split; [vm_compute; reflexivity|]. reflexivity.
Qed.

(** * Circles *)
Fixpoint angles (fuel : nat) (t : spec_float) : option (list spec_float) :=
  match fuel with O => None | S k => if SFltb t f_two_pi then match angles k (fadd t f_tenth) with Some l => Some (t :: l) | None => None end else Some [] end.
Lemma loop_angles cosf sinf cx cy r : forall fuel t l, angles fuel t = Some l ->
  circle_loop cosf sinf fuel cx cy r t = Ok (map (fun t => (fadd (fmul r (cosf t)) cx, fadd (fmul r (sinf t)) cy)) l).
Proof.
  induction fuel as [|k IH]; intros t l H; [discriminate|]. cbn [angles circle_loop] in *. destruct (SFltb t f_two_pi); [|injection H as <-; reflexivity].
  destruct (angles k (fadd t f_tenth)) as [l'|] eqn:A; [|discriminate]. injection H as <-. rewrite (IH _ _ A). reflexivity.
Qed.
Definition near_tenths (ts : list spec_float) : bool :=
  forallb (fun k => match nth_error ts k with Some t => is_finite_SF t && Qle_bool (Qval t - (Z.of_nat k # 10)) (1 # 100000000000000) && Qle_bool ((Z.of_nat k # 10) - Qval t) (1 # 100000000000000) | None => false end) (seq 0 63).
Lemma circle_points : exists ts, length ts = 63%nat /\ nth_error ts 0 = Some (S754_zero false) /\
  (forall k t, nth_error ts k = Some t -> is_finite_SF t = true /\ (Qval t - (Z.of_nat k # 10) <= 1 # 100000000000000)%Q /\ ((Z.of_nat k # 10) - Qval t <= 1 # 100000000000000)%Q) /\
  forall cosf sinf cx cy r, create_circle cosf sinf cx cy r = Ok (map (fun t => (fadd (fmul r (cosf t)) cx, fadd (fmul r (sinf t)) cy)) ts).
Proof.
  destruct (angles 100 (S754_zero false)) as [ts|] eqn:A; [|exfalso; revert A; vm_compute; discriminate]. exists ts.
  assert (L : length ts = 63%nat) by (apply (f_equal (fun o => match o with Some l => length l | None => 0%nat end)) in A; rewrite <- A; vm_compute; reflexivity).
  assert (N : near_tenths ts = true) by (apply (f_equal (fun o => match o with Some l => near_tenths l | None => false end)) in A; rewrite <- A; vm_compute; reflexivity).
  split; [exact L|]. split; [apply (f_equal (fun o => match o with Some l => nth_error l 0 | None => None end)) in A; rewrite <- A; vm_compute; reflexivity|]. split.
  - intros k t E. assert (K : (k < 63)%nat) by (rewrite <- L; apply nth_error_Some; congruence). unfold near_tenths in N. rewrite forallb_forall in N. specialize (N k). rewrite E in N.
    assert (I : In k (seq 0 63)) by (apply in_seq; lia). specialize (N I). apply andb_true_iff in N. destruct N as [N1 N2]. apply andb_true_iff in N1. destruct N1 as [N0 N1]. apply Qle_bool_iff in N1, N2. auto.
  - intros. unfold create_circle. apply loop_angles, A.
Qed.

(** * Inverse-distance weighting *)
Lemma u_bounds : 0 < u <= / 1000000.
Proof. split; [apply bpow_gt_0|]. unfold u. apply Rle_trans with (bpow radix2 (-20)); [apply bpow_le; lia|]. change (bpow radix2 (-20)) with (/ 1048576). apply Rinv_le_contravar; lra. Qed.
Lemma u_ro_u : u_ro radix2 53 = u.
Proof. unfold u_ro, u. rewrite bpow_plus. change (bpow radix2 (Z.opp 53)) with (bpow radix2 (-53)). change (bpow radix2 1) with 2. generalize (bpow radix2 (-53)). intros; field. Qed.
Lemma pos_rel x : bpow radix2 (-1022) <= x -> x * (1 - u) <= rnd x <= x * (1 + u).
Proof.
  intros H. assert (P : 0 < x) by (apply Rlt_le_trans with (2 := H), bpow_gt_0).
  assert (R : Rabs (rnd x - x) <= u_ro radix2 53 * Rabs x) by (apply (relative_error_N_FLT radix2 (-1074) 53 Hp (fun z => negb (Z.even z)) x); rewrite Rabs_pos_eq by lra; exact H).
  rewrite u_ro_u, (Rabs_pos_eq x) in R by lra.
  apply Rabs_le_inv in R. lra.
Qed.
Lemma plus_rel x y : representable x -> representable y -> 0 <= x -> 0 <= y -> (x + y) * (1 - u) <= rnd (x + y) <= (x + y) * (1 + u).
Proof.
  intros X Y PX PY. destruct (FLT_plus_error_N_ex radix2 (-1074) 53 (fun z => negb (Z.even z)) x y X Y) as (e & E & R).
  change (round radix2 (FLT_exp (-1074) 53) (Znearest (fun z : Z => negb (Z.even z))) (x + y)) with (rnd (x + y)) in R. rewrite R.
  pose proof (u_rod1pu_ro_le_u_ro radix2 53) as L. rewrite u_ro_u in L, E. assert (B : Rabs e <= u) by lra. apply Rabs_le_inv in B. split; apply Rmult_le_compat_l; lra.
Qed.
Lemma INR_1000 : INR 1000 = 1000.
Proof. rewrite INR_IZR_INZ. reflexivity. Qed.
Lemma pow_up n : (n <= 1000)%nat -> (1 + u) ^ n <= 1 + 2 * INR n * u.
Proof.
  pose proof u_bounds as U. induction n as [|n IH]; intros L; [cbn; lra|]. specialize (IH ltac:(lia)). rewrite S_INR. cbn [pow]. assert (N : INR n <= 1000) by (rewrite <- INR_1000; apply le_INR; lia). pose proof (pos_INR n).
  apply Rle_trans with ((1 + u) * (1 + 2 * INR n * u)); [apply Rmult_le_compat_l; lra|]. assert (2 * INR n * u <= 1) by nra. nra.
Qed.
Lemma pow_dn n : (n <= 1000)%nat -> 1 - INR n * u <= (1 - u) ^ n.
Proof.
  pose proof u_bounds as U. induction n as [|n IH]; intros L; [cbn; lra|]. specialize (IH ltac:(lia)). rewrite S_INR. cbn [pow]. pose proof (pos_INR n).
  apply Rle_trans with ((1 - u) * (1 - INR n * u)); [nra|apply Rmult_le_compat_l; lra].
Qed.
Lemma pow_bounds n : (n <= 1000)%nat -> 1 <= (1 + u) ^ n <= 2 /\ / 2 <= (1 - u) ^ n <= 1.
Proof.
  intros L. pose proof u_bounds as U. pose proof (pow_up n L) as A. pose proof (pow_dn n L) as B. pose proof (pos_INR n). assert (N : INR n <= 1000) by (rewrite <- INR_1000; apply le_INR; lia).
  assert (NU : INR n * u <= / 1000) by nra. split; split; try lra.
  - apply pow_R1_Rle. lra.
  - clear -U. induction n as [|n IH]; [cbn; lra|]. cbn [pow]. assert (0 <= (1 - u) ^ n) by (apply pow_le; lra). nra.
Qed.
Fixpoint Rsum (l : list R) : R := match l with [] => 0 | x :: r => x + Rsum r end.
Lemma Rsum_nonneg l : (forall x, In x l -> 0 <= x) -> 0 <= Rsum l.
Proof. induction l as [|a l IH]; intros H; cbn; [lra|]. assert (0 <= a) by (apply H; left; reflexivity). assert (0 <= Rsum l) by (apply IH; intros; apply H; right; assumption). lra. Qed.
Lemma fold_bounds : forall l x, (length l <= 1000)%nat -> finite_double x -> 0 <= val x -> Forall (fun y => finite_double y /\ 0 <= val y) l -> (val x + Rsum (map val l)) <= bpow radix2 1000 ->
  finite_double (fold_left fadd l x) /\ (val x + Rsum (map val l)) * (1 - u) ^ length l <= val (fold_left fadd l x) <= (val x + Rsum (map val l)) * (1 + u) ^ length l.
Proof.
  intros l. remember (length l) as n eqn:EN.
  assert (G : forall l x c, (length l + c <= 1000)%nat -> finite_double x -> 0 <= val x -> Forall (fun y => finite_double y /\ 0 <= val y) l -> (val x + Rsum (map val l)) <= bpow radix2 1000 * (1 + u) ^ c ->
    finite_double (fold_left fadd l x) /\ (val x + Rsum (map val l)) * (1 - u) ^ length l <= val (fold_left fadd l x) <= (val x + Rsum (map val l)) * (1 + u) ^ length l).
  2:{ intros x L F P A B. rewrite EN. apply (G l x 0%nat); try assumption; [lia|]. cbn [pow]. lra. }
  clear. pose proof u_bounds as U. induction l as [|y l IH]; intros x c L F P A B; cbn [fold_left map Rsum length pow] in *; [split; [exact F|]; lra|].
  inversion A as [|? ? [FY PY] A']; subst. set (T := Rsum (map val l)) in *. assert (TN : 0 <= T) by (apply Rsum_nonneg; intros z I; apply in_map_iff in I; destruct I as (w & <- & I); rewrite Forall_forall in A'; apply A', I).
  pose proof (plus_rel (val x) (val y) (format_val x F) (format_val y FY) P PY) as R.
  assert (PB : (1 + u) ^ c <= 2) by (apply pow_bounds; lia). assert (B0 : 0 < bpow radix2 1000) by apply bpow_gt_0.
  assert (SM : val x + val y <= bpow radix2 1001) by (change 1001%Z with (1 + 1000)%Z; rewrite bpow_plus; change (bpow radix2 1) with 2; nra).
  destruct (add_rounds x y F FY) as [AR _]. destruct AR as [F' V'].
  { apply (lt_huge _ 1001); [lia|]. apply rnd_abs_le; [lia|]. rewrite Rabs_pos_eq; lra. }
  assert (P' : 0 <= val (fadd x y)) by (rewrite V'; nra).
  destruct (IH (fadd x y) (S c)) as [FF [LO HI]]; try assumption; [lia| |].
  - rewrite V'. fold T. cbn [pow]. nra.
  - fold T in LO, HI. split; [exact FF|]. rewrite V' in LO, HI. assert (D0 : 0 <= (1 - u) ^ length l) by (apply pow_le; lra). assert (U0 : 0 <= (1 + u) ^ length l) by (apply pow_le; lra). split.
    + apply Rle_trans with (2 := LO). rewrite <- Rmult_assoc. apply Rmult_le_compat_r; [exact D0|]. nra.
    + apply Rle_trans with (1 := HI). rewrite <- Rmult_assoc. apply Rmult_le_compat_r; [exact U0|]. nra.
Qed.
Lemma sum_bounds x l : (length l <= 1000)%nat -> Forall (fun y => finite_double y /\ 0 <= val y) (x :: l) -> Rsum (map val (x :: l)) <= bpow radix2 1000 ->
  finite_double (sum_f (x :: l)) /\ Rsum (map val (x :: l)) * (1 - u) ^ length l <= val (sum_f (x :: l)) <= Rsum (map val (x :: l)) * (1 + u) ^ length l.
Proof. intros L A B. inversion A as [|? ? [F P] A']; subst. apply fold_bounds; assumption. Qed.
Notation B := (bpow radix2).
Lemma Bplus_ a b : B (a + b) = B a * B b.
Proof. apply bpow_plus. Qed.
Lemma quotient_bounds x y a b c d : within (B a) (B b) x -> within (B c) (B d) y -> (-1022 <= a - d)%Z -> (b - c <= 1000)%Z ->
  finite_double (fdiv x y) /\ val x / val y * (1 - u) <= val (fdiv x y) <= val x / val y * (1 + u) /\ B (a - d) <= val x / val y <= B (b - c).
Proof.
  intros [FX [X1 X2]] [FY [Y1 Y2]] L H. pose proof (bpow_gt_0 radix2 a) as PA. pose proof (bpow_gt_0 radix2 c) as PC.
  assert (XP : 0 < val x) by lra. assert (YP : 0 < val y) by lra. assert (QI : 0 < / val y) by (apply Rinv_0_lt_compat, YP).
  assert (Q : B (a - d) <= val x / val y <= B (b - c)).
  { unfold Zminus. rewrite !bpow_plus, !bpow_opp. unfold Rdiv. split.
    - apply Rmult_le_compat; [lra|apply Rlt_le, Rinv_0_lt_compat, bpow_gt_0|exact X1|apply Rinv_le_contravar; lra].
    - apply Rmult_le_compat; [lra|lra|exact X2|apply Rinv_le_contravar; lra]. }
  destruct (div_rounds x y FX FY ltac:(lra)) as [F V].
  - apply (lt_huge _ 1001); [lia|]. apply rnd_abs_le; [lia|]. rewrite Rabs_pos_eq; [|pose proof (bpow_gt_0 radix2 (a - d)); lra]. apply Rle_trans with (B (b - c)); [lra|apply bpow_le; lia].
  - split; [exact F|]. split; [|exact Q]. rewrite V. apply pos_rel. apply Rle_trans with (B (a - d)); [apply bpow_le, L|lra].
Qed.
Lemma product_bounds x y a b c d : within (B a) (B b) x -> within (B c) (B d) y -> (-1022 <= a + c)%Z -> (b + d <= 1000)%Z ->
  finite_double (fmul x y) /\ val x * val y * (1 - u) <= val (fmul x y) <= val x * val y * (1 + u) /\ B (a + c) <= val x * val y <= B (b + d).
Proof.
  intros [FX [X1 X2]] [FY [Y1 Y2]] L H. pose proof (bpow_gt_0 radix2 a) as PA. pose proof (bpow_gt_0 radix2 c) as PC.
  assert (Q : B (a + c) <= val x * val y <= B (b + d)) by (rewrite !bpow_plus; split; apply Rmult_le_compat; lra).
  destruct (mul_rounds x y FX FY) as [F V].
  - apply (lt_huge _ 1001); [lia|]. apply rnd_abs_le; [lia|]. rewrite Rabs_pos_eq; [|pose proof (bpow_gt_0 radix2 (a + c)); lra]. apply Rle_trans with (B (b + d)); [lra|apply bpow_le; lia].
  - split; [exact F|]. split; [|exact Q]. rewrite V. apply pos_rel. apply Rle_trans with (B (a + c)); [apply bpow_le, L|lra].
Qed.
Lemma slack x y a b : B a <= x <= B b -> x * (1 - u) <= y <= x * (1 + u) -> B (a - 1) <= y <= B (b + 1).
Proof.
  intros [A C] [Y1 Y2]. pose proof u_bounds. pose proof (bpow_gt_0 radix2 a). assert (E1 : B (a - 1) = B a * / 2) by (unfold Zminus; rewrite bpow_plus; reflexivity). assert (E2 : B (b + 1) = B b * 2) by (rewrite bpow_plus; reflexivity). rewrite E1, E2. split; nra.
Qed.
Lemma Rsum_le (f g : spec_float * spec_float -> R) l : (forall a, In a l -> f a <= g a) -> Rsum (map f l) <= Rsum (map g l).
Proof. induction l as [|a l IH]; intros H; cbn; [lra|]. assert (f a <= g a) by (apply H; left; reflexivity). assert (Rsum (map f l) <= Rsum (map g l)) by (apply IH; intros; apply H; right; assumption). lra. Qed.
Lemma Rsum_scale {A} c (f : A -> R) l : Rsum (map (fun a => c * f a) l) = c * Rsum (map f l).
Proof. induction l as [|a l IH]; cbn; [ring|]. rewrite IH. ring. Qed.
Lemma Rsum_ub {A} (f : A -> R) c l : (forall a, In a l -> f a <= c) -> Rsum (map f l) <= INR (length l) * c.
Proof. induction l as [|a l IH]; intros H; [cbn; lra|]. cbn [map Rsum length]. rewrite S_INR. assert (f a <= c) by (apply H; left; reflexivity). assert (Rsum (map f l) <= INR (length l) * c) by (apply IH; intros; apply H; right; assumption). lra. Qed.
Lemma combine_map_l {A C} (f : A -> C) : forall (l : list A) (zs : list spec_float), combine (map f l) zs = map (fun a => (f (fst a), snd a)) (combine l zs).
Proof. induction l as [|a l IH]; intros [|z zs]; try reflexivity. cbn. f_equal. apply IH. Qed.
Lemma map_fst_combine {A C} : forall (l : list A) (zs : list C), length l = length zs -> map fst (combine l zs) = l.
Proof. induction l as [|a l IH]; intros [|z zs] H; try reflexivity; try discriminate. cbn. f_equal. apply IH. cbn in H. congruence. Qed.
Lemma idw_bounds zs ds lo hi : length zs = length ds -> (1 <= length ds <= 1000)%nat -> Forall (within (B (-200)) (B 200)) ds ->
  B (-200) <= lo -> hi <= B 200 -> Forall (within lo hi) zs ->
  finite_double (idw_f zs ds) /\ lo * ((1 - u) ^ (length ds + 1) / (1 + u) ^ (length ds - 1)) <= val (idw_f zs ds) <= hi * ((1 + u) ^ (length ds + 1) / (1 - u) ^ (length ds - 1)).
Proof.
  intros LZ LD D LO HI Z. pose proof u_bounds as U. destruct one_val as [O1 O2].
  set (al := combine ds zs). assert (AD : ds = map fst al) by (unfold al; rewrite map_fst_combine by congruence; reflexivity).
  assert (AL : length al = length ds) by (rewrite AD, map_length; reflexivity).
  assert (IN : forall a, In a al -> within (B (-200)) (B 200) (fst a) /\ within lo hi (snd a)).
  { intros [d z] I. rewrite Forall_forall in D, Z. split; [apply D|apply Z]; [apply in_combine_l in I|apply in_combine_r in I]; exact I. }
  (* weights *)
  set (W := fun a : spec_float * spec_float => fdiv f_one (fst a)).
  assert (WB : forall a, In a al -> within (B (-201)) (B 201) (W a)).
  { intros a I. destruct (IN a I) as [DA _]. assert (W1 : within (B 0) (B 0) f_one) by (split; [exact O1|rewrite O2; cbn; lra]).
    destruct (quotient_bounds f_one (fst a) 0 0 (-200) 200 W1 DA ltac:(lia) ltac:(lia)) as (F & R & Q). split; [exact F|].
    exact (slack _ _ _ _ Q R). }
  set (S := Rsum (map (fun a => val (W a)) al)). set (s := sum_f (map W al)). set (k1 := (length ds - 1)%nat).
  assert (K1 : (k1 <= 1000)%nat) by (unfold k1; lia). destruct (pow_bounds k1 K1) as [[PU1 PU2] [PD1 PD2]].
  assert (NE : exists a0 al', al = a0 :: al') by (destruct al as [|a0 al']; [cbn in AL; lia|eauto]).
  assert (I0 : INR (length ds) <= B 10). { apply Rle_trans with 1000; [rewrite <- INR_1000; apply le_INR; lia|]. change (B 10) with 1024. lra. }
  assert (SU : S <= B 211).
  { unfold S. apply Rle_trans with (INR (length al) * B 201); [apply Rsum_ub; intros a I; apply WB, I|]. rewrite AL. change 211%Z with (10 + 201)%Z. rewrite (bpow_plus radix2 10 201). apply Rmult_le_compat_r; [apply bpow_ge_0|exact I0]. }
  assert (SLW : B (-201) <= S).
  { unfold S. destruct NE as (a0 & al' & E). rewrite E in *. cbn [map Rsum]. assert (0 <= Rsum (map (fun a => val (W a)) al')).
    { apply Rsum_nonneg. intros x I. apply in_map_iff in I. destruct I as (a & <- & I). destruct (WB a (or_intror I)) as [_ [X _]]. pose proof (bpow_gt_0 radix2 (-201)). lra. }
    destruct (WB a0 (or_introl eq_refl)) as [_ [X _]]. lra. }
  assert (SB : finite_double s /\ S * (1 - u) ^ k1 <= val s <= S * (1 + u) ^ k1).
  { unfold s, S, k1. destruct NE as (a0 & al' & E). assert (LL : (length ds - 1)%nat = length (map W al')) by (rewrite map_length, <- AL, E; cbn; lia). rewrite LL. rewrite E in *. cbn [map].
    replace (map (fun a => val (W a)) al') with (map val (map W al')) by apply map_map. apply (sum_bounds (W a0) (map W al')).
    - rewrite <- LL. lia.
    - apply (Forall_map W (fun y => finite_double y /\ 0 <= val y) (a0 :: al')). apply Forall_forall. intros a I. destruct (WB a I) as [F [X _]]. split; [exact F|]. pose proof (bpow_gt_0 radix2 (-201)). lra.
    - unfold S in SU. rewrite E in SU. cbn [map Rsum] in SU |- *. rewrite map_map. apply Rle_trans with (1 := SU), bpow_le. lia. }
  destruct SB as [FS [S1 S2]]. pose proof (bpow_gt_0 radix2 (-201)) as P201. assert (SP : 0 < S) by lra.
  assert (WS : within (B (-202)) (B 212) s).
  { split; [exact FS|]. change (-202)%Z with (-1 + -201)%Z. change 212%Z with (1 + 211)%Z. rewrite !(bpow_plus radix2). change (B (-1)) with (/ 2). change (B 1) with 2. split; nra. }
  assert (VS : 0 < val s) by (destruct WS as [_ [X _]]; pose proof (bpow_gt_0 radix2 (-202)); lra).
  (* shares and products *)
  set (Q := fun a => fdiv (W a) s). set (R := fun a => fmul (Q a) (snd a)).
  assert (LOP : 0 < lo) by (pose proof (bpow_gt_0 radix2 (-200)); lra).
  assert (QB : forall a, In a al -> within (B (-414)) (B 404) (Q a) /\ val (W a) / val s * (1 - u) <= val (Q a) <= val (W a) / val s * (1 + u)).
  { intros a I. destruct (quotient_bounds (W a) s (-201) 201 (-202) 212 (WB a I) WS ltac:(lia) ltac:(lia)) as (F & X & Y). split; [|exact X]. split; [exact F|].
    exact (slack _ _ _ _ Y X). }
  assert (RB : forall a, In a al -> finite_double (R a) /\ 0 <= val (R a) <= B 606 /\ lo * ((1 - u) ^ 2 / val s) * val (W a) <= val (R a) <= hi * ((1 + u) ^ 2 / val s) * val (W a)).
  { intros a I. destruct (QB a I) as [QW [Q1 Q2]]. destruct (IN a I) as [_ [FZ [Z1 Z2]]].
    assert (ZW : within (B (-200)) (B 200) (snd a)) by (split; [exact FZ|lra]).
    destruct (product_bounds (Q a) (snd a) (-414) 404 (-200) 200 QW ZW ltac:(lia) ltac:(lia)) as (F & [X1 X2] & Y). split; [exact F|].
    assert (QP : 0 < val (Q a)) by (destruct QW as [_ [E _]]; pose proof (bpow_gt_0 radix2 (-414)); lra). assert (WP : 0 < val (W a)) by (destruct (WB a I) as [_ [E _]]; lra).
    assert (TP : 0 < val (W a) / val s) by (apply Rdiv_lt_0_compat; assumption). split.
    - split; [apply Rle_trans with (2 := X1); nra|]. apply Rle_trans with (1 := X2). change 606%Z with (1 + (404 + 200 + 1))%Z. rewrite (bpow_plus radix2 1), (bpow_plus radix2 (404 + 200) 1). change (B 1) with 2. pose proof (bpow_gt_0 radix2 (404 + 200)). nra.
    - replace (lo * ((1 - u) ^ 2 / val s) * val (W a)) with (val (W a) / val s * (1 - u) * lo * (1 - u)) by (field; lra). replace (hi * ((1 + u) ^ 2 / val s) * val (W a)) with (val (W a) / val s * (1 + u) * hi * (1 + u)) by (field; lra).
      split; [apply Rle_trans with (2 := X1)|apply Rle_trans with (1 := X2)]; (apply Rmult_le_compat_r; [lra|]).
      + apply Rmult_le_compat; try lra. apply Rmult_le_pos; lra.
      + apply Rmult_le_compat; lra. }
  assert (EV : idw_f zs ds = sum_f (map R al)).
  { unfold idw_f. cbv zeta. rewrite AD at 1. assert (E1 : map (fdiv f_one) ds = map W al) by (rewrite AD, map_map; reflexivity).
    assert (E2 : map (fdiv f_one) (map fst al) = map W al) by (rewrite map_map; reflexivity). rewrite ?E1, ?E2. fold s. rewrite map_map. rewrite ?map_map.
    unfold al at 1. f_equal. 
    assert (G : forall l z, combine (map (fun x => fdiv (W x) s) (combine l z)) z = map (fun a => (Q a, snd a)) (combine l z)).
    { clear. induction l as [|x l IH]; intros [|y z]; try reflexivity. cbn. f_equal. apply IH. }
    rewrite G, map_map. reflexivity. }
  rewrite EV. set (T := Rsum (map (fun a => val (R a)) al)).
  assert (TU : T <= B 616).
  { unfold T. apply Rle_trans with (INR (length al) * B 606); [apply Rsum_ub; intros a I; apply RB, I|]. rewrite AL. change 616%Z with (10 + 606)%Z. rewrite (bpow_plus radix2 10 606). apply Rmult_le_compat_r; [apply bpow_ge_0|exact I0]. }
  assert (TB : finite_double (sum_f (map R al)) /\ T * (1 - u) ^ k1 <= val (sum_f (map R al)) <= T * (1 + u) ^ k1).
  { unfold T, k1. destruct NE as (a0 & al' & E). assert (LL : (length ds - 1)%nat = length (map R al')) by (rewrite map_length, <- AL, E; cbn; lia). rewrite LL. rewrite E in *. cbn [map].
    replace (map (fun a => val (R a)) al') with (map val (map R al')) by apply map_map. apply (sum_bounds (R a0) (map R al')).
    - rewrite <- LL. lia.
    - apply (Forall_map R (fun y => finite_double y /\ 0 <= val y) (a0 :: al')). apply Forall_forall. intros a I. destruct (RB a I) as [F [X _]]. split; [exact F|]. lra.
    - unfold T in TU. rewrite E in TU. cbn [map Rsum] in TU |- *. rewrite map_map. apply Rle_trans with (1 := TU), bpow_le. lia. }
  destruct TB as [FT [T1 T2]]. split; [exact FT|].
  assert (TL : lo * ((1 - u) ^ 2 / val s) * S <= T) by (unfold S, T; rewrite <- Rsum_scale; apply Rsum_le; intros a I; apply RB, I).
  assert (TH : T <= hi * ((1 + u) ^ 2 / val s) * S) by (unfold S, T; rewrite <- Rsum_scale; apply Rsum_le; intros a I; apply RB, I).
  replace (length ds + 1)%nat with (2 + k1)%nat by (unfold k1; lia). fold k1. rewrite !pow_add.
  assert (HL : lo <= hi). { destruct NE as (a0 & al' & E). destruct (IN a0) as [_ [_ X]]; [rewrite E; left; reflexivity|]. lra. }
  set (pu := (1 + u) ^ k1) in *. set (pd := (1 - u) ^ k1) in *. assert (Q1 : 0 <= (1 - u) ^ 2) by (apply pow_le; lra). assert (Q2 : 0 <= (1 + u) ^ 2) by (apply pow_le; lra).
  assert (I1 : / pu <= S / val s).
  { unfold Rdiv. apply (Rmult_le_reg_r (val s)); [exact VS|]. replace (S * / val s * val s) with S by (field; lra). apply (Rmult_le_reg_l pu); [lra|]. replace (pu * (/ pu * val s)) with (val s) by (field; lra). lra. }
  assert (I2 : S / val s <= / pd).
  { unfold Rdiv. apply (Rmult_le_reg_r (val s)); [exact VS|]. replace (S * / val s * val s) with S by (field; lra). apply (Rmult_le_reg_l pd); [lra|]. replace (pd * (/ pd * val s)) with (val s) by (field; lra). lra. }
  split.
  - apply Rle_trans with (2 := T1). apply Rle_trans with (lo * ((1 - u) ^ 2 / val s) * S * pd); [|apply Rmult_le_compat_r; lra].
    replace (lo * ((1 - u) ^ 2 * pd / pu)) with (lo * (1 - u) ^ 2 * pd * / pu) by (unfold Rdiv; ring). replace (lo * ((1 - u) ^ 2 / val s) * S * pd) with (lo * (1 - u) ^ 2 * pd * (S / val s)) by (field; lra).
    apply Rmult_le_compat_l; [|exact I1]. apply Rmult_le_pos; [apply Rmult_le_pos; lra|lra].
  - apply Rle_trans with (1 := T2). apply Rle_trans with (hi * ((1 + u) ^ 2 / val s) * S * pu); [apply Rmult_le_compat_r; lra|].
    replace (hi * ((1 + u) ^ 2 * pu / pd)) with (hi * (1 + u) ^ 2 * pu * / pd) by (unfold Rdiv; ring). replace (hi * ((1 + u) ^ 2 / val s) * S * pu) with (hi * (1 + u) ^ 2 * pu * (S / val s)) by (field; lra).
    apply Rmult_le_compat_l; [|exact I2]. apply Rmult_le_pos; [apply Rmult_le_pos; lra|lra].
Qed.
