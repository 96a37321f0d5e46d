(** Proofs about fix_mesh on doubles: the result, its orientation and the distance of merged points. *)
From Coq Require Import List Arith ZArith Reals Lra Lia SpecFloat Psatz Permutation Bool.
From Flocq Require Import Core IEEE754.BinarySingleNaN Relative.
From Verif Require Import M_Base M_Numpy M_Edges M_FixMesh S_FixMesh M_Ieee S_Double S_Ieee P_Double P_Ieee P_Ieee2 P_Ieee3 P_FixMesh P_Ieee4 P_Ieee5.
Import ListNotations.
Open Scope R_scope.

Lemma bits64_range x : finite_double x -> (0 <= bits64 x - (if sign_SF x then 2 ^ 63 else 0) < 2 ^ 63)%Z.
Proof.
  intros F. destruct x as [s|s| |s m e]; try (destruct F; discriminate); cbn [bits64 sign_SF].
  - destruct s; lia.
  - destruct (mant_bound s m e F) as [M E]. destruct F as [F _]. unfold valid_binary, bounded in F. apply andb_prop in F as [F1 _].
    apply Zeq_bool_eq in F1. rewrite fexp_eq in F1. unfold FLT_exp in F1.
    destruct (Z.ltb_spec (Z.pos m) (2 ^ 52)); destruct s; lia.
Qed.
Lemma normal_exp s m e : finite_double (S754_finite s m e) -> (Z.pos m < 2 ^ 52)%Z -> e = (-1074)%Z.
Proof.
  intros [F _] L. unfold valid_binary, bounded in F. apply andb_prop in F as [F1 _]. apply Zeq_bool_eq in F1. rewrite fexp_eq in F1. unfold FLT_exp in F1.
  rewrite Digits.Zpos_digits2_pos in F1. assert (Digits.Zdigits radix2 (Z.pos m) <= 52)%Z; [|lia].
  apply Digits.Zdigits_le_Zpower. rewrite Z.abs_eq by lia. exact L.
Qed.
Lemma exp_low s m e : finite_double (S754_finite s m e) -> (-1074 <= e)%Z.
Proof. intros [F _]. unfold valid_binary, bounded in F. apply andb_prop in F as [F1 _]. apply Zeq_bool_eq in F1. rewrite fexp_eq in F1. unfold FLT_exp in F1. lia. Qed.
Lemma bits64_inj x y : finite_double x -> finite_double y -> bits64 x = bits64 y -> x = y.
Proof.
  intros FX FY E. pose proof (bits64_range x FX) as RX. pose proof (bits64_range y FY) as RY.
  assert (S : sign_SF x = sign_SF y) by (destruct (sign_SF x), (sign_SF y); auto; lia).
  destruct x as [s|s| |s m e]; try (destruct FX; discriminate); destruct y as [s'|s'| |s' m' e']; try (destruct FY; discriminate); cbn [sign_SF] in S; subst s'; cbn [bits64] in *; auto.
  - destruct (mant_bound _ _ _ FY). pose proof (exp_low _ _ _ FY). destruct (Z.ltb_spec (Z.pos m') (2 ^ 52)); lia.
  - destruct (mant_bound _ _ _ FX). pose proof (exp_low _ _ _ FX). destruct (Z.ltb_spec (Z.pos m) (2 ^ 52)); lia.
  - destruct (mant_bound _ _ _ FX) as [MX _]. pose proof (exp_low _ _ _ FX) as LX. destruct (mant_bound _ _ _ FY) as [MY _]. pose proof (exp_low _ _ _ FY) as LY.
    pose proof (normal_exp _ _ _ FX) as NX. pose proof (normal_exp _ _ _ FY) as NY.
    destruct (Z.ltb_spec (Z.pos m) (2 ^ 52)), (Z.ltb_spec (Z.pos m') (2 ^ 52)).
    + rewrite NX, NY by lia. f_equal. lia.
    + lia.
    + lia.
    + assert (e = e') by lia. subst. f_equal. lia.
Qed.

(** One snapped coordinate. *)
Lemma rint_near x : Rabs (IZR (ZnearestE x) - x) <= / 2.
Proof. rewrite <- Rabs_Ropp. replace (- (IZR (ZnearestE x) - x)) with (x - IZR (ZnearestE x)) by ring. apply Znearest_half. Qed.
Lemma tiny_small s : bpow radix2 (-450) <= s -> bpow radix2 (-1075) <= u * s / 4.
Proof.
  intros H. apply Rle_trans with (u * bpow radix2 (-450) / 4).
  - unfold u. rewrite <- bpow_plus. replace (bpow radix2 (-53 + -450) / 4) with (bpow radix2 (-53 + -450) * bpow radix2 (-2)) by (change (bpow radix2 (-2)) with (/ 4); field). rewrite <- bpow_plus. apply bpow_le. lia.
  - unfold Rdiv. apply Rmult_le_compat_r; [lra|]. apply Rmult_le_compat_l; [pose proof u_bounds; lra|exact H].
Qed.
Lemma snap_coord x s : finite_double x -> finite_double s -> bpow radix2 (-450) <= val s -> val s <= bpow radix2 450 -> Rabs (val x) <= bpow radix2 450 ->
  finite_double (fmul (f_rint (fdiv x s)) s) /\ Rabs (val (fmul (f_rint (fdiv x s)) s) - val x) <= val s / 2 * (1 + 4 * u) + 3 * u * Rabs (val x).
Proof.
  intros FX FS LS HS BX. pose proof (bpow_gt_0 radix2 (-450)) as P0. assert (PS : 0 < val s) by lra.
  assert (BQ : Rabs (val x / val s) <= bpow radix2 900).
  { unfold Rdiv. rewrite Rabs_mult. change 900%Z with (450 + 450)%Z. rewrite bpow_plus. apply Rmult_le_compat; auto using Rabs_pos.
    rewrite Rabs_pos_eq by (apply Rlt_le, Rinv_0_lt_compat; auto). change (bpow radix2 450) with (bpow radix2 (- -450)). rewrite bpow_opp. apply Rinv_le; auto. }
  assert (BR : Rabs (rnd (val x / val s)) <= bpow radix2 900) by (apply rnd_abs_le; auto; lia).
  destruct (div_rounds x s FX FS) as [FD VD]; [lra|apply (lt_huge _ 900); [lia|auto]|].
  destruct (rint_correct _ FD) as (FI & VI & _).
  set (r := rnd (val x / val s)) in *. rewrite VD in VI. set (n := IZR (ZnearestE r)) in *.
  pose proof (rint_near r) as NR. fold n in NR.
  set (q := val x / val s) in *. assert (Eq : q * val s = val x) by (unfold q; field; lra).
  destruct (prod_err q) as (e1 & t1 & E1 & T1 & R1). fold r in R1.
  pose proof (tiny_small _ LS) as TS. pose proof u_bounds as U.
  assert (T1s : Rabs (t1 * val s) <= u * val s).
  { rewrite Rabs_mult, (Rabs_pos_eq (val s)) by lra. apply Rmult_le_compat_r; [lra|]. apply Rle_trans with (1 := T1). unfold u. apply bpow_le. lia. }
  assert (D1 : Rabs (r * val s - val x) <= u * Rabs (val x) + u * val s).
  { rewrite R1. replace ((q * (1 + e1) + t1) * val s - val x) with (e1 * val x + t1 * val s) by (rewrite <- Eq; ring).
    apply Rle_trans with (1 := Rabs_triang _ _). apply Rplus_le_compat; [|exact T1s]. rewrite Rabs_mult. apply Rmult_le_compat_r; auto using Rabs_pos. }
  assert (D2 : Rabs (n * val s - r * val s) <= val s / 2).
  { replace (n * val s - r * val s) with ((n - r) * val s) by ring. rewrite Rabs_mult, (Rabs_pos_eq (val s)) by lra. nra. }
  assert (D3 : Rabs (n * val s - val x) <= val s / 2 + u * val s + u * Rabs (val x)).
  { replace (n * val s - val x) with ((n * val s - r * val s) + (r * val s - val x)) by ring. apply Rle_trans with (1 := Rabs_triang _ _). lra. }
  pose proof (Rabs_pos (val x)) as PX.
  assert (D4 : Rabs (n * val s) <= val s + 2 * Rabs (val x)).
  { replace (n * val s) with ((n * val s - val x) + val x) by ring. apply Rle_trans with (1 := Rabs_triang _ _). nra. }
  assert (Bns : Rabs (n * val s) <= bpow radix2 452).
  { change 452%Z with (450 + 2)%Z. rewrite bpow_plus. change (bpow radix2 2) with 4. lra. }
  assert (BK : Rabs (rnd (n * val s)) <= bpow radix2 452) by (apply rnd_abs_le; auto; lia).
  destruct (mul_rounds _ s FI FS) as [FK VK]; [rewrite VI; apply (lt_huge _ 452); [lia|auto]|].
  split; [exact FK|]. rewrite VK, VI. destruct (prod_err (n * val s)) as (e2 & t2 & E2 & T2 & R2). rewrite R2.
  replace (n * val s * (1 + e2) + t2 - val x) with ((n * val s - val x) + (e2 * (n * val s) + t2)) by ring.
  apply Rle_trans with (1 := Rabs_triang _ _). 
  assert (D5 : Rabs (e2 * (n * val s) + t2) <= u * (val s / 2 + u * val s + u * Rabs (val x) + Rabs (val x)) + u * val s / 4).
  { apply Rle_trans with (1 := Rabs_triang _ _). apply Rplus_le_compat; [|lra]. rewrite Rabs_mult. apply Rmult_le_compat; auto using Rabs_pos.
    replace (n * val s) with ((n * val s - val x) + val x) by ring. apply Rle_trans with (1 := Rabs_triang _ _). lra. }
  assert (U2 : u * (u * val s) <= u * val s * / 1000000) by (rewrite (Rmult_comm u (u * val s)); apply Rmult_le_compat_l; nra).
  assert (U3 : u * (u * Rabs (val x)) <= u * Rabs (val x) * / 1000000) by (rewrite (Rmult_comm u (u * Rabs (val x))); apply Rmult_le_compat_l; nra).
  assert (0 <= u * Rabs (val x)) by nra. assert (0 <= u * val s) by nra. lra.
Qed.

(** Largest and smallest of a column. *)
Lemma fmax_val a b : finite_double a -> finite_double b -> finite_double (fmax a b) /\ val (fmax a b) = Rmax (val a) (val b).
Proof.
  intros A C. unfold fmax. destruct (SFltb a b) eqn:E.
  - apply ltb_val in E; auto. split; auto. rewrite Rmax_right; lra.
  - split; auto. rewrite Rmax_left; auto. apply Rnot_lt_le. intros L. apply (ltb_val a b A C) in L. congruence.
Qed.
Lemma fmin_val a b : finite_double a -> finite_double b -> finite_double (fmin a b) /\ val (fmin a b) = Rmin (val a) (val b).
Proof.
  intros A C. unfold fmin. destruct (SFltb b a) eqn:E.
  - apply ltb_val in E; auto. split; auto. rewrite Rmin_right; lra.
  - split; auto. rewrite Rmin_left; auto. apply Rnot_lt_le. intros L. apply (ltb_val b a C A) in L. congruence.
Qed.
Lemma fold_max : forall l x, finite_double x -> Forall finite_double l -> finite_double (fold_left fmax l x) /\ (exists y, In y (x :: l) /\ val (fold_left fmax l x) = val y) /\ forall y, In y (x :: l) -> val y <= val (fold_left fmax l x).
Proof.
  induction l as [|z l IH]; intros x X L; cbn [fold_left].
  - split; [auto|]. split; [exists x; simpl; auto|]. intros y [<-|[]]. lra.
  - inversion L; subst. destruct (fmax_val x z X H1) as [F V]. destruct (IH (fmax x z) F H2) as (A & (y & Hy & E) & C). split; [auto|]. split.
    + destruct Hy as [<-|Hy]; [|exists y; simpl; auto]. unfold fmax in E |- *. destruct (SFltb x z); [exists z|exists x]; simpl; auto.
    + pose proof (C _ (or_introl eq_refl)) as C0. rewrite V in C0. pose proof (Rmax_l (val x) (val z)). pose proof (Rmax_r (val x) (val z)).
      intros w [<-|[<-|W]]; [lra|lra|apply C; simpl; auto].
Qed.
Lemma fold_min : forall l x, finite_double x -> Forall finite_double l -> finite_double (fold_left fmin l x) /\ (exists y, In y (x :: l) /\ val (fold_left fmin l x) = val y) /\ forall y, In y (x :: l) -> val (fold_left fmin l x) <= val y.
Proof.
  induction l as [|z l IH]; intros x X L; cbn [fold_left].
  - split; [auto|]. split; [exists x; simpl; auto|]. intros y [<-|[]]. lra.
  - inversion L; subst. destruct (fmin_val x z X H1) as [F V]. destruct (IH (fmin x z) F H2) as (A & (y & Hy & E) & C). split; [auto|]. split.
    + destruct Hy as [<-|Hy]; [|exists y; simpl; auto]. unfold fmin in E |- *. destruct (SFltb z x); [exists z|exists x]; simpl; auto.
    + pose proof (C _ (or_introl eq_refl)) as C0. rewrite V in C0. pose proof (Rmin_l (val x) (val z)). pose proof (Rmin_r (val x) (val z)).
      intros w [<-|[<-|W]]; [lra|lra|apply C; simpl; auto].
Qed.
Lemma column_range l : l <> [] -> Forall finite_double l -> (forall x, In x l -> Rabs (val x) <= bpow radix2 440) ->
  finite_double (fsub (fcol fmax l) (fcol fmin l)) /\
  (exists x y, In x l /\ In y l /\ val (fsub (fcol fmax l) (fcol fmin l)) = rnd (val x - val y)) /\
  (forall x y, In x l -> In y l -> rnd (val x - val y) <= val (fsub (fcol fmax l) (fcol fmin l))) /\ val (fsub (fcol fmax l) (fcol fmin l)) <= bpow radix2 441.
Proof.
  destruct l as [|z l]; [congruence|]. intros _ F B. inversion F; subst. cbn [fcol].
  destruct (fold_max l z H1 H2) as (A1 & (x & X & E1) & C1). destruct (fold_min l z H1 H2) as (A2 & (y & Y & E2) & C2).
  assert (Bd : Rabs (rnd (val x - val y)) <= bpow radix2 441) by (apply rnd_abs_le; [lia|]; apply (diff_bounded _ _ 440); auto; lia).
  destruct (sub_rounds _ _ A1 A2) as [S _]. rewrite E1, E2 in S. destruct S as [S1 S2]; [apply (lt_huge _ 441); [lia|auto]|].
  split; [exact S1|]. split; [exists x, y; auto|]. split.
  - intros v w V W. rewrite S2. apply rnd_le. specialize (C1 v V). specialize (C2 w W). lra.
  - rewrite S2. apply Rabs_le_inv in Bd. lra.
Qed.


Lemma snap_size_bounds p ptol e : bounded_points (bpow radix2 440) p -> extent_atmost p e -> extent_atleast p (bpow radix2 (-340)) ->
  finite_double ptol -> bpow radix2 (-100) <= val ptol <= 1 ->
  finite_double (fsnap_size p ptol) /\ bpow radix2 (-450) <= val (fsnap_size p ptol) /\ val (fsnap_size p ptol) <= bpow radix2 450 /\ val (fsnap_size p ptol) <= e * val ptol * (1 + 3 * u).
Proof.
  intros B E (a & b & Ha & Hb & L) FT RT. unfold bounded_points in B. rewrite Forall_forall in B.
  assert (Ne : p <> []) by (intros ->; inversion Ha).
  destruct (column_range (map fst p)) as (F1 & (x1 & y1 & X1 & Y1 & V1) & M1 & U1).
  { destruct p; [congruence|discriminate]. } { apply Forall_map, Forall_forall. intros q Hq. apply (B q Hq). } { intros x Hx. apply in_map_iff in Hx as (q & <- & Hq). apply (B q Hq). }
  destruct (column_range (map snd p)) as (F2 & (x2 & y2 & X2 & Y2 & V2) & M2 & U2).
  { destruct p; [congruence|discriminate]. } { apply Forall_map, Forall_forall. intros q Hq. apply (B q Hq). } { intros x Hx. apply in_map_iff in Hx as (q & <- & Hq). apply (B q Hq). }
  unfold fsnap_size. set (d1 := fsub (fcol fmax (map fst p)) (fcol fmin (map fst p))) in *. set (d2 := fsub (fcol fmax (map snd p)) (fcol fmin (map snd p))) in *.
  destruct (fmax_val d1 d2 F1 F2) as [FM VM]. set (m := fmax d1 d2) in *.
  assert (B1 : bpow radix2 (-340) <= val m).
  { rewrite VM, <- (rnd_id (bpow radix2 (-340))) by (apply rep_bpow; lia). destruct L as [L|L].
    - apply Rle_trans with (val d1); [|apply Rmax_l]. apply Rle_trans with (1 := rnd_le _ _ L). apply M1; apply in_map; auto.
    - apply Rle_trans with (val d2); [|apply Rmax_r]. apply Rle_trans with (1 := rnd_le _ _ L). apply M2; apply in_map; auto. }
  assert (B2 : val m <= bpow radix2 441) by (rewrite VM; apply Rmax_lub; auto).
  pose proof u_bounds as U. pose proof (bpow_gt_0 radix2 (-340)) as P0. pose proof (bpow_gt_0 radix2 (-100)) as P1.
  assert (PE : 0 <= e) by (destruct (E a a Ha Ha); lra).
  assert (B3 : val m <= e * (1 + u)).
  { assert (G : forall x y, representable x -> representable y -> x - y <= e -> rnd (x - y) <= e * (1 + u)).
    { intros x y RX RY D. destruct (Rle_or_lt (x - y) 0) as [N|N]; [pose proof (rnd_sign_neg _ N); nra|].
      destruct (diff_rel x y RX RY) as (h & Hh & ->). apply Rabs_le_inv in Hh. apply Rmult_le_compat; lra. }
    rewrite VM. apply in_map_iff in X1 as (q1 & <- & Q1). apply in_map_iff in Y1 as (q2 & <- & Q2). apply in_map_iff in X2 as (q3 & <- & Q3). apply in_map_iff in Y2 as (q4 & <- & Q4).
    apply Rmax_lub; [rewrite V1|rewrite V2]; apply G; try (apply format_val; apply B; assumption); [apply (E q1 q2)|apply (E q3 q4)]; auto. }
  assert (PL : bpow radix2 (-440) <= val m * val ptol).
  { change (-440)%Z with (-340 + -100)%Z. rewrite bpow_plus. apply Rmult_le_compat; lra. }
  assert (PU : Rabs (val m * val ptol) <= bpow radix2 441) by (rewrite Rabs_pos_eq; nra).
  destruct (mul_rounds m ptol FM FT) as [FS VS]; [apply (lt_huge _ 441); [lia|]; apply rnd_abs_le; [lia|exact PU]|].
  split; [exact FS|]. rewrite VS.
  assert (Hmin : bpow radix2 (-1022) <= val m * val ptol) by (apply Rle_trans with (2 := PL); apply bpow_le; lia).
  destruct (pos_rel _ Hmin) as [R1 R2]. split; [|split].
  - apply Rle_trans with (rnd (bpow radix2 (-440))); [|apply rnd_le, PL]. rewrite rnd_id by (apply rep_bpow; lia). apply bpow_le. lia.
  - assert (Rabs (rnd (val m * val ptol)) <= bpow radix2 441) by (apply rnd_abs_le; [lia|exact PU]). apply Rabs_le_inv in H. apply Rle_trans with (bpow radix2 441); [lra|apply bpow_le; lia].
  - apply Rle_trans with (1 := R2). apply Rle_trans with (e * (1 + u) * val ptol * (1 + u)).
    + apply Rmult_le_compat_r; [lra|]. apply Rmult_le_compat_r; lra.
    + replace (e * (1 + u) * val ptol * (1 + u)) with (e * val ptol * ((1 + u) * (1 + u))) by ring. apply Rmult_le_compat_l; nra.
Qed.
Lemma snap_near p ptol e M a b : bounded_points M p -> M <= bpow radix2 440 -> extent_atmost p e -> extent_atleast p (bpow radix2 (-340)) ->
  finite_double ptol -> bpow radix2 (-100) <= val ptol <= 1 -> In a p -> In b p -> fsnap_row ptol p a = fsnap_row ptol p b ->
  Rabs (val (fst a) - val (fst b)) <= e * val ptol * (1 + 8 * u) + 6 * u * M /\ Rabs (val (snd a) - val (snd b)) <= e * val ptol * (1 + 8 * u) + 6 * u * M.
Proof.
  intros B HM E L FT RT Ha Hb K.
  assert (B' : bounded_points (bpow radix2 440) p) by (eapply Forall_impl; [|exact B]; cbv beta; intros q (F & X & Y); split; [exact F|]; lra).
  destruct (snap_size_bounds p ptol e B' E L FT RT) as (FS & LS & HS & US). pose proof u_bounds as U.
  unfold fsnap_row in K. injection K as K1 K2. set (s := fsnap_size p ptol) in *.
  unfold bounded_points in B. rewrite Forall_forall in B. destruct (B a Ha) as ((Fa1 & Fa2) & Ba1 & Ba2). destruct (B b Hb) as ((Fb1 & Fb2) & Bb1 & Bb2).
  assert (M450 : M <= bpow radix2 450) by (apply Rle_trans with (1 := HM); apply bpow_le; lia).
  assert (PE : 0 <= e) by (destruct (E a a Ha Ha); lra). pose proof (bpow_gt_0 radix2 (-100)) as P1. assert (PT : 0 <= e * val ptol) by nra.
  assert (G : forall x y, finite_double x -> finite_double y -> Rabs (val x) <= M -> Rabs (val y) <= M -> bits64 (fmul (f_rint (fdiv x s)) s) = bits64 (fmul (f_rint (fdiv y s)) s) -> Rabs (val x - val y) <= e * val ptol * (1 + 8 * u) + 6 * u * M).
  { intros x y Fx Fy Bx By Kx. destruct (snap_coord x s Fx FS LS HS) as [Gx Dx]; [lra|]. destruct (snap_coord y s Fy FS LS HS) as [Gy Dy]; [lra|].
    pose proof (bits64_inj _ _ Gx Gy Kx) as Ek. rewrite <- Ek in Dy. set (k := val (fmul (f_rint (fdiv x s)) s)) in *.
    replace (val x - val y) with (- (k - val x) + (k - val y)) by ring. apply Rle_trans with (1 := Rabs_triang _ _). rewrite Rabs_Ropp.
    assert (S1 : val s * (1 + 4 * u) <= e * val ptol * (1 + 8 * u)).
    { apply Rle_trans with (e * val ptol * (1 + 3 * u) * (1 + 4 * u)); [apply Rmult_le_compat_r; lra|]. rewrite Rmult_assoc. apply Rmult_le_compat_l; [exact PT|]. nra. }
    assert (3 * u * Rabs (val x) <= 3 * u * M) by (apply Rmult_le_compat_l; lra). assert (3 * u * Rabs (val y) <= 3 * u * M) by (apply Rmult_le_compat_l; lra). lra. }
  split; apply G; auto.
Qed.

Lemma fix_f_wf kleb ptol : total_order kleb -> forall p ts du, p <> [] -> Forall (in_range (length p)) ts ->
  exists p' t' jx, fix_mesh_f kleb ptol p ts du = Ok (p', t', jx) /\ incl p' p /\ Forall (in_range (length p')) t' /\ no_two same_vertices t' /\
    (du = true -> forall i, (i < length p')%nat -> exists t, In t t' /\ In i (corners t)).
Proof.
  intros Hk p ts du Hp Hr. destruct (fix_mesh_gen_spec nan2 (fsnap_row ptol) kleb key_eqb fneg_vol key_eqb_eq Hk p ts du Hp Hr)
    as (p' & t' & jx & m & E & A1 & A2 & A3 & A4 & A5 & A6 & A7 & A8 & A9 & A10).
  exists p', t', jx. split; [exact E|]. split; [exact A3|]. split; [apply Forall_forall; auto|]. split; auto.
Qed.
Lemma fix_f_near kleb ptol : total_order kleb -> forall p ts du p' t' jx e M,
  Forall (in_range (length p)) ts -> bounded_points M p -> M <= bpow radix2 440 -> extent_atmost p e -> extent_atleast p (bpow radix2 (-340)) ->
  finite_double ptol -> bpow radix2 (-100) <= val ptol <= 1 -> fix_mesh_f kleb ptol p ts du = Ok (p', t', jx) ->
  exists m : nat -> nat,
    (forall i, (i < length p)%nat -> du = false \/ (exists t, In t ts /\ In i (corners t)) ->
       (m i < length p')%nat /\
       Rabs (val (fst (nth i p nan2)) - val (fst (nth (m i) p' nan2))) <= e * val ptol * (1 + 8 * u) + 6 * u * M /\
       Rabs (val (snd (nth i p nan2)) - val (snd (nth (m i) p' nan2))) <= e * val ptol * (1 + 8 * u) + 6 * u * M) /\
    (forall t, In t ts -> exists s, In s t' /\ Permutation (map m (corners t)) (corners s)) /\
    (forall s, In s t' -> exists t, In t ts /\ Permutation (map m (corners t)) (corners s)).
Proof.
  intros Hk p ts du p' t' jx e M Hr B HM E L FT RT EX.
  assert (Hp : p <> []) by (destruct L as (a & b & Ha & _); intros ->; inversion Ha).
  destruct (fix_mesh_gen_spec nan2 (fsnap_row ptol) kleb key_eqb fneg_vol key_eqb_eq Hk p ts du Hp Hr)
    as (p1 & t1 & jx1 & m & E1 & A1 & A2 & A3 & A4 & A5 & A6 & A7 & A8 & A9 & A10).
  unfold fix_mesh_f in EX. rewrite E1 in EX. injection EX as -> -> ->.
  exists m. split; [|split; auto]. intros i Hi Hd. destruct (A1 i Hi Hd) as [Hm Ke]. split; [exact Hm|].
  apply (snap_near p ptol e M); auto. - apply nth_In; auto. - apply A3, nth_In; auto.
Qed.
Lemma area_swap a b c : Rarea2 b a c = - Rarea2 a b c.
Proof. unfold Rarea2. ring. Qed.
Lemma permanent_le p e a b c : extent_atmost p e -> In a p -> In b p -> In c p -> permanent2 a b c <= 2 * (e * e).
Proof.
  intros E A C D.
  assert (G : forall v w, In v p -> In w p -> Rabs (val (fst v) - val (fst w)) <= e /\ Rabs (val (snd v) - val (snd w)) <= e).
  { intros v w V W. destruct (E v w V W), (E w v W V). split; apply Rabs_le; lra. }
  destruct (G b a C A), (G c a D A). unfold permanent2. rewrite !Rabs_mult.
  assert (Rabs (val (fst b) - val (fst a)) * Rabs (val (snd c) - val (snd a)) <= e * e) by (apply Rmult_le_compat; auto using Rabs_pos).
  assert (Rabs (val (snd b) - val (snd a)) * Rabs (val (fst c) - val (fst a)) <= e * e) by (apply Rmult_le_compat; auto using Rabs_pos). lra.
Qed.
Lemma flip_cases b r x y z : (x, y, z) = flip_tri b r -> (b = false /\ r = (x, y, z)) \/ (b = true /\ r = (y, x, z)).
Proof. destruct r as [[i j] k]. destruct b; cbn; intros [= -> -> ->]; auto. Qed.
Lemma fix_f_oriented kleb ptol : total_order kleb -> forall p ts du p' t' jx e,
  Forall (in_range (length p)) ts -> bounded_points (bpow radix2 500) p -> extent_atmost p e -> fix_mesh_f kleb ptol p ts du = Ok (p', t', jx) ->
  forall a b c, In (a, b, c) t' -> - (8 * u * (e * e) + bpow radix2 (-1072)) <= Rarea2 (nth a p' nan2) (nth b p' nan2) (nth c p' nan2).
Proof.
  intros Hk p ts du p' t' jx e Hr B E EX a b c Ht.
  assert (Hp : p <> []) by (intros ->; discriminate EX).
  destruct (fix_mesh_gen_spec nan2 (fsnap_row ptol) kleb key_eqb fneg_vol key_eqb_eq Hk p ts du Hp Hr)
    as (p1 & t1 & jx1 & m & E1 & A1 & A2 & A3 & A4 & A5 & A6 & A7 & A8 & A9 & A10).
  unfold fix_mesh_f in EX. rewrite E1 in EX. injection EX as -> -> ->.
  pose proof (A8 _ Ht) as Rg. unfold in_range in Rg. cbn [corners] in Rg. inversion Rg as [|? ? Ra Rg2]; subst. inversion Rg2 as [|? ? Rb Rg3]; subst. inversion Rg3 as [|? ? Rc _]; subst.
  assert (Ina : In (nth a p' nan2) p) by (apply A3, nth_In; auto). assert (Inb : In (nth b p' nan2) p) by (apply A3, nth_In; auto). assert (Inc : In (nth c p' nan2) p) by (apply A3, nth_In; auto).
  unfold bounded_points in B. rewrite Forall_forall in B. pose proof u_bounds as U.
  destruct (A6 _ Ht) as (r & Er). apply flip_cases in Er as [[Nr ->]|[Nr ->]].
  - pose proof (orientation_filter p' a b c (B _ Ina) (B _ Inb) (B _ Inc)) as [_ Q]. cbv beta zeta in Q.
    pose proof (permanent_le p e _ _ _ E Ina Inb Inc) as P. apply Rnot_lt_le. intros Hn. rewrite Q in Nr; [discriminate|].
    apply Rlt_le_trans with (1 := Hn). apply Ropp_le_contravar. nra.
  - pose proof (orientation_filter p' b a c (B _ Inb) (B _ Ina) (B _ Inc)) as [Q _]. cbv beta zeta in Q.
    pose proof (permanent_le p e _ _ _ E Inb Ina Inc) as P. apply Rnot_lt_le. intros Hn. rewrite Q in Nr; [discriminate|].
    rewrite area_swap. apply Rle_lt_trans with (8 * u * (e * e) + bpow radix2 (-1072)); [nra|lra].
Qed.
Lemma fix_f_oriented_grid kleb ptol s : total_order kleb -> (-400 <= s <= 400)%Z -> forall p ts du p' t' jx,
  Forall (in_range (length p)) ts -> Forall (fun q => finite_point q /\ on_grid s (fst q) /\ on_grid s (snd q)) p -> fix_mesh_f kleb ptol p ts du = Ok (p', t', jx) ->
  forall a b c, In (a, b, c) t' -> 0 <= Rarea2 (nth a p' nan2) (nth b p' nan2) (nth c p' nan2).
Proof.
  intros Hk Hs p ts du p' t' jx Hr B EX a b c Ht.
  assert (Hp : p <> []) by (intros ->; discriminate EX).
  destruct (fix_mesh_gen_spec nan2 (fsnap_row ptol) kleb key_eqb fneg_vol key_eqb_eq Hk p ts du Hp Hr)
    as (p1 & t1 & jx1 & m & E1 & A1 & A2 & A3 & A4 & A5 & A6 & A7 & A8 & A9 & A10).
  unfold fix_mesh_f in EX. rewrite E1 in EX. injection EX as -> -> ->.
  pose proof (A8 _ Ht) as Rg. unfold in_range in Rg. cbn [corners] in Rg. inversion Rg as [|? ? Ra Rg2]; subst. inversion Rg2 as [|? ? Rb Rg3]; subst. inversion Rg3 as [|? ? Rc _]; subst.
  rewrite Forall_forall in B.
  assert (G : forall n, (n < length p')%nat -> finite_point (nth n p' nan2) /\ on_grid s (fst (nth n p' nan2)) /\ on_grid s (snd (nth n p' nan2))) by (intros; apply B, A3, nth_In; auto).
  destruct (A6 _ Ht) as (r & Er). apply flip_cases in Er as [[Nr ->]|[Nr ->]].
  - pose proof (orientation_exact p' a b c s Hs) as Q. cbv beta zeta in Q. apply Rnot_lt_le. intros Hn. rewrite (proj2 (Q ltac:(intros n [<-|[<-|[<-|[]]]]; auto)) Hn) in Nr. discriminate.
  - pose proof (orientation_exact p' b a c s Hs) as Q. cbv beta zeta in Q. apply (Q ltac:(intros n [<-|[<-|[<-|[]]]]; auto)) in Nr. rewrite area_swap in Nr. lra.
Qed.
