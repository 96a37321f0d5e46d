(** Consequences for densified rows; cases. *)
From Coq Require Import List Arith Bool ZArith Lia Reals Lra Psatz SpecFloat.
From Flocq Require Import Core IEEE754.BinarySingleNaN.
From Verif Require Import Util M_Base M_FixMesh M_QualF M_Ieee M_ForceF M_StartF M_DensifyF.
From Verif Require Import S_Double S_Ieee S_LapF S_StartF S_DensifyF P_Double P_Ieee3 P_ProjF P_StartF P_DensifyF.
Import ListNotations.
Open Scope R_scope.

Lemma same_refl r : same_row r r. Proof. left. reflexivity. Qed.
Lemma densified_head M d poly mask out : densified_f M d poly mask out -> forall r, nth_error poly 0 = Some r -> exists r', nth_error out 0 = Some r' /\ same_row r r'.
Proof. intros H r R. destruct H; cbn in R; try discriminate; injection R as <-; eexists; (split; [reflexivity|]); try apply same_refl; assumption. Qed.
Lemma kept_app mids a b : kept_rows a b -> kept_rows a (mids ++ b).
Proof. intros H. induction mids as [|x l IH]; [exact H|apply keptr_skip, IH]. Qed.
Theorem densified_kept M d poly mask out : densified_f M d poly mask out -> kept_rows poly out.
Proof.
  induction 1 as [|r m|a b rest m m' ms out C D IH|p p' q rest m ms mids out Fp Fq S A B NR D IH].
  - apply keptr_nil.
  - apply keptr_take; [apply same_refl|apply keptr_nil].
  - apply keptr_take; [apply same_refl|exact IH].
  - apply keptr_take; [exact S|apply kept_app, IH].
Qed.
Lemma near_end e p q n r : 0 <= e -> same_row p r -> finite_point p -> near_along e p q (INR 0 / n) r.
Proof.
  intros E S F. unfold near_along. cbn [INR]. unfold Rdiv. rewrite !Rmult_0_l, !Rplus_0_r. destruct S as [<-|(_ & Fr & <- & <-)]; (split; [assumption|]); unfold Rminus; rewrite !Rplus_opp_r, Rabs_R0; lra.
Qed.
Lemma near_stop e p q n r : 0 <= e -> 0 < n -> same_row q r -> finite_point q -> near_along e p q (n / n) r.
Proof.
  intros E N S F. unfold near_along. replace (n / n) with 1 by (field; lra). rewrite !Rmult_1_l.
  replace (val (fst p) + (val (fst q) - val (fst p))) with (val (fst q)) by ring. replace (val (snd p) + (val (snd q) - val (snd p))) with (val (snd q)) by ring.
  destruct S as [<-|(_ & Fr & <- & <-)]; (split; [assumption|]); unfold Rminus; rewrite !Rplus_opp_r, Rabs_R0; lra.
Qed.
Lemma step_bound e p q n j r s d : 0 <= e -> 1 <= n -> span p q <= n * d + e -> near_along e p q (j / n) r -> near_along e p q ((j + 1) / n) s -> span r s <= d + 3 * e.
Proof.
  intros E N S (_ & R1 & R2) (_ & S1 & S2). assert (N0 : 0 < / n) by (apply Rinv_0_lt_compat; lra). assert (N1 : / n <= 1) by (rewrite <- Rinv_1; apply Rinv_le; lra).
  assert (D : forall x y, Rabs (y - x) <= span p q -> Rabs (/ n * (y - x)) <= d + e).
  { intros x y H. rewrite Rabs_mult, (Rabs_pos_eq (/ n)) by lra. apply Rle_trans with (/ n * (n * d + e)); [apply Rmult_le_compat_l; lra|]. rewrite Rmult_plus_distr_l, <- Rmult_assoc, Rinv_l, Rmult_1_l by lra.
    assert (/ n * e <= 1 * e) by (apply Rmult_le_compat_r; lra). lra. }
  pose proof (D _ _ (Rmax_l _ _ : Rabs (val (fst q) - val (fst p)) <= span p q)) as Dx. pose proof (D _ _ (Rmax_r _ _ : Rabs (val (snd q) - val (snd p)) <= span p q)) as Dy.
  unfold Rdiv in *. rewrite Rmult_plus_distr_r, Rmult_1_l in S1, S2. rewrite (Rmult_plus_distr_r (j * / n)) in S1, S2. apply Rabs_le_inv in R1, R2, S1, S2, Dx, Dy. unfold span. apply Rmax_lub; apply Rabs_le; lra.
Qed.
Theorem densified_gap M d poly mask out : 0 <= M -> densified_f M d poly mask out -> forall i r s, nth_error out i = Some r -> nth_error out (S i) = Some s ->
  span r s <= d + 3 * cut_error M \/
  exists k p q, nth_error poly k = Some p /\ nth_error poly (S k) = Some q /\ (nth_error mask (S k) = Some false \/ p = nan2 \/ q = nan2) /\ same_row p r /\ same_row q s.
Proof.
  intros HM H. assert (E0 : 0 <= cut_error M). { unfold cut_error. pose proof u_bounds. repeat apply Rmult_le_pos; lra. }
  induction H as [|r0 m|a b rest m m' ms out C D IH|p p' q rest m ms mids out Fp Fq S0 A B NR D IH]; intros i r s Hr Hs.
  - destruct i; discriminate.
  - destruct i as [|[|i]]; discriminate.
  - destruct i as [|i].
    + cbn in Hr. injection Hr as <-. change (nth_error out 0 = Some s) in Hs. destruct (densified_head _ _ _ _ _ D b eq_refl) as (r' & R1 & R2). rewrite R1 in Hs. injection Hs as <-.
      right. exists 0%nat, a, b. split; [reflexivity|]. split; [reflexivity|]. split; [destruct C as [->|C]; [left; reflexivity|right; exact C]|]. split; [apply same_refl|exact R2].
    + destruct (IH i r s Hr Hs) as [K|(k & p & q & K)]; [left; exact K|right; exists (S k), p, q; exact K].
  - destruct (densified_head _ _ _ _ _ D q eq_refl) as (q' & R1 & R2). set (n := INR (S (length mids))) in *. assert (N1 : 1 <= n) by (unfold n; rewrite S_INR; pose proof (pos_INR (length mids)); lra).
    assert (AL : forall j x, (j <= S (length mids))%nat -> nth_error (p' :: mids ++ out) j = Some x -> near_along (cut_error M) p q (INR j / n) x).
    { intros j x Hj Hx. destruct j as [|j]; [cbn in Hx; injection Hx as <-; apply near_end; assumption|]. cbn [nth_error] in Hx. destruct (Nat.lt_ge_cases j (length mids)) as [K|K].
      - rewrite nth_error_app1 in Hx by exact K. apply NR. exact Hx.
      - replace j with (length mids) in * by lia. rewrite nth_error_app2, Nat.sub_diag, R1 in Hx by lia. injection Hx as <-. apply near_stop; try assumption. lra. }
    destruct (Nat.le_gt_cases (S i) (S (length mids))) as [K|K].
    + left. assert (X1 := AL i r ltac:(lia) Hr). assert (X2 := AL (S i) s K Hs). rewrite (S_INR i) in X2. exact (step_bound _ p q n (INR i) r s d E0 N1 A X1 X2).
    + destruct i as [|i]; [lia|]. change (nth_error (mids ++ out) i = Some r) in Hr. change (nth_error (mids ++ out) (S i) = Some s) in Hs. rewrite nth_error_app2 in Hr by lia. rewrite nth_error_app2 in Hs by lia. replace (S i - length mids)%nat with (S (i - length mids)) in Hs by lia.
      destruct (IH _ r s Hr Hs) as [G|(k & x & y & G)]; [left; exact G|right; exists (S k), x, y; exact G].
Qed.
Theorem densify_facts M d poly mask out : good_length M d -> length mask = length poly -> Forall (plain_row M) poly -> (Z.of_nat (length poly) <= 2 ^ 30)%Z -> densify_f poly d mask = Ok out ->
  kept_rows poly out /\ forall i r s, nth_error out i = Some r -> nth_error out (S i) = Some s -> span r s <= val d + 3 * cut_error M \/
  exists k p q, nth_error poly k = Some p /\ nth_error poly (S k) = Some q /\ (nth_error mask (S k) = Some false \/ p = nan2 \/ q = nan2) /\ same_row p r /\ same_row q s.
Proof.
  intros G L P B E. destruct (densify_ok M d poly mask G L P B) as (out' & E' & D). rewrite E in E'. injection E' as <-. split; [eapply densified_kept; exact D|].
  apply (densified_gap M (val d) poly mask out); [|exact D]. destruct (axis_facts M d d d (length_axis M d G)) as (_ & HM & _). lra.
Qed.

(** * Cases *)
Definition d_04 : spec_float := S754_finite false 7205759403792794 (-54).
Lemma d_vals : finite_double d_04 /\ val d_04 = 7205759403792794 / 18014398509481984.
Proof. split; [split; reflexivity|]. unfold val, d_04, SF2R, F2R. cbn. lra. Qed.
Lemma s01_length : good_length 1 s_01.
Proof.
  destruct s_vals as (_ & V & _). pose proof tiny_900 as [T1 T2]. split; [split; reflexivity|]. rewrite V. split; [lra|]. split; lra.
Qed.
(** From 0 to 0.4 by 0.1. *)
Lemma gap_case : exists out r s, densify_f [(f_0, f_0); (d_04, f_0)] s_01 [true; true] = Ok out /\ nth_error out 2 = Some r /\ nth_error out 3 = Some s /\ length out = 5%nat /\ val s_01 < span r s.
Proof.
  eexists. eexists. eexists. split; [vm_compute; reflexivity|]. split; [reflexivity|]. split; [reflexivity|]. split; [reflexivity|]. apply Rlt_le_trans with (2 := Rmax_l _ _).
  unfold val, SF2R, F2R, s_01. cbn. rewrite Rabs_pos_eq; lra.
Qed.
(** From 0.1 to 0.4 by 0.1. *)
Lemma few_case : exists out, densify_f [(s_01, f_0); (d_04, f_0)] s_01 [true; true] = Ok out /\ length out = 5%nat /\ span (s_01, f_0) (d_04, f_0) <= 3 * val s_01.
Proof.
  eexists. split; [vm_compute; reflexivity|]. split; [reflexivity|]. unfold span. cbn [fst snd]. destruct d_vals as [_ ->]. destruct s_vals as (_ & -> & _). change (val f_0) with 0. apply Rmax_lub; rewrite Rabs_pos_eq; lra.
Qed.
Lemma rows_case : good_length 1 s_01 /\ Forall (plain_row 1) [(s_01, f_0); (d_04, f_0); nan2; (f_0, f_0); (d_04, f_0)].
Proof.
  split; [exact s01_length|]. destruct d_vals as [Fd Vd]. destruct s_vals as (_ & V1 & _). assert (F1 : finite_double s_01) by (split; reflexivity). assert (F0 : finite_double f_0 /\ val f_0 = 0) by (split; [split; reflexivity|reflexivity]). destruct F0 as [F0 V0].
  assert (A0 : Rabs (val f_0) <= 1) by (rewrite V0, Rabs_R0; lra). assert (A1 : Rabs (val s_01) <= 1) by (rewrite V1, Rabs_pos_eq; lra). assert (A4 : Rabs (val d_04) <= 1) by (rewrite Vd, Rabs_pos_eq; lra).
  repeat (apply Forall_cons; [first [left; reflexivity|right; split; [split; assumption|split; assumption]]|]). apply Forall_nil.
Qed.
Lemma counts_nth d : forall poly mask k a b, nth_error poly k = Some a -> nth_error poly (S k) = Some b -> nth_error mask (S k) = Some true -> In (count_of d a b true) (counts d poly mask).
Proof.
  induction poly as [|x [|y t] IH]; intros mask k a b Ha Hb Hm; [destruct k; discriminate|destruct k as [|[|k]]; discriminate|].
  destruct mask as [|m [|m' ms]]; [destruct k; discriminate|destruct k as [|[|k]]; discriminate|].
  change (counts d (x :: y :: t) (m :: m' :: ms)) with (count_of d x y m' :: counts d (y :: t) (m' :: ms)). destruct k as [|k].
  - cbn in Ha, Hb, Hm. injection Ha as ->. injection Hb as ->. injection Hm as ->. left. reflexivity.
  - right. apply (IH (m' :: ms) k); assumption.
Qed.
Lemma inf_raises d poly mask : In InfCount (counts d poly mask) -> densify_f poly d mask = Raise RuntimeError.
Proof.
  intros I. unfold densify_f, count_total. cbv zeta. assert (E : existsb is_inf (counts d poly mask) = true) by (apply existsb_exists; exists InfCount; split; [exact I|reflexivity]). rewrite E. reflexivity.
Qed.
Lemma infinite_raises d poly mask k a b : finite_double d -> 0 < val d -> nth_error poly k = Some a -> nth_error poly (S k) = Some b -> nth_error mask (S k) = Some true ->
  finite_point a -> Rabs (val (snd a)) <= 2 ^ 400 -> (exists s, fst b = S754_infinity s) -> finite_double (snd b) -> Rabs (val (snd b)) <= 2 ^ 400 -> densify_f poly d mask = Raise RuntimeError.
Proof.
  intros [Vd Fd] Pd Ha Hb Hm [[V1 F1] F2] B2 [s Hs] F3 B3. apply inf_raises. replace InfCount with (count_of d a b true); [eapply counts_nth; eassumption|].
  unfold count_of. cbn [negb]. cbv zeta. assert (X : SFabs (fsub (fst b) (fst a)) = S754_infinity false) by (rewrite Hs; destruct (fst a); try discriminate; reflexivity). rewrite X.
  destruct (sub_ok (snd b) (snd a) F3 F2) as [FS _].
  { apply Rabs_le_inv in B2, B3. assert (E4 : 2 ^ 400 = bpow radix2 400) by exact (two_pow 400). rewrite E4 in *. apply Rle_trans with (bpow radix2 401); [|apply bpow_le; lia]. change 401%Z with (1 + 400)%Z. rewrite bpow_plus. change (bpow radix2 1) with 2. apply Rabs_le. lra. }
  destruct (fsub (snd b) (snd a)) as [t|t| |t m e]; try (destruct FS as [_ FS]; discriminate FS).
  - destruct d as [t'|t'| |t' m' e']; try discriminate; [change (val (S754_zero t')) with 0 in Pd; lra|]. destruct t'; [|reflexivity].
    exfalso. revert Pd. unfold val, SF2R, F2R. cbn [cond_Zopp Fnum Fexp]. assert (IZR (Z.neg m') < 0) by (apply IZR_lt; lia). pose proof (bpow_gt_0 radix2 e'). intros. assert (0 < - IZR (Z.neg m') * bpow radix2 e') by (apply Rmult_lt_0_compat; lra). change (IZR (- Z.pos m')) with (IZR (Z.neg m')) in *. lra.
  - destruct d as [t'|t'| |t' m' e']; try discriminate; [change (val (S754_zero t')) with 0 in Pd; lra|]. destruct t'; [|reflexivity].
    exfalso. revert Pd. unfold val, SF2R, F2R. cbn [cond_Zopp Fnum Fexp]. assert (IZR (Z.neg m') < 0) by (apply IZR_lt; lia). pose proof (bpow_gt_0 radix2 e'). intros. assert (0 < - IZR (Z.neg m') * bpow radix2 e') by (apply Rmult_lt_0_compat; lra). change (IZR (- Z.pos m')) with (IZR (Z.neg m')) in *. lra.
Qed.
Lemma infinite_case : densify_f [(f_0, f_0); (S754_infinity false, f_0)] s_01 [true; true] = Raise RuntimeError /\ densify_f [(f_0, f_0); (d_04, f_0)] f_0 [true; true] = Raise RuntimeError.
Proof. split; vm_compute; reflexivity. Qed.
