(** Proofs about triangle quality on doubles. *)
From Coq Require Import List Arith Bool ZArith Lia Reals Lra Psatz SpecFloat.
From Flocq Require Import Core IEEE754.BinarySingleNaN Relative Plus_error.
From Verif Require Import M_Base M_FixMesh M_LimitF M_QualF.
From Verif Require Import S_Double S_Ieee S_Quality S_QualF P_Quality P_Double P_LimitF P_CutF P_LapF P_Ieee3.
Import ListNotations.
Open Scope R_scope.

(** * Approximation up to a factor *)
Notation bp := (bpow radix2).
Definition nr (w v e : R) : Prop := 0 <= e /\ e * w <= v /\ v * w <= e.
Definition factor (w : R) : Prop := 0 < w <= 1.
Notation v1 := (1 - u).
Lemma factor1 : factor v1. Proof. pose proof u_bounds. split; lra. Qed.
Lemma factor_mul a b : factor a -> factor b -> factor (a * b). Proof. intros [A1 A2] [B1 B2]. split; nra. Qed.
Lemma factor_pow a n : factor a -> factor (a ^ n).
Proof. intros F. induction n as [|n IH]; cbn [pow]; [split; lra|]. apply factor_mul; assumption. Qed.
Lemma nr_nn w v e : factor w -> nr w v e -> 0 <= v. Proof. intros [W _] (E & A & _). nra. Qed.
Lemma nr_pos w v e : factor w -> nr w v e -> (0 < v <-> 0 < e).
Proof. intros [W W1] (E & A & B). split; intros H; nra. Qed.
Lemma nr_refl v : 0 <= v -> nr 1 v v. Proof. intros H. repeat split; lra. Qed.
Lemma nr_weaken w w' v e : factor w -> 0 < w' <= w -> nr w v e -> nr w' v e.
Proof. intros W [W1 W2] H. pose proof (nr_nn _ _ _ W H) as V. destruct H as (E & A & B). repeat split; [exact E|apply Rle_trans with (2 := A)|apply Rle_trans with (2 := B)]; apply Rmult_le_compat_l; assumption. Qed.
Lemma nr_mul w v e w' v' e' : factor w -> factor w' -> nr w v e -> nr w' v' e' -> nr (w * w') (v * v') (e * e').
Proof.
  intros W W' H H'. pose proof (nr_nn _ _ _ W H) as V. pose proof (nr_nn _ _ _ W' H') as V'. destruct H as (E & A & B), H' as (E' & A' & B'), W as [W _], W' as [W' _].
  split; [apply Rmult_le_pos; assumption|]. split.
  - replace (e * e' * (w * w')) with ((e * w) * (e' * w')) by ring. apply Rmult_le_compat; try assumption; apply Rmult_le_pos; lra.
  - replace (v * v' * (w * w')) with ((v * w) * (v' * w')) by ring. apply Rmult_le_compat; try assumption; apply Rmult_le_pos; lra.
Qed.
Lemma nr_inv w v e : factor w -> 0 < e -> nr w v e -> nr w (/ v) (/ e).
Proof.
  intros W P H. pose proof (proj2 (nr_pos _ _ _ W H) P) as V. destruct H as (E & A & B), W as [W _]. split; [left; apply Rinv_0_lt_compat, P|]. split.
  - apply Rmult_le_reg_r with (v * e); [apply Rmult_lt_0_compat; assumption|]. replace (/ e * w * (v * e)) with (v * w) by (field; lra). replace (/ v * (v * e)) with e by (field; lra). exact B.
  - apply Rmult_le_reg_r with (v * e); [apply Rmult_lt_0_compat; assumption|]. replace (/ v * w * (v * e)) with (e * w) by (field; lra). replace (/ e * (v * e)) with v by (field; lra). exact A.
Qed.
Lemma nr_div w v e w' v' e' : factor w -> factor w' -> 0 < e' -> nr w v e -> nr w' v' e' -> nr (w * w') (v / v') (e / e').
Proof. intros W W' P H H'. apply nr_mul; try assumption. apply nr_inv; assumption. Qed.
Lemma nr_plus w v e v' e' : nr w v e -> nr w v' e' -> nr w (v + v') (e + e').
Proof. intros (E & A & B) (E' & A' & B'). repeat split; lra. Qed.
Lemma nr_sqrt w v e : factor w -> nr (w * w) v e -> nr w (sqrt v) (sqrt e).
Proof.
  intros W H. pose proof (nr_nn _ _ _ (factor_mul _ _ W W) H) as V. destruct H as (E & A & B), W as [W _].
  split; [apply sqrt_pos|]. split.
  - rewrite <- (sqrt_square w) at 1 by lra. rewrite <- sqrt_mult by (try assumption; nra). apply sqrt_le_1_alt, A.
  - rewrite <- (sqrt_square w) at 1 by lra. rewrite <- sqrt_mult by (try assumption; nra). apply sqrt_le_1_alt, B.
Qed.
Lemma nr_sqrt' w v e : factor w -> nr w v e -> nr w (sqrt v) (sqrt e).
Proof. intros W H. apply nr_sqrt; [exact W|]. apply nr_weaken with w; [exact W| |exact H]. destruct W; split; nra. Qed.
Lemma nr_trans w w' v e e' : factor w -> factor w' -> nr w v e -> nr w' e e' -> nr (w * w') v e'.
Proof.
  intros [W _] [W' _] (E & A & B) (E' & A' & B'). split; [exact E'|]. split.
  - apply Rle_trans with (e * w); [|exact A]. replace (e' * (w * w')) with (e' * w' * w) by ring. apply Rmult_le_compat_r; lra.
  - apply Rle_trans with (e * w'); [|exact B']. replace (v * (w * w')) with (v * w * w') by ring. apply Rmult_le_compat_r; lra.
Qed.
Lemma up_dn v e : 0 <= e -> e * (1 - u) <= v <= e * (1 + u) -> nr v1 v e.
Proof. intros E [A B]. pose proof u_bounds as U. split; [exact E|]. split; [exact A|]. apply Rle_trans with (e * (1 + u) * (1 - u)); [apply Rmult_le_compat_r; lra|]. nra. Qed.
Lemma rnd_nr v : bp (-1022) <= v -> nr v1 (rnd v) v.
Proof. intros H. apply up_dn; [apply Rle_trans with (2 := H), bpow_ge_0|apply pos_rel, H]. Qed.
Lemma plus_nr x y : representable x -> representable y -> 0 <= x -> 0 <= y -> nr v1 (rnd (x + y)) (x + y).
Proof. intros X Y A B. apply up_dn; [lra|apply plus_rel; assumption]. Qed.
Lemma bernoulli x n : 0 <= x <= 1 -> 1 - INR n * x <= (1 - x) ^ n.
Proof.
  intros X. induction n as [|n IH]; [cbn; lra|]. rewrite S_INR. cbn [pow]. pose proof (pos_INR n) as N.
  apply Rle_trans with ((1 - x) * (1 - INR n * x)); [nra|]. apply Rmult_le_compat_l; lra.
Qed.

(** * Ranges *)
Definition rng (k : Z) (v : R) : Prop := bp (- k) <= v <= bp k.
Lemma rng_pos k v : rng k v -> 0 < v. Proof. intros [A _]. apply Rlt_le_trans with (2 := A), bpow_gt_0. Qed.
Lemma rng_mul k k' v v' : rng k v -> rng k' v' -> rng (k + k') (v * v').
Proof.
  intros H H'. pose proof (rng_pos _ _ H). pose proof (rng_pos _ _ H'). destruct H as [A B], H' as [A' B']. split.
  - rewrite Z.opp_add_distr, bpow_plus. apply Rmult_le_compat; auto using bpow_ge_0.
  - rewrite bpow_plus. apply Rmult_le_compat; lra.
Qed.
Lemma rng_inv k v : rng k v -> rng k (/ v).
Proof.
  intros H. pose proof (rng_pos _ _ H). destruct H as [A B]. split.
  - rewrite bpow_opp. apply Rinv_le_contravar; assumption.
  - rewrite <- (Z.opp_involutive k), bpow_opp. apply Rinv_le_contravar; [apply bpow_gt_0|exact A].
Qed.
Lemma rng_div k k' v v' : rng k v -> rng k' v' -> rng (k + k') (v / v').
Proof. intros H H'. apply rng_mul; [exact H|]. apply rng_inv, H'. Qed.
Lemma rng_le k k' v : (k <= k')%Z -> rng k v -> rng k' v.
Proof. intros L [A B]. split; [apply Rle_trans with (2 := A)|apply Rle_trans with (1 := B)]; apply bpow_le; lia. Qed.
Lemma rng_sqrt k v : (0 <= k)%Z -> rng (2 * k) v -> rng k (sqrt v).
Proof.
  intros K [A B]. split.
  - rewrite <- (sqrt_square (bp (- k))) by apply bpow_ge_0. rewrite <- bpow_plus. replace (- k + - k)%Z with (- (2 * k))%Z by lia. apply sqrt_le_1_alt, A.
  - rewrite <- (sqrt_square (bp k)) by apply bpow_ge_0. rewrite <- bpow_plus. replace (k + k)%Z with (2 * k)%Z by lia. apply sqrt_le_1_alt, B.
Qed.
Lemma rng_rnd k v : (0 <= k <= 1000)%Z -> rng k v -> rng k (rnd v) /\ Rabs (rnd v) < huge /\ bp (-1022) <= v.
Proof.
  intros K [A B]. assert (R : rng k (rnd v)).
  { split; [apply rnd_ge; [apply rep_bp; lia|exact A]|]. rewrite <- (rnd_id (bp k)) by (apply rep_bp; lia). apply rnd_le, B. }
  split; [exact R|]. pose proof (rng_pos _ _ R). destruct R as [R1 R2]. split.
  - rewrite Rabs_pos_eq by lra. apply Rle_lt_trans with (1 := R2). apply bpow_lt. lia.
  - apply Rle_trans with (2 := A). apply bpow_le. lia.
Qed.

(** A double that approximates [e] up to the factor [w], of magnitude 2^-k .. 2^k. *)
Definition good (w : R) (k : Z) (x : spec_float) (e : R) : Prop := finite_double x /\ nr w (val x) e /\ rng k (val x).
Lemma good_e w k x e : factor w -> good w k x e -> 0 < e /\ 0 < val x.
Proof. intros W (F & N & R). pose proof (rng_pos _ _ R) as P. split; [apply (nr_pos _ _ _ W N); exact P|exact P]. Qed.
Lemma good_mul w k x e w' k' y f : factor w -> factor w' -> (0 <= k + k' <= 1000)%Z -> good w k x e -> good w' k' y f -> good (v1 * (w * w')) (k + k') (fmul x y) (e * f).
Proof.
  intros W W' K (F & N & R) (F' & N' & R'). pose proof (rng_mul _ _ _ _ R R') as RR. destruct (rng_rnd _ _ K RR) as (R2 & H & L).
  destruct (mul_rounds x y F F' H) as [FF V]. split; [exact FF|]. rewrite V. split; [|exact R2].
  apply nr_trans with (val x * val y); [apply factor1|apply factor_mul; assumption|apply rnd_nr, L|apply nr_mul; assumption].
Qed.
Lemma good_div w k x e w' k' y f : factor w -> factor w' -> (0 <= k + k' <= 1000)%Z -> good w k x e -> good w' k' y f -> good (v1 * (w * w')) (k + k') (fdiv x y) (e / f).
Proof.
  intros W W' K G G'. destruct (good_e _ _ _ _ W' G') as [P P']. destruct G as (F & N & R), G' as (F' & N' & R'). pose proof (rng_div _ _ _ _ R R') as RR. destruct (rng_rnd _ _ K RR) as (R2 & H & L).
  destruct (div_rounds x y F F' ltac:(lra) H) as [FF V]. split; [exact FF|]. rewrite V. split; [|exact R2].
  apply nr_trans with (val x / val y); [apply factor1|apply factor_mul; assumption|apply rnd_nr, L|apply nr_div; assumption].
Qed.
Lemma good_sqrt w k x e : factor w -> (0 <= k <= 1000)%Z -> good w (2 * k) x e -> good (v1 * w) k (fsqrt x) (sqrt e).
Proof.
  intros W K (F & N & R). pose proof (rng_sqrt _ _ (proj1 K) R) as RR. destruct (rng_rnd _ _ K RR) as (R2 & H & L).
  destruct (sqrt_rounds x F (rng_pos _ _ R)) as [FF V]. split; [exact FF|]. rewrite V. split; [|exact R2].
  apply nr_trans with (sqrt (val x)); [apply factor1|exact W|apply rnd_nr, L|apply nr_sqrt'; assumption].
Qed.
Lemma good_le w k k' x e : (k <= k')%Z -> good w k x e -> good w k' x e.
Proof. intros L (F & N & R). split; [exact F|]. split; [exact N|]. apply rng_le with k; assumption. Qed.
Lemma good_exact k x : finite_double x -> rng k (val x) -> good 1 k x (val x).
Proof. intros F R. split; [exact F|]. split; [|exact R]. apply nr_refl. left. apply (rng_pos _ _ R). Qed.
Lemma good_w w w' k x e : factor w -> 0 < w' <= w -> good w k x e -> good w' k x e.
Proof. intros W L (F & N & R). split; [exact F|]. split; [|exact R]. apply nr_weaken with w; assumption. Qed.

(** * The formula when all three computed differences are positive *)
Definition quality (x y z s a b c : R) : R := x * y * z / s / (a * b * c / sqrt (s * x * y * z)).
Lemma half_double : finite_double f_half /\ val f_half = / 2.
Proof. split; [apply finite_check; reflexivity|]. unfold f_half, val, SF2R, F2R. cbn -[IZR]. lra. Qed.
Lemma factor_1 : factor 1. Proof. split; lra. Qed.
#[local] Hint Resolve factor1 factor_mul factor_1 factor_pow : fac.
Lemma gmul w k x e w' k' y f : good w k x e -> good w' k' y f -> factor w -> factor w' -> (0 <= k + k' <= 1000)%Z -> good (v1 * (w * w')) (k + k') (fmul x y) (e * f).
Proof. intros. apply good_mul; assumption. Qed.
Lemma gdiv w k x e w' k' y f : good w k x e -> good w' k' y f -> factor w -> factor w' -> (0 <= k + k' <= 1000)%Z -> good (v1 * (w * w')) (k + k') (fdiv x y) (e / f).
Proof. intros. apply good_div; assumption. Qed.
Lemma gsqrt w k j x e : good w k x e -> k = (2 * j)%Z -> factor w -> (0 <= j <= 1000)%Z -> good (v1 * w) j (fsqrt x) (sqrt e).
Proof. intros G -> W K. apply good_sqrt; assumption. Qed.
Lemma core a b c x y z s : fsub (fadd b c) a = x -> fsub (fadd c a) b = y -> fsub (fadd a b) c = z -> fadd (fadd a b) c = s ->
  finite_double a -> finite_double b -> finite_double c -> finite_double x -> finite_double y -> finite_double z -> finite_double s ->
  rng 62 (val a) -> rng 62 (val b) -> rng 62 (val c) -> rng 112 (val x) -> rng 112 (val y) -> rng 112 (val z) -> rng 64 (val s) ->
  good (v1 ^ 13) 990 (qual_of_lengths_f a b c) (quality (val x) (val y) (val z) (val s) (val a) (val b) (val c)).
Proof.
  intros X Y Z S Fa Fb Fc Fx Fy Fz Fs Ra Rb Rc Rx Ry Rz Rs. unfold qual_of_lengths_f, mult1_f, denom1_f. rewrite X, Y, Z, S.
  pose proof (good_exact _ _ Fa Ra) as Ga. pose proof (good_exact _ _ Fb Rb) as Gb. pose proof (good_exact _ _ Fc Rc) as Gc.
  pose proof (good_exact _ _ Fx Rx) as Gx. pose proof (good_exact _ _ Fy Ry) as Gy. pose proof (good_exact _ _ Fz Rz) as Gz. pose proof (good_exact _ _ Fs Rs) as Gs.
  assert (Gh : good 1 1 f_half (/ 2)). { destruct half_double as [Fh Vh]. rewrite <- Vh. apply good_exact; [exact Fh|]. rewrite Vh. split; [change (bp (- (1))) with (/ 2)|change (bp 1) with 2]; lra. }
  assert (Gt : good 1 1 ftwo 2). { rewrite <- val_two. apply good_exact; [exact two_double|]. rewrite val_two. split; [change (bp (- (1))) with (/ 2)|change (bp 1) with 2]; lra. }
  pose proof (gmul _ _ _ _ _ _ _ _ Gx Gy ltac:(auto 20 with fac) ltac:(auto 20 with fac) ltac:(lia)) as G1. pose proof (gmul _ _ _ _ _ _ _ _ G1 Gz ltac:(auto 20 with fac) ltac:(auto 20 with fac) ltac:(lia)) as G2.
  pose proof (gdiv _ _ _ _ _ _ _ _ G2 Gs ltac:(auto 20 with fac) ltac:(auto 20 with fac) ltac:(lia)) as G3.
  pose proof (gmul _ _ _ _ _ _ _ _ Gh G3 ltac:(auto 20 with fac) ltac:(auto 20 with fac) ltac:(lia)) as G4. pose proof (gmul _ _ _ _ _ _ _ _ Gt G4 ltac:(auto 20 with fac) ltac:(auto 20 with fac) ltac:(lia)) as G5.
  pose proof (gmul _ _ _ _ _ _ _ _ Ga Gb ltac:(auto 20 with fac) ltac:(auto 20 with fac) ltac:(lia)) as H1. pose proof (gmul _ _ _ _ _ _ _ _ H1 Gc ltac:(auto 20 with fac) ltac:(auto 20 with fac) ltac:(lia)) as H2.
  pose proof (gmul _ _ _ _ _ _ _ _ Gs Gx ltac:(auto 20 with fac) ltac:(auto 20 with fac) ltac:(lia)) as D1. pose proof (gmul _ _ _ _ _ _ _ _ D1 Gy ltac:(auto 20 with fac) ltac:(auto 20 with fac) ltac:(lia)) as D2.
  pose proof (gmul _ _ _ _ _ _ _ _ D2 Gz ltac:(auto 20 with fac) ltac:(auto 20 with fac) ltac:(lia)) as D3.
  pose proof (gsqrt _ _ 200 _ _ D3 eq_refl ltac:(auto 20 with fac) ltac:(lia)) as D4.
  pose proof (gdiv _ _ _ _ _ _ _ _ H2 D4 ltac:(auto 20 with fac) ltac:(auto 20 with fac) ltac:(lia)) as D5.
  pose proof (gdiv _ _ _ _ _ _ _ _ G5 D5 ltac:(auto 20 with fac) ltac:(auto 20 with fac) ltac:(lia)) as G6.
  match type of G6 with good ?w ?k _ ?e => assert (E : e = quality (val x) (val y) (val z) (val s) (val a) (val b) (val c)) by (unfold quality; match goal with |- 2 * (/ 2 * ?t) / _ = _ => replace (2 * (/ 2 * t)) with t by (generalize t; intros; field) end; reflexivity); rewrite E in G6; apply good_le with k; [lia|]; apply good_w with w; [auto 20 with fac| |exact G6] end.
  pose proof (factor_pow v1 13 factor1) as [P _]. split; [exact P|]. right. cbn [pow]. ring.
Qed.

(** * The three computed differences *)
Lemma rnd_abs_mono' x y : Rabs x <= Rabs y -> Rabs (rnd x) <= Rabs (rnd y).
Proof.
  intros H. assert (A : forall z, Rabs (rnd z) = rnd (Rabs z)); [|rewrite !A; apply rnd_le, H].
  intros z. unfold Rabs at 2. destruct (Rcase_abs z) as [N|N].
  - rewrite rnd_opp. apply Rabs_left1. pose proof (rnd_le z 0) as K. rewrite (rnd_id 0) in K by apply rep_0. apply K. lra.
  - apply Rabs_pos_eq. apply rnd_sign_pos. lra.
Qed.
Definition slack (a b c : R) : R := rnd (rnd (b + c) - a).
Lemma slack_sym a b c : slack a b c = slack a c b. Proof. unfold slack. rewrite (Rplus_comm b c). reflexivity. Qed.
Lemma whole x : representable x -> bp (-60) <= Rabs x -> exists n, x = IZR n * bp (-112).
Proof.
  intros F L. assert (G : generic_format radix2 (FIX_exp (-112)) x).
  { apply (generic_inclusion_ge radix2 (FLT_exp (-1074) 53) (FIX_exp (-112)) (-60)); [|exact L|exact F]. intros e E. unfold FIX_exp, FLT_exp. lia. }
  destruct (FIX_format_generic _ _ _ G) as [f E Ef]. exists (Fnum f). rewrite E. unfold F2R. rewrite Ef. reflexivity.
Qed.
Definition side (a : R) : Prop := representable a /\ bp (-60) <= a <= bp 62.
Lemma side_pos a : side a -> 0 < a. Proof. intros (_ & A & _). apply Rlt_le_trans with (2 := A), bpow_gt_0. Qed.
Lemma side_rng a : side a -> rng 62 a. Proof. intros (_ & A & B). split; [|exact B]. apply Rle_trans with (2 := A). apply bpow_le. lia. Qed.
Lemma sum_ge a b : side a -> side b -> a <= rnd (a + b) /\ b <= rnd (a + b) /\ rnd (a + b) <= bp 63.
Proof.
  intros A B. pose proof (side_pos _ A). pose proof (side_pos _ B). split; [apply rnd_ge; [apply A|lra]|]. split; [apply rnd_ge; [apply B|lra]|].
  rewrite <- (rnd_id (bp 63)) by (apply rep_bp; lia). apply rnd_le. destruct A as (_ & _ & A), B as (_ & _ & B). change (bp 63) with (bp (62 + 1)). rewrite bpow_plus. change (bp 1) with 2. lra.
Qed.
Lemma slack_range a b c : side a -> side b -> side c -> slack a b c <> 0 -> bp (-112) <= Rabs (slack a b c).
Proof.
  intros A B C N. destruct (sum_ge b c B C) as (S1 & S2 & S3).
  destruct (whole (rnd (b + c)) (rnd_rep _)) as [n En]. { rewrite Rabs_pos_eq; [apply Rle_trans with b; [apply B|exact S1]|pose proof (side_pos _ B); lra]. }
  destruct (whole a (proj1 A)) as [m Em]. { rewrite Rabs_pos_eq; [apply A|pose proof (side_pos _ A); lra]. }
  unfold slack in *. assert (D : rnd (b + c) - a = IZR (n - m) * bp (-112)) by (rewrite En, Em, minus_IZR; ring). rewrite D in *.
  destruct (Z.eq_dec (n - m) 0) as [Z|Z]; [rewrite Z, Rmult_0_l, (rnd_id 0) in N by apply rep_0; congruence|].
  rewrite <- (Rabs_pos_eq (bp (-112))) at 1 by apply bpow_ge_0. rewrite <- (rnd_id (bp (-112))) at 1 by (apply rep_bp; lia).
  apply rnd_abs_mono'. rewrite Rabs_mult. rewrite <- (Rmult_1_l (Rabs (bp (-112)))) at 1. apply Rmult_le_compat_r; [apply Rabs_pos|]. rewrite <- abs_IZR. apply IZR_le. lia.
Qed.
Lemma slack_sign a b c : slack a b c < 0 -> rnd (b + c) < a.
Proof. intros H. destruct (Rlt_le_dec (rnd (b + c)) a) as [L|L]; [exact L|]. exfalso. assert (0 <= slack a b c) by (apply rnd_sign_pos; lra). lra. Qed.
Lemma slack_sign' a b c : 0 < slack a b c -> a < rnd (b + c).
Proof. intros H. destruct (Rlt_le_dec a (rnd (b + c))) as [L|L]; [exact L|]. exfalso. assert (slack a b c <= 0) by (apply rnd_sign_neg; lra). lra. Qed.
Lemma two_neg a b c : side a -> side b -> side c -> slack a b c < 0 -> slack b c a < 0 -> False.
Proof.
  intros A B C H1 H2. apply slack_sign in H1, H2. destruct (sum_ge b c B C) as (S1 & _ & _). destruct (sum_ge c a C A) as (_ & S2 & _). lra.
Qed.
Lemma slack_upper a b c : side a -> side b -> side c -> 0 < slack a b c -> slack a b c <= ((b + c) * (1 + u) - a) * (1 + u) /\ slack a b c <= (b + c) * (1 + u).
Proof.
  intros A B C H. pose proof (slack_sign' _ _ _ H) as P. pose proof (side_pos _ A). pose proof (side_pos _ B). pose proof (side_pos _ C). pose proof u_bounds as U.
  pose proof (plus_rel b c (proj1 B) (proj1 C) ltac:(lra) ltac:(lra)) as [_ R1].
  pose proof (add_rel (rnd (b + c)) (- a) (rnd_rep _) (rep_opp _ (proj1 A))) as R2. change (rnd (b + c) + - a) with (rnd (b + c) - a) in R2. fold (slack a b c) in R2.
  rewrite (Rabs_pos_eq (rnd (b + c) - a)) in R2 by lra. apply Rabs_le_inv in R2. split.
  - apply Rle_trans with ((rnd (b + c) - a) * (1 + u)); [lra|]. apply Rmult_le_compat_r; lra.
  - apply Rle_trans with (rnd (b + c)); [|exact R1]. unfold slack. rewrite <- (rnd_id (rnd (b + c))) at 2 by apply rnd_rep. apply rnd_le. lra.
Qed.
Lemma tiny_lost a b : representable a -> representable b -> 0 <= a -> 0 < b -> a < b * u / 2 -> rnd (a + b) <= b.
Proof.
  intros A B P Q L. unfold rnd. apply (round_N_le_midp radix2 (FLT_exp (-1074) 53)); [exact B|]. rewrite succ_eq_pos by lra.
  pose proof (ulp_FLT_gt radix2 (-1074) 53 b) as G. rewrite Rabs_pos_eq in G by lra. change (bpow radix2 (- (53))) with u in G. lra.
Qed.
Lemma fact_m a b c : a <= b -> b <= c -> (b + c - a) * a <= b * c. Proof. intros H K. assert (0 <= (b - a) * (c - a)) by (apply Rmult_le_pos; lra). lra. Qed.
Lemma fact_u u : 0 < u <= / 1000000 -> (1 + 7 * u) * (1 + 2400 * u) ^ 2 <= 1 + 5000 * u.
Proof.
  intros U. assert (u * u <= / 1000000 * u) by (apply Rmult_le_compat_r; lra). assert (u * u * u <= / 1000000 * u * u) by (apply Rmult_le_compat_r; lra). assert (/ 1000000 * u * u <= / 1000000 * (/ 1000000 * u)) by lra. lra.
Qed.
Lemma shape_sorted a b c : side a -> side b -> side c -> a <= b <= c -> 0 < slack a b c -> 0 < slack b c a -> 0 < slack c a b ->
  slack a b c * slack b c a * slack c a b <= a * b * c * (1 + 5000 * u).
Proof.
  intros A B C [L1 L2] X Y Z. pose proof (side_pos _ A) as Pa. pose proof (side_pos _ B) as Pb. pose proof (side_pos _ C) as Pc. pose proof u_bounds as U.
  destruct (slack_upper _ _ _ A B C X) as [UX _]. destruct (slack_upper _ _ _ B C A Y) as [UY _]. destruct (slack_upper _ _ _ C A B Z) as [UZ _].
  pose proof (slack_sign' _ _ _ Z) as ZZ. pose proof (plus_rel a b (proj1 A) (proj1 B) ltac:(lra) ltac:(lra)) as [_ R1].
  assert (LB : b * u / 2 <= a).
  { destruct (Rle_lt_dec (b * u / 2) a) as [L|L]; [exact L|]. exfalso. pose proof (tiny_lost a b (proj1 A) (proj1 B) ltac:(lra) Pb L). lra. }
  assert (Cu : c <= (a + b) * (1 + u)) by lra.
  set (x := slack a b c) in *. set (y := slack b c a) in *. set (z := slack c a b) in *.
  assert (U2 : u * u <= u / 1000000) by nra.
  assert (Ub : c <= 21 / 10 * b) by nra. assert (UB : 0 <= u * b) by (apply Rmult_le_pos; lra).
  assert (Yb : y <= (c + a - b) + 7 * (u * b)).
  { apply Rle_trans with (1 := UY). replace (((c + a) * (1 + u) - b) * (1 + u)) with ((c + a - b) + u * (2 * (c + a) - b) + u * u * (c + a)) by ring.
    assert (u * (2 * (c + a) - b) <= u * (52 / 10 * b)) by (apply Rmult_le_compat_l; lra). assert (u * u * (c + a) <= u / 1000000 * (31 / 10 * b)) by (apply Rmult_le_compat; [apply Rmult_le_pos; lra|lra|lra|lra]). lra. }
  assert (Zb : z <= (a + b - c) + 4 * (u * b)).
  { apply Rle_trans with (1 := UZ). replace (((a + b) * (1 + u) - c) * (1 + u)) with ((a + b - c) + u * (2 * (a + b) - c) + u * u * (a + b)) by ring.
    assert (u * (2 * (a + b) - c) <= u * (3 * b)) by (apply Rmult_le_compat_l; lra). assert (u * u * (a + b) <= u / 1000000 * (2 * b)) by (apply Rmult_le_compat; [apply Rmult_le_pos; lra|lra|lra|lra]). lra. }
  assert (Xb : x <= (b + c - a) + 7 * (u * b)).
  { apply Rle_trans with (1 := UX). replace (((b + c) * (1 + u) - a) * (1 + u)) with ((b + c - a) + u * (2 * (b + c) - a) + u * u * (b + c)) by ring.
    assert (u * (2 * (b + c) - a) <= u * (62 / 10 * b)) by (apply Rmult_le_compat_l; lra). assert (u * u * (b + c) <= u / 1000000 * (31 / 10 * b)) by (apply Rmult_le_compat; [apply Rmult_le_pos; lra|lra|lra|lra]). lra. }
  assert (YZ : y * z <= (a + 6 * (u * b)) ^ 2).
  { assert (y + z <= 2 * (a + 6 * (u * b))) by lra. assert (4 * (y * z) <= (y + z) ^ 2) by (pose proof (pow2_ge_0 (y - z)); lra). assert ((y + z) ^ 2 <= (2 * (a + 6 * (u * b))) ^ 2) by (apply pow_incr; lra). lra. }
  assert (K : x * y * z <= ((b + c - a) + 7 * (u * b)) * (a + 6 * (u * b)) ^ 2).
  { rewrite Rmult_assoc. apply Rmult_le_compat; try lra. apply Rmult_le_pos; lra. }
  apply Rle_trans with (1 := K). assert (M : (b + c - a) * a <= b * c) by (apply fact_m; assumption). set (w := b + c - a) in *. assert (Wb : b <= w <= 32 / 10 * b) by (unfold w; lra).
  set (t := u * b) in *. assert (T0 : 0 <= t) by exact UB.
  destruct (Rle_lt_dec b (400 * a)) as [Q|Q].
  - assert (T : t <= 400 * u * a) by (replace (400 * u * a) with (u * (400 * a)) by ring; apply Rmult_le_compat_l; lra).
    assert (E1 : w + 7 * t <= w * (1 + 7 * u)) by (assert (u * b <= u * w) by (apply Rmult_le_compat_l; lra); unfold t; lra).
    assert (E2 : (a + 6 * t) ^ 2 <= (a * (1 + 2400 * u)) ^ 2) by (apply pow_incr; lra).
    apply Rle_trans with (w * (1 + 7 * u) * (a * (1 + 2400 * u)) ^ 2); [apply Rmult_le_compat; try lra; apply pow2_ge_0|].
    replace (w * (1 + 7 * u) * (a * (1 + 2400 * u)) ^ 2) with (w * a * (a * ((1 + 7 * u) * (1 + 2400 * u) ^ 2))) by ring.
    replace (a * b * c * (1 + 5000 * u)) with (b * c * (a * (1 + 5000 * u))) by ring.
    assert (E3 : (1 + 7 * u) * (1 + 2400 * u) ^ 2 <= 1 + 5000 * u) by (apply fact_u; lra).
    apply Rmult_le_compat; [nra| |exact M|apply Rmult_le_compat_l; lra]. apply Rmult_le_pos; [lra|]. apply Rmult_le_pos; [lra|apply pow2_ge_0].
  - assert (T : t <= 2 * a) by (unfold t; lra).
    assert (E1 : w + 7 * t <= 21 / 10 * b). { assert (u * b <= / 1000000 * b) by (apply Rmult_le_compat_r; lra). assert (u * (a + b) <= / 1000000 * (a + b)) by (apply Rmult_le_compat_r; lra). unfold w, t. lra. }
    assert (E2 : (a + 6 * t) ^ 2 <= (13 * a) ^ 2) by (apply pow_incr; lra).
    apply Rle_trans with (21 / 10 * b * (13 * a) ^ 2); [apply Rmult_le_compat; try lra; apply pow2_ge_0|].
    apply Rle_trans with (a * b * c * 1); [|apply Rmult_le_compat_l; [repeat apply Rmult_le_pos; lra|lra]].
    replace (21 / 10 * b * (13 * a) ^ 2) with (a * b * (354.9 * a)) by lra. rewrite Rmult_1_r. apply Rmult_le_compat_l; [apply Rmult_le_pos; lra|lra].
Qed.
Lemma shape_up a b c : side a -> side b -> side c -> 0 < slack a b c -> 0 < slack b c a -> 0 < slack c a b ->
  slack a b c * slack b c a * slack c a b <= a * b * c * (1 + 5000 * u).
Proof.
  intros A B C X Y Z. assert (S : forall a b c, side a -> side b -> side c -> a <= b -> 0 < slack a b c -> 0 < slack b c a -> 0 < slack c a b -> slack a b c * slack b c a * slack c a b <= a * b * c * (1 + 5000 * u)).
  { clear. intros a b c A B C L X Y Z. destruct (Rle_lt_dec b c) as [H|H]; [apply shape_sorted; auto|]. destruct (Rle_lt_dec a c) as [K|K].
    - pose proof (shape_sorted a c b A C B ltac:(lra)) as Q. rewrite (slack_sym a c b), (slack_sym c b a), (slack_sym b a c) in Q. specialize (Q X Z Y). lra.
    - pose proof (shape_sorted c a b C A B ltac:(lra) Z X Y) as Q. lra. }
  destruct (Rle_lt_dec a b) as [H|H]; [apply S; auto|]. pose proof (S b a c B A C ltac:(lra)) as Q. rewrite (slack_sym b a c), (slack_sym a c b), (slack_sym c b a) in Q. specialize (Q Y X Z). lra.
Qed.

(** * All cases *)
Lemma fdouble x : finite_double x -> val x = 0 -> exists s, x = S754_zero s.
Proof.
  intros F E. destruct x as [s|s| |s m e]; [exists s; reflexivity|destruct F as [_ F]; discriminate F|destruct F as [_ F]; discriminate F|].
  exfalso. unfold val, SF2R in E. apply eq_0_F2R in E. destruct s; discriminate E.
Qed.
Definition fside (a : spec_float) : Prop := finite_double a /\ side (val a).
Lemma huge_big k x : (k <= 1000)%Z -> Rabs x <= bp k -> Rabs x < huge.
Proof. intros K L. apply Rle_lt_trans with (1 := L). apply bpow_lt. lia. Qed.
Lemma sum_f a b : fside a -> fside b -> finite_double (fadd a b) /\ val (fadd a b) = rnd (val a + val b).
Proof.
  intros [Fa A] [Fb B]. destruct (sum_ge _ _ A B) as (S1 & _ & S3). apply (add_rounds a b Fa Fb). apply huge_big with 63%Z; [lia|]. pose proof (side_pos _ A). rewrite Rabs_pos_eq; lra.
Qed.
Lemma slack_f a b c : fside a -> fside b -> fside c -> finite_double (fsub (fadd b c) a) /\ val (fsub (fadd b c) a) = slack (val a) (val b) (val c).
Proof.
  intros A B C. destruct (sum_f _ _ B C) as [F V]. unfold slack. rewrite <- V. apply (sub_rounds _ _ F (proj1 A)). rewrite V.
  destruct (sum_ge _ _ (proj2 B) (proj2 C)) as (S1 & _ & S3). pose proof (side_pos _ (proj2 B)). pose proof (side_pos _ (proj2 A)). destruct (proj2 A) as (_ & _ & A2).
  apply huge_big with 63%Z; [lia|]. apply rnd_abs_le; [apply rep_bp; lia|]. assert (bp 62 <= bp 63) by (apply bpow_le; lia). apply Rabs_le. lra.
Qed.
Lemma perim_f a b c : fside a -> fside b -> fside c -> finite_double (fadd (fadd a b) c) /\ rng 64 (val (fadd (fadd a b) c)) /\ nr (v1 * v1) (val (fadd (fadd a b) c)) (val a + val b + val c).
Proof.
  intros A B C. destruct (sum_f _ _ A B) as [F V]. destruct (sum_ge _ _ (proj2 A) (proj2 B)) as (S1 & S2 & S3). rewrite <- V in *.
  pose proof (side_pos _ (proj2 A)) as Pa. pose proof (side_pos _ (proj2 B)) as Pb. pose proof (side_pos _ (proj2 C)) as Pc. destruct (proj2 A) as (_ & A1 & A2), (proj2 C) as (_ & _ & C2).
  assert (R : rng 64 (rnd (val (fadd a b) + val c))).
  { split; [apply rnd_ge; [apply rep_bp; lia|]; apply Rle_trans with (val a); [|lra]; apply Rle_trans with (2 := A1); apply bpow_le; lia|].
    rewrite <- (rnd_id (bp 64)) by (apply rep_bp; lia). apply rnd_le. change (bp 64) with (bp (63 + 1)). rewrite bpow_plus. change (bp 1) with 2. assert (bp 62 <= bp 63) by (apply bpow_le; lia). lra. }
  destruct (proj1 (add_rounds _ _ F (proj1 C))) as [F2 V2]. { apply huge_big with 64%Z; [lia|]. pose proof (rng_pos _ _ R). rewrite Rabs_pos_eq by lra. apply R. }
  split; [exact F2|]. rewrite V2. split; [exact R|].
  apply nr_trans with (val (fadd a b) + val c); auto with fac.
  - apply plus_nr; [apply format_val, F|apply format_val, C|lra|lra].
  - pose proof (plus_nr (val a) (val b) (format_val _ (proj1 A)) (format_val _ (proj1 B)) ltac:(lra) ltac:(lra)) as N. rewrite <- V in N. apply nr_plus; [exact N|].
    apply nr_weaken with 1; [auto with fac| |apply nr_refl; lra]. destruct factor1. lra.
Qed.
Lemma mul_zero x y : finite_double x -> finite_double y -> val x = 0 \/ val y = 0 -> finite_double (fmul x y) /\ val (fmul x y) = 0.
Proof.
  intros F F' E. assert (Z : val x * val y = 0) by (destruct E as [-> | ->]; ring). pose proof (mul_rounds x y F F') as M. rewrite Z, (rnd_id 0), Rabs_R0 in M by apply rep_0. apply M, huge_pos.
Qed.
Lemma mul_fin j k x y : finite_double x -> finite_double y -> (j + k <= 1000)%Z -> (-1000 <= j + k)%Z -> Rabs (val x) <= bp j -> Rabs (val y) <= bp k -> finite_double (fmul x y) /\ val (fmul x y) = rnd (val x * val y) /\ Rabs (val (fmul x y)) <= bp (j + k).
Proof.
  intros F F' K K' X Y. assert (B : Rabs (rnd (val x * val y)) <= bp (j + k)).
  { apply rnd_abs_le; [apply rep_bp; lia|]. rewrite Rabs_mult, bpow_plus. apply Rmult_le_compat; auto using Rabs_pos. }
  destruct (mul_rounds x y F F') as [F2 V]; [apply huge_big with (j + k)%Z; assumption|]. rewrite V. auto.
Qed.
Lemma mul_nz j k x y : finite_double x -> finite_double y -> (0 <= j + k <= 1000)%Z -> rng j (Rabs (val x)) -> rng k (Rabs (val y)) -> finite_double (fmul x y) /\ rng (j + k) (Rabs (val (fmul x y))) /\ (val (fmul x y) < 0 <-> val x * val y < 0).
Proof.
  intros F F' K X Y. pose proof (rng_mul _ _ _ _ X Y) as R. rewrite <- Rabs_mult in R.
  assert (RR : rng (j + k) (Rabs (rnd (val x * val y)))).
  { split; [|apply rnd_abs_le; [apply rep_bp; lia|apply R]]. rewrite <- (Rabs_pos_eq (bp (- (j + k)))) by apply bpow_ge_0. rewrite <- (rnd_id (bp (- (j + k)))) by (apply rep_bp; lia). apply rnd_abs_mono'. rewrite (Rabs_pos_eq (bp _)) by apply bpow_ge_0. apply R. }
  destruct (mul_rounds x y F F') as [F2 V]; [apply huge_big with (j + k)%Z; [lia|apply RR]|]. split; [exact F2|]. rewrite V. split; [exact RR|].
  pose proof (rng_pos _ _ RR) as P. split; intros L.
  - destruct (Rlt_le_dec (val x * val y) 0) as [Q|Q]; [exact Q|]. pose proof (rnd_sign_pos _ Q). lra.
  - pose proof (rnd_sign_neg (val x * val y) ltac:(lra)). destruct (Req_dec (rnd (val x * val y)) 0) as [Q|Q]; [rewrite Q, Rabs_R0 in P; lra|lra].
Qed.
Lemma sqrt_neg x : finite_double x -> val x < 0 -> fsqrt x = S754_nan.
Proof.
  intros F L. destruct x as [s|s| |s m e]; try (destruct F as [_ F]; discriminate F).
  - unfold val, SF2R in L. lra.
  - destruct s; [reflexivity|]. unfold val, SF2R in L. pose proof (F2R_ge_0 radix2 (Float radix2 (Zpos m) e)) as G. cbn [cond_Zopp Fnum] in *. specialize (G ltac:(lia)). lra.
Qed.
Lemma div_nan x : fdiv x S754_nan = S754_nan. Proof. destruct x as [[]|[]| |[] m e]; reflexivity. Qed.

Inductive outcome (a b c : spec_float) : Prop :=
| Negative : qual_of_lengths_f a b c = S754_nan -> (slack (val a) (val b) (val c) < 0 \/ slack (val b) (val c) (val a) < 0 \/ slack (val c) (val a) (val b) < 0) -> outcome a b c
| Zero : finite_double (qual_of_lengths_f a b c) -> val (qual_of_lengths_f a b c) = 0 -> (slack (val a) (val b) (val c) = 0 \/ slack (val b) (val c) (val a) = 0 \/ slack (val c) (val a) (val b) = 0) -> outcome a b c
| Positive : 0 < slack (val a) (val b) (val c) -> 0 < slack (val b) (val c) (val a) -> 0 < slack (val c) (val a) (val b) ->
    good (v1 ^ 13) 990 (qual_of_lengths_f a b c) (quality (slack (val a) (val b) (val c)) (slack (val b) (val c) (val a)) (slack (val c) (val a) (val b)) (val (fadd (fadd a b) c)) (val a) (val b) (val c)) -> outcome a b c.
Lemma zero_case a b c x y z s : fsub (fadd b c) a = x -> fsub (fadd c a) b = y -> fsub (fadd a b) c = z -> fadd (fadd a b) c = s ->
  fside a -> fside b -> fside c -> finite_double x -> finite_double y -> finite_double z -> finite_double s -> rng 64 (val s) ->
  Rabs (val x) <= bp 63 -> Rabs (val y) <= bp 63 -> Rabs (val z) <= bp 63 -> val x = 0 \/ val y = 0 \/ val z = 0 ->
  finite_double (qual_of_lengths_f a b c) /\ val (qual_of_lengths_f a b c) = 0.
Proof.
  intros X Y Z S A B C Fx Fy Fz Fs Rs Bx By Bz E. unfold qual_of_lengths_f, mult1_f, denom1_f. rewrite X, Y, Z, S.
  pose proof (rng_pos _ _ Rs) as Ps. assert (Bs : Rabs (val s) <= bp 64) by (rewrite Rabs_pos_eq by lra; apply Rs).
  assert (M : finite_double (fmul (fmul x y) z) /\ val (fmul (fmul x y) z) = 0).
  { destruct (mul_fin 63 63 x y Fx Fy ltac:(lia) ltac:(lia) Bx By) as (F1 & _ & _). apply mul_zero; try assumption.
    destruct E as [E|[E|E]]; [left; apply mul_zero; auto|left; apply mul_zero; auto|right; exact E]. }
  assert (D : finite_double (fmul (fmul (fmul s x) y) z) /\ val (fmul (fmul (fmul s x) y) z) = 0).
  { destruct (mul_fin 64 63 s x Fs Fx ltac:(lia) ltac:(lia) Bs Bx) as (F1 & _ & B1). destruct (mul_fin (64 + 63) 63 _ y F1 Fy ltac:(lia) ltac:(lia) B1 By) as (F2 & _ & B2). apply mul_zero; try assumption.
    destruct E as [E|[E|E]]; [left; apply mul_zero; auto; left; apply mul_zero; auto|left; apply mul_zero; auto|right; exact E]. }
  destruct M as [FM VM], D as [FD VD]. destruct (fdouble _ FM VM) as [s1 ->]. destruct (fdouble _ FD VD) as [s2 ->].
  pose proof (good_exact 62 a (proj1 A) (side_rng _ (proj2 A))) as Ga. pose proof (good_exact 62 b (proj1 B) (side_rng _ (proj2 B))) as Gb. pose proof (good_exact 62 c (proj1 C) (side_rng _ (proj2 C))) as Gc.
  pose proof (gmul _ _ _ _ _ _ _ _ Ga Gb ltac:(auto 20 with fac) ltac:(auto 20 with fac) ltac:(lia)) as H1. pose proof (gmul _ _ _ _ _ _ _ _ H1 Gc ltac:(auto 20 with fac) ltac:(auto 20 with fac) ltac:(lia)) as H2.
  destruct H2 as (F3 & _ & R3). pose proof (rng_pos _ _ R3) as P3. set (p := fmul (fmul a b) c) in *.
  assert (Q : forall s2, exists s4, fdiv p (fsqrt (S754_zero s2)) = S754_infinity s4).
  { intros q. destruct p as [t|t| |t m e]; [unfold val in P3; cbn in P3; lra|destruct F3 as [_ F3]; discriminate F3|destruct F3 as [_ F3]; discriminate F3|]. exists (xorb t q). destruct q; reflexivity. }
  destruct (Q s2) as [s4 ->].
  assert (W : exists s3, fdiv (S754_zero s1) s = S754_zero s3).
  { destruct s as [t|t| |t m e]; [unfold val in Ps; cbn in Ps; lra|destruct Fs as [_ Fs]; discriminate Fs|destruct Fs as [_ Fs]; discriminate Fs|]. exists (xorb s1 t). reflexivity. }
  destruct W as [s3 ->]. destruct s3, s4; (split; [split; reflexivity|reflexivity]).
Qed.
Lemma outcomes a b c : fside a -> fside b -> fside c -> outcome a b c.
Proof.
  intros A B C. destruct (slack_f _ _ _ A B C) as [Fx Vx]. destruct (slack_f _ _ _ B C A) as [Fy Vy]. destruct (slack_f _ _ _ C A B) as [Fz Vz].
  destruct (perim_f _ _ _ A B C) as (Fs & Rs & _).
  assert (Bd : forall a b c, side a -> side b -> side c -> Rabs (slack a b c) <= bp 63).
  { clear. intros a b c A B C. unfold slack. destruct (sum_ge _ _ B C) as (S1 & _ & S3). pose proof (side_pos _ B). pose proof (side_pos _ A). destruct A as (_ & _ & A2).
    apply rnd_abs_le; [apply rep_bp; lia|]. assert (bp 62 <= bp 63) by (apply bpow_le; lia). apply Rabs_le. lra. }
  pose proof (Bd _ _ _ (proj2 A) (proj2 B) (proj2 C)) as Bx. pose proof (Bd _ _ _ (proj2 B) (proj2 C) (proj2 A)) as By. pose proof (Bd _ _ _ (proj2 C) (proj2 A) (proj2 B)) as Bz.
  destruct (Req_dec (slack (val a) (val b) (val c)) 0) as [Ex|Nx]; [|destruct (Req_dec (slack (val b) (val c) (val a)) 0) as [Ey|Ny]; [|destruct (Req_dec (slack (val c) (val a) (val b)) 0) as [Ez|Nz]]].
  1-3: destruct (zero_case a b c _ _ _ _ eq_refl eq_refl eq_refl eq_refl A B C Fx Fy Fz Fs Rs) as [F V]; rewrite ?Vx, ?Vy, ?Vz; try assumption; [tauto|apply Zero; tauto].
  pose proof (slack_range _ _ _ (proj2 A) (proj2 B) (proj2 C) Nx) as Lx. pose proof (slack_range _ _ _ (proj2 B) (proj2 C) (proj2 A) Ny) as Ly. pose proof (slack_range _ _ _ (proj2 C) (proj2 A) (proj2 B) Nz) as Lz.
  assert (I : bp 63 <= bp 112) by (apply bpow_le; lia).
  assert (Rx : rng 112 (Rabs (slack (val a) (val b) (val c)))) by (split; [exact Lx|lra]). assert (Ry : rng 112 (Rabs (slack (val b) (val c) (val a)))) by (split; [exact Ly|lra]). assert (Rz : rng 112 (Rabs (slack (val c) (val a) (val b)))) by (split; [exact Lz|lra]).
  pose proof (two_neg _ _ _ (proj2 A) (proj2 B) (proj2 C)) as T1. pose proof (two_neg _ _ _ (proj2 B) (proj2 C) (proj2 A)) as T2. pose proof (two_neg _ _ _ (proj2 C) (proj2 A) (proj2 B)) as T3.
  set (xr := slack (val a) (val b) (val c)) in *. set (yr := slack (val b) (val c) (val a)) in *. set (zr := slack (val c) (val a) (val b)) in *.
  assert (D : (0 < xr /\ 0 < yr /\ 0 < zr) \/ (xr * yr * zr < 0 /\ (xr < 0 \/ yr < 0 \/ zr < 0))).
  { destruct (Rlt_le_dec xr 0) as [X|X]; [|destruct (Rlt_le_dec yr 0) as [Y|Y]; [|destruct (Rlt_le_dec zr 0) as [Z|Z]]].
    - right. split; [|tauto]. assert (0 < yr) by (destruct (Rlt_le_dec yr 0); [exfalso; tauto|lra]). assert (0 < zr) by (destruct (Rlt_le_dec zr 0); [exfalso; tauto|lra]). pose proof (Rmult_lt_0_compat yr zr ltac:(lra) ltac:(lra)). nra.
    - right. split; [|tauto]. assert (0 < zr) by (destruct (Rlt_le_dec zr 0); [exfalso; tauto|lra]). pose proof (Rmult_lt_0_compat xr zr ltac:(lra) ltac:(lra)). nra.
    - right. split; [|tauto]. pose proof (Rmult_lt_0_compat xr yr ltac:(lra) ltac:(lra)). nra.
    - left. lra. }
  destruct D as [(X & Y & Z)|[N W]].
  - apply Positive; try assumption. fold xr yr zr. rewrite Rabs_pos_eq in Rx, Ry, Rz by lra.
    pose proof (core a b c _ _ _ _ eq_refl eq_refl eq_refl eq_refl (proj1 A) (proj1 B) (proj1 C) Fx Fy Fz Fs (side_rng _ (proj2 A)) (side_rng _ (proj2 B)) (side_rng _ (proj2 C))) as K.
    rewrite Vx, Vy, Vz in K. apply K; assumption.
  - apply Negative; [|exact W]. unfold qual_of_lengths_f, denom1_f.
    rewrite <- Vx in Rx, N. rewrite <- Vy in Ry, N. rewrite <- Vz in Rz, N. set (x := fsub (fadd b c) a) in *. set (y := fsub (fadd c a) b) in *. set (z := fsub (fadd a b) c) in *. set (s := fadd (fadd a b) c) in *.
    pose proof (rng_pos _ _ Rs) as Ps. assert (Rs' : rng 64 (Rabs (val s))) by (rewrite Rabs_pos_eq by lra; exact Rs).
    destruct (mul_nz 64 112 s x Fs Fx ltac:(lia) Rs' Rx) as (F1 & R1 & N1). destruct (mul_nz (64 + 112) 112 _ y F1 Fy ltac:(lia) R1 Ry) as (F2 & R2 & N2). destruct (mul_nz (64 + 112 + 112) 112 _ z F2 Fz ltac:(lia) R2 Rz) as (F3 & R3 & N3).
    rewrite (sqrt_neg _ F3); [rewrite !div_nan; reflexivity|]. apply N3.
    pose proof (rng_pos _ _ R1) as Q1. pose proof (rng_pos _ _ R2) as Q2. pose proof (rng_pos _ _ Rx) as Qx. pose proof (rng_pos _ _ Ry) as Qy. pose proof (rng_pos _ _ Rz) as Qz.
    clearbody x y z s. clear - N N1 N2 Ps Q1 Q2 Qx Qy Qz. set (v1 := val (fmul s x)) in *. set (v2 := val (fmul (fmul s x) y)) in *. clearbody v1 v2.
    assert (nz : forall t, 0 < Rabs t -> t <> 0) by (intros t H E; rewrite E, Rabs_R0 in H; lra). apply nz in Q1, Q2, Qx, Qy, Qz.
    assert (S1 : v1 < 0 <-> val x < 0) by (rewrite N1; split; intros; nra).
    assert (S2 : v2 < 0 <-> val x * val y < 0). { rewrite N2. destruct (Rlt_le_dec (val x) 0) as [L|L]; destruct (Rlt_le_dec (val y) 0) as [M|M]; destruct (Rlt_le_dec v1 0) as [K|K]; try (exfalso; tauto || lra); split; intros; nra. }
    destruct (Rlt_le_dec (val x * val y) 0) as [L|L]; destruct (Rlt_le_dec (val z) 0) as [M|M]; destruct (Rlt_le_dec v2 0) as [K|K]; try (exfalso; tauto || lra); nra.
Qed.

(** * Edge lengths *)
Lemma sub_len x y : finite_double x -> finite_double y -> Rabs (val x) <= 2 ^ 60 -> Rabs (val y) <= 2 ^ 60 -> spaced x y ->
  finite_double (fmul (fsub x y) (fsub x y)) /\ nr (v1 * (v1 * v1)) (val (fmul (fsub x y) (fsub x y))) ((val x - val y) ^ 2) /\
  (val x = val y \/ bp (-120) <= val (fmul (fsub x y) (fsub x y))) /\ val (fmul (fsub x y) (fsub x y)) <= bp 122 /\ val (fmul (fsub x y) (fsub x y)) = rnd (rnd (val x - val y) * rnd (val x - val y)).
Proof.
  intros Fx Fy Bx By S. assert (P60 : 2 ^ 60 = bp 60) by (cbn; lra).
  rewrite P60 in Bx, By. assert (D : Rabs (val x - val y) <= bp 61).
  { change 61%Z with (60 + 1)%Z. rewrite bpow_plus. change (bp 1) with 2. pose proof (Rabs_triang (val x) (- val y)) as T. rewrite Rabs_Ropp in T. unfold Rminus. lra. }
  assert (Dr : Rabs (rnd (val x - val y)) <= bp 61) by (apply rnd_abs_le; [apply rep_bp; lia|exact D]).
  destruct (proj1 (sub_rounds x y Fx Fy)) as [F V]; [apply huge_big with 61%Z; [lia|exact Dr]|].
  destruct (mul_fin 61 61 _ _ F F ltac:(lia) ltac:(lia)) as (F2 & V2 & B2); [rewrite V; exact Dr|rewrite V; exact Dr|].
  split; [exact F2|]. assert (U2 : val (fmul (fsub x y) (fsub x y)) <= bp 122) by (apply Rle_trans with (2 := B2), Rle_abs).
  rewrite V2, V in *. set (t := val x - val y) in *. set (r := rnd t) in *.
  assert (N1 : nr v1 (Rabs r) (Rabs t)).
  { pose proof (add_rel (val x) (- val y) (format_val _ Fx) (rep_opp _ (format_val _ Fy))) as R. change (val x + - val y) with t in R. fold r in R. apply up_dn; [apply Rabs_pos|].
    pose proof (Rabs_triang_inv r t) as T1. pose proof (Rabs_triang_inv t r) as T2. rewrite (Rabs_minus_sym t r) in T2. lra. }
  assert (N2 : nr (v1 * v1) (r * r) (t ^ 2)).
  { replace (r * r) with (Rabs r * Rabs r) by (rewrite <- Rabs_mult; apply Rabs_pos_eq; nra). replace (t ^ 2) with (Rabs t * Rabs t) by (rewrite <- Rabs_mult; replace (t * t) with (t ^ 2) by ring; apply Rabs_pos_eq, pow2_ge_0). apply nr_mul; auto with fac. }
  destruct S as [E|S].
  - assert (Z : t = 0) by (unfold t; lra). assert (R0 : r = 0) by (unfold r; rewrite Z; apply rnd_id, rep_0). rewrite R0 in *. rewrite Rmult_0_l in *. rewrite (rnd_id 0) in * by apply rep_0. rewrite Z. split; [|split; [auto|split; [exact U2|]]]; [|reflexivity].
    repeat split; cbn; lra.
  - assert (S' : bp (-60) <= Rabs t) by (apply Rle_trans with (2 := S); right; rewrite P60, <- bpow_opp; reflexivity).
    assert (R1 : bp (-60) <= Rabs r). { rewrite <- (Rabs_pos_eq (bp (-60))) by apply bpow_ge_0. rewrite <- (rnd_id (bp (-60))) by (apply rep_bp; lia). apply rnd_abs_mono'. rewrite (Rabs_pos_eq (bp _)) by apply bpow_ge_0. exact S'. }
    assert (R2 : bp (-120) <= r * r). { change (-120)%Z with (-60 + -60)%Z. rewrite bpow_plus. replace (r * r) with (Rabs r * Rabs r) by (rewrite <- Rabs_mult; apply Rabs_pos_eq; nra). apply Rmult_le_compat; auto using bpow_ge_0. }
    split; [|split; [right; apply rnd_ge; [apply rep_bp; lia|exact R2]|split; [exact U2|reflexivity]]].
    apply nr_trans with (r * r); auto with fac. apply rnd_nr. apply Rle_trans with (2 := R2). apply bpow_le. lia.
Qed.
Definition lenr (p q : R * R) : R :=
  let dx := rnd (fst p - fst q) in let dy := rnd (snd p - snd q) in rnd (sqrt (rnd (rnd (dx * dx) + rnd (dy * dy)))).
Lemma lenr_sym p q : lenr p q = lenr q p.
Proof.
  assert (E : forall x y, rnd (x - y) * rnd (x - y) = rnd (y - x) * rnd (y - x)). { intros x y. replace (x - y) with (- (y - x)) by ring. rewrite rnd_opp. ring. }
  unfold lenr. cbn zeta. rewrite (E (fst p)), (E (snd p)). reflexivity.
Qed.
Lemma length_case p q : moderate p -> moderate q -> spaced2 p q -> val (length_f (rsub_f p q)) = lenr (at_point p) (at_point q) /\ (
  (at_point p = at_point q /\ finite_double (length_f (rsub_f p q)) /\ val (length_f (rsub_f p q)) = 0) \/
  (at_point p <> at_point q /\ fside (length_f (rsub_f p q)) /\ nr (v1 ^ 3) (val (length_f (rsub_f p q))) (dist2d (at_point p) (at_point q)))).
Proof.
  intros (Fp1 & Fp2 & Bp1 & Bp2) (Fq1 & Fq2 & Bq1 & Bq2) [S1 S2]. unfold length_f, rsub_f, at_point, dist2d. cbn [fst snd].
  destruct (sub_len _ _ Fp1 Fq1 Bp1 Bq1 S1) as (F1 & N1 & L1 & U1 & Q1). destruct (sub_len _ _ Fp2 Fq2 Bp2 Bq2 S2) as (F2 & N2 & L2 & U2 & Q2).
  set (a := fmul _ _) in *. set (b := fmul (fsub (snd p) (snd q)) _) in *. set (da := (val (fst p) - val (fst q)) ^ 2) in *. set (db := (val (snd p) - val (snd q)) ^ 2) in *.
  assert (W3 : factor (v1 * (v1 * v1))) by auto with fac. pose proof (nr_nn _ _ _ W3 N1) as Pa. pose proof (nr_nn _ _ _ W3 N2) as Pb.
  assert (UB : rnd (val a + val b) <= bp 123). { rewrite <- (rnd_id (bp 123)) by (apply rep_bp; lia). apply rnd_le. change 123%Z with (122 + 1)%Z. rewrite bpow_plus. change (bp 1) with 2. lra. }
  assert (NB : 0 <= rnd (val a + val b)) by (apply rnd_sign_pos; lra).
  destruct (proj1 (add_rounds a b F1 F2)) as [F3 V3]. { apply huge_big with 123%Z; [lia|]. rewrite Rabs_pos_eq; assumption. }
  destruct (sqrt_ok (fadd a b) F3 ltac:(rewrite V3; exact NB)) as [F4 V4]. rewrite V3 in V4.
  split; [rewrite V4, Q1, Q2; reflexivity|].
  assert (D : (val (fst p) = val (fst q) /\ val (snd p) = val (snd q)) \/ ((val (fst p), val (snd p)) <> (val (fst q), val (snd q)) /\ bp (-120) <= val a + val b)).
  { destruct (Req_dec (val (fst p)) (val (fst q))) as [E1|E1]; [destruct (Req_dec (val (snd p)) (val (snd q))) as [E2|E2]; [left; auto|]|]; right; (split; [congruence|]).
    - destruct L2 as [L2|L2]; [contradiction|lra].
    - destruct L1 as [L1|L1]; [contradiction|lra]. }
  destruct D as [[E1 E2]|[NE LB]].
  - left. rewrite E1, E2. split; [reflexivity|]. split; [exact F4|]. rewrite V4.
    assert (Za : val a = 0). { unfold da in N1. rewrite E1 in N1. destruct N1 as (_ & _ & N1). destruct W3 as [W3 _]. nra. }
    assert (Zb : val b = 0). { unfold db in N2. rewrite E2 in N2. destruct N2 as (_ & _ & N2). destruct W3 as [W3 _]. nra. }
    rewrite Za, Zb, Rplus_0_r, (rnd_id 0), sqrt_0, (rnd_id 0) by apply rep_0. reflexivity.
  - right. split; [exact NE|]. assert (LR : bp (-120) <= rnd (val a + val b)) by (apply rnd_ge; [apply rep_bp; lia|exact LB]).
    assert (LS : bp (-60) <= sqrt (rnd (val a + val b))). { rewrite <- (sqrt_square (bp (-60))) by apply bpow_ge_0. rewrite <- bpow_plus. apply sqrt_le_1_alt. exact LR. }
    assert (US : sqrt (rnd (val a + val b)) <= bp 62). { rewrite <- (sqrt_square (bp 62)) by apply bpow_ge_0. rewrite <- bpow_plus. apply sqrt_le_1_alt. apply Rle_trans with (1 := UB). apply bpow_le. lia. }
    split.
    + split; [exact F4|]. rewrite V4. split; [apply rnd_rep|]. split; [apply rnd_ge; [apply rep_bp; lia|exact LS]|]. rewrite <- (rnd_id (bp 62)) by (apply rep_bp; lia). apply rnd_le, US.
    + rewrite V4. replace (v1 ^ 3) with (v1 * (v1 * v1)) by ring. apply nr_trans with (sqrt (rnd (val a + val b))); auto with fac.
      * apply rnd_nr. apply Rle_trans with (2 := LS). apply bpow_le. lia.
      * apply nr_sqrt; [auto with fac|]. replace (v1 * v1 * (v1 * v1)) with (v1 * (v1 * (v1 * v1))) by ring. apply nr_trans with (val a + val b); auto with fac.
        -- apply plus_nr; auto using format_val.
        -- apply nr_plus; assumption.
Qed.

(** * Results *)
Lemma nan_case a b c : finite_double a -> finite_double b -> finite_double c -> 0 <= val a <= bp 62 -> 0 <= val b <= bp 62 -> 0 <= val c <= bp 62 ->
  val a = 0 \/ val b = 0 \/ val c = 0 -> slack (val a) (val b) (val c) = 0 \/ slack (val b) (val c) (val a) = 0 \/ slack (val c) (val a) (val b) = 0 -> qual_of_lengths_f a b c = S754_nan.
Proof.
  intros Fa Fb Fc Ba Bb Bc Z0 S0.
  assert (AD : forall a b, finite_double a -> finite_double b -> 0 <= val a <= bp 62 -> 0 <= val b <= bp 62 -> finite_double (fadd a b) /\ val (fadd a b) = rnd (val a + val b) /\ 0 <= rnd (val a + val b) <= bp 63).
  { clear. intros a b Fa Fb Ba Bb. assert (U : 0 <= rnd (val a + val b) <= bp 63).
    { split; [apply rnd_sign_pos; lra|]. rewrite <- (rnd_id (bp 63)) by (apply rep_bp; lia). apply rnd_le. change 63%Z with (62 + 1)%Z. rewrite bpow_plus. change (bp 1) with 2. lra. }
    destruct (proj1 (add_rounds a b Fa Fb)) as [F V]; [apply huge_big with 63%Z; [lia|rewrite Rabs_pos_eq by lra; apply U]|]. auto. }
  assert (I : bp 62 <= bp 63) by (apply bpow_le; lia).
  assert (SL : forall a b c, finite_double a -> finite_double b -> finite_double c -> 0 <= val a <= bp 62 -> 0 <= val b <= bp 62 -> 0 <= val c <= bp 62 -> finite_double (fsub (fadd b c) a) /\ val (fsub (fadd b c) a) = slack (val a) (val b) (val c) /\ Rabs (slack (val a) (val b) (val c)) <= bp 63).
  { clear - AD I. intros a b c Fa Fb Fc Ba Bb Bc. destruct (AD b c Fb Fc Bb Bc) as (F & V & U). assert (B : Rabs (slack (val a) (val b) (val c)) <= bp 63).
    { unfold slack. apply rnd_abs_le; [apply rep_bp; lia|]. apply Rabs_le. lra. }
    unfold slack in *. rewrite <- V in *. destruct (proj1 (sub_rounds _ a F Fa)) as [F2 V2]; [apply huge_big with 63%Z; [lia|exact B]|]. auto. }
  destruct (SL _ _ _ Fa Fb Fc Ba Bb Bc) as (Fx & Vx & Bx). destruct (SL _ _ _ Fb Fc Fa Bb Bc Ba) as (Fy & Vy & By). destruct (SL _ _ _ Fc Fa Fb Bc Ba Bb) as (Fz & Vz & Bz).
  rewrite <- Vx in *. rewrite <- Vy in *. rewrite <- Vz in *.
  assert (SS : finite_double (fadd (fadd a b) c) /\ Rabs (val (fadd (fadd a b) c)) <= bp 64).
  { destruct (AD a b Fa Fb Ba Bb) as (F & V & U). assert (B : Rabs (rnd (val (fadd a b) + val c)) <= bp 64).
    { apply rnd_abs_le; [apply rep_bp; lia|]. change 64%Z with (63 + 1)%Z. rewrite bpow_plus. change (bp 1) with 2. rewrite V. apply Rabs_le. lra. }
    destruct (proj1 (add_rounds _ c F Fc)) as [F2 V2]; [apply huge_big with 64%Z; [lia|exact B]|]. rewrite V2. auto. }
  destruct SS as [Fs Bs]. unfold qual_of_lengths_f, denom1_f.
  set (x := fsub (fadd b c) a) in *. set (y := fsub (fadd c a) b) in *. set (z := fsub (fadd a b) c) in *. set (s := fadd (fadd a b) c) in *.
  assert (D : finite_double (fmul (fmul (fmul s x) y) z) /\ val (fmul (fmul (fmul s x) y) z) = 0).
  { destruct (mul_fin 64 63 s x Fs Fx ltac:(lia) ltac:(lia) Bs Bx) as (F1 & _ & B1). destruct (mul_fin (64 + 63) 63 _ y F1 Fy ltac:(lia) ltac:(lia) B1 By) as (F2 & _ & B2). apply mul_zero; try assumption.
    destruct S0 as [E|[E|E]]; [left; apply mul_zero; auto; left; apply mul_zero; auto|left; apply mul_zero; auto|right; exact E]. }
  assert (AA : forall a, 0 <= val a <= bp 62 -> Rabs (val a) <= bp 62) by (intros ? K; rewrite Rabs_pos_eq; lra).
  assert (M : finite_double (fmul (fmul a b) c) /\ val (fmul (fmul a b) c) = 0).
  { destruct (mul_fin 62 62 a b Fa Fb ltac:(lia) ltac:(lia)) as (F1 & _ & _); auto. apply mul_zero; try assumption.
    destruct Z0 as [E|[E|E]]; [left; apply mul_zero; auto|left; apply mul_zero; auto|right; exact E]. }
  destruct M as [FM VM], D as [FD VD]. destruct (fdouble _ FM VM) as [s1 ->]. destruct (fdouble _ FD VD) as [s2 ->].
  replace (fdiv (S754_zero s1) (fsqrt (S754_zero s2))) with S754_nan by (destruct s1, s2; reflexivity). apply div_nan.
Qed.
Lemma slack_same a : representable a -> slack a 0 a = 0 /\ slack a a 0 = 0.
Proof. intros R. unfold slack. rewrite Rplus_0_l, Rplus_0_r, (rnd_id a) by exact R. replace (a - a) with 0 by ring. split; apply rnd_id, rep_0. Qed.
Lemma spaced2_sym p q : spaced2 p q -> spaced2 q p.
Proof.
  assert (S : forall x y, spaced x y -> spaced y x). { intros x y [E|L]; [left; congruence|right]. rewrite Rabs_minus_sym. exact L. }
  intros [A B]. split; apply S; assumption.
Qed.
Lemma length_any p q : moderate p -> moderate q -> spaced2 p q -> finite_double (length_f (rsub_f p q)) /\ 0 <= val (length_f (rsub_f p q)) <= bp 62 /\ val (length_f (rsub_f p q)) = lenr (at_point p) (at_point q).
Proof.
  intros P Q S. destruct (length_case p q P Q S) as [V [(_ & F & Z)|(_ & [F (_ & A & B)] & _)]]; (split; [exact F|]); (split; [|exact V]).
  - rewrite Z. split; [lra|apply bpow_ge_0].
  - split; [|exact B]. apply Rle_trans with (2 := A), bpow_ge_0.
Qed.
Lemma coincident p0 p1 p2 : ordinary_triangle p0 p1 p2 -> at_point p0 = at_point p1 \/ at_point p1 = at_point p2 \/ at_point p2 = at_point p0 -> tri_qual_f p0 p1 p2 = S754_nan.
Proof.
  intros (M0 & M1 & M2 & S01 & S12 & S20) E. unfold tri_qual_f.
  destruct (length_any p1 p0 M1 M0 (spaced2_sym _ _ S01)) as (Fa & Ba & Va). destruct (length_any p2 p0 M2 M0 S20) as (Fb & Bb & Vb). destruct (length_any p2 p1 M2 M1 (spaced2_sym _ _ S12)) as (Fc & Bc & Vc).
  set (a := length_f (rsub_f p1 p0)) in *. set (b := length_f (rsub_f p2 p0)) in *. set (c := length_f (rsub_f p2 p1)) in *.
  assert (Z : forall p, lenr p p = 0). { intros p. unfold lenr. cbn zeta. rewrite !Rminus_diag_eq by reflexivity. rewrite (rnd_id 0), Rmult_0_l, (rnd_id 0), Rplus_0_l, (rnd_id 0), sqrt_0 by apply rep_0. apply rnd_id, rep_0. }
  apply nan_case; try assumption.
  - destruct E as [E|[E|E]]; rewrite E in *; [left; rewrite Va; apply Z|right; right; rewrite Vc; apply Z|right; left; rewrite Vb; apply Z].
  - destruct E as [E|[E|E]]; rewrite E in *.
    + rewrite Z in Va. right. left. rewrite Va, Vc, <- Vb. apply slack_same. apply format_val, Fb.
    + rewrite Z in Vc. left. rewrite Vc, Vb, <- Va. apply slack_same. apply format_val, Fa.
    + rewrite Z in Vb. left. rewrite Vb, Vc, lenr_sym, <- Va. apply slack_same. apply format_val, Fa.
Qed.

Lemma sqrt27 : sqrt 27 = 3 * sqrt 3.
Proof. replace 27 with ((3 * 3) * 3) by lra. rewrite sqrt_mult, sqrt_square by lra. reflexivity. Qed.
Lemma quality_le x y z s a b c : 0 < x -> 0 < y -> 0 < z -> 0 < s -> 0 < a -> 0 < b -> 0 < c ->
  x + y + z <= (a + b + c) * (1 + 4 * u) -> (a + b + c) * (v1 * v1) <= s -> x * y * z <= a * b * c * (1 + 5000 * u) ->
  quality x y z s a b c <= (a + b + c) / (3 * sqrt 3) * ((1 + 5000 * u) * (1 + 10 * u)).
Proof.
  intros X Y Z Ps A B C T Sm Sh. pose proof u_bounds as U. set (S := a + b + c) in *. assert (PS : 0 < S) by (unfold S; lra).
  set (m := x * y * z) in *. assert (Pm : 0 < m) by (unfold m; repeat apply Rmult_lt_0_compat; assumption).
  assert (Pabc : 0 < a * b * c) by (repeat apply Rmult_lt_0_compat; assumption).
  assert (E : quality x y z s a b c = (m / (a * b * c)) * sqrt (m / s)).
  { unfold quality. fold m. replace (s * x * y * z) with (s * m) by (unfold m; ring). rewrite sqrt_mult, sqrt_div by lra. pose proof (sqrt_lt_R0 _ Pm). pose proof (sqrt_lt_R0 _ Ps). set (qs := sqrt s) in *. set (qm := sqrt m) in *.
    assert (Es : s = qs * qs) by (unfold qs; symmetry; apply sqrt_sqrt; lra). rewrite Es. field. repeat split; lra. }
  rewrite E. assert (E1 : m / (a * b * c) <= 1 + 5000 * u). { apply Rmult_le_reg_r with (a * b * c); [exact Pabc|]. unfold Rdiv. rewrite Rmult_assoc, Rinv_l by lra. lra. }
  assert (E2 : sqrt (m / s) <= S / (3 * sqrt 3) * (1 + 10 * u)).
  { rewrite <- sqrt27. replace (S / sqrt 27 * (1 + 10 * u)) with (sqrt ((S * (1 + 10 * u)) ^ 2 / 27)).
    - apply sqrt_le_1_alt. apply Rmult_le_reg_r with s; [exact Ps|]. unfold Rdiv at 1. rewrite Rmult_assoc, Rinv_l, Rmult_1_r by lra.
      assert (m <= (S * (1 + 4 * u)) ^ 3 / 27). { apply Rle_trans with ((x + y + z) ^ 3 / 27); [apply amgm; assumption|]. unfold Rdiv. apply Rmult_le_compat_r; [lra|]. apply pow_incr. lra. }
      assert ((S * (1 + 4 * u)) ^ 3 / 27 <= (S * (1 + 10 * u)) ^ 2 / 27 * (S * (v1 * v1))).
      { replace ((S * (1 + 4 * u)) ^ 3 / 27) with (S ^ 3 / 27 * (1 + 4 * u) ^ 3) by field. replace ((S * (1 + 10 * u)) ^ 2 / 27 * (S * (v1 * v1))) with (S ^ 3 / 27 * ((1 + 10 * u) * v1) ^ 2) by field.
        apply Rmult_le_compat_l; [pose proof (pow_lt S 3 PS); lra|]. apply Rle_trans with (1 + 13 * u); [nra|]. apply Rle_trans with ((1 + 8 * u) ^ 2); [nra|]. apply pow_incr. nra. }
      assert ((S * (1 + 10 * u)) ^ 2 / 27 * (S * (v1 * v1)) <= (S * (1 + 10 * u)) ^ 2 / 27 * s). { apply Rmult_le_compat_l; [pose proof (pow2_ge_0 (S * (1 + 10 * u))); lra|exact Sm]. }
      lra.
    - rewrite sqrt_div by (try lra; apply pow2_ge_0). rewrite sqrt_pow2 by nra. unfold Rdiv. ring. }
  replace (S / (3 * sqrt 3) * ((1 + 5000 * u) * (1 + 10 * u))) with ((1 + 5000 * u) * (S / (3 * sqrt 3) * (1 + 10 * u))) by ring.
  apply Rmult_le_compat; [left; apply Rdiv_lt_0_compat; assumption|apply sqrt_pos|exact E1|exact E2].
Qed.
Lemma small_u : 6000 * u <= / 10 ^ 12.
Proof. unfold u. cbn. lra. Qed.
Lemma range p0 p1 p2 : ordinary_triangle p0 p1 p2 -> tri_qual_f p0 p1 p2 = S754_nan \/
  (finite_double (tri_qual_f p0 p1 p2) /\ 0 <= val (tri_qual_f p0 p1 p2) <= perimeter (at_point p0) (at_point p1) (at_point p2) / (3 * sqrt 3) * (1 + / 10 ^ 12)).
Proof.
  intros O. pose proof O as (M0 & M1 & M2 & S01 & S12 & S20).
  destruct (length_case p1 p0 M1 M0 (spaced2_sym _ _ S01)) as [_ [(E & _)|(_ & A & Na)]]; [left; apply coincident; auto|].
  destruct (length_case p2 p0 M2 M0 S20) as [_ [(E & _)|(_ & B & Nb)]]; [left; apply coincident; auto|].
  destruct (length_case p2 p1 M2 M1 (spaced2_sym _ _ S12)) as [_ [(E & _)|(_ & C & Nc)]]; [left; apply coincident; auto|].
  unfold tri_qual_f. set (a := length_f (rsub_f p1 p0)) in *. set (b := length_f (rsub_f p2 p0)) in *. set (c := length_f (rsub_f p2 p1)) in *.
  assert (PP : 0 <= perimeter (at_point p0) (at_point p1) (at_point p2)) by (unfold perimeter; pose proof (dist_nonneg (at_point p0) (at_point p1)); pose proof (dist_nonneg (at_point p1) (at_point p2)); pose proof (dist_nonneg (at_point p2) (at_point p0)); lra).
  assert (S3 : 0 < 3 * sqrt 3) by (pose proof (sqrt_lt_R0 3 ltac:(lra)); lra).
  destruct (outcomes a b c A B C) as [E _|F V _|X Y Z G]; [left; exact E| |].
  - right. split; [exact F|]. rewrite V. split; [lra|]. apply Rmult_le_pos; [apply Rmult_le_pos; [exact PP|left; apply Rinv_0_lt_compat, S3]|lra].
  - right. destruct (good_e _ _ _ _ (factor_pow _ 13 factor1) G) as [PQ PV]. destruct G as (F & N & _). split; [exact F|]. split; [lra|].
    set (q := val (qual_of_lengths_f a b c)) in *. pose proof (side_pos _ (proj2 A)) as Pa. pose proof (side_pos _ (proj2 B)) as Pb. pose proof (side_pos _ (proj2 C)) as Pc.
    destruct (perim_f _ _ _ A B C) as (_ & Rs & Ns). pose proof (rng_pos _ _ Rs) as Ps. pose proof u_bounds as U.
    pose proof (quality_le _ _ _ _ _ _ _ X Y Z Ps Pa Pb Pc) as K. destruct Ns as (_ & Ns & _). specialize (fun h => K h Ns (shape_up _ _ _ (proj2 A) (proj2 B) (proj2 C) X Y Z)).
    destruct (slack_upper _ _ _ (proj2 A) (proj2 B) (proj2 C) X) as [UX _]. destruct (slack_upper _ _ _ (proj2 B) (proj2 C) (proj2 A) Y) as [UY _]. destruct (slack_upper _ _ _ (proj2 C) (proj2 A) (proj2 B) Z) as [UZ _].
    set (S := val a + val b + val c) in *. assert (PS : 0 < S) by (unfold S; lra).
    assert (T : slack (val a) (val b) (val c) + slack (val b) (val c) (val a) + slack (val c) (val a) (val b) <= S * (1 + 4 * u)).
    { apply Rle_trans with (S * ((1 + 2 * u) * (1 + u))); [unfold S; lra|]. apply Rmult_le_compat_l; [lra|nra]. }
    specialize (K T). set (Qt := quality _ _ _ _ _ _ _) in *. destruct N as (_ & _ & N). set (P := perimeter (at_point p0) (at_point p1) (at_point p2)) in *.
    assert (SP : S * v1 ^ 3 <= P). { destruct Na as (_ & _ & Na), Nb as (_ & _ & Nb), Nc as (_ & _ & Nc). unfold S, P, perimeter. rewrite (dist_sym (at_point p0)), (dist_sym (at_point p1) (at_point p2)). lra. }
    destruct (factor_pow v1 13 factor1) as [W13 _]. destruct (factor_pow v1 3 factor1) as [W3 _].
    assert (W : v1 ^ 13 * v1 ^ 3 >= 1 - 16 * u). { rewrite <- pow_add. pose proof (bernoulli u 16 ltac:(lra)) as Be. change (13 + 3)%nat with 16%nat. replace (INR 16) with 16 in Be by (cbn; lra). lra. }
    assert (H : q * (v1 ^ 13 * v1 ^ 3) <= P / (3 * sqrt 3) * ((1 + 5000 * u) * (1 + 10 * u))).
    { apply Rle_trans with (S * v1 ^ 3 / (3 * sqrt 3) * ((1 + 5000 * u) * (1 + 10 * u))).
      - rewrite <- Rmult_assoc. replace (S * v1 ^ 3 / (3 * sqrt 3) * ((1 + 5000 * u) * (1 + 10 * u))) with (S / (3 * sqrt 3) * ((1 + 5000 * u) * (1 + 10 * u)) * v1 ^ 3) by (unfold Rdiv; ring). apply Rmult_le_compat_r; lra.
      - apply Rmult_le_compat_r; [nra|]. unfold Rdiv. apply Rmult_le_compat_r; [left; apply Rinv_0_lt_compat, S3|exact SP]. }
    set (D := P / (3 * sqrt 3)) in *. assert (PD : 0 <= D) by (apply Rmult_le_pos; [exact PP|left; apply Rinv_0_lt_compat, S3]).
    pose proof small_u as SU. apply Rle_trans with (D * (1 + 6000 * u)); [|apply Rmult_le_compat_l; lra].
    assert (H2 : q * (1 - 16 * u) <= D * ((1 + 5000 * u) * (1 + 10 * u))). { apply Rle_trans with (2 := H). apply Rmult_le_compat_l; lra. }
    assert (H3 : (1 + 5000 * u) * (1 + 10 * u) <= (1 + 6000 * u) * (1 - 16 * u)) by nra.
    apply Rmult_le_reg_r with (1 - 16 * u); [lra|]. apply Rle_trans with (1 := H2). rewrite Rmult_assoc. apply Rmult_le_compat_l; assumption.
Qed.

(** * Accuracy *)
Lemma nr_close w v e : factor w -> nr w v e -> e * w <= v <= e * / w.
Proof. intros [W _] (E & A & B). split; [exact A|]. apply Rmult_le_reg_r with w; [exact W|]. rewrite Rmult_assoc, Rinv_l by lra. lra. Qed.
Lemma len_close v e : nr (v1 ^ 3) v e -> Rabs (v - e) <= 4 * u * e.
Proof.
  intros N. pose proof (nr_close _ _ _ (factor_pow _ 3 factor1) N) as [A B]. destruct N as (E & _ & _). pose proof u_bounds as U. destruct (factor_pow v1 3 factor1) as [W _].
  assert (I : / v1 ^ 3 <= 1 + 4 * u). { apply Rmult_le_reg_r with (v1 ^ 3); [exact W|]. rewrite Rinv_l by lra. pose proof (bernoulli u 3 ltac:(lra)) as Be. replace (INR 3) with 3 in Be by (cbn; lra). nra. }
  assert (L : 1 - 4 * u <= v1 ^ 3). { pose proof (bernoulli u 3 ltac:(lra)) as Be. replace (INR 3) with 3 in Be by (cbn; lra). lra. }
  assert (e * / v1 ^ 3 <= e * (1 + 4 * u)) by (apply Rmult_le_compat_l; lra). assert (e * (1 - 4 * u) <= e * v1 ^ 3) by (apply Rmult_le_compat_l; lra). apply Rabs_le. lra.
Qed.
Lemma slack_close a b c a0 b0 c0 : side a -> side b -> side c -> 0 <= a0 -> 0 <= b0 -> 0 <= c0 -> Rabs (a - a0) <= 4 * u * a0 -> Rabs (b - b0) <= 4 * u * b0 -> Rabs (c - c0) <= 4 * u * c0 ->
  Rabs (slack a b c - (b0 + c0 - a0)) <= 8 * u * (a0 + b0 + c0).
Proof.
  intros A B C P0 P1 P2 Ha Hb Hc. pose proof (side_pos _ A) as Pa. pose proof (side_pos _ B) as Pb. pose proof (side_pos _ C) as Pc. pose proof u_bounds as U.
  pose proof (plus_rel b c (proj1 B) (proj1 C) ltac:(lra) ltac:(lra)) as [R0 R1].
  pose proof (add_rel (rnd (b + c)) (- a) (rnd_rep _) (rep_opp _ (proj1 A))) as R2. change (rnd (b + c) + - a) with (rnd (b + c) - a) in R2. fold (slack a b c) in R2.
  set (t := rnd (b + c)) in *. apply Rabs_le_inv in Ha, Hb, Hc.
  assert (T : Rabs (t - a) <= 11 / 10 * (a0 + b0 + c0)).
  { assert (0 <= u * b0) by (apply Rmult_le_pos; lra). assert (0 <= u * c0) by (apply Rmult_le_pos; lra). assert (0 <= u * a0) by (apply Rmult_le_pos; lra).
    assert (u * b0 <= / 1000000 * b0) by (apply Rmult_le_compat_r; lra). assert (u * c0 <= / 1000000 * c0) by (apply Rmult_le_compat_r; lra). assert (u * a0 <= / 1000000 * a0) by (apply Rmult_le_compat_r; lra).
    assert (u * (b + c) <= / 1000000 * (b + c)) by (apply Rmult_le_compat_r; lra). apply Rabs_le. lra. }
  assert (R3 : u * Rabs (t - a) <= u * (11 / 10 * (a0 + b0 + c0))) by (apply Rmult_le_compat_l; lra).
  assert (R4 : u * (b + c) <= u * (11 / 10 * (b0 + c0))). { apply Rmult_le_compat_l; [lra|]. assert (u * b0 <= / 1000000 * b0) by (apply Rmult_le_compat_r; lra). assert (u * c0 <= / 1000000 * c0) by (apply Rmult_le_compat_r; lra). lra. }
  assert (0 <= u * b0) by (apply Rmult_le_pos; lra). assert (0 <= u * c0) by (apply Rmult_le_pos; lra). assert (0 <= u * a0) by (apply Rmult_le_pos; lra).
  apply Rabs_le_inv in R2. apply Rabs_le. lra.
Qed.
Lemma fact_t t : 0 <= t <= / 8000 -> 1 <= (1 + 64 * t) * (1 - 59 * t). Proof. intros H. nra. Qed.
Lemma fact_3 d : d <= 1 / 3 -> 3 * u * d <= u. Proof. intros H. pose proof u_bounds. nra. Qed.
Definition exact_quality (p0 p1 p2 : R * R) : R :=
  let a := dist2d p1 p0 in let b := dist2d p2 p0 in let c := dist2d p2 p1 in
  quality (b + c - a) (c + a - b) (a + b - c) (a + b + c) a b c.
Lemma exact_is p0 p1 p2 : S_Quality.area2 p0 p1 p2 <> 0 -> exact_quality p0 p1 p2 = 2 * inradius p0 p1 p2 * (2 * inradius p0 p1 p2 / circumradius p0 p1 p2).
Proof.
  intros N. pose proof (tri_pos p0 p1 p2 N) as (Pa & Pb & Pc & _). pose proof (Rabs_pos_lt _ N) as PA.
  assert (PP : perimeter p0 p1 p2 = dist2d p1 p0 + dist2d p2 p0 + dist2d p2 p1) by (unfold perimeter; rewrite (dist_sym p0 p1), (dist_sym p1 p2); ring).
  destruct (tri_qual_is p0 p1 p2 (inradius p0 p1 p2) (circumradius p0 p1 p2) N) as [E _].
  - unfold inradius_is, inradius, perimeter in *. rewrite (dist_sym p0 p1), (dist_sym p1 p2). cbn zeta in *. field. lra.
  - unfold circumradius_is, circumradius. field. lra.
  - rewrite <- E. unfold exact_quality, M_Quality.tri_qual, M_Quality.qual_of_lengths, quality. cbn zeta. rewrite !rlength_dist. match goal with |- _ = 2 * (1 / 2 * ?t) / _ => replace (2 * (1 / 2 * t)) with t by (generalize t; intros; field) end. reflexivity.
Qed.
Lemma accuracy d p0 p1 p2 : ordinary_triangle p0 p1 p2 -> / 2 ^ 40 <= d -> fat d (at_point p0) (at_point p1) (at_point p2) ->
  let e := 2 * inradius (at_point p0) (at_point p1) (at_point p2) * (2 * inradius (at_point p0) (at_point p1) (at_point p2) / circumradius (at_point p0) (at_point p1) (at_point p2)) in
  finite_double (tri_qual_f p0 p1 p2) /\ 0 < e /\ Rabs (val (tri_qual_f p0 p1 p2) - e) <= e / (2 ^ 47 * d).
Proof.
  intros O D (PS & T1 & T2 & T3). pose proof O as (M0 & M1 & M2 & S01 & S12 & S20). cbv zeta in *.
  assert (Pd : 0 < d) by (apply Rlt_le_trans with (2 := D); apply Rinv_0_lt_compat, pow_lt; lra).
  set (q0 := at_point p0) in *. set (q1 := at_point p1) in *. set (q2 := at_point p2) in *. pose proof u_bounds as U.
  pose proof (dist_nonneg q1 q0) as Za. pose proof (dist_nonneg q2 q0) as Zb. pose proof (dist_nonneg q2 q1) as Zc.
  assert (EP : perimeter q0 q1 q2 = dist2d q1 q0 + dist2d q2 q0 + dist2d q2 q1) by (unfold perimeter; rewrite (dist_sym q0 q1), (dist_sym q1 q2); ring).
  rewrite EP in *. rewrite (dist_sym q0 q1), (dist_sym q1 q2) in *. pose proof (heron q0 q1 q2) as HE. cbn zeta in HE.
  destruct (length_case p1 p0 M1 M0 (spaced2_sym _ _ S01)) as [_ [(E & _)|(_ & A & Na)]]; [exfalso; fold q1 q0 in E; assert (K : dist2d q1 q0 = 0) by (rewrite E; unfold dist2d; rewrite !Rminus_diag_eq by reflexivity; rewrite pow_ne_zero, Rplus_0_l, sqrt_0 by lia; reflexivity); rewrite E in *; nra|].
  destruct (length_case p2 p0 M2 M0 S20) as [_ [(E & _)|(_ & B & Nb)]]; [exfalso; fold q2 q0 in E; assert (K : dist2d q2 q0 = 0) by (rewrite E; unfold dist2d; rewrite !Rminus_diag_eq by reflexivity; rewrite pow_ne_zero, Rplus_0_l, sqrt_0 by lia; reflexivity); rewrite E, (dist_sym q1 q0) in *; nra|].
  destruct (length_case p2 p1 M2 M1 (spaced2_sym _ _ S12)) as [_ [(E & _)|(_ & C & Nc)]]; [exfalso; fold q2 q1 in E; assert (K : dist2d q2 q1 = 0) by (rewrite E; unfold dist2d; rewrite !Rminus_diag_eq by reflexivity; rewrite pow_ne_zero, Rplus_0_l, sqrt_0 by lia; reflexivity); rewrite E in *; nra|].
  fold q0 q1 q2 in Na, Nb, Nc. unfold tri_qual_f. set (a := length_f (rsub_f p1 p0)) in *. set (b := length_f (rsub_f p2 p0)) in *. set (c := length_f (rsub_f p2 p1)) in *.
  set (a0 := dist2d q1 q0) in *. set (b0 := dist2d q2 q0) in *. set (c0 := dist2d q2 q1) in *. set (S0 := a0 + b0 + c0) in *.
  pose proof (side_pos _ (proj2 A)) as Pa. pose proof (side_pos _ (proj2 B)) as Pb. pose proof (side_pos _ (proj2 C)) as Pc.
  assert (Pa0 : 0 < a0) by (apply (nr_pos _ _ _ (factor_pow _ 3 factor1) Na), Pa). assert (Pb0 : 0 < b0) by (apply (nr_pos _ _ _ (factor_pow _ 3 factor1) Nb), Pb). assert (Pc0 : 0 < c0) by (apply (nr_pos _ _ _ (factor_pow _ 3 factor1) Nc), Pc).
  set (h := 8 * u / d). assert (H0 : 0 <= h) by (apply Rmult_le_pos; [lra|left; apply Rinv_0_lt_compat, Pd]).
  assert (Ud : u / d <= / 8000). { apply Rmult_le_reg_r with d; [exact Pd|]. unfold Rdiv. rewrite Rmult_assoc, Rinv_l, Rmult_1_r by lra. apply Rle_trans with (/ 8000 * / 2 ^ 40); [|apply Rmult_le_compat_l; lra]. unfold u. cbn. lra. }
  assert (Eh : h = 8 * (u / d)) by (unfold h; field; lra). assert (H1 : h <= / 1000) by lra.
  assert (D3 : d <= 1 / 3). { apply Rmult_le_reg_r with S0; [exact PS|]. unfold S0 in *. lra. }
  assert (near : forall x x0, Rabs (x - x0) <= 8 * u * S0 -> d * S0 <= x0 -> nr (1 - h) x x0).
  { intros x x0 N L. assert (B1 : 8 * u * S0 <= h * x0). { replace (8 * u * S0) with (h * (d * S0)) by (unfold h; field; lra). apply Rmult_le_compat_l; assumption. }
    assert (P0 : 0 <= x0) by nra. apply Rabs_le_inv in N. split; [exact P0|]. split; [lra|]. apply Rle_trans with (x0 * (1 + h) * (1 - h)); [apply Rmult_le_compat_r; lra|nra]. }
  assert (Nx : nr (1 - h) (slack (val a) (val b) (val c)) (b0 + c0 - a0)). { apply near; [|unfold S0 in *; lra]. apply slack_close; auto using len_close; try apply A; try apply B; try apply C; lra. }
  assert (Ny : nr (1 - h) (slack (val b) (val c) (val a)) (c0 + a0 - b0)). { apply near; [|unfold S0 in *; lra]. replace S0 with (b0 + c0 + a0) by (unfold S0; ring). apply slack_close; auto using len_close; try apply A; try apply B; try apply C; lra. }
  assert (Nz : nr (1 - h) (slack (val c) (val a) (val b)) (a0 + b0 - c0)). { apply near; [|unfold S0 in *; lra]. replace S0 with (c0 + a0 + b0) by (unfold S0; ring). apply slack_close; auto using len_close; try apply A; try apply B; try apply C; lra. }
  assert (FH : factor (1 - h)) by (split; lra). assert (dS : 0 < d * S0) by (apply Rmult_lt_0_compat; assumption).
  assert (Px0 : 0 < b0 + c0 - a0) by (unfold S0 in *; lra). assert (Py0 : 0 < c0 + a0 - b0) by (unfold S0 in *; lra). assert (Pz0 : 0 < a0 + b0 - c0) by (unfold S0 in *; lra).
  pose proof (proj2 (nr_pos _ _ _ FH Nx) Px0) as X. pose proof (proj2 (nr_pos _ _ _ FH Ny) Py0) as Y. pose proof (proj2 (nr_pos _ _ _ FH Nz) Pz0) as Z.
  destruct (outcomes a b c A B C) as [_ W|_ _ W|_ _ _ G]; [exfalso; lra|exfalso; lra|].
  assert (Narea : S_Quality.area2 q0 q1 q2 <> 0).
  { intros E. rewrite E in HE. assert (0 < S0 * (b0 + c0 - a0) * (c0 + a0 - b0) * (a0 + b0 - c0)) by (repeat apply Rmult_lt_0_compat; assumption). unfold S0, a0, b0, c0 in *. lra. }
  rewrite <- (exact_is _ _ _ Narea). unfold exact_quality. fold a0 b0 c0. cbn zeta. fold S0.
  destruct G as (F & N & _). split; [exact F|]. destruct (perim_f _ _ _ A B C) as (_ & Rs & Ns).
  assert (Ns0 : nr (v1 * v1 * v1 ^ 3) (val (fadd (fadd a b) c)) S0). { apply nr_trans with (val a + val b + val c); auto with fac. apply nr_plus; [apply nr_plus; assumption|assumption]. }
  set (s := val (fadd (fadd a b) c)) in *. set (x := slack (val a) (val b) (val c)) in *. set (y := slack (val b) (val c) (val a)) in *. set (z := slack (val c) (val a) (val b)) in *.
  set (x0 := b0 + c0 - a0) in *. set (y0 := c0 + a0 - b0) in *. set (z0 := a0 + b0 - c0) in *.
  assert (F3 : factor (v1 ^ 3)) by auto with fac.
  pose proof (nr_mul _ _ _ _ _ _ (factor_mul _ _ FH FH) FH (nr_mul _ _ _ _ _ _ FH FH Nx Ny) Nz) as Nm.
  pose proof (nr_mul _ _ _ _ _ _ (factor_mul _ _ F3 F3) F3 (nr_mul _ _ _ _ _ _ F3 F3 Na Nb) Nc) as Nabc.
  assert (Fs : factor (v1 * v1 * v1 ^ 3)) by auto with fac.
  assert (Nr : nr (v1 * v1 * v1 ^ 3 * ((1 - h) * (1 - h) * (1 - h))) (sqrt (s * x * y * z)) (sqrt (S0 * x0 * y0 * z0))).
  { apply nr_sqrt'; [auto 20 with fac|]. replace (s * x * y * z) with (s * (x * y * z)) by ring. replace (S0 * x0 * y0 * z0) with (S0 * (x0 * y0 * z0)) by ring. apply nr_mul; auto 20 with fac. }
  assert (Psq : 0 < sqrt (S0 * x0 * y0 * z0)) by (apply sqrt_lt_R0; repeat apply Rmult_lt_0_compat; assumption).
  assert (Pabc : 0 < a0 * b0 * c0) by (repeat apply Rmult_lt_0_compat; assumption).
  assert (NQ : nr ((1 - h) * (1 - h) * (1 - h) * (v1 * v1 * v1 ^ 3) * (v1 ^ 3 * v1 ^ 3 * v1 ^ 3 * (v1 * v1 * v1 ^ 3 * ((1 - h) * (1 - h) * (1 - h))))) (quality x y z s (val a) (val b) (val c)) (quality x0 y0 z0 S0 a0 b0 c0)).
  { unfold quality. apply nr_div; auto 20 with fac; [apply Rdiv_lt_0_compat; assumption|apply nr_div; auto 20 with fac|apply nr_div; auto 20 with fac]. }
  assert (NT : nr (v1 ^ 32 * (1 - h) ^ 6) (val (qual_of_lengths_f a b c)) (quality x0 y0 z0 S0 a0 b0 c0)).
  { match type of NQ with nr ?w _ _ => replace (v1 ^ 32 * (1 - h) ^ 6) with (v1 ^ 13 * w) by ring end. eapply nr_trans; [| |exact N|exact NQ]; auto 20 with fac. }
  set (e := quality x0 y0 z0 S0 a0 b0 c0) in *. set (q := val (qual_of_lengths_f a b c)) in *.
  assert (FT : factor (v1 ^ 32 * (1 - h) ^ 6)) by auto with fac.
  assert (Pe : 0 < e). { unfold e, quality. apply Rdiv_lt_0_compat; [apply Rdiv_lt_0_compat; [repeat apply Rmult_lt_0_compat; assumption|exact PS]|apply Rdiv_lt_0_compat; assumption]. }
  split; [exact Pe|]. set (t := u / d) in *.
  assert (TB : 1 - 59 * t <= v1 ^ 32 * (1 - h) ^ 6).
  { pose proof (bernoulli u 32 ltac:(lra)) as B1. replace (INR 32) with 32 in B1 by (cbn; lra). pose proof (bernoulli h 6 ltac:(lra)) as B2. replace (INR 6) with 6 in B2 by (cbn; lra).
    assert (ut : 3 * u <= t). { apply Rmult_le_reg_r with d; [exact Pd|]. replace (t * d) with u by (unfold t; field; lra). apply fact_3, D3. }
    apply Rle_trans with ((1 - 32 * u) * (1 - 6 * h)); [|apply Rmult_le_compat; lra]. assert (0 <= u * h) by (apply Rmult_le_pos; lra). rewrite Eh in *. lra. }
  assert (Et : e / (2 ^ 47 * d) = e * (64 * t)). { unfold t, u. replace (bp (-53)) with (/ (64 * 2 ^ 47)) by (cbn; lra). assert (K : 2 ^ 47 <> 0) by (apply pow_nonzero; lra). revert K. generalize (2 ^ 47). intros k K. field. lra. }
  rewrite Et. destruct (nr_close _ _ _ FT NT) as [L1 L2]. destruct FT as [FT _]. assert (t0 : 0 <= t) by (apply Rmult_le_pos; [lra|left; apply Rinv_0_lt_compat, Pd]).
  assert (I : / (v1 ^ 32 * (1 - h) ^ 6) <= 1 + 64 * t).
  { apply Rmult_le_reg_r with (v1 ^ 32 * (1 - h) ^ 6); [exact FT|]. rewrite Rinv_l by lra. apply Rle_trans with ((1 + 64 * t) * (1 - 59 * t)); [apply fact_t; lra|]. apply Rmult_le_compat_l; lra. }
  assert (e * / (v1 ^ 32 * (1 - h) ^ 6) <= e * (1 + 64 * t)) by (apply Rmult_le_compat_l; lra). assert (e * (1 - 59 * t) <= e * (v1 ^ 32 * (1 - h) ^ 6)) by (apply Rmult_le_compat_l; lra).
  assert (0 <= e * t) by (apply Rmult_le_pos; lra). apply Rabs_le. lra.
Qed.
