(** Proofs for the sizing functions on doubles (M_SizeF). *)
From Coq Require Import List Arith Bool ZArith Reals Lra Lia SpecFloat.
From Flocq Require Import Core IEEE754.BinarySingleNaN Mult_error.
From Verif Require Import M_Base M_FixMesh M_LimitF M_LapF M_SizeF S_Double P_Double S_LimitF P_LimitF S_Ieee P_CutF P_Ieee3 P_LapF P_PipF S_SizeF.
Import ListNotations.
Open Scope R_scope.

(** ** Sizes *)
Lemma weighs_size x W : weighs x W -> size x.
Proof. intros (P & [[F V]|[I _]]); [left; split; [exact F|lra]|now right]. Qed.
Lemma weighs_le x W y W' : weighs x W -> weighs y W' -> W <= W' -> no_more x y.
Proof.
  intros Hx (P' & [[F' V']|[I' _]]) L.
  - right. destruct Hx as (P & [[F V]|[I H]]).
    + split; [split; [exact F|lra]|]. split; [split; [exact F'|lra]|lra].
    + exfalso. pose proof (fin_lt_huge y F'). lra.
  - left. split; [|exact I']. now apply (weighs_size x W).
Qed.
Lemma size_refl x : size x -> no_more x x.
Proof. intros [A|E]. - right. split; [exact A|]. split; [exact A|lra]. - left. split; [now right|exact E]. Qed.
Lemma more_trans x y z : no_more x y -> no_more y z -> no_more x z.
Proof.
  intros [[A E]|(A & B & L)] [[C F]|(C & D & M)].
  - left. now split. - subst. destruct C as [[_ C] _]. discriminate.
  - left. split; [now left|exact F]. - right. split; [exact A|]. split; [exact D|lra].
Qed.
Lemma more_size x y : no_more x y -> size x /\ size y.
Proof. intros [[A E]|(A & B & L)]; split; auto; try (now left). now right. Qed.
Lemma pos_amount x : positive x -> amount x. Proof. intros [F P]. split; [exact F|lra]. Qed.
Lemma pos_form x : positive x -> exists m e, x = S754_finite false m e.
Proof.
  intros [[V F] P]. destruct x as [s|s| |s m e]; try discriminate. - unfold val in P. cbn in P. lra.
  - destruct s; [|eauto]. exfalso. unfold val, SF2R in P. assert (F2R (Float radix2 (Z.neg m) e) < 0) by (apply F2R_lt_0; reflexivity). cbn in P, H. lra.
Qed.
Lemma amount_weighs x : amount x -> weighs x (val x).
Proof. intros [F P]. split; [exact P|left; now split]. Qed.
Lemma ltb_size h v : amount h -> size v -> (SFltb h v = true <-> v = inf \/ finite_double v /\ val h < val v).
Proof.
  intros [F P] [[G Q]| ->].
  - rewrite ltb_val by assumption. split; [intros; right; now split|intros [ -> |[_ H]]; [destruct G; discriminate|exact H]].
  - split; [now left|]. intros _. destruct F as [V F]. destruct h as [s|s| |s m e]; try discriminate; destruct s; reflexivity.
Qed.
Lemma ltb_size' h v : amount h -> size v -> (SFltb v h = true <-> finite_double v /\ val v < val h).
Proof.
  intros [F P] [[G Q]| ->].
  - rewrite ltb_val by assumption. tauto.
  - split; [|intros [[_ H] _]; discriminate]. intros H. rewrite ltb_inf in H by exact F. discriminate.
Qed.
(** ** Monotone operations *)
Lemma inf_mul_pos x : positive x -> fmul x inf = inf /\ fmul inf x = inf.
Proof. intros H. destruct (pos_form x H) as (m & e & ->). split; reflexivity. Qed.
Lemma inf_div_pos x : positive x -> fdiv inf x = inf.
Proof. intros H. destruct (pos_form x H) as (m & e & ->). reflexivity. Qed.
Lemma mul_mono p x y : positive p -> no_more x y -> no_more (fmul p x) (fmul p y).
Proof.
  intros Hp [[A ->]|(A & B & L)].
  - rewrite (proj1 (inf_mul_pos p Hp)). left. split; [|reflexivity]. destruct A as [A| ->].
    + apply (weighs_size _ (rnd (val p * val x))). apply mul_weighs; auto using pos_amount.
    + rewrite (proj1 (inf_mul_pos p Hp)). now right.
  - apply (weighs_le _ (rnd (val p * val x)) _ (rnd (val p * val y))); auto using mul_weighs, pos_amount. apply rnd_le. destruct Hp as [_ Hp]. nra.
Qed.
Lemma div_weighs x y : amount x -> positive y -> weighs (fdiv x y) (rnd (val x / val y)).
Proof.
  intros [Fx Px] [Fy Py]. assert (Q : 0 <= val x / val y) by (apply Rmult_le_pos; [exact Px|left; now apply Rinv_0_lt_compat]).
  assert (P : 0 <= rnd (val x / val y)) by (now apply rnd_sign_pos). split; auto.
  destruct (Rlt_le_dec (rnd (val x / val y)) huge) as [L|L].
  - left. apply div_rounds; auto; [lra|]. rewrite Rabs_pos_eq; auto.
  - right. split; auto.
    destruct (lift x Fx) as (bx & <- & X1 & X2), (lift y Fy) as (b & <- & Y1 & Y2). rewrite <- X2, <- Y2 in *. rewrite div_equiv.
    pose proof (Bdiv_correct 53 1024 _ _ mode_NE bx b ltac:(lra)) as C. change (round radix2 (SpecFloat.fexp 53 1024) (round_mode mode_NE) (B2R bx / B2R b)) with (rnd (B2R bx / B2R b)) in C.
    change (bpow radix2 1024) with huge in C. rewrite Rlt_bool_false in C by (rewrite Rabs_pos_eq; auto). rewrite overflow_NE in C. rewrite C. f_equal.
    pose proof huge_pos as HP. assert (NZ : B2R bx <> 0). { intros Z. unfold Rdiv in L. rewrite Z, Rmult_0_l, rnd_id in L by apply rep_0. lra. }
    assert (A : 0 < B2R bx) by lra.
    rewrite (proj2 (B_sign_val bx X1) A), (proj2 (B_sign_val b Y1) Py). reflexivity.
Qed.
Lemma div_mono p x y : positive p -> no_more x y -> no_more (fdiv x p) (fdiv y p).
Proof.
  intros Hp [[A ->]|(A & B & L)].
  - rewrite (inf_div_pos p Hp). left. split; [|reflexivity]. destruct A as [A| ->].
    + apply (weighs_size _ (rnd (val x / val p))). now apply div_weighs.
    + rewrite (inf_div_pos p Hp). now right.
  - apply (weighs_le _ (rnd (val x / val p)) _ (rnd (val y / val p))); auto using div_weighs. apply rnd_le. destruct Hp as [_ Hp].
    apply Rmult_le_compat_r; [left; now apply Rinv_0_lt_compat|exact L].
Qed.
Lemma div_anti x p q : size x -> positive p -> positive q -> val p <= val q -> no_more (fdiv x q) (fdiv x p).
Proof.
  intros Hx Hp Hq L. destruct Hx as [A| ->].
  - apply (weighs_le _ (rnd (val x / val q)) _ (rnd (val x / val p))); auto using div_weighs. apply rnd_le. destruct Hp as [_ Hp], A as [_ A].
    apply Rmult_le_compat_l; [exact A|]. apply Rinv_le_contravar; assumption.
  - rewrite !inf_div_pos by assumption. left. split; [now right|reflexivity].
Qed.
Lemma sqrt_mono x y : no_more x y -> no_more (fsqrt x) (fsqrt y).
Proof.
  assert (S : forall z, amount z -> amount (fsqrt z) /\ val (fsqrt z) = rnd (sqrt (val z))).
  { intros z [F P]. destruct (sqrt_ok z F P) as [G V]. split; [|exact V]. split; [exact G|]. rewrite V. apply rnd_sign_pos. apply sqrt_pos. }
  intros [[A ->]|(A & B & L)].
  - left. split; [|reflexivity]. destruct A as [A| ->]; [left; now apply S|right; reflexivity].
  - right. destruct (S x A) as [Sx Vx], (S y B) as [Sy Vy]. split; [exact Sx|]. split; [exact Sy|]. rewrite Vx, Vy. apply rnd_le. now apply sqrt_le_1_alt.
Qed.
Lemma add_mono h x y : amount h -> no_more x y -> no_more (fadd h x) (fadd h y).
Proof.
  intros Hh [[A ->]|(A & B & L)].
  - destruct (inf_add h (proj1 Hh)) as [-> _]. left. split; [|reflexivity]. destruct A as [A| ->].
    + apply (weighs_size _ (rnd (val h + val x))). now apply add_amount.
    + right. apply (inf_add h (proj1 Hh)).
  - apply (weighs_le _ (rnd (val h + val x)) _ (rnd (val h + val y))); auto using add_amount. apply rnd_le. lra.
Qed.
Lemma add_more h x : amount h -> size x -> no_more h (fadd h x).
Proof.
  intros Hh [A| ->].
  - apply (weighs_le _ (val h) _ (rnd (val h + val x))); auto using amount_weighs, add_amount. apply rnd_ge; [now apply format_val, Hh|]. destruct A. lra.
  - destruct (inf_add h (proj1 Hh)) as [-> _]. left. split; [now left|reflexivity].
Qed.
(** ** Bounds *)
Lemma cap_some h v : amount h -> size v -> no_more (cap_f (Some h) v) h /\ (SFltb h v = false -> cap_f (Some h) v = v) /\ size (cap_f (Some h) v).
Proof.
  intros Hh Hv. cbn [cap_f]. destruct (SFltb h v) eqn:E.
  - split; [apply size_refl; now left|]. split; [discriminate|now left].
  - split; [|split; auto]. right. assert (V : amount v). { destruct Hv as [V| ->]; [exact V|]. exfalso. assert (SFltb h inf = true) by (apply ltb_size; auto; [now right]). congruence. }
    split; [exact V|]. split; [exact Hh|]. destruct (Rle_lt_dec (val v) (val h)); [assumption|]. assert (SFltb h v = true) by (apply ltb_val; try apply Hh; try apply V; assumption). congruence.
Qed.
Lemma cap_size hi v : bound_ok hi -> size v -> size (cap_f hi v) /\ within_cap hi (cap_f hi v).
Proof.
  intros B V. destruct hi as [h|]; [|split; [exact V|intros h; discriminate]].
  destruct (cap_some h v (B h eq_refl) V) as (A & _ & C). split; [exact C|]. intros h' [= <-]. exact A.
Qed.
Lemma cap_mono hi x y : bound_ok hi -> no_more x y -> no_more (cap_f hi x) (cap_f hi y).
Proof.
  intros B L. destruct hi as [h|]; [|exact L]. specialize (B h eq_refl). destruct (more_size x y L) as [Sx Sy].
  destruct (cap_some h x B Sx) as (A & _ & _). cbn [cap_f] in *. destruct (SFltb h x) eqn:E1, (SFltb h y) eqn:E2; try (apply size_refl; now left); auto.
  exfalso. assert (F : SFltb h y = true); [|congruence]. apply ltb_size in E1; auto. apply ltb_size; auto.
  destruct L as [[_ ->]|(A1 & A2 & L)]; [now left|]. destruct E1 as [ -> |[_ E1]]; [destruct A1 as [[_ A1] _]; discriminate|]. right. split; [apply A2|lra].
Qed.
Lemma cap_keeps hi x v : bound_ok hi -> cap_above x hi -> no_more x v -> no_more x (cap_f hi v).
Proof.
  intros B C L. destruct hi as [h|]; [|exact L]. cbn [cap_f]. destruct (SFltb h v); [|exact L]. now apply C.
Qed.
Lemma floor_some l v : amount l -> size v -> no_more l (floor_f (Some l) v) /\ no_more v (floor_f (Some l) v) /\ size (floor_f (Some l) v).
Proof.
  intros Hl Hv. cbn [floor_f]. destruct (SFltb v l) eqn:E.
  - apply ltb_size' in E; auto. split; [apply size_refl; now left|]. split; [|now left]. right. destruct Hv as [V| ->]; [|destruct E as [[_ E] _]; discriminate]. split; [exact V|]. split; [exact Hl|lra].
  - split; [|split; [now apply size_refl|exact Hv]]. destruct Hv as [V| ->]; [|left; split; [now left|reflexivity]]. right. split; [exact Hl|]. split; [exact V|].
    destruct (Rle_lt_dec (val l) (val v)); [assumption|]. assert (SFltb v l = true) by (apply ltb_val; try apply Hl; try apply V; assumption). congruence.
Qed.
Lemma floor_mono lo x y : bound_ok lo -> no_more x y -> no_more (floor_f lo x) (floor_f lo y).
Proof.
  intros B L. destruct lo as [l|]; [|exact L]. specialize (B l eq_refl). destruct (more_size x y L) as [Sx Sy].
  destruct (floor_some l y B Sy) as (A1 & A2 & _). destruct (floor_some l x B Sx) as (C1 & C2 & _). cbn [floor_f] in *. destruct (SFltb x l) eqn:E1; [exact A1|].
  now apply (more_trans x y).
Qed.
Lemma floor_size lo v : bound_ok lo -> size v -> size (floor_f lo v).
Proof. intros B V. destruct lo as [l|]; [|exact V]. now apply floor_some; [apply B|]. Qed.

(** ** Sizes from the distance to the shoreline *)
Definition dsize (h0 rate : spec_float) (hi : option spec_float) (x : spec_float) := cap_f hi (fadd h0 (fmul x rate)).
Lemma v999 : amount f_999 /\ val f_999 = 999.
Proof. assert (V : val f_999 = 999) by (unfold val, f_999, SF2R, F2R; cbn; lra). split; [split; [apply finite_check; reflexivity|lra]|exact V]. Qed.
Lemma dist_map h0 rate hi n dis : all_finite dis -> exists ds, distance_sizes_f h0 rate hi n dis = map (dsize h0 rate hi) ds /\ Forall amount ds /\ map val ds = distances n dis.
Proof.
  intros A. destruct v999 as [A9 V9]. exists (match dis with Some l => map SFabs l | None => repeat f_999 n end). split; [reflexivity|]. destruct dis as [l|]; cbn [distances].
  - specialize (A l eq_refl). rewrite map_map. split.
    + apply Forall_forall. intros x Hx. apply in_map_iff in Hx as (y & <- & Hy). rewrite Forall_forall in A. destruct (abs_ok y (A y Hy)) as [F V]. split; [exact F|rewrite V; apply Rabs_pos].
    + apply map_ext_in. intros y Hy. rewrite Forall_forall in A. apply abs_ok. now apply A.
  - split; [apply Forall_forall; intros x Hx; apply repeat_spec in Hx as ->; exact A9|]. induction n; [reflexivity|]. cbn [repeat map]. now rewrite IHn, V9.
Qed.
Lemma entry_map {A B} (f : A -> B) l i y : entry (map f l) i y -> exists x, entry l i x /\ y = f x.
Proof. unfold entry. intros H. rewrite nth_error_map in H. destruct (nth_error l i) as [x|]; [|discriminate]. injection H as <-. eauto. Qed.
Lemma map_entry {A B} (f : A -> B) l i x : entry l i x -> entry (map f l) i (f x).
Proof. unfold entry. intros H. now rewrite nth_error_map, H. Qed.
Lemma entry_fun {A} (l : list A) i x y : entry l i x -> entry l i y -> x = y.
Proof. unfold entry. congruence. Qed.
Lemma entry_Forall {A} (P : A -> Prop) l i x : Forall P l -> entry l i x -> P x.
Proof. intros F E. rewrite Forall_forall in F. apply F. now apply nth_error_In in E. Qed.
Lemma grow_mono rate x y : amount rate -> amount x -> amount y -> val x <= val y -> no_more (fmul x rate) (fmul y rate).
Proof. intros R X Y L. apply (weighs_le _ (rnd (val x * val rate)) _ (rnd (val y * val rate))); auto using mul_weighs. apply rnd_le. destruct R. nra. Qed.
Lemma dsize_size h0 rate hi x : amount h0 -> amount rate -> bound_ok hi -> amount x ->
  size (dsize h0 rate hi x) /\ within_cap hi (dsize h0 rate hi x) /\ (cap_above h0 hi -> no_more h0 (dsize h0 rate hi x)).
Proof.
  intros H R B X. assert (M : size (fmul x rate)) by (apply (weighs_size _ (rnd (val x * val rate))); now apply mul_weighs).
  pose proof (add_more h0 _ H M) as L. destruct (more_size _ _ L) as [_ S]. destruct (cap_size hi _ B S) as [S1 S2].
  split; [exact S1|]. split; [exact S2|]. intros C. now apply cap_keeps.
Qed.
Lemma dsize_mono h0 rate hi x y : amount h0 -> amount rate -> bound_ok hi -> amount x -> amount y -> val x <= val y -> no_more (dsize h0 rate hi x) (dsize h0 rate hi y).
Proof. intros H R B X Y L. apply cap_mono; auto. apply add_mono; auto. now apply grow_mono. Qed.
Lemma dsize_zero h0 rate hi x : amount h0 -> amount rate -> bound_ok hi -> cap_above h0 hi -> amount x -> val x = 0 -> amount (dsize h0 rate hi x) /\ val (dsize h0 rate hi x) = val h0.
Proof.
  intros H R B C X Z. pose proof huge_pos as HP.
  destruct (mul_rounds x rate (proj1 X) (proj1 R)) as [F V]. { rewrite Z, Rmult_0_l, rnd_id, Rabs_R0 by apply rep_0. exact HP. }
  rewrite Z, Rmult_0_l, rnd_id in V by apply rep_0.
  assert (E : rnd (val h0 + val (fmul x rate)) = val h0) by (rewrite V, Rplus_0_r; apply rnd_id, format_val, H).
  destruct (proj1 (add_rounds h0 (fmul x rate) (proj1 H) F)) as [G W]. { rewrite E. rewrite Rabs_pos_eq by apply H. apply fin_lt_huge, H. }
  rewrite E in W. assert (A : amount (fadd h0 (fmul x rate))) by (split; [exact G|rewrite W; apply H]).
  unfold dsize. destruct hi as [h|]; [|cbn [cap_f]; now split]. cbn [cap_f]. specialize (B h eq_refl). destruct (SFltb h _) eqn:T; [|now split].
  exfalso. apply ltb_val in T; [|apply B|exact G]. rewrite W in T. destruct (C h eq_refl) as [[_ ->]|(_ & _ & L)]; [destruct B as [[_ B] _]; discriminate|lra].
Qed.
Lemma cap_val hi v e r : bound_ok hi -> amount v -> Rabs (val v - e) <= r -> amount (cap_f hi v) /\ Rabs (val (cap_f hi v) - capped hi e) <= r.
Proof.
  intros B A E. destruct hi as [h|]; [|now split]. specialize (B h eq_refl). cbn [cap_f capped]. destruct (SFltb h v) eqn:T.
  - apply ltb_val in T; [|apply B|apply A]. split; [exact B|]. apply Rabs_le_inv in E. apply Rabs_le. unfold Rmin. destruct (Rle_dec e (val h)); lra.
  - split; [exact A|]. assert (N : ~ val h < val v) by (intros N; apply ltb_val in N; [congruence|apply B|apply A]). apply Rabs_le_inv in E. apply Rabs_le. unfold Rmin. destruct (Rle_dec e (val h)); lra.
Qed.
Lemma floor_val lo v e r : bound_ok lo -> amount v -> Rabs (val v - e) <= r -> amount (floor_f lo v) /\ Rabs (val (floor_f lo v) - floored lo e) <= r.
Proof.
  intros B A E. destruct lo as [h|]; [|now split]. specialize (B h eq_refl). cbn [floor_f floored]. destruct (SFltb v h) eqn:T.
  - apply ltb_val in T; [|apply A|apply B]. split; [exact B|]. apply Rabs_le_inv in E. apply Rabs_le. unfold Rmax. destruct (Rle_dec e (val h)); lra.
  - split; [exact A|]. assert (N : ~ val v < val h) by (intros N; apply ltb_val in N; [congruence|apply A|apply B]). apply Rabs_le_inv in E. apply Rabs_le. unfold Rmax. destruct (Rle_dec e (val h)); lra.
Qed.
Lemma rnd_below e x : (-1074 <= e)%Z -> x <= bp e -> rnd x <= bp e.
Proof. intros H L. rewrite <- (rnd_id (bp e)) by now apply rep_bp. now apply rnd_le. Qed.
Lemma u_sz : 0 < u <= / 1000000. Proof. exact u_bounds. Qed.
Lemma dsize_near h0 rate hi x : amount h0 -> amount rate -> bound_ok hi -> amount x -> val h0 + val rate * val x <= bp 1000 ->
  amount (dsize h0 rate hi x) /\ Rabs (val (dsize h0 rate hi x) - capped hi (val h0 + val rate * val x)) <= 4 * u * (val h0 + val rate * val x) + bp (-1074).
Proof.
  intros H R B X L. assert (P : 0 <= val x * val rate) by (apply Rmult_le_pos; [apply X|apply R]). assert (Hh := proj2 H).
  assert (P' := rnd_sign_pos _ P). assert (B1 : rnd (val x * val rate) <= bp 1000) by (apply rnd_below; [lia|lra]).
  destruct (mul_rounds x rate (proj1 X) (proj1 R)) as [F V]. { apply (lt_huge 1000); [lia|]. now rewrite Rabs_pos_eq. }
  set (m := fmul x rate) in *. assert (S : 0 <= val h0 + val m) by (rewrite V; lra). assert (S' := rnd_sign_pos _ S).
  assert (B2 : rnd (val h0 + val m) <= bp 1001). { apply rnd_below; [lia|]. change 1001%Z with (1000 + 1)%Z. rewrite bpow_plus. change (bp 1) with 2. rewrite V. lra. }
  destruct (proj1 (add_rounds h0 m (proj1 H) F)) as [G W]. { apply (lt_huge 1001); [lia|]. now rewrite Rabs_pos_eq. }
  unfold dsize. fold m. apply cap_val; auto. { split; [exact G|lra]. }
  pose proof (add_rel (val h0) (val m) (format_val _ (proj1 H)) (format_val _ F)) as E2. rewrite (Rabs_pos_eq (val h0 + val m)) in E2 by exact S.
  pose proof (rnd_near (val x * val rate)) as E1. rewrite <- V, (Rabs_pos_eq (val x * val rate)) in E1 by exact P. rewrite W.
  change (bp (-53)) with u in E1. assert (Q : bp (-1074) = 2 * bp (-1075)) by (change (-1074)%Z with (-1075 + 1)%Z; rewrite bpow_plus; change (bp 1) with 2; ring).
  assert (T := bpow_gt_0 radix2 (-1075)). pose proof u_sz as U. rewrite Q. rewrite (Rmult_comm (val rate)). revert E1 E2. generalize (bp (-1075)) T. intros t Ht E1 E2.
  apply Rabs_le_inv in E1, E2. apply Rabs_le. set (q := val x * val rate) in *. set (h := val h0) in *. set (mm := val m) in *. set (w := rnd (h + mm)) in *.
  assert (u * mm <= u * (q + u * q + t)) by (apply Rmult_le_compat_l; lra). assert (0 <= u * q) by (apply Rmult_le_pos; lra). assert (u * (u * q) <= / 1000000 * (u * q)) by (apply Rmult_le_compat_r; lra). assert (0 <= u * h) by (apply Rmult_le_pos; lra). assert (u * t <= / 1000000 * t) by (apply Rmult_le_compat_r; lra).
  split; lra.
Qed.
(** Sizes from distances. *)
Theorem distance_ok h0 rate hi n dis : amount h0 -> amount rate -> bound_ok hi -> all_finite dis ->
  length (distance_sizes_f h0 rate hi n dis) = length (distances n dis) /\
  forall i d v, entry (distances n dis) i d -> entry (distance_sizes_f h0 rate hi n dis) i v ->
    size v /\ within_cap hi v /\ (cap_above h0 hi -> no_more h0 v) /\
    (cap_above h0 hi -> d = 0 -> amount v /\ val v = val h0) /\
    (forall j d' v', entry (distances n dis) j d' -> entry (distance_sizes_f h0 rate hi n dis) j v' -> d <= d' -> no_more v v') /\
    (val h0 + val rate * d <= bp 1000 -> amount v /\ Rabs (val v - capped hi (val h0 + val rate * d)) <= 4 * u * (val h0 + val rate * d) + bp (-1074)).
Proof.
  intros H R B A. destruct (dist_map h0 rate hi n dis A) as (ds & -> & D & <-). rewrite !map_length. split; [reflexivity|].
  intros i d v Ed Ev. apply entry_map in Ed as (x & Ex & ->). apply entry_map in Ev as (y & Ey & ->). rewrite (entry_fun _ _ _ _ Ey Ex) in *. clear y Ey.
  assert (X := entry_Forall _ _ _ _ D Ex). destruct (dsize_size h0 rate hi x H R B X) as (S1 & S2 & S3).
  split; [exact S1|]. split; [exact S2|]. split; [exact S3|]. split; [intros; now apply dsize_zero|]. split; [|intros; now apply dsize_near].
  intros j d' v' Ed' Ev' L. apply entry_map in Ed' as (x' & Ex' & ->). apply entry_map in Ev' as (y & Ey & ->). rewrite (entry_fun _ _ _ _ Ey Ex') in *. apply dsize_mono; auto. exact (entry_Forall _ _ _ _ D Ex').
Qed.

(** ** Relative errors *)
Definition close (k : nat) (v : spec_float) (e : R) : Prop := finite_double v /\ e * (1 - u) ^ k <= val v <= e * (1 + u) ^ k.
Lemma low_pow k : 1 - INR k * u <= (1 - u) ^ k <= 1.
Proof.
  pose proof u_sz as U. induction k as [|k [IH1 IH2]]; [cbn; lra|]. rewrite S_INR. cbn [pow]. assert (0 <= INR k) by apply pos_INR.
  assert (0 <= (1 - u) ^ k) by (apply pow_le; lra). assert (u * (1 - u) ^ k <= u * 1) by (apply Rmult_le_compat_l; lra). split; nra.
Qed.
Lemma high_pow k : (k <= 8)%nat -> 1 <= (1 + u) ^ k <= 1 + INR (S k) * u.
Proof.
  intros H. split; [apply pow_ge1|]. destruct k as [|k]; [pose proof u_sz; cbn; lra|]. pose proof (pow_gamma k) as G. replace (k + 1)%nat with (S k) in G by lia. replace (k + 2)%nat with (S (S k)) in G by lia.
  assert (Z.of_nat (S (S k)) <= 2 ^ 26)%Z by lia. specialize (G H0). lra.
Qed.
Lemma pow_half k : (k <= 8)%nat -> / 2 <= (1 - u) ^ k /\ (1 + u) ^ k <= 2.
Proof.
  intros H. destruct (low_pow k) as [L _], (high_pow k H) as [_ G]. pose proof u_sz as U. assert (I : INR k <= INR 8) by now apply le_INR. rewrite S_INR in G. assert (J : INR 8 = 8) by (cbn; lra). assert (0 <= INR k) by apply pos_INR. split; nra.
Qed.
Notation mid e := (bp (-700) <= e <= bp 700).
Lemma close_rnd k e x : (k <= 8)%nat -> mid e -> e * (1 - u) ^ k <= x <= e * (1 + u) ^ k -> e * (1 - u) ^ S k <= rnd x <= e * (1 + u) ^ S k /\ 0 < x /\ Rabs (rnd x) < huge.
Proof.
  intros H M X. destruct (pow_half k H) as [P1 P2]. assert (E : 0 < e) by (apply Rlt_le_trans with (2 := proj1 M), bpow_gt_0).
  assert (B : bp (-1022) <= x). { apply Rle_trans with (bp (-701)); [apply bpow_le; lia|]. replace (bp (-701)) with (bp (-700) * / 2) by (change (-701)%Z with (-700 + -1)%Z; rewrite bpow_plus; reflexivity). assert (e * / 2 <= e * (1 - u) ^ k) by (apply Rmult_le_compat_l; lra). lra. }
  assert (X0 : 0 < x) by (apply Rlt_le_trans with (2 := B), bpow_gt_0). destruct (pos_rel x B) as [L G]. pose proof u_sz as U.
  cbn [pow]. split; [|split; [exact X0|]].
  - split.
    + apply Rle_trans with (x * (1 - u)); [|exact L]. replace (e * ((1 - u) * (1 - u) ^ k)) with (e * (1 - u) ^ k * (1 - u)) by ring. apply Rmult_le_compat_r; lra.
    + apply Rle_trans with (x * (1 + u)); [exact G|]. replace (e * ((1 + u) * (1 + u) ^ k)) with (e * (1 + u) ^ k * (1 + u)) by ring. apply Rmult_le_compat_r; lra.
  - rewrite Rabs_pos_eq by (apply rnd_sign_pos; lra). apply Rle_lt_trans with (bp 702); [|apply bpow_lt; lia]. apply rnd_below; [lia|]. apply Rle_trans with (e * 2).
    + apply Rle_trans with (e * (1 + u) ^ k); [lra|]. apply Rmult_le_compat_l; lra.
    + replace (bp 702) with (bp 700 * 4) by (change 702%Z with (700 + 2)%Z; rewrite bpow_plus; reflexivity). assert (0 < bp 700) by apply bpow_gt_0. lra.
Qed.
Lemma mul_close k p v e : (k <= 8)%nat -> positive p -> close k v e -> mid (val p * e) -> close (S k) (fmul p v) (val p * e).
Proof.
  intros H [Fp Pp] [Fv V] M. destruct (close_rnd k (val p * e) (val p * val v) H M) as (C & _ & B). { rewrite !Rmult_assoc. split; apply Rmult_le_compat_l; lra. }
  destruct (mul_rounds p v Fp Fv B) as [F W]. split; [exact F|]. now rewrite W.
Qed.
Lemma mul_close' k p v e : (k <= 8)%nat -> positive p -> close k v e -> mid (e * val p) -> close (S k) (fmul v p) (e * val p).
Proof.
  intros H [Fp Pp] [Fv V] M. destruct (close_rnd k (e * val p) (val v * val p) H M) as (C & _ & B). { split; [replace (e * val p * (1 - u) ^ k) with (e * (1 - u) ^ k * val p) by ring|replace (e * val p * (1 + u) ^ k) with (e * (1 + u) ^ k * val p) by ring]; apply Rmult_le_compat_r; lra. }
  destruct (mul_rounds v p Fv Fp B) as [F W]. split; [exact F|]. now rewrite W.
Qed.
Lemma div_close k p v e : (k <= 8)%nat -> positive p -> close k v e -> mid (e / val p) -> close (S k) (fdiv v p) (e / val p).
Proof.
  intros H [Fp Pp] [Fv V] M. assert (I := Rinv_0_lt_compat _ Pp). destruct (close_rnd k (e / val p) (val v / val p) H M) as (C & _ & B).
  { unfold Rdiv. split; [replace (e * / val p * (1 - u) ^ k) with (e * (1 - u) ^ k * / val p) by ring|replace (e * / val p * (1 + u) ^ k) with (e * (1 + u) ^ k * / val p) by ring]; apply Rmult_le_compat_r; lra. }
  destruct (div_rounds v p Fv Fp ltac:(lra) B) as [F W]. split; [exact F|]. now rewrite W.
Qed.
Lemma sqrt_close k v e : (k <= 8)%nat -> close k v e -> 0 < e -> mid (sqrt e) -> close (S k) (fsqrt v) (sqrt e).
Proof.
  intros H [Fv V] E M. destruct (low_pow k) as [_ L1], (high_pow k H) as [G1 _]. destruct (pow_half k H) as [L2 _]. pose proof u_sz as U.
  assert (Q1 : forall a, 0 < a <= 1 -> a <= sqrt a). { intros a A. rewrite <- (sqrt_Rsqr a) at 1 by lra. apply sqrt_le_1_alt. unfold Rsqr. nra. }
  assert (Q2 : forall a, 1 <= a -> sqrt a <= a). { intros a A. rewrite <- (sqrt_Rsqr a) at 2 by lra. apply sqrt_le_1_alt. unfold Rsqr. nra. }
  assert (S0 := sqrt_pos e). destruct (close_rnd k (sqrt e) (sqrt (val v)) H M) as (C & _ & B).
  { split.
    - apply Rle_trans with (sqrt (e * (1 - u) ^ k)); [|apply sqrt_le_1_alt; lra]. rewrite sqrt_mult by lra. apply Rmult_le_compat_l; [lra|]. apply Q1. lra.
    - apply Rle_trans with (sqrt (e * (1 + u) ^ k)); [apply sqrt_le_1_alt; lra|]. rewrite sqrt_mult by lra. apply Rmult_le_compat_l; [lra|]. now apply Q2. }
  assert (P : 0 <= val v). { assert (0 <= e * (1 - u) ^ k) by (apply Rmult_le_pos; lra). lra. }
  destruct (sqrt_ok v Fv P) as [F W]. split; [exact F|]. now rewrite W.
Qed.
Lemma close_end k v e : (k <= 7)%nat -> 0 < e -> close k v e -> amount v /\ Rabs (val v - e) <= 8 * u * e.
Proof.
  intros H E [F [L G]]. destruct (low_pow k) as [L1 _], (high_pow k ltac:(lia)) as [_ G1]. destruct (pow_half k ltac:(lia)) as [L2 _]. pose proof u_sz as U.
  assert (I : INR k <= 7) by (replace 7 with (INR 7) by (cbn; lra); now apply le_INR). rewrite S_INR in G1. assert (I' : INR k * u <= 7 * u) by (apply Rmult_le_compat_r; lra).
  assert (A : e * (1 - 7 * u) <= e * (1 - u) ^ k) by (apply Rmult_le_compat_l; lra). assert (B : e * (1 + u) ^ k <= e * (1 + 8 * u)) by (apply Rmult_le_compat_l; lra).
  assert (0 <= u * e) by (apply Rmult_le_pos; lra). split; [split; [exact F|]|apply Rabs_le; lra].
  assert (0 <= e * (1 - u) ^ k) by (apply Rmult_le_pos; lra). lra.
Qed.
Lemma close_refl v : amount v -> close 0 v (val v).
Proof. intros [F P]. split; [exact F|]. cbn [pow]. lra. Qed.
Lemma ord_pos x : finite_double x -> ordinary (val x) -> positive x.
Proof. intros F [L _]. split; [exact F|]. assert (0 < / 2 ^ 100) by (apply Rinv_0_lt_compat, pow_lt; lra). lra. Qed.

(** ** Wavelength sizes *)
Lemma abs_amount z : finite_double z -> amount (SFabs z) /\ val (SFabs z) = Rabs (val z).
Proof. intros F. destruct (abs_ok z F) as [G V]. split; [split; [exact G|rewrite V; apply Rabs_pos]|exact V]. Qed.
Definition wdepth (z : spec_float) := SFabs (if SFltb (SFabs z) f_one then f_one else z).
Lemma wdepth_ok z : finite_double z -> positive (wdepth z) /\ val (wdepth z) = wave_depth z.
Proof.
  intros F. destruct (abs_amount z F) as [A V]. unfold wdepth, wave_depth. destruct (SFltb (SFabs z) f_one) eqn:E.
  - apply ltb_val in E; [|apply A|apply one_fin]. rewrite V, one_val in E. destruct (abs_amount f_one one_fin) as [A1 V1]. rewrite one_val, Rabs_R1 in V1.
    split; [split; [apply A1|lra]|]. rewrite V1, Rmax_left; lra.
  - assert (N : ~ val (SFabs z) < val f_one) by (intros N; apply ltb_val in N; [congruence|apply A|apply one_fin]). rewrite V, one_val in N.
    split; [split; [apply A|lra]|]. rewrite V, Rmax_right; lra.
Qed.
Definition wsize (period gravity wl : spec_float) (mpd : option spec_float) (d : spec_float) :=
  let v := fdiv (fmul period (fsqrt (fmul gravity d))) wl in match mpd with Some m => fdiv v m | None => v end.
Lemma wave_wsize period gravity wl mpd z : wave_f period gravity wl mpd z = wsize period gravity wl mpd (wdepth z). Proof. reflexivity. Qed.
Lemma wsize_mono period gravity wl mpd x y : positive period -> positive gravity -> positive wl -> positive_opt mpd -> amount x -> amount y -> val x <= val y ->
  no_more (wsize period gravity wl mpd x) (wsize period gravity wl mpd y).
Proof.
  intros Hp Hg Hw Hm X Y L. assert (M : no_more x y) by (right; auto). unfold wsize. cbn zeta.
  assert (N : no_more (fdiv (fmul period (fsqrt (fmul gravity x))) wl) (fdiv (fmul period (fsqrt (fmul gravity y))) wl)) by auto using div_mono, mul_mono, sqrt_mono.
  destruct mpd as [m|]; [|exact N]. apply div_mono; auto.
Qed.
Lemma bound_mul a b c d x y : 0 < a -> 0 < c -> a <= x <= b -> c <= y <= d -> a * c <= x * y <= b * d.
Proof. intros A C X Y. split; apply Rmult_le_compat; lra. Qed.
Lemma bound_div a b c d x y : 0 < a -> 0 < c -> a <= x <= b -> c <= y <= d -> a / d <= x / y <= b / c.
Proof.
  intros A C X Y. unfold Rdiv. assert (0 < / d) by (apply Rinv_0_lt_compat; lra). assert (0 < / y) by (apply Rinv_0_lt_compat; lra). assert (/ d <= / y) by (apply Rinv_le_contravar; lra). assert (/ y <= / c) by (apply Rinv_le_contravar; lra).
  split; apply Rmult_le_compat; lra.
Qed.
Notation span n e := (bp (- n) <= e <= bp n).
Lemma span_mul n m x y : span n x -> span m y -> span (n + m) (x * y).
Proof. intros X Y. rewrite Z.opp_add_distr, !bpow_plus. apply bound_mul; auto using bpow_gt_0. Qed.
Lemma span_div n m x y : span n x -> span m y -> span (n + m) (x / y).
Proof.
  intros X Y. assert (B := bound_div _ _ _ _ _ _ (bpow_gt_0 radix2 (- n)) (bpow_gt_0 radix2 (- m)) X Y). unfold Rdiv in B. rewrite <- !bpow_opp, Z.opp_involutive, <- !bpow_plus in B. now replace (- (n + m))%Z with (- n + - m)%Z by lia.
Qed.
Lemma span_sqrt n x : span (2 * n) x -> span n (sqrt x).
Proof.
  intros X. assert (Q : forall k, sqrt (bp (2 * k)) = bp k). { intros k. rewrite <- (sqrt_Rsqr (bp k)) by apply bpow_ge_0. f_equal. unfold Rsqr. rewrite <- bpow_plus. f_equal. lia. }
  rewrite <- (Q n), <- (Q (- n)%Z). split; apply sqrt_le_1_alt; [replace (2 * - n)%Z with (- (2 * n))%Z by lia|]; lra.
Qed.
Lemma span_wide n m x : (n <= m)%Z -> span n x -> span m x.
Proof. intros H X. assert (bp n <= bp m) by now apply bpow_le. assert (bp (- m) <= bp (- n)) by (apply bpow_le; lia). lra. Qed.
Lemma span_ord x : ordinary x -> span 100 x.
Proof. intros [A B]. rewrite bpow_opp. replace (bp 100) with (2 ^ 100) by (cbn; lra). lra. Qed.
Lemma span_pos n x : span n x -> 0 < x. Proof. intros [A _]. apply Rlt_le_trans with (2 := A), bpow_gt_0. Qed.
Lemma mid_span n x : (n <= 700)%Z -> span n x -> mid x. Proof. intros H X. exact (span_wide n 700 x H X). Qed.
Lemma per_close k v e mpd : (k <= 6)%nat -> span 500 e -> ordinary_opt mpd -> close k v e -> amount (match mpd with Some m => fdiv v m | None => v end) /\
  Rabs (val (match mpd with Some m => fdiv v m | None => v end) - per mpd e) <= 8 * u * per mpd e.
Proof.
  intros K E M C. destruct mpd as [m|]; cbn [per].
  - destruct (M m eq_refl) as [Fm Om]. pose proof (span_div 500 100 e (val m) E (span_ord _ Om)) as SS. apply (close_end (S k)); [lia|exact (span_pos _ _ SS)|].
    apply div_close; [lia|now apply ord_pos|exact C|apply (mid_span 600); [lia|exact SS]].
  - apply (close_end k); [lia|exact (span_pos _ _ E)|exact C].
Qed.
Lemma depth_span z : Rabs (val z) <= 2 ^ 100 -> span 100 (wave_depth z).
Proof.
  intros L. unfold wave_depth. assert (B : bp 100 = 2 ^ 100) by (cbn; lra). assert (B' : bp (- (100)) <= bp 0) by (apply bpow_le; lia). change (bp 0) with 1 in B'.
  assert (1 <= 2 ^ 100) by (apply pow_R1_Rle; lra). pose proof (Rmax_l 1 (Rabs (val z))). split; [lra|]. apply Rmax_lub; lra.
Qed.
Lemma wave_near period gravity wl mpd z : finite_double period -> ordinary (val period) -> finite_double gravity -> ordinary (val gravity) -> finite_double wl -> ordinary (val wl) -> ordinary_opt mpd ->
  finite_double z -> Rabs (val z) <= 2 ^ 100 ->
  amount (wave_f period gravity wl mpd z) /\ Rabs (val (wave_f period gravity wl mpd z) - wave_size period gravity wl mpd z) <= 8 * u * wave_size period gravity wl mpd z.
Proof.
  intros Fp Op Fg Og Fw Ow M Fz L. destruct (wdepth_ok z Fz) as [Pd Vd]. rewrite wave_wsize. unfold wsize, wave_size. cbn zeta. rewrite <- Vd.
  assert (D : span 100 (val (wdepth z))) by (rewrite Vd; now apply depth_span).
  assert (S1 := span_mul 100 100 _ _ (span_ord _ Og) D). assert (S2 := span_sqrt 100 _ S1). assert (S3 := span_mul 100 100 _ _ (span_ord _ Op) S2). assert (S4 := span_div 200 100 _ _ S3 (span_ord _ Ow)).
  apply (per_close 4); auto; [apply (span_wide 300); [lia|exact S4]|].
  apply div_close; [lia|now apply ord_pos| |apply (mid_span 300); [lia|exact S4]].
  apply mul_close; [lia|now apply ord_pos| |apply (mid_span 200); [lia|exact S3]].
  apply sqrt_close; [lia| |exact (span_pos _ _ S1)|apply (mid_span 100); [lia|exact S2]].
  apply mul_close; [lia|now apply ord_pos| |apply (mid_span 200); [lia|exact S1]].
  apply close_refl. now apply pos_amount.
Qed.
Lemma amin_ok l : l <> [] -> Forall size l -> exists m, amin_f l = Ok m /\ In m l /\ forall x, In x l -> no_more m x.
Proof.
  intros NE A. destruct l as [|x r]; [congruence|]. cbn [amin_f]. eexists. split; [reflexivity|]. inversion_clear A. clear NE. revert x H. induction H0 as [|y r Y A IH]; intros x X; cbn [fold_left].
  - split; [now left|]. intros z [<-|[]]. now apply size_refl.
  - assert (Nx : is_nan_f x = false) by (destruct X as [[[_ X] _]| ->]; [destruct x; try discriminate; reflexivity|reflexivity]).
    assert (Ny : is_nan_f y = false) by (destruct Y as [[[_ Y] _]| ->]; [destruct y; try discriminate; reflexivity|reflexivity]). rewrite Nx, Ny.
    set (m := if SFltb y x then y else x). assert (Sm : size m /\ no_more m x /\ no_more m y /\ (m = x \/ m = y)).
    { unfold m. destruct (SFltb y x) eqn:E.
      - split; [exact Y|]. split; [|split; [now apply size_refl|now right]]. destruct Y as [Y| ->].
        + apply ltb_size in E as [-> |[F L]]; auto; [left; split; [now left|reflexivity]|]. right. split; [exact Y|]. split; [|lra]. destruct X as [X| ->]; [exact X|destruct F; discriminate].
        + destruct X as [X| ->]; [rewrite ltb_inf in E by apply X|]; discriminate.
      - split; [exact X|]. split; [now apply size_refl|]. split; [|now left]. destruct Y as [Y| ->]; [|left; now split].
        right. destruct X as [X| ->]; [|exfalso; assert (SFltb y inf = true) by (apply ltb_size; [exact Y|now right|now left]); congruence]. split; [exact X|]. split; [exact Y|].
        destruct (Rle_lt_dec (val x) (val y)) as [|N]; [assumption|]. apply ltb_val in N; [congruence|apply Y|apply X]. }
    destruct Sm as (Sm & L1 & L2 & I). destruct (IH m Sm) as (J & L). split.
    + destruct J as [J|J]; [|right; now right]. rewrite <- J. destruct I as [-> | ->]; [now left|right; now left].
    + intros z [<-|[<-|Hz]]; [apply (more_trans _ m)| apply (more_trans _ m)|]; auto; apply L; [now left|now left|now right].
Qed.
(** Sizes from depths. *)
Theorem wavelength_ok period gravity wl mpd lo hi depths : positive period -> positive gravity -> positive wl -> positive_opt mpd -> bound_ok lo -> bound_ok hi -> Forall finite_double depths ->
  (lo = None -> depths <> []) ->
  exists sizes hmin, wavelength_sizes_f period gravity wl mpd lo hi depths = Ok (sizes, hmin) /\ length sizes = length depths /\
  (forall l, lo = Some l -> hmin = l) /\
  (lo = None -> (cap_above hmin hi -> In hmin sizes /\ forall v, In v sizes -> no_more hmin v)) /\
  forall i z v, entry depths i z -> entry sizes i v ->
    size v /\ within_cap hi v /\ (forall l, lo = Some l -> cap_above l hi -> no_more l v) /\
    (forall j z' v', entry depths j z' -> entry sizes j v' -> wave_depth z <= wave_depth z' -> no_more v v') /\
    (ordinary (val period) -> ordinary (val gravity) -> ordinary (val wl) -> ordinary_opt mpd -> Rabs (val z) <= 2 ^ 100 ->
      amount v /\ Rabs (val v - capped hi (floored lo (wave_size period gravity wl mpd z))) <= 8 * u * wave_size period gravity wl mpd z).
Proof.
  intros Hp Hg Hw Hm Bl Bh A NE. unfold wavelength_sizes_f. set (f := wave_f period gravity wl mpd).
  assert (MO : forall z z', finite_double z -> finite_double z' -> wave_depth z <= wave_depth z' -> no_more (f z) (f z')).
  { intros z z' F F' L. unfold f. rewrite !wave_wsize. destruct (wdepth_ok z F) as [D V], (wdepth_ok z' F') as [D' V']. apply wsize_mono; auto using pos_amount. lra. }
  assert (SZ : forall z, finite_double z -> size (f z)) by (intros z F; apply (more_size (f z) (f z)), MO; auto; lra).
  assert (AS : Forall size (map f depths)). { apply Forall_forall. intros x Hx. apply in_map_iff in Hx as (z & <- & Hz). apply SZ. rewrite Forall_forall in A. now apply A. }
  assert (EX : exists hmin, (match lo with None => amin_f (map f depths) | Some l => Ok l end) = Ok hmin /\ (forall l, lo = Some l -> hmin = l) /\ (lo = None -> In hmin (map f depths) /\ forall x, In x (map f depths) -> no_more hmin x)).
  { destruct lo as [l|]; [exists l; split; [reflexivity|]; split; [now intros l' [= <-]|discriminate]|].
    destruct (amin_ok (map f depths)) as (m & E & I & L); auto. { specialize (NE eq_refl). destruct depths; [congruence|discriminate]. } exists m. split; [exact E|]. split; [discriminate|]. now split. }
  destruct EX as (hmin & E & E1 & E2). exists (map (fun x => cap_f hi (floor_f lo x)) (map f depths)), hmin. cbn zeta. rewrite E. cbn [bind]. split; [reflexivity|]. rewrite !map_length. split; [reflexivity|]. split; [exact E1|]. split.
  { intros -> C. destruct (E2 eq_refl) as [I L]. cbn [floor_f]. split.
    - apply in_map_iff. exists hmin. split; [|exact I]. destruct hi as [h|]; [|reflexivity]. cbn [cap_f]. destruct (SFltb h hmin) eqn:T; [|reflexivity]. exfalso.
      specialize (Bh h eq_refl). assert (Sh : size hmin) by (rewrite Forall_forall in AS; now apply AS). apply ltb_size in T; auto. destruct (C h eq_refl) as [[_ C']|(C1 & C2 & C3)]; [rewrite C' in Bh; destruct Bh as [[_ Bh] _]; discriminate|].
      destruct T as [-> |[_ T]]; [destruct C1 as [[_ C1] _]; discriminate|lra].
    - intros v Hv. apply in_map_iff in Hv as (x & <- & Hx). apply cap_keeps; auto. }
  intros i z v Ez Ev. apply entry_map in Ev as (y & Ey & ->). apply entry_map in Ey as (z' & Ez' & ->). rewrite (entry_fun _ _ _ _ Ez' Ez) in *. clear z' Ez'.
  assert (F := entry_Forall _ _ _ _ A Ez). assert (S := SZ z F). assert (S' := floor_size lo _ Bl S). destruct (cap_size hi _ Bh S') as [S1 S2].
  split; [exact S1|]. split; [exact S2|]. split.
  { intros l -> C. apply cap_keeps; auto. apply floor_some; auto. }
  split.
  - intros j z' v' Ez' Ev' L. apply entry_map in Ev' as (y & Ey & ->). apply entry_map in Ey as (z2 & Ez2 & ->). rewrite (entry_fun _ _ _ _ Ez2 Ez') in *. apply cap_mono, floor_mono; auto. apply MO; auto. exact (entry_Forall _ _ _ _ A Ez').
  - intros Op Og Ow Om L. destruct (wave_near period gravity wl mpd z (proj1 Hp) Op (proj1 Hg) Og (proj1 Hw) Ow Om F L) as [W1 W2]. destruct (floor_val lo _ _ _ Bl W1 W2) as [W3 W4]. now apply cap_val.
Qed.

(** ** Slope sizes *)
Definition sdepth (cutoff z : spec_float) := SFabs (let z1 := if SFleb cutoff z then cutoff else z in if is_nan_f z1 then z1 else if SFltb f_m1 z1 then f_m1 else z1).
Lemma m1_ok : finite_double f_m1 /\ val f_m1 = -1.
Proof. split; [apply finite_check; reflexivity|unfold val, f_m1, SF2R, F2R; cbn; lra]. Qed.
Lemma sdepth_ok cutoff z : finite_double cutoff -> finite_double z -> positive (sdepth cutoff z) /\ val (sdepth cutoff z) = slope_depth cutoff z.
Proof.
  intros Fc Fz. unfold sdepth, slope_depth. cbn zeta. destruct m1_ok as [F1 V1].
  assert (Z1 : finite_double (if SFleb cutoff z then cutoff else z) /\ val (if SFleb cutoff z then cutoff else z) = Rmin (val cutoff) (val z)).
  { destruct (SFleb cutoff z) eqn:E.
    - split; [exact Fc|]. apply leb_val in E; auto. rewrite Rmin_left; lra.
    - split; [exact Fz|]. assert (~ val cutoff <= val z) by (intros N; apply leb_val in N; auto; congruence). rewrite Rmin_right; lra. }
  destruct Z1 as [F V]. set (z1 := if SFleb cutoff z then cutoff else z) in *. rewrite <- V.
  assert (N : is_nan_f z1 = false) by (destruct F as [_ F]; destruct z1; try discriminate; reflexivity). rewrite N.
  destruct (SFltb f_m1 z1) eqn:E.
  - apply ltb_val in E; auto. destruct (abs_amount f_m1 F1) as [A W]. rewrite V1 in *. rewrite Rabs_left in W by lra. split; [split; [apply A|lra]|]. rewrite W, Rmax_left; lra.
  - assert (~ val f_m1 < val z1) by (intros X; apply ltb_val in X; auto; congruence). destruct (abs_amount z1 F) as [A W]. rewrite V1 in *. rewrite Rabs_left in W by lra. split; [split; [apply A|lra]|]. rewrite W, Rmax_right; lra.
Qed.
Notation f2pi := (fmul ftwo f_pi).
Lemma f2pi_ok : positive f2pi /\ val f2pi = 2 * pi64.
Proof. assert (E : f2pi = S754_finite false 7074237752028440 (-50)) by (vm_compute; reflexivity). rewrite E. assert (V : val (S754_finite false 7074237752028440 (-50)) = 2 * pi64) by (unfold val, SF2R, F2R, pi64; cbn; lra). split; [|exact V]. split; [apply finite_check; reflexivity|]. rewrite V. unfold pi64. lra. Qed.
Lemma eps_ok : positive f_1e10 /\ / 10 ^ 10 * (1 - u) <= val f_1e10 <= / 10 ^ 10 * (1 + u) /\ bp (-34) <= val f_1e10 /\ val f_1e10 <= 1.
Proof.
  assert (F : finite_double f_1e10) by (apply finite_check; reflexivity). assert (V : val f_1e10 = 7737125245533627 / 77371252455336267181195264) by (unfold val, f_1e10, SF2R, F2R; cbn; lra).
  split; [split; [exact F|rewrite V; lra]|]. rewrite V. unfold u. cbn. lra.
Qed.
Lemma den_ok bs : amount bs -> val bs <= bp 1000 -> positive (fadd bs f_1e10) /\ val (fadd bs f_1e10) = rnd (val bs + val f_1e10).
Proof.
  intros [F P] L. destruct eps_ok as ([Fe Pe] & _ & _ & E1). assert (B : rnd (val bs + val f_1e10) <= bp 1001).
  { apply rnd_below; [lia|]. change 1001%Z with (1000 + 1)%Z. rewrite bpow_plus. change (bp 1) with 2. assert (bp 0 <= bp 1000) by (apply bpow_le; lia). change (bp 0) with 1 in H. lra. }
  assert (G : val f_1e10 <= rnd (val bs + val f_1e10)) by (apply rnd_ge; [now apply format_val|lra]).
  destruct (proj1 (add_rounds bs f_1e10 F Fe)) as [A V]. { apply (lt_huge 1001); [lia|]. rewrite Rabs_pos_eq; lra. }
  split; [split; [exact A|lra]|exact V].
Qed.
Lemma mul_size a x y : size a -> positive x -> positive y -> val x <= val y -> no_more (fmul a x) (fmul a y).
Proof.
  intros [A| ->] X Y L.
  - apply (weighs_le _ (rnd (val a * val x)) _ (rnd (val a * val y))); auto using mul_weighs, pos_amount. apply rnd_le. apply Rmult_le_compat_l; [apply A|exact L].
  - rewrite (proj2 (inf_mul_pos x X)), (proj2 (inf_mul_pos y Y)). left. split; [now right|reflexivity].
Qed.
Definition ssize (sp : spec_float) (mpd : option spec_float) (d bs : spec_float) :=
  let v := fdiv (fmul (fdiv f2pi sp) d) (fadd bs f_1e10) in match mpd with Some m => fdiv v m | None => v end.
Lemma slope_ssize cutoff sp mpd z bs : slope_f cutoff sp mpd z bs = ssize sp mpd (sdepth cutoff z) bs. Proof. reflexivity. Qed.
Lemma ssize_mono sp mpd d bs d' bs' : positive sp -> positive_opt mpd -> positive d -> positive d' -> amount bs -> amount bs' -> val bs <= bp 1000 -> val d <= val d' -> val bs' <= val bs ->
  no_more (ssize sp mpd d bs) (ssize sp mpd d' bs').
Proof.
  intros Hs Hm D D' B B' L Ld Lb. unfold ssize. cbn zeta. assert (A : size (fdiv f2pi sp)) by (apply (weighs_size _ (rnd (val f2pi / val sp))), div_weighs; auto; apply pos_amount, f2pi_ok).
  destruct (den_ok bs B L) as [Q V], (den_ok bs' B' ltac:(lra)) as [Q' V'].
  assert (N : no_more (fmul (fdiv f2pi sp) d) (fmul (fdiv f2pi sp) d')) by now apply mul_size.
  assert (M : no_more (fdiv (fmul (fdiv f2pi sp) d) (fadd bs f_1e10)) (fdiv (fmul (fdiv f2pi sp) d') (fadd bs' f_1e10))).
  { apply (more_trans _ (fdiv (fmul (fdiv f2pi sp) d') (fadd bs f_1e10))); [now apply div_mono|]. apply div_anti; auto; [apply (more_size _ _ N)|]. rewrite V, V'. apply rnd_le. lra. }
  destruct mpd as [m|]; [|exact M]. apply div_mono; auto.
Qed.
Lemma den_close bs : amount bs -> val bs <= 2 ^ 100 -> close 2 (fadd bs f_1e10) (val bs + / 10 ^ 10) /\ span 101 (val bs + / 10 ^ 10).
Proof.
  intros B L. assert (E : bp 100 = 2 ^ 100) by (cbn; lra). assert (bp 100 <= bp 1000) by (apply bpow_le; lia). destruct (den_ok bs B ltac:(lra)) as [[F P] V]. destruct eps_ok as (_ & I & _ & _). pose proof u_sz as U. destruct B as [_ B].
  assert (T : span 101 (val bs + / 10 ^ 10)).
  { change 101%Z with (100 + 1)%Z. rewrite (bpow_plus _ 100 1). change (bp 1) with 2. rewrite E. assert (bp (- (100 + 1)) <= bp (-34)) by (apply bpow_le; lia). assert (bp (-34) <= / 10 ^ 10) by (cbn; lra). assert (1 <= 2 ^ 100) by (apply pow_R1_Rle; lra). assert (/ 10 ^ 10 <= 1) by lra. lra. }
  split; [|exact T]. split; [exact F|]. rewrite V. apply (close_rnd 1); [lia|apply (mid_span 101); [lia|exact T]|]. cbn [pow]. rewrite !Rmult_1_r. assert (0 <= u * val bs) by (apply Rmult_le_pos; lra). lra.
Qed.
Lemma div_close2 n d e g : close 2 n e -> close 2 d g -> 0 < e -> 0 < g -> mid (e / g) -> close 6 (fdiv n d) (e / g).
Proof.
  intros [Fn [N1 N2]] [Fd [D1 D2]] E G M. pose proof u_sz as U. destruct (pow_half 2 ltac:(lia)) as [H1 H2].
  assert (P : 0 < val d) by (apply Rlt_le_trans with (2 := D1), Rmult_lt_0_compat; lra). assert (Pn : 0 < val n) by (apply Rlt_le_trans with (2 := N1), Rmult_lt_0_compat; lra).
  assert (IG : 0 < / g) by now apply Rinv_0_lt_compat. assert (Ip : 0 < / val d) by now apply Rinv_0_lt_compat.
  assert (A : e / g * (1 - u) ^ 5 <= val n / val d <= e / g * (1 + u) ^ 5).
  { assert (Q1 : / val d <= / g * (1 + u) ^ 3).
    { apply Rmult_le_reg_l with (val d); [lra|]. rewrite Rinv_r by lra. assert (g * (1 - u) ^ 2 * (/ g * (1 + u) ^ 3) <= val d * (/ g * (1 + u) ^ 3)). { apply Rmult_le_compat_r; [|exact D1]. apply Rmult_le_pos; [lra|apply pow_le; lra]. }
      apply Rle_trans with (2 := H). replace (g * (1 - u) ^ 2 * (/ g * (1 + u) ^ 3)) with ((1 - u * u) ^ 2 * (1 + u)) by (field; lra).
      assert (0 <= u * u <= / 1000000 * u) by (split; [apply Rmult_le_pos; lra|apply Rmult_le_compat_r; lra]). cbn [pow]. rewrite Rmult_1_r. assert (1 - 2 * (u * u) <= (1 - u * u) * (1 - u * u)) by (pose proof (Rle_0_sqr (u * u)) as W; unfold Rsqr in W; lra).
      apply Rle_trans with ((1 - 2 * (u * u)) * (1 + u)); [|apply Rmult_le_compat_r; lra]. assert (u * u * u <= u * u * 1) by (apply Rmult_le_compat_l; lra). lra. }
    assert (Q2 : / g * (1 - u) ^ 3 <= / val d).
    { apply Rmult_le_reg_l with (val d); [lra|]. rewrite Rinv_r by lra. assert (val d * (/ g * (1 - u) ^ 3) <= g * (1 + u) ^ 2 * (/ g * (1 - u) ^ 3)). { apply Rmult_le_compat_r; [|exact D2]. apply Rmult_le_pos; [lra|apply pow_le; lra]. }
      apply Rle_trans with (1 := H). replace (g * (1 + u) ^ 2 * (/ g * (1 - u) ^ 3)) with ((1 - u * u) ^ 2 * (1 - u)) by (field; lra).
      assert (0 <= u * u <= / 1000000 * u) by (split; [apply Rmult_le_pos; lra|apply Rmult_le_compat_r; lra]). rewrite <- (Rmult_1_r 1). apply Rmult_le_compat; [apply pow_le; lra|lra| |lra]. cbn [pow]. rewrite Rmult_1_r. assert ((1 - u * u) * (1 - u * u) <= 1 * 1) by (apply Rmult_le_compat; lra). lra. }
    unfold Rdiv. split.
    - replace (e * / g * (1 - u) ^ 5) with (e * (1 - u) ^ 2 * (/ g * (1 - u) ^ 3)) by ring. apply Rmult_le_compat; auto. + apply Rmult_le_pos; lra. + apply Rmult_le_pos; [lra|apply pow_le; lra].
    - replace (e * / g * (1 + u) ^ 5) with (e * (1 + u) ^ 2 * (/ g * (1 + u) ^ 3)) by ring. apply Rmult_le_compat; lra. }
  destruct (close_rnd 5 (e / g) (val n / val d) ltac:(lia) M A) as (C & _ & B).
  destruct (div_rounds n d Fn Fd ltac:(lra) B) as [F W]. split; [exact F|]. now rewrite W.
Qed.
Lemma sdepth_span cutoff z : Rabs (val cutoff) <= 2 ^ 100 -> Rabs (val z) <= 2 ^ 100 -> span 100 (slope_depth cutoff z).
Proof.
  intros Lc Lz. unfold slope_depth. assert (B : bp 100 = 2 ^ 100) by (cbn; lra). assert (B' : bp (- (100)) <= bp 0) by (apply bpow_le; lia). change (bp 0) with 1 in B'.
  assert (1 <= 2 ^ 100) by (apply pow_R1_Rle; lra). apply Rabs_le_inv in Lc, Lz. unfold Rmax, Rmin. destruct (Rle_dec (val cutoff) (val z)); destruct (Rle_dec 1 _); lra.
Qed.
Lemma slope_near cutoff sp mpd z bs : finite_double cutoff -> Rabs (val cutoff) <= 2 ^ 100 -> finite_double sp -> ordinary (val sp) -> ordinary_opt mpd -> finite_double z -> Rabs (val z) <= 2 ^ 100 -> amount bs -> val bs <= 2 ^ 100 ->
  amount (slope_f cutoff sp mpd z bs) /\ Rabs (val (slope_f cutoff sp mpd z bs) - slope_size cutoff sp mpd z bs) <= 8 * u * slope_size cutoff sp mpd z bs.
Proof.
  intros Fc Lc Fs Os Om Fz Lz B Lb. destruct (sdepth_ok cutoff z Fc Fz) as [Pd Vd]. rewrite slope_ssize. unfold ssize, slope_size. cbn zeta. rewrite <- Vd. destruct f2pi_ok as [P2 V2]. rewrite <- V2.
  assert (D : span 100 (val (sdepth cutoff z))) by (rewrite Vd; now apply sdepth_span). destruct (den_close bs B Lb) as [C G].
  assert (S0 : span 3 (val f2pi)) by (rewrite V2; unfold pi64; cbn; lra).
  assert (S1 := span_div 3 100 _ _ S0 (span_ord _ Os)). assert (S2 := span_mul 103 100 _ _ S1 D). assert (S3 := span_div 203 101 _ _ S2 G).
  apply (per_close 6); auto; [apply (span_wide 304); [lia|exact S3]|].
  apply div_close2; auto; [|exact (span_pos _ _ S2)|exact (span_pos _ _ G)|apply (mid_span 304); [lia|exact S3]].
  apply mul_close'; [lia|exact Pd| |apply (mid_span 203); [lia|exact S2]].
  apply div_close; [lia|now apply ord_pos| |apply (mid_span 103); [lia|exact S1]].
  apply close_refl, pos_amount, P2.
Qed.
(** Sizes from elevations and slopes. *)
Theorem slope_ok cutoff sp mpd lo hi dx dy nodes : finite_double cutoff -> positive sp -> positive_opt mpd -> bound_ok lo -> bound_ok hi -> amount dx -> amount dy ->
  Forall (fun n => finite_double (fst n) /\ amount (snd n) /\ val (snd n) <= bp 1000) nodes ->
  let r := slope_sizes_f cutoff sp mpd lo hi dx dy nodes in
  length (fst r) = length nodes /\ amount (snd r) /\ (forall l, lo = Some l -> snd r = l) /\ (lo = None -> val (snd r) = Rmax (val dx) (val dy)) /\
  forall i z bs v, entry nodes i (z, bs) -> entry (fst r) i v ->
    size v /\ within_cap hi v /\ (cap_above (snd r) hi -> no_more (snd r) v) /\
    (forall j z' bs' v', entry nodes j (z', bs') -> entry (fst r) j v' -> slope_depth cutoff z <= slope_depth cutoff z' -> val bs' <= val bs -> no_more v v') /\
    (Rabs (val cutoff) <= 2 ^ 100 -> ordinary (val sp) -> ordinary_opt mpd -> Rabs (val z) <= 2 ^ 100 -> val bs <= 2 ^ 100 ->
      amount v /\ Rabs (val v - capped hi (floored (Some (snd r)) (slope_size cutoff sp mpd z bs))) <= 8 * u * slope_size cutoff sp mpd z bs).
Proof.
  intros Fc Hs Hm Bl Bh Dx Dy A r. set (h := match lo with Some l => l | None => py_max dx dy end).
  assert (Eh : amount h /\ (forall l, lo = Some l -> h = l) /\ (lo = None -> val h = Rmax (val dx) (val dy))).
  { unfold h. destruct lo as [l|]; [split; [now apply Bl|]; split; [now intros l' [= <-]|discriminate]|]. unfold py_max. destruct (SFltb dx dy) eqn:E.
    - apply ltb_val in E; [|apply Dx|apply Dy]. split; [exact Dy|]. split; [discriminate|]. intros _. rewrite Rmax_right; lra.
    - assert (N : ~ val dx < val dy) by (intros N; apply ltb_val in N; [congruence|apply Dx|apply Dy]). split; [exact Dx|]. split; [discriminate|]. intros _. rewrite Rmax_left; lra. }
  destruct Eh as (Ah & E1 & E2). set (g := fun n : spec_float * spec_float => cap_f hi (floor_f (Some h) (slope_f cutoff sp mpd (fst n) (snd n)))).
  change r with (map g nodes, h). cbn [fst snd]. rewrite map_length. split; [reflexivity|]. split; [exact Ah|]. split; [exact E1|]. split; [exact E2|].
  assert (Bf : bound_ok (Some h)) by (intros x [= <-]; exact Ah).
  intros i z bs v Ez Ev. assert (Ev' := map_entry g _ _ _ Ez). rewrite <- (entry_fun _ _ _ _ Ev' Ev) in *. clear Ev Ev' v. destruct (entry_Forall _ _ _ _ A Ez) as (Fz & Ab & Lb). cbn [fst snd] in *. unfold g at 1 2 3 5 6. cbn [fst snd].
  assert (MO : forall z' bs', finite_double z' -> amount bs' -> slope_depth cutoff z <= slope_depth cutoff z' -> val bs' <= val bs -> no_more (slope_f cutoff sp mpd z bs) (slope_f cutoff sp mpd z' bs')).
  { intros z' bs' F' A' L1 L2. rewrite !slope_ssize. destruct (sdepth_ok cutoff z Fc Fz) as [D V], (sdepth_ok cutoff z' Fc F') as [D' V']. apply ssize_mono; auto. lra. }
  assert (S : size (slope_f cutoff sp mpd z bs)) by exact (proj1 (more_size _ _ (MO z bs Fz Ab (Rle_refl _) (Rle_refl _)))).
  assert (S' := floor_size (Some h) _ Bf S). destruct (cap_size hi _ Bh S') as [S1 S2].
  split; [exact S1|]. split; [exact S2|]. split. { intros C. apply cap_keeps; auto. now apply floor_some. }
  split.
  - intros j z' bs' v' Ez' Ev' L1 L2. assert (Ev2 := map_entry g _ _ _ Ez'). rewrite <- (entry_fun _ _ _ _ Ev2 Ev') in *. destruct (entry_Forall _ _ _ _ A Ez') as (Fz' & Ab' & Lb'). cbn [fst snd] in *. unfold g. cbn [fst snd]. apply cap_mono, floor_mono; auto.
  - intros Lc Os Om Lz Lb'. destruct (slope_near cutoff sp mpd z bs Fc Lc (proj1 Hs) Os Om Fz Lz Ab Lb') as [W1 W2]. destruct (floor_val (Some h) _ _ _ Bf W1 W2) as [W3 W4]. now apply cap_val.
Qed.

(** ** Resampling a line *)
Section Resample.
  Variables (len half : spec_float).
  Hypothesis Hlen : finite_double len.
  Hypothesis Hhalf : positive half.
  Hypothesis Hcount : val len <= bp 51 * val half.
  Hypothesis Hbig : val len <= bp 1000.
  Hypothesis Hbig' : val half <= bp 1000.
Lemma step_ok d : amount d -> val d < val len -> amount (fadd d half) /\ val d + val half / 2 <= val (fadd d half) <= val d + 3 / 2 * val half /\ Rabs (val (fadd d half) - (val d + val half)) <= u * (val len + val half).
Proof.
  intros [F P] L. destruct Hhalf as [Fh Ph]. assert (S0 : 0 <= val d + val half) by lra.
  assert (B : rnd (val d + val half) <= bp 1001) by (apply rnd_below; [lia|]; change 1001%Z with (1000 + 1)%Z; rewrite bpow_plus; change (bp 1) with 2; lra).
  destruct (proj1 (add_rounds d half F Fh)) as [G V]. { apply (lt_huge 1001); [lia|]. rewrite Rabs_pos_eq; [exact B|]. now apply rnd_sign_pos. }
  pose proof (add_rel (val d) (val half) (format_val _ F) (format_val _ Fh)) as E. rewrite (Rabs_pos_eq (val d + val half)) in E by exact S0.
  assert (U : u * (val len + val half) <= val half / 2). { assert (0 < u) by apply u_sz. apply Rle_trans with (u * ((bp 51 + 1) * val half)); [apply Rmult_le_compat_l; lra|]. replace (u * ((bp 51 + 1) * val half)) with ((u * (bp 51 + 1)) * val half) by ring.
    assert (u * (bp 51 + 1) <= / 2) by (unfold u; cbn; lra). assert (u * (bp 51 + 1) * val half <= / 2 * val half) by (apply Rmult_le_compat_r; lra). lra. }
  assert (E' : u * (val d + val half) <= u * (val len + val half)) by (apply Rmult_le_compat_l; [left; apply u_sz|lra]).
  rewrite V. apply Rabs_le_inv in E. split; [split; [exact G|rewrite V; now apply rnd_sign_pos]|]. split; [lra|]. apply Rabs_le. lra.
Qed.
Definition good (d : spec_float) (l : list spec_float) : Prop :=
  Forall (fun x => amount x /\ val x < val len) l /\ (val len <= val d -> l = []) /\ (val d < val len -> entry l 0 d) /\
  steps_within (val half / 2) (3 / 2 * val half) l /\ (l <> [] -> val len <= val (last l S754_nan) + 3 / 2 * val half) /\
  (forall i x, entry l i x -> Rabs (val x - (val d + INR i * val half)) <= INR i * (u * (val len + val half))) /\
  (l <> [] -> (INR (length l) - 1) * (val half / 2) < val len - val d).
Lemma resample_run k : forall d, amount d -> val len - val d <= INR k * (val half / 2) -> exists l, resample_f (S k) len half d = Ok l /\ good d l.
Proof.
  induction k as [|k IH]; intros d D L.
  - exists []. cbn [INR] in L. cbn [resample_f]. assert (T : SFltb d len = false) by (destruct (SFltb d len) eqn:E; [|reflexivity]; apply ltb_val in E; [lra|apply D|exact Hlen]). rewrite T. split; [reflexivity|].
    split; [constructor|]. split; [reflexivity|]. split; [intros; lra|]. split; [intros i x y E; now destruct i|]. split; [congruence|]. split; [intros i x E; now destruct i|congruence].
  - change (resample_f (S (S k)) len half d) with (if SFltb d len then let! r := resample_f (S k) len half (fadd d half) in Ok (d :: r) else Ok []). destruct (SFltb d len) eqn:E.
    + apply ltb_val in E; [|apply D|exact Hlen]. destruct (step_ok d D E) as (A & [B1 B2] & C). destruct (IH (fadd d half) A) as (l & R & G1 & G2 & G3 & G4 & G5 & G6 & G7). { rewrite S_INR in L. lra. }
      exists (d :: l). rewrite R. split; [reflexivity|]. split; [constructor; auto|]. split; [intros; lra|]. split; [intros; reflexivity|]. destruct Hhalf as [_ Ph]. split; [|split; [|split]].
      * intros i x y Ex Ey. destruct i as [|i]; [|now apply (G4 i)]. injection Ex as <-. destruct l as [|z r]; [discriminate|]. injection Ey as <-. destruct (Rlt_le_dec (val (fadd d half)) (val len)) as [Q|Q]; [|specialize (G2 Q); discriminate]. specialize (G3 Q). injection G3 as ->. lra.
      * intros _. destruct l as [|z r]; [|change (last (d :: z :: r) S754_nan) with (last (z :: r) S754_nan); apply G5; discriminate]. cbn [last]. destruct (Rlt_le_dec (val (fadd d half)) (val len)) as [Q|Q]; [specialize (G3 Q); discriminate|]. lra.
      * intros i x Ex. destruct i as [|i]; [injection Ex as <-; cbn [INR]; rewrite !Rmult_0_l, Rplus_0_r; unfold Rminus; rewrite Rplus_opp_r, Rabs_R0; lra|]. specialize (G6 i x Ex). rewrite S_INR. apply Rabs_le_inv in G6, C. apply Rabs_le. lra.
      * intros _. destruct l as [|z r]; [cbn [length]; change (INR 1) with 1; lra|]. assert (NE : z :: r <> []) by discriminate. specialize (G7 NE). change (length (d :: z :: r)) with (S (length (z :: r))). rewrite S_INR. lra.
    + assert (N : val len <= val d) by (destruct (Rlt_le_dec (val d) (val len)) as [Q|Q]; [apply ltb_val in Q; [congruence|apply D|exact Hlen]|exact Q]). exists []. split; [reflexivity|].
      split; [constructor|]. split; [reflexivity|]. split; [intros; lra|]. split; [intros i x y X; now destruct i|]. split; [congruence|]. split; [intros i x X; now destruct i|congruence].
Qed.
End Resample.
Lemma half_ok h : finite_double h -> bp (-1000) <= val h -> positive (fdiv h ftwo) /\ val (fdiv h ftwo) = val h / 2.
Proof.
  intros F L. assert (T : finite_double ftwo /\ val ftwo = 2) by (split; [apply finite_check; reflexivity|unfold val, ftwo, SF2R, F2R; cbn; lra]). destruct T as [FT VT].
  assert (H0 : 0 < val h) by (apply Rlt_le_trans with (2 := L), bpow_gt_0).
  assert (R : representable (val h / 2)). { unfold Rdiv. change (/ 2) with (bp (-1)). apply (mult_bpow_exact_FLT radix2 (-1074) 53); [now apply format_val|].
    assert (M : (-1000 < mag radix2 (val h))%Z) by (apply mag_gt_bpow; rewrite Rabs_pos_eq; lra). lia. }
  destruct (div_rounds h ftwo F FT) as [G V]; [rewrite VT; lra| |]. { rewrite VT, rnd_id by exact R. rewrite Rabs_pos_eq by lra. pose proof (fin_lt_huge h F). lra. }
  rewrite VT, rnd_id in V by exact R. split; [split; [exact G|lra]|exact V].
Qed.
(** Points along a line, at most 2^50 spacings long. *)
Theorem resample_ok len h : finite_double len -> 0 <= val len <= bp 1000 -> finite_double h -> bp (-1000) <= val h <= bp 1000 -> val len <= bp 50 * val h ->
  exists l, (forall fuel, 4 * val len <= (INR fuel - 1) * val h -> (0 < fuel)%nat -> resample_line_f fuel len h = Ok l) /\
    Forall (fun x => amount x /\ val x < val len) l /\ (0 < val len -> entry l 0 f_zero) /\
    steps_within (val h / 4) (3 / 4 * val h) l /\ (0 < val len -> val len <= val (last l S754_nan) + 3 / 4 * val h) /\
    (forall i x, entry l i x -> Rabs (val x - INR i * (val h / 2)) <= INR i * (u * (val len + val h / 2))) /\
    INR (length l) * val h <= 4 * val len + val h.
Proof.
  intros Fl [L0 L1] Fh [H0 H1] C. destruct (half_ok h Fh H0) as [P V]. assert (Pp := proj2 P). assert (Z : amount f_zero) by (split; [apply zero_fin|rewrite zero_val; lra]).
  assert (C' : val len <= bp 51 * val (fdiv h ftwo)). { rewrite V. change 51%Z with (50 + 1)%Z. rewrite bpow_plus. change (bp 1) with 2. lra. }
  assert (RUN : forall k, val len <= INR k * (val h / 4) -> exists l, resample_line_f (S k) len h = Ok l /\ good len (fdiv h ftwo) f_zero l).
  { intros k K. apply resample_run; auto; rewrite ?zero_val; rewrite ?V; lra. }
  assert (K : exists k0, 4 * val len / val h < INR k0) by (set (q := 4 * val len / val h); destruct (archimed q) as [A1 _]; exists (Z.to_nat (up q)); rewrite INR_IZR_INZ; assert (M : IZR (up q) <= IZR (Z.of_nat (Z.to_nat (up q)))) by (apply IZR_le; lia); lra). destruct K as [k0 K0]. assert (Hp : 0 < val h) by lra.
  assert (K1 : val len <= INR k0 * (val h / 4)). { assert (4 * val len / val h * val h < INR k0 * val h) by (apply Rmult_lt_compat_r; lra). unfold Rdiv in H at 1. rewrite Rmult_assoc, Rinv_l, Rmult_1_r in H by lra. lra. }
  destruct (RUN k0 K1) as (l & R & G).
  assert (MONO : forall k m d r r', resample_f k len (fdiv h ftwo) d = Ok r -> resample_f m len (fdiv h ftwo) d = Ok r' -> r = r').
  { induction k as [|k IH]; intros m d r r' X Y; [discriminate|]. destruct m as [|m]; [discriminate|]. cbn [resample_f] in X, Y. destruct (SFltb d len); [|congruence].
    destruct (resample_f k len (fdiv h ftwo) (fadd d (fdiv h ftwo))) as [a|?|] eqn:E1; try discriminate. destruct (resample_f m len (fdiv h ftwo) (fadd d (fdiv h ftwo))) as [b|?|] eqn:E2; try discriminate. cbn [bind] in X, Y. injection X as <-. injection Y as <-. f_equal. now apply (IH m (fadd d (fdiv h ftwo))). }
  exists l. split.
  { intros fuel Q Qp. destruct fuel as [|k]; [lia|]. rewrite S_INR in Q. destruct (RUN k ltac:(lra)) as (l' & R' & _). rewrite R'. f_equal. exact (MONO _ _ _ _ _ R' R). }
  destruct G as (G1 & G2 & G3 & G4 & G5 & G6 & G7). rewrite zero_val, V in *. split; [exact G1|]. split; [exact G3|]. split. { intros i x y Ex Ey. specialize (G4 i x y Ex Ey). lra. }
  assert (NE : 0 < val len -> l <> []) by (intros Q E; specialize (G3 Q); rewrite E in G3; discriminate).
  split. { intros Q. specialize (G5 (NE Q)). lra. } split. { intros i x Ex. specialize (G6 i x Ex). rewrite Rplus_0_l in G6. exact G6. }
  destruct l as [|z r]; [cbn [length INR]; lra|]. assert (N : z :: r <> []) by discriminate. specialize (G7 N). lra.
Qed.
(** A line so long that a step rounds to nothing, and a spacing of zero or less. *)
Notation two54 := (S754_finite false 4503599627370496 2).
Lemma stuck_never fuel : forall d, amount d -> val d <= bp 53 -> resample_f fuel two54 (fdiv f_one ftwo) d = OutOfFuel.
Proof.
  assert (F54 : finite_double two54 /\ val two54 = bp 54) by (split; [apply finite_check; reflexivity|unfold val, SF2R, F2R; cbn; lra]). destruct F54 as [F54 V54].
  assert (FH : finite_double (fdiv f_one ftwo) /\ val (fdiv f_one ftwo) = / 2). { assert (E : fdiv f_one ftwo = S754_finite false 4503599627370496 (-53)) by (vm_compute; reflexivity). rewrite E. split; [apply finite_check; reflexivity|unfold val, SF2R, F2R; cbn; lra]. } destruct FH as [FH VH].
  assert (F53 : finite_double (S754_finite false 4503599627370496 1) /\ val (S754_finite false 4503599627370496 1) = bp 53) by (split; [apply finite_check; reflexivity|unfold val, SF2R, F2R; cbn; lra]). destruct F53 as [F53 V53].
  assert (ST : rnd (bp 53 + / 2) = bp 53).
  { assert (E : fadd (S754_finite false 4503599627370496 1) (fdiv f_one ftwo) = S754_finite false 4503599627370496 1) by (vm_compute; reflexivity).
    pose proof (proj1 (add_rounds _ _ F53 FH)) as A. rewrite V53, VH, E, V53 in A. destruct A as [_ A]; [|congruence]. apply (lt_huge 54); [lia|]. assert (0 < bp 53) by apply bpow_gt_0. rewrite Rabs_pos_eq by (apply rnd_sign_pos; lra). apply rnd_below; [lia|]. cbn. lra. }
  induction fuel as [|k IH]; intros d D L; [reflexivity|]. cbn [resample_f]. assert (T : SFltb d two54 = true). { apply ltb_val; auto; [apply D|]. rewrite V54. apply Rle_lt_trans with (1 := L), bpow_lt. lia. }
  rewrite T, IH; [reflexivity| |].
  - destruct D as [FD PD]. destruct (proj1 (add_rounds d _ FD FH)) as [G V]. { rewrite VH. apply (lt_huge 53); [lia|]. rewrite Rabs_pos_eq by (apply rnd_sign_pos; lra). rewrite <- ST. apply rnd_le. lra. } split; [exact G|]. rewrite V, VH. apply rnd_sign_pos. lra.
  - destruct D as [FD PD]. destruct (proj1 (add_rounds d _ FD FH)) as [G V]. { rewrite VH. apply (lt_huge 53); [lia|]. rewrite Rabs_pos_eq by (apply rnd_sign_pos; lra). rewrite <- ST. apply rnd_le. lra. } rewrite V, VH, <- ST. apply rnd_le. lra.
Qed.
Theorem resample_refuted : exists len h, finite_double len /\ 0 < val len /\ positive h /\ forall fuel, resample_line_f fuel len h = OutOfFuel.
Proof.
  exists two54, f_one. split; [apply finite_check; reflexivity|]. split; [unfold val, SF2R, F2R; cbn; lra|]. split; [split; [apply one_fin|rewrite one_val; lra]|].
  intros fuel. apply stuck_never; [split; [apply zero_fin|rewrite zero_val; lra]|rewrite zero_val; apply bpow_ge_0].
Qed.
Lemma resample_zero_run len fuel : finite_double len -> 0 < val len -> forall d, amount d -> val d = 0 -> resample_f fuel len (fdiv f_zero ftwo) d = OutOfFuel.
Proof.
  intros F P. assert (E : fdiv f_zero ftwo = f_zero) by (vm_compute; reflexivity). rewrite E. induction fuel as [|k IH]; intros d D Z; [reflexivity|]. cbn [resample_f].
  assert (T : SFltb d len = true) by (apply ltb_val; [apply D|exact F|lra]). rewrite T.
  assert (A : rnd (val d + val f_zero) = 0) by (rewrite Z, zero_val, Rplus_0_r; apply rnd_id, rep_0). pose proof huge_pos.
  destruct (proj1 (add_rounds d f_zero (proj1 D) zero_fin)) as [G V]; [rewrite A, Rabs_R0; lra|]. rewrite A in V. rewrite IH; [reflexivity|split; [exact G|lra]|exact V].
Qed.
Theorem resample_zero len fuel : finite_double len -> 0 < val len -> resample_line_f fuel len f_zero = OutOfFuel.
Proof. intros F P. apply resample_zero_run; [exact F|exact P|split; [apply zero_fin|rewrite zero_val; lra]|apply zero_val]. Qed.
Theorem wavelength_hmin_above : exists period gravity wl hi depths sizes hmin,
  positive period /\ positive gravity /\ positive wl /\ amount hi /\ Forall finite_double depths /\ depths <> [] /\
  wavelength_sizes_f period gravity wl None None (Some hi) depths = Ok (sizes, hmin) /\ forall v, In v sizes -> val v < val hmin.
Proof.
  assert (P1 : positive f_one) by (split; [apply one_fin|rewrite one_val; lra]).
  assert (T : finite_double ftwo /\ val ftwo = 2) by (split; [apply finite_check; reflexivity|unfold val, ftwo, SF2R, F2R; cbn; lra]). destruct T as [FT VT].
  assert (P2 : positive ftwo) by (split; [exact FT|lra]).
  exists ftwo, f_one, f_one, f_one, [f_one], [f_one], ftwo. split; [exact P2|]. split; [exact P1|]. split; [exact P1|]. split; [now apply pos_amount|]. split; [constructor; [apply one_fin|constructor]|]. split; [discriminate|].
  split; [vm_compute; reflexivity|]. intros v [<-|[]]. rewrite VT, one_val. lra.
Qed.
(** ** Missing data *)
Lemma nan_ops x : fmul x S754_nan = S754_nan /\ fmul S754_nan x = S754_nan /\ fadd x S754_nan = S754_nan /\ fdiv S754_nan x = S754_nan.
Proof. destruct x as [s|s| |s m e]; repeat split; reflexivity. Qed.
Lemma nan_bounds b : cap_f b S754_nan = S754_nan /\ floor_f b S754_nan = S754_nan.
Proof. destruct b as [x|]; [|now split]. destruct x as [s|s| |s m e]; split; reflexivity. Qed.
Lemma wave_nan period gravity wl mpd : wave_f period gravity wl mpd S754_nan = S754_nan.
Proof.
  unfold wave_f. cbn zeta. change (SFltb (SFabs S754_nan) f_one) with false. cbn iota. change (SFabs S754_nan) with S754_nan. rewrite (proj1 (nan_ops gravity)). change (fsqrt S754_nan) with S754_nan.
  rewrite (proj1 (nan_ops period)), (proj2 (proj2 (proj2 (nan_ops wl)))). destruct mpd as [m|]; [apply nan_ops|reflexivity].
Qed.
Lemma amin_nan l : In S754_nan l -> amin_f l = Ok S754_nan.
Proof.
  assert (K : forall r, fold_left (fun m y => if is_nan_f m then m else if is_nan_f y then y else if SFltb y m then y else m) r S754_nan = S754_nan) by (induction r as [|a r IH]; [reflexivity|exact IH]).
  destruct l as [|x r]; intros H; [destruct H|]. cbn [amin_f]. f_equal. destruct H as [-> |H]; [apply K|]. revert x. induction r as [|y r IH]; intros x; [destruct H|]. destruct H as [-> |H]; cbn [fold_left]; [|apply IH, H].
  assert (E : (if is_nan_f x then x else if is_nan_f S754_nan then S754_nan else if SFltb S754_nan x then S754_nan else x) = S754_nan) by (destruct x; reflexivity). rewrite E. apply K.
Qed.
Theorem wavelength_nan period gravity wl mpd lo hi depths i : entry depths i S754_nan ->
  exists sizes hmin, wavelength_sizes_f period gravity wl mpd lo hi depths = Ok (sizes, hmin) /\ entry sizes i S754_nan /\ (lo = None -> hmin = S754_nan).
Proof.
  intros E. unfold wavelength_sizes_f. cbn zeta. assert (M := map_entry (wave_f period gravity wl mpd) _ _ _ E). rewrite wave_nan in M.
  assert (I : In S754_nan (map (wave_f period gravity wl mpd) depths)) by (now apply nth_error_In in M).
  assert (N := map_entry (fun x => cap_f hi (floor_f lo x)) _ _ _ M). cbv beta in N. rewrite (proj2 (nan_bounds lo)), (proj1 (nan_bounds hi)) in N.
  destruct lo as [l|]; [|rewrite (amin_nan _ I)]; cbn [bind]; eexists; eexists; (split; [reflexivity|]); (split; [exact N|]); [discriminate|reflexivity].
Qed.
Theorem slope_nan cutoff sp mpd lo hi dx dy nodes i z bs : entry nodes i (z, bs) -> z = S754_nan \/ bs = S754_nan ->
  entry (fst (slope_sizes_f cutoff sp mpd lo hi dx dy nodes)) i S754_nan.
Proof.
  intros E H. unfold slope_sizes_f. cbn zeta. cbn [fst]. set (g := fun n : spec_float * spec_float => _). assert (N : g (z, bs) = S754_nan); [|rewrite <- N; now apply map_entry].
  unfold g. cbn [fst snd]. assert (S : slope_f cutoff sp mpd z bs = S754_nan).
  { unfold slope_f. cbn zeta. assert (V : forall a d, d = S754_nan \/ bs = S754_nan -> fdiv (fmul a d) (fadd bs f_1e10) = S754_nan).
    { intros a d [-> | ->]; [rewrite (proj1 (nan_ops a)); apply nan_ops|]. change (fadd S754_nan f_1e10) with S754_nan. destruct (fmul a d); reflexivity. }
    rewrite V; [destruct mpd as [m|]; [apply nan_ops|reflexivity]|]. destruct H as [-> | ->]; [left|now right]. assert (C : SFleb cutoff S754_nan = false) by (destruct cutoff; reflexivity). rewrite C. reflexivity. }
  rewrite S, (proj2 (nan_bounds _)). apply nan_bounds.
Qed.
Theorem distance_nan h0 rate hi n l i : entry l i S754_nan -> entry (distance_sizes_f h0 rate hi n (Some l)) i S754_nan.
Proof.
  intros E. unfold distance_sizes_f. cbn zeta. assert (M := map_entry (fun x => cap_f hi (fadd h0 (fmul x rate))) _ _ _ (map_entry SFabs _ _ _ E)). cbv beta in M.
  change (SFabs S754_nan) with S754_nan in M. rewrite (proj1 (proj2 (nan_ops rate))), (proj1 (proj2 (proj2 (nan_ops h0)))), (proj1 (nan_bounds hi)) in M. exact M.
Qed.
