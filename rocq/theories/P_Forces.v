(** Proofs about the bar forces. *)
From Coq Require Import List Arith Bool ZArith Reals Lia Lra Permutation Sorted.
From Verif Require Import M_Base M_Numpy M_Edges M_Stereo M_Forces S_Edges S_Forces Util P_Edges.
Import ListNotations.
Open Scope R_scope.

Lemma rsum_sum_over {A} (f : A -> R) l : rsum (map f l) = sum_over f l.
Proof. induction l; simpl; [reflexivity|]. now rewrite <- IHl. Qed.
Lemma sum_over_ext {A} (f g : A -> R) l : (forall x, In x l -> f x = g x) -> sum_over f l = sum_over g l.
Proof. induction l as [|x l IH]; simpl; intros H; auto. rewrite H, IH; auto. Qed.
Lemma sum_over_plus {A} (f g : A -> R) l : sum_over (fun x => f x + g x) l = sum_over f l + sum_over g l.
Proof. induction l as [|x l IH]; simpl; [ring|]. rewrite IH. ring. Qed.
Lemma sum_over_scal {A} c (f : A -> R) l : sum_over (fun x => c * f x) l = c * sum_over f l.
Proof. induction l as [|x l IH]; simpl; [ring|]. rewrite IH. ring. Qed.
Lemma sum_over_zero {A} (l : list A) : sum_over (fun _ => 0) l = 0.
Proof. induction l as [|x l IH]; simpl; [ring|]. rewrite IH. ring. Qed.
Lemma sum_over_swap {A B} (f : A -> B -> R) l m :
  sum_over (fun x => sum_over (fun y => f x y) m) l = sum_over (fun y => sum_over (fun x => f x y) l) m.
Proof.
  induction l as [|x l IH]; simpl.
  - now rewrite sum_over_zero.
  - rewrite IH. now rewrite sum_over_plus.
Qed.
Lemma sum_over_map {A B} (g : A -> B) (f : B -> R) l : sum_over f (map g l) = sum_over (fun x => f (g x)) l.
Proof. induction l as [|x l IH]; simpl; auto. now rewrite IH. Qed.
(** Sum of a value at one index. *)
Lemma sum_over_pick (f : nat -> R) n : forall a k, (a <= k < a + n)%nat ->
  sum_over (fun i => (if Nat.eqb k i then 1 else 0) * f i) (seq a n) = f k.
Proof.
  induction n as [|n IH]; intros a k Hk; [lia|]. simpl.
  destruct (Nat.eqb_spec k a) as [->|Hne].
  - rewrite Rmult_1_l. rewrite (sum_over_ext _ (fun _ => 0)); [rewrite sum_over_zero; ring|].
    intros i Hi. apply in_seq in Hi. destruct (Nat.eqb_spec a i); [lia|ring].
  - rewrite IH by lia. ring.
Qed.

(** * Bars *)
Lemma get_bars_spec t a b : In (a, b) (get_bars t) <-> (a <= b)%nat /\ undirected_side t a b.
Proof.
  unfold get_bars. rewrite in_map_iff.
  set (dirs := map (fun s : tri => (fst (fst s), snd (fst s))) t ++ map (fun s : tri => (snd (fst s), snd s)) t ++ map (fun s : tri => (snd s, fst (fst s))) t).
  assert (Hd : forall u v, In (u, v) dirs <-> side t u v).
  { intros u v. unfold dirs, side. rewrite !in_app_iff, !in_map_iff. split.
    - intros [([[x y] z] & E & Hin)|[([[x y] z] & E & Hin)|([[x y] z] & E & Hin)]]; simpl in E; injection E as <- <-; exists x, y, z; tauto.
    - intros (x & y & z & Hin & [[-> ->]|[[-> ->]|[-> ->]]]); [left|right; left|right; right]; exists (x, y, z); auto. }
  assert (Hz : forall u v, In (Z.of_nat u, Z.of_nat v) (map (fun e : edge => (Z.of_nat (fst e), Z.of_nat (snd e))) dirs) <-> side t u v).
  { intros u v. rewrite in_map_iff, <- Hd. split.
    - intros ((x, y) & E & Hin). simpl in E. injection E as E1 E2. apply Nat2Z.inj in E1. apply Nat2Z.inj in E2. now subst.
    - intros H. exists (u, v). auto. }
  split.
  - intros ((x, y) & E & Hin). simpl in E. injection E as <- <-. apply unique_edges_In in Hin. destruct Hin as [Hle Hin].
    assert (Hpos : exists u v, x = Z.of_nat u /\ y = Z.of_nat v).
    { destruct Hin as [Hin|Hin]; apply in_map_iff in Hin; destruct Hin as ((u, v) & E & _); simpl in E; injection E as <- <-; eauto. }
    destruct Hpos as (u & v & -> & ->). rewrite !Nat2Z.id. split; [lia|]. rewrite !Hz in Hin. exact Hin.
  - intros [Hle Hs]. exists (Z.of_nat a, Z.of_nat b). simpl. rewrite !Nat2Z.id. split; auto.
    apply unique_edges_In. split; [lia|]. rewrite !Hz. exact Hs.
Qed.

Lemma zlex_sorted_NoDup l : StronglySorted zlex l -> NoDup l.
Proof.
  induction 1 as [|x l Hs IH Hf]; constructor; auto. intros Hin. rewrite Forall_forall in Hf. specialize (Hf x Hin). unfold zlex in Hf. lia.
Qed.
Lemma get_bars_NoDup t : NoDup (get_bars t).
Proof.
  unfold get_bars. set (l := map _ (_ ++ _)).
  assert (Hn : forall x y, In (x, y) (unique_edges l) -> (0 <= x /\ 0 <= y)%Z).
  { intros x y H. apply unique_edges_In in H. destruct H as [_ [H|H]]; unfold l in H; apply in_map_iff in H;
      destruct H as ((u, v) & E & _); simpl in E; injection E as <- <-; lia. }
  assert (Hnd := zlex_sorted_NoDup _ (unique_edges_sorted l)).
  induction (unique_edges l) as [|[x y] r IH]; simpl; constructor.
  - intros Hin. apply in_map_iff in Hin. destruct Hin as ((u, v) & E & Hin). simpl in E. injection E as E1 E2.
    pose proof (Hn x y (or_introl eq_refl)). pose proof (Hn u v (or_intror Hin)).
    apply NoDup_cons_iff in Hnd. destruct Hnd as [Hnd _]. apply Hnd. assert (u = x /\ v = y) as [-> ->] by lia. exact Hin.
  - apply IH; [intros a b Hab; apply Hn; now right|]. now apply NoDup_cons_iff in Hnd.
Qed.

(** * Lengths and medians *)
Lemma bar_length_pos eps v : 0 < eps -> 0 < bar_length eps v.
Proof.
  intros He. unfold bar_length. destruct (Req_EM_T _ 0); auto.
  pose proof (sqrt_pos (fst v * fst v + snd v * snd v)). lra.
Qed.

Lemma isort_perm' {A} (leb : A -> A -> bool) l : Permutation (isort leb l) l.
Proof.
  induction l as [|x l IH]; simpl; auto.
  assert (H : forall y m, Permutation (insert leb y m) (y :: m)).
  { intros y m. induction m as [|z m IHm]; simpl; auto. destruct (leb y z); auto.
    eapply Permutation_trans; [apply perm_skip, IHm|apply perm_swap]. }
  eapply Permutation_trans; [apply H|]. now constructor.
Qed.

Lemma median_pos l : l <> [] -> (forall x, In x l -> 0 < x) -> 0 < median l.
Proof.
  intros Hne H. unfold median. set (s := isort rleb l).
  assert (Hp : Permutation s l) by apply isort_perm'.
  assert (Hlen : length s = length l) by (now apply Permutation_length).
  assert (Hl : (0 < length l)%nat) by (destruct l; [congruence|simpl; lia]).
  assert (Hn : forall i, (i < length s)%nat -> 0 < nth i s 0).
  { intros i Hi. apply H. eapply Permutation_in; [exact Hp|]. now apply nth_In. }
  assert (Hd : (length s / 2 < length s)%nat) by (apply Nat.div_lt; lia).
  destruct (Nat.even (length s)).
  - assert (0 < nth (length s / 2 - 1) s 0) by (apply Hn; lia). assert (0 < nth (length s / 2) s 0) by (apply Hn; lia). lra.
  - apply Hn. exact Hd.
Qed.

Lemma isort_nth l i j : (i <= j < length (isort rleb l))%nat -> nth i (isort rleb l) 0 <= nth j (isort rleb l) 0.
Proof.
  assert (S : StronglySorted (fun a b => rleb a b = true) (isort rleb l)).
  { apply isort_sorted; unfold rleb.
    - intros a b. destruct (Rle_dec a b), (Rle_dec b a); auto; lra.
    - intros a b c. destruct (Rle_dec a b), (Rle_dec b c), (Rle_dec a c); auto; try discriminate; lra. }
  generalize dependent (isort rleb l). intros s S. revert i j. induction S as [|x s S IH F]; intros i j H; [simpl in H; lia|].
  destruct i as [|i], j as [|j]; simpl in *; try lia; try lra.
  - rewrite Forall_forall in F. assert (R0 : rleb x (nth j s 0) = true) by (apply F, nth_In; lia). unfold rleb in R0. destruct (Rle_dec x (nth j s 0)); [assumption|discriminate].
  - apply IH. lia.
Qed.
Lemma median_spec l : is_median l (median l).
Proof.
  exists (isort rleb l). split; [symmetry; apply isort_perm'|]. split; [intros i j; apply isort_nth|].
  unfold median. rewrite (Permutation_length (isort_perm' rleb l)). set (n := length l). destruct (Nat.even n) eqn:E.
  - apply Nat.even_spec in E. destruct E as [k ->]. replace (2 * k / 2)%nat with k by (rewrite Nat.mul_comm, Nat.div_mul; lia).
    replace ((2 * k - 1) / 2)%nat with (k - 1)%nat; [reflexivity|]. destruct k as [|k]; [reflexivity|].
    apply (Nat.div_unique _ _ _ 1); lia.
  - assert (O : Nat.odd n = true) by (rewrite <- Nat.negb_even, E; reflexivity). apply Nat.odd_spec in O. destruct O as [k ->].
    replace ((2 * k + 1) / 2)%nat with k by (apply (Nat.div_unique _ _ _ 1); lia). replace ((2 * k + 1 - 1) / 2)%nat with k by (apply (Nat.div_unique _ _ _ 0); lia). field.
Qed.

Lemma rleb_scale c x y : 0 < c -> rleb (c * x) (c * y) = rleb x y.
Proof.
  intros Hc. unfold rleb. destruct (Rle_dec (c * x) (c * y)) as [H|H], (Rle_dec x y) as [H'|H']; auto.
  - exfalso. apply H'. apply Rmult_le_reg_l with c; auto.
  - exfalso. apply H. apply Rmult_le_compat_l; lra.
Qed.
Lemma insert_scale c x l : 0 < c -> insert rleb (c * x) (map (Rmult c) l) = map (Rmult c) (insert rleb x l).
Proof.
  intros Hc. induction l as [|y l IH]; simpl; auto. rewrite rleb_scale by exact Hc. destruct (rleb x y); simpl; auto. now rewrite IH.
Qed.
Lemma isort_scale c l : 0 < c -> isort rleb (map (Rmult c) l) = map (Rmult c) (isort rleb l).
Proof.
  intros Hc. unfold isort. induction l as [|x l IH]; simpl; auto. rewrite IH. now apply insert_scale.
Qed.
Lemma median_scale c l : 0 < c -> median (map (Rmult c) l) = c * median l.
Proof.
  intros Hc. unfold median. rewrite isort_scale, map_length by exact Hc.
  assert (Hn : forall i, nth i (map (Rmult c) (isort rleb l)) 0 = c * nth i (isort rleb l) 0).
  { intros i. rewrite <- (Rmult_0_r c) at 1. apply map_nth. }
  rewrite !Hn. destruct (Nat.even _); field.
Qed.

(** * Sizes *)
Lemma valid_iff h : valid_size h = true <-> exists x, h = Some x /\ 0 < x.
Proof.
  destruct h as [x|]; simpl.
  - destruct (Rlt_dec 0 x); split; try discriminate; eauto. intros (y & E & Hy). injection E as <-. contradiction.
  - split; [discriminate|]. intros (y & E & _). discriminate.
Qed.
Lemma some_values_valid l x : In x (some_values (filter valid_size l)) <-> In (Some x) l /\ 0 < x.
Proof.
  unfold some_values. rewrite in_flat_map. split.
  - intros (h & Hin & Hx). apply filter_In in Hin. destruct Hin as [Hin Hv]. apply valid_iff in Hv. destruct Hv as (y & -> & Hy).
    destruct Hx as [<-|[]]. auto.
  - intros [Hin Hx]. exists (Some x). split; [|now left]. apply filter_In. split; auto. apply valid_iff. eauto.
Qed.

Lemma repair_ok h r : repair_sizes h = Ok r ->
  (exists x, In (Some x) h /\ 0 < x) /\ length r = length h /\ (forall x, In x r -> 0 < x) /\
  (forall i x, nth_error h i = Some (Some x) -> 0 < x -> nth_error r i = Some x).
Proof.
  unfold repair_sizes. destruct (existsb valid_size h) eqn:E; [|discriminate]. intros H.
  apply existsb_exists in E. destruct E as (v & Hin & Hv). apply valid_iff in Hv. destruct Hv as (x & -> & Hx).
  set (m := median (some_values (filter valid_size h))) in *.
  assert (Hm : 0 < m).
  { apply median_pos.
    - intros E. assert (Hc : In x (some_values (filter valid_size h))) by (apply some_values_valid; auto). rewrite E in Hc. contradiction.
    - intros y Hy. now apply some_values_valid in Hy. }
  assert (r = map (repaired m) h) by congruence. subst r. split; [eauto|]. split; [apply map_length|]. split.
  - intros y Hy. apply in_map_iff in Hy. destruct Hy as (u & <- & _). unfold repaired.
    destruct (valid_size u) eqn:Eu; auto. apply valid_iff in Eu. destruct Eu as (z & -> & Hz). exact Hz.
  - intros i y Hi Hy. rewrite nth_error_map, Hi. simpl. f_equal. unfold repaired.
    assert (valid_size (Some y) = true) as -> by (apply valid_iff; eauto). reflexivity.
Qed.
Lemma repair_invalid h r i : repair_sizes h = Ok r -> (i < length h)%nat -> (forall x, nth i h None = Some x -> x <= 0) -> is_median (some_values (filter valid_size h)) (nth i r 0).
Proof.
  unfold repair_sizes. destruct (existsb valid_size h); [|discriminate]. intros H Hi Hv. injection H as <-.
  rewrite (nth_indep _ 0 (repaired (median (some_values (filter valid_size h))) None)) by (rewrite map_length; exact Hi). rewrite map_nth.
  unfold repaired at 1. destruct (valid_size (nth i h None)) eqn:E; [|apply median_spec].
  apply valid_iff in E. destruct E as (x & E & Hx). specialize (Hv x E). lra.
Qed.
Lemma repair_none h : (forall x, In (Some x) h -> x <= 0) <-> repair_sizes h = Raise ValueError.
Proof.
  unfold repair_sizes. destruct (existsb valid_size h) eqn:E.
  - apply existsb_exists in E. destruct E as (v & Hin & Hv). apply valid_iff in Hv. destruct Hv as (x & -> & Hx).
    split; [|discriminate]. intros H. specialize (H x Hin). lra.
  - split; auto. intros _ x Hin. apply Rnot_lt_le. intros Hc. assert (existsb valid_size h = true); [|congruence].
    apply existsb_exists. exists (Some x). split; auto. apply valid_iff. eauto.
Qed.

(** * Forces *)
Definition weight (eps L0mult s h : R) (v : R * R) : R := Rmax 0 (h * L0mult * s - bar_length eps v) / bar_length eps v.
Lemma bar_force_weight eps L0mult s h v :
  bar_force eps L0mult s h v = (weight eps L0mult s h v * fst v, weight eps L0mult s h v * snd v).
Proof.
  unfold bar_force, weight. destruct (Rlt_dec (h * L0mult * s - bar_length eps v) 0) as [H|H].
  - rewrite Rmax_left by lra. reflexivity.
  - rewrite Rmax_right by lra. reflexivity.
Qed.
Lemma weight_nonneg eps L0mult s h v : 0 < eps -> 0 <= weight eps L0mult s h v.
Proof.
  intros He. unfold weight. pose proof (bar_length_pos eps v He).
  apply Rmult_le_pos; [apply Rmax_l|]. left. now apply Rinv_0_lt_compat.
Qed.

Lemma combine_nth_map {A B C} (bars : list A) (h : list B) (vf : A -> C) (d : B) (a0 : A) : length h = length bars ->
  combine h (map vf bars) = map (fun k => (nth k h d, vf (nth k bars a0))) (seq 0 (length bars)).
Proof.
  revert h. induction bars as [|x bars IH]; intros [|y h] H; simpl in *; try lia; auto.
  f_equal. rewrite IH by lia. rewrite <- seq_shift, map_map. reflexivity.
Qed.

(** Look up the size that belongs to a bar. *)
Fixpoint size_of (bars : list edge) (h : list R) (e : edge) : R :=
  match bars, h with
  | b :: bars', x :: h' => if edge_eqb b e then x else size_of bars' h' e
  | _, _ => 1
  end.
Lemma combine_size_of bars h (vf : edge -> R * R) : NoDup bars -> length h = length bars ->
  combine h (map vf bars) = map (fun e => (size_of bars h e, vf e)) bars.
Proof.
  revert h. induction bars as [|b bars IH]; intros [|x h] Hnd H; simpl in *; try lia; auto.
  assert (edge_eqb b b = true) as -> by (apply edge_eqb_eq; auto). f_equal.
  apply NoDup_cons_iff in Hnd. destruct Hnd as [Hb Hnd]. rewrite IH by (auto; lia). apply map_ext_in.
  intros e He. destruct (edge_eqb b e) eqn:E; auto. apply edge_eqb_eq in E. subst. contradiction.
Qed.
Lemma size_of_nth bars h k : NoDup bars -> length h = length bars -> (k < length bars)%nat ->
  size_of bars h (nth k bars (0, 0)%nat) = nth k h 0.
Proof.
  revert h k. induction bars as [|b bars IH]; intros [|x h] k Hnd H Hk; simpl in *; try lia.
  apply NoDup_cons_iff in Hnd. destruct Hnd as [Hb Hnd]. destruct k as [|k].
  - assert (edge_eqb b b = true) as -> by (apply edge_eqb_eq; auto). reflexivity.
  - destruct (edge_eqb b (nth k bars (0, 0)%nat)) eqn:E.
    + apply edge_eqb_eq in E. exfalso. apply Hb. rewrite E. apply nth_In. lia.
    + apply IH; auto; lia.
Qed.

Lemma scatter_form bars (w : edge -> R) (vf : edge -> R * R) n i : (i < n)%nat ->
  nth i (scatter n bars (map (fun e => (w e * fst (vf e), w e * snd (vf e))) bars)) (0, 0) =
  (sum_over (fun e => w e * (incidence i e * fst (vf e))) bars, sum_over (fun e => w e * (incidence i e * snd (vf e))) bars).
Proof.
  intros Hi. unfold scatter.
  assert (Hn : forall (g : nat -> R * R) d, nth i (map g (seq 0 n)) d = g i).
  { intros g d. rewrite nth_indep with (d' := g 0%nat) by (now rewrite map_length, seq_length).
    rewrite map_nth. now rewrite seq_nth by exact Hi. }
  rewrite Hn, !rsum_sum_over.
  assert (Hc : forall (g : edge -> R * R) l, combine l (map g l) = map (fun e => (e, g e)) l).
  { intros g l. induction l; simpl; congruence. }
  rewrite Hc, !sum_over_map. f_equal; apply sum_over_ext; intros e _; unfold incidence; cbn [fst snd];
    destruct (fst e =? i)%nat, (snd e =? i)%nat; ring.
Qed.

Section Main.
  Variable fh : list (R * R) -> res (list hval).
  Variables (RR eps L0mult : R) (stereo : bool).
  Hypothesis Heps : 0 < eps.
  Notation forces := (compute_forces fh RR eps L0mult stereo).

  Lemma forces_parts p t F : forces p t = Ok F ->
    exists h0 h, bar_sizes fh RR stereo p (get_bars t) = Ok h0 /\ repair_sizes h0 = Ok h /\ length h = length (get_bars t) /\
      (forall a b, undirected_side t a b -> (a < length p)%nat /\ (b < length p)%nat) /\
      F = scatter (length p) (get_bars t)
        (map (fun q => bar_force eps L0mult (median (map (bar_length eps) (map (barvec p) (get_bars t))) / median h) (fst q) (snd q))
           (combine h (map (barvec p) (get_bars t)))).
  Proof.
    unfold compute_forces. cbv zeta. intros H. destruct (forallb _ (get_bars t)) eqn:Er; [|discriminate].
    destruct (bar_sizes fh RR stereo p (get_bars t)) as [h0| |] eqn:E0; cbn [bind] in H; try discriminate.
    destruct (repair_sizes h0) as [h| |] eqn:E1; cbn [bind] in H; try discriminate.
    destruct (Nat.eqb_spec (length h) (length (get_bars t))) as [El|]; [|discriminate].
    exists h0, h. repeat (split; [assumption || reflexivity|]). split; [|congruence].
    rewrite forallb_forall in Er.
    assert (Hin : forall a b, (a <= b)%nat -> undirected_side t a b -> (a < length p)%nat /\ (b < length p)%nat).
    { intros a b Hle Hs. specialize (Er (a, b)). assert (In (a, b) (get_bars t)) as Hi by (apply get_bars_spec; auto).
      specialize (Er Hi). apply andb_true_iff in Er. cbn [fst snd] in Er. rewrite !Nat.ltb_lt in Er. exact Er. }
    intros a b Hs. destruct (Nat.le_ge_cases a b) as [Hle|Hle]; auto.
    destruct (Hin b a Hle) as [? ?]; auto. unfold undirected_side in *. tauto.
  Qed.

  Lemma bar_length_distance p e : 0 < distance p e -> bar_length eps (barvec p e) = distance p e.
  Proof.
    intros Hd. unfold bar_length, barvec. cbn [fst snd].
    replace (sqrt _) with (distance p e) by (unfold distance, px, py; f_equal; ring).
    destruct (Req_EM_T (distance p e) 0); [lra|reflexivity].
  Qed.

  Lemma forces_explained p t F : forces p t = Ok F ->
    length F = length p /\
    exists bars w size s, NoDup bars /\ (forall a b, In (a, b) bars <-> (a <= b)%nat /\ undirected_side t a b) /\
      0 < s /\ (exists mL mh, is_median (map (length_or eps p) bars) mL /\ is_median (map size bars) mh /\ s = mL / mh) /\
      (forall e, In e bars -> 0 < size e) /\
      (forall e, 0 <= w e) /\
      (forall e, 0 < distance p e -> w e = Rmax 0 (size e * L0mult * s - distance p e) / distance p e) /\
      (stereo = false -> forall g, (forall q, fh q = Ok (map g q)) ->
         forall a b x, In (a, b) bars -> g ((px p a + px p b) / 2, (py p a + py p b) / 2) = Some x -> 0 < x -> size (a, b) = x) /\
      (stereo = false -> forall g, (forall q, fh q = Ok (map g q)) ->
         forall a b, In (a, b) bars -> (forall x, g ((px p a + px p b) / 2, (py p a + py p b) / 2) = Some x -> x <= 0) ->
         is_median (positive_sizes (fun e => g ((px p (fst e) + px p (snd e)) / 2, (py p (fst e) + py p (snd e)) / 2)) bars) (size (a, b))) /\
      forall i, (i < length p)%nat -> nth i F (0, 0) =
        (sum_over (fun e => w e * (incidence i e * (px p (fst e) - px p (snd e)))) bars,
         sum_over (fun e => w e * (incidence i e * (py p (fst e) - py p (snd e)))) bars).
  Proof.
    intros H. destruct (forces_parts _ _ _ H) as (h0 & h & E0 & E1 & El & _ & ->).
    split; [unfold scatter; now rewrite map_length, seq_length|].
    set (bars := get_bars t) in *. set (s := median _ / median h).
    assert (Hnd : NoDup bars) by apply get_bars_NoDup.
    destruct (repair_ok _ _ E1) as ((x & Hx & Hx0) & Lh & Hpos & Hkeep).
    assert (Hs : 0 < s).
    { unfold s. apply Rdiv_lt_0_compat.
      - apply median_pos.
        + intros E. apply (f_equal (@length R)) in E. rewrite !map_length, <- El, Lh in E. simpl in E.
          destruct h0; [contradiction|discriminate].
        + intros y Hy. apply in_map_iff in Hy. destruct Hy as (v & <- & _). now apply bar_length_pos.
      - apply median_pos; auto. intros ->. simpl in Lh. destruct h0; [contradiction|discriminate]. }
    exists bars, (fun e => weight eps L0mult s (size_of bars h e) (barvec p e)), (size_of bars h), s.
    split; [exact Hnd|]. split; [intros; apply get_bars_spec|]. split; [exact Hs|].
    split.
    { exists (median (map (bar_length eps) (map (barvec p) bars))), (median h). split; [|split; [|reflexivity]].
      - replace (map (length_or eps p) bars) with (map (bar_length eps) (map (barvec p) bars)); [apply median_spec|]. rewrite map_map. apply map_ext. intros e.
        unfold length_or, bar_length, barvec. cbn [fst snd]. replace (sqrt _) with (distance p e) by (unfold distance, px, py; f_equal; ring). reflexivity.
      - replace (map (size_of bars h) bars) with h; [apply median_spec|]. pose proof (combine_size_of bars h (fun _ => (0, 0)) Hnd El) as C.
        apply (f_equal (map fst)) in C. rewrite map_map in C. cbn [fst] in C. transitivity (map fst (combine h (map (fun _ : edge => (0, 0)) bars))); [|exact C]. clear -El. revert h El. induction bars as [|e bars IH]; intros [|x h] El; try discriminate; [reflexivity|]. cbn. f_equal. apply IH. cbn in El. lia. }
    split.
    { intros e He. apply (In_nth _ _ (0, 0)%nat) in He. destruct He as (k & Hk & <-). rewrite size_of_nth by auto.
      apply Hpos. apply nth_In. lia. }
    split. { intros e. now apply weight_nonneg. }
    split. { intros e He. unfold weight. now rewrite bar_length_distance. }
    split.
    { intros Hst g Hg a b y Hin Hgy Hy. unfold bar_sizes in E0. rewrite Hst in E0. rewrite Hg in E0.
      assert (h0 = map g (map (midpoint p) bars)) as Hh0 by congruence.
      apply (In_nth _ _ (0, 0)%nat) in Hin. destruct Hin as (k & Hk & Ek). rewrite <- Ek. rewrite size_of_nth by auto.
      apply nth_error_nth. apply Hkeep; auto. rewrite Hh0, map_map, nth_error_map.
      rewrite (nth_error_nth' bars (0, 0)%nat Hk), Ek. simpl. f_equal. exact Hgy. }
    split.
    { intros Hst g Hg a b Hin Hgy. unfold bar_sizes in E0. rewrite Hst in E0. rewrite Hg in E0.
      assert (h0 = map g (map (midpoint p) bars)) as Hh0 by congruence.
      apply (In_nth _ _ (0, 0)%nat) in Hin. destruct Hin as (k & Hk & Ek). rewrite <- Ek. rewrite size_of_nth by auto.
      assert (Hk0 : (k < length h0)%nat) by lia.
      replace (positive_sizes _ bars) with (some_values (filter valid_size h0)).
      - apply repair_invalid; auto. intros x1 Hx1. apply Hgy. rewrite <- Hx1, Hh0, map_map.
        rewrite (nth_indep _ None (g (midpoint p (0, 0)%nat))) by (rewrite map_length; exact Hk). rewrite (map_nth (fun e => g (midpoint p e))), Ek. reflexivity.
      - rewrite Hh0, map_map. clear. induction bars as [|e bars IH]; [reflexivity|]. unfold positive_sizes in *. cbn [map filter flat_map]. rewrite <- IH. clear IH.
        change (g ((px p (fst e) + px p (snd e)) / 2, (py p (fst e) + py p (snd e)) / 2)) with (g (midpoint p e)).
        destruct (g (midpoint p e)) as [x|]; [|reflexivity]. unfold valid_size at 1. destruct (Rlt_dec 0 x); reflexivity. }
    intros i Hi. rewrite combine_size_of, map_map by auto. cbn [fst snd].
    rewrite (map_ext _ (fun e => (weight eps L0mult s (size_of bars h e) (barvec p e) * fst (barvec p e),
                                 weight eps L0mult s (size_of bars h e) (barvec p e) * snd (barvec p e)))) by (intros; apply bar_force_weight).
    rewrite (scatter_form bars (fun e => weight eps L0mult s (size_of bars h e) (barvec p e)) (barvec p) (length p) i Hi). reflexivity.
  Qed.

  (** The forces and their moments add up to zero. *)
  Lemma forces_balance p t F : forces p t = Ok F ->
    sum_over fst F = 0 /\ sum_over snd F = 0 /\
    sum_over (fun i => px p i * snd (nth i F (0, 0)) - py p i * fst (nth i F (0, 0))) (seq 0 (length p)) = 0.
  Proof.
    intros H. destruct (forces_explained _ _ _ H) as (Lf & bars & w & size & s & _ & Hb & _ & _ & _ & _ & _ & _ & _ & Hf).
    destruct (forces_parts _ _ _ H) as (_ & _ & _ & _ & _ & Hr & _).
    assert (Hl : forall g : R * R -> R, sum_over g F = sum_over (fun i => g (nth i F (0, 0))) (seq 0 (length p))).
    { intros g. rewrite <- Lf. clear. induction F as [|x F IH]; simpl; auto. rewrite IH. f_equal.
      rewrite <- seq_shift, sum_over_map. reflexivity. }
    assert (Hrange : forall e, In e bars -> (fst e < length p)%nat /\ (snd e < length p)%nat).
    { intros [a b] He. apply Hb in He. apply Hr, He. }
    assert (Hinc : forall (f : nat -> R) e, In e bars -> sum_over (fun i => incidence i e * f i) (seq 0 (length p)) = f (fst e) - f (snd e)).
    { intros f e He. destruct (Hrange e He) as [H1 H2]. unfold incidence.
      rewrite (sum_over_ext _ (fun i => (if Nat.eqb (fst e) i then 1 else 0) * f i + (-1) * ((if Nat.eqb (snd e) i then 1 else 0) * f i))) by (intros; ring).
      rewrite sum_over_plus, sum_over_scal, !sum_over_pick by lia. ring. }
    assert (Hgen : forall (c : edge -> R) (f : nat -> R),
      sum_over (fun i => f i * sum_over (fun e => w e * (incidence i e * c e)) bars) (seq 0 (length p)) =
      sum_over (fun e => w e * c e * (f (fst e) - f (snd e))) bars).
    { intros c f.
      rewrite (sum_over_ext _ (fun i => sum_over (fun e => f i * (w e * (incidence i e * c e))) bars)) by (intros; now rewrite sum_over_scal).
      rewrite sum_over_swap. apply sum_over_ext. intros e He. rewrite <- (Hinc f e He), <- sum_over_scal. apply sum_over_ext. intros; ring. }
    assert (Hx : forall i, In i (seq 0 (length p)) -> nth i F (0, 0) = (sum_over (fun e => w e * (incidence i e * (px p (fst e) - px p (snd e)))) bars, sum_over (fun e => w e * (incidence i e * (py p (fst e) - py p (snd e)))) bars)).
    { intros i Hi. apply in_seq in Hi. apply Hf. lia. }
    split; [|split].
    - rewrite Hl. rewrite (sum_over_ext _ (fun i => 1 * sum_over (fun e => w e * (incidence i e * (px p (fst e) - px p (snd e)))) bars)).
      2: { intros i Hi. rewrite (Hx i Hi). simpl. ring. }
      rewrite (Hgen _ (fun _ => 1)). rewrite (sum_over_ext _ (fun _ => 0)) by (intros; ring). apply sum_over_zero.
    - rewrite Hl. rewrite (sum_over_ext _ (fun i => 1 * sum_over (fun e => w e * (incidence i e * (py p (fst e) - py p (snd e)))) bars)).
      2: { intros i Hi. rewrite (Hx i Hi). simpl. ring. }
      rewrite (Hgen _ (fun _ => 1)). rewrite (sum_over_ext _ (fun _ => 0)) by (intros; ring). apply sum_over_zero.
    - rewrite (sum_over_ext _ (fun i => px p i * sum_over (fun e => w e * (incidence i e * (py p (fst e) - py p (snd e)))) bars
                                    + (-1) * (py p i * sum_over (fun e => w e * (incidence i e * (px p (fst e) - px p (snd e)))) bars))).
      2: { intros i Hi. rewrite (Hx i Hi). simpl. ring. }
      rewrite sum_over_plus, sum_over_scal, !Hgen. rewrite <- sum_over_scal, <- sum_over_plus.
      rewrite (sum_over_ext _ (fun _ => 0)) by (intros; ring). apply sum_over_zero.
  Qed.

  (** No positive finite size: ValueError; otherwise a result. *)
  Lemma forces_returns p t h0 : (forall a b, undirected_side t a b -> (a < length p)%nat /\ (b < length p)%nat) ->
    bar_sizes fh RR stereo p (get_bars t) = Ok h0 -> length h0 = length (get_bars t) ->
    ((exists F, forces p t = Ok F) <-> exists x, In (Some x) h0 /\ 0 < x) /\
    (forces p t = Raise ValueError <-> forall x, In (Some x) h0 -> x <= 0).
  Proof.
    intros Hr E0 L0.
    assert (Er : forallb (fun e : edge => (fst e <? length p) && (snd e <? length p))%nat (get_bars t) = true).
    { apply forallb_forall. intros [a b] He. apply get_bars_spec in He. destruct He as [_ He]. apply Hr in He.
      cbn [fst snd]. rewrite andb_true_iff, !Nat.ltb_lt. exact He. }
    unfold compute_forces. cbv zeta. rewrite Er, E0. cbn [bind].
    destruct (repair_sizes h0) as [h| e |] eqn:E1; cbn [bind].
    - destruct (repair_ok _ _ E1) as (He & Lh & _). rewrite Lh, L0, Nat.eqb_refl. split.
      + split; eauto.
      + split; [discriminate|]. intros Hc. destruct He as (x & Hx & Hx0). specialize (Hc x Hx). lra.
    - assert (e = ValueError) as -> by (unfold repair_sizes in E1; destruct (existsb valid_size h0); congruence).
      pose proof E1 as E2. rewrite <- repair_none in E2. split.
      + split; [intros [F HF]; discriminate|]. intros (x & Hx & Hx0). specialize (E2 x Hx). lra.
      + split; auto.
    - unfold repair_sizes in E1. destruct (existsb valid_size h0); discriminate.
  Qed.
End Main.

(** Multiplying every size by the same positive number changes nothing. *)
Lemma valid_scale c h : 0 < c -> valid_size (hscale c h) = valid_size h.
Proof.
  intros Hc. destruct h as [x|]; auto. simpl. destruct (Rlt_dec 0 (c * x)) as [H|H], (Rlt_dec 0 x) as [H'|H']; auto.
  - exfalso. apply H'. apply Rmult_lt_reg_l with c; auto. now rewrite Rmult_0_r.
  - exfalso. apply H. now apply Rmult_lt_0_compat.
Qed.
Lemma filter_valid_scale c l : 0 < c -> filter valid_size (map (hscale c) l) = map (hscale c) (filter valid_size l).
Proof. intros Hc. induction l as [|x l IH]; simpl; auto. rewrite valid_scale by exact Hc. destruct (valid_size x); simpl; now rewrite IH. Qed.
Lemma some_values_scale c l : some_values (map (hscale c) l) = map (Rmult c) (some_values l).
Proof. unfold some_values. induction l as [|[x|] l IH]; simpl; auto. now rewrite IH. Qed.
Lemma repair_scale c l : 0 < c -> repair_sizes (map (hscale c) l) =
  match repair_sizes l with Ok h => Ok (map (Rmult c) h) | Raise e => Raise e | OutOfFuel => OutOfFuel end.
Proof.
  intros Hc. unfold repair_sizes.
  assert (existsb valid_size (map (hscale c) l) = existsb valid_size l) as ->.
  { induction l as [|x l IH]; simpl; auto. now rewrite valid_scale, IH by exact Hc. }
  destruct (existsb valid_size l); auto. f_equal.
  rewrite filter_valid_scale, some_values_scale, median_scale by exact Hc. rewrite !map_map. apply map_ext.
  intros h. unfold repaired. rewrite valid_scale by exact Hc. destruct (valid_size h); auto. destruct h; auto.
Qed.

Lemma forces_scale fh fh' RR eps L0mult stereo c p t : 0 < eps -> 0 < c ->
  (forall q, fh' q = match fh q with Ok h => Ok (map (hscale c) h) | Raise e => Raise e | OutOfFuel => OutOfFuel end) ->
  compute_forces fh' RR eps L0mult stereo p t = compute_forces fh RR eps L0mult stereo p t.
Proof.
  intros He Hc Hfh. unfold compute_forces. cbv zeta. destruct (forallb _ (get_bars t)); auto.
  set (bars := get_bars t).
  assert (Hb : bar_sizes fh' RR stereo p bars = match bar_sizes fh RR stereo p bars with Ok h => Ok (map (hscale c) h) | Raise e => Raise e | OutOfFuel => OutOfFuel end).
  { unfold bar_sizes. cbv zeta. destruct stereo; [|apply Hfh].
    destruct (to_lat_lon RR (map (midpoint p) bars)) as [ll| |]; cbn [bind]; auto. rewrite Hfh.
    destruct (fh ll) as [h| |]; cbn [bind]; auto. rewrite map_length. unfold hval in *. destruct (length h =? length ll); auto. f_equal.
    clear. revert ll. induction h as [|x h IH]; intros [|q ll]; simpl; auto. rewrite IH. f_equal.
    destruct x as [x|], (stereo_distortion_dist (snd q)); simpl; auto. f_equal. ring. }
  rewrite Hb. destruct (bar_sizes fh RR stereo p bars) as [h0| |]; cbn [bind]; auto.
  rewrite repair_scale by exact Hc. destruct (repair_sizes h0) as [h| |] eqn:Er; cbn [bind]; auto.
  rewrite map_length. destruct (length h =? length bars); auto. f_equal. f_equal.
  destruct (repair_ok _ _ Er) as ((x & Hx & _) & Lh & Hpos & _).
  assert (Hm : 0 < median h) by (apply median_pos; auto; intros ->; destruct h0; [contradiction|discriminate]).
  rewrite median_scale by exact Hc. set (mL := median (map (bar_length eps) (map (barvec p) bars))).
  generalize (map (barvec p) bars). clear -Hc Hm. intros vs. set (k := median h) in *. clearbody k.
  revert vs. induction h as [|x h IH]; intros [|v vs]; simpl; auto. rewrite IH. f_equal.
  unfold bar_force. replace (c * x * L0mult * (mL / (c * k))) with (x * L0mult * (mL / k)) by (field; lra). reflexivity.
Qed.
