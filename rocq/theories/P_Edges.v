(** Proofs about edges.py / fast_geometry.cpp. *)
From Coq Require Import List Arith Bool ZArith Lia Permutation Sorted.
From Verif Require Import M_Base M_Numpy Util M_Edges S_Edges.
Import ListNotations.

(** * unique_edges *)
Lemma zedge_eqb_eq e f : zedge_eqb e f = true <-> e = f.
Proof.
  destruct e as [a b], f as [c d]. unfold zedge_eqb; simpl.
  rewrite andb_true_iff, !Z.eqb_eq. split; [intros [-> ->]; auto|intros [= -> ->]; auto].
Qed.

Lemma zedge_leb_spec e f : zedge_leb e f = true <-> zlex e f \/ e = f.
Proof.
  destruct e as [a b], f as [c d]. unfold zedge_leb, zlex; simpl.
  rewrite orb_true_iff, andb_true_iff, Z.ltb_lt, Z.eqb_eq, Z.leb_le.
  split.
  - intros [H|[-> H]]; [auto|]. destruct (Z.eq_dec b d) as [->|]; [auto|].
    left; right; split; [auto|]. lia.
  - intros [[H|[-> H]]|[= -> ->]]; [auto| |]; right; lia.
Qed.

Lemma zedge_leb_total e f : zedge_leb e f = true \/ zedge_leb f e = true.
Proof.
  destruct e as [a b], f as [c d]. unfold zedge_leb; simpl.
  rewrite !orb_true_iff, !andb_true_iff, !Z.ltb_lt, !Z.eqb_eq, !Z.leb_le. lia.
Qed.
Lemma zedge_leb_trans e f g : zedge_leb e f = true -> zedge_leb f g = true -> zedge_leb e g = true.
Proof.
  destruct e as [a b], f as [c d], g as [x y]. unfold zedge_leb; simpl.
  rewrite !orb_true_iff, !andb_true_iff, !Z.ltb_lt, !Z.eqb_eq, !Z.leb_le. lia.
Qed.
Lemma zedge_leb_antisym e f : zedge_leb e f = true -> zedge_leb f e = true -> e = f.
Proof.
  destruct e as [a b], f as [c d]. unfold zedge_leb; simpl.
  rewrite !orb_true_iff, !andb_true_iff, !Z.ltb_lt, !Z.eqb_eq, !Z.leb_le. intros.
  f_equal; lia.
Qed.

Lemma std_unique_runs {A} (eqb : A -> A -> bool) (l : list A) :
  (forall x y, eqb x y = true <-> x = y) -> std_unique eqb l = map fst (runs eqb l).
Proof.
  intros E. induction l as [|x l IH]; simpl; auto.
  destruct l as [|y l].
  - reflexivity.
  - rewrite IH. clear IH.
    remember (y :: l) as m. destruct (runs eqb m) as [|[z n] r] eqn:R.
    + subst m. exfalso. simpl in R. destruct (runs eqb l) as [|[? ?] ?]; try destruct (eqb y _); discriminate.
    + destruct (runs_hd eqb _ _ _ _ R) as [l' Hl]. subst m. injection Hl as <- _.
      destruct (eqb x y) eqn:Exy; simpl; auto. apply E in Exy. subst; auto.
Qed.

Lemma unique_edges_sorted es : StronglySorted zlex (unique_edges es).
Proof.
  unfold unique_edges. rewrite std_unique_runs by apply zedge_eqb_eq.
  eapply StronglySorted_impl; [|apply (runs_sorted zedge_eqb zedge_eqb_eq (fun a b => zedge_leb a b = true))].
  - simpl. intros x y [H Hn]. apply zedge_leb_spec in H. tauto.
  - apply zedge_leb_antisym.
  - apply isort_sorted; [apply zedge_leb_total|apply zedge_leb_trans].
Qed.

Lemma unique_edges_In es a b :
  In (a, b) (unique_edges es) <-> (a <= b)%Z /\ (In (a, b) es \/ In (b, a) es).
Proof.
  unfold unique_edges. rewrite std_unique_runs by apply zedge_eqb_eq.
  rewrite runs_In by apply zedge_eqb_eq. rewrite isort_In, in_map_iff. split.
  - intros [[x y] [H Hin]]. unfold zedge_sort in H; simpl in H. injection H as <- <-.
    split; [lia|]. destruct (Z.le_ge_cases x y).
    + rewrite Z.min_l, Z.max_r by lia. auto.
    + rewrite Z.min_r, Z.max_l by lia. auto.
  - intros [Hle [H|H]]; [exists (a, b)|exists (b, a)]; split; auto; unfold zedge_sort; simpl; f_equal; lia.
Qed.

(** * Boundary edges *)
Lemma edge_eqb_eq e f : edge_eqb e f = true <-> e = f.
Proof.
  destruct e as [a b], f as [c d]. unfold edge_eqb; simpl.
  rewrite andb_true_iff, !Nat.eqb_eq. split; [intros [-> ->]; auto|intros [= -> ->]; auto].
Qed.
Lemma edge_leb_total e f : edge_leb e f = true \/ edge_leb f e = true.
Proof. apply row_leb_total. Qed.
Lemma edge_leb_trans e f g : edge_leb e f = true -> edge_leb f g = true -> edge_leb e g = true.
Proof. apply row_leb_trans. Qed.
Lemma edge_leb_antisym e f : edge_leb e f = true -> edge_leb f e = true -> e = f.
Proof.
  intros H1 H2. pose proof (row_leb_antisym _ _ H1 H2) as H. destruct e, f; simpl in *. congruence.
Qed.

Lemma sort_edge_pair u v a b : u <= v ->
  edge_eqb (u, v) (sort_edge (a, b)) = same_pair u v a b.
Proof.
  intros Hle. apply eq_true_iff_eq. unfold edge_eqb, sort_edge, same_pair; simpl.
  rewrite orb_true_iff, !andb_true_iff, !Nat.eqb_eq. lia.
Qed.

Lemma same_pair_swap u v x y : same_pair u v x y = same_pair u v y x.
Proof.
  apply eq_true_iff_eq. unfold same_pair.
  rewrite !orb_true_iff, !andb_true_iff, !Nat.eqb_eq. lia.
Qed.
Lemma same_pair_sym u v x y : same_pair u v x y = same_pair v u x y.
Proof.
  apply eq_true_iff_eq. unfold same_pair.
  rewrite !orb_true_iff, !andb_true_iff, !Nat.eqb_eq. lia.
Qed.
Lemma side_uses_sym u v t : side_uses u v t = side_uses v u t.
Proof. destruct t as [[a b] c]. unfold side_uses. now rewrite !(same_pair_sym u v). Qed.
Lemma edge_uses_sym u v ts : edge_uses u v ts = edge_uses v u ts.
Proof.
  unfold edge_uses. f_equal. apply map_ext. intros. apply side_uses_sym.
Qed.

Lemma count_edges ts u v : u <= v ->
  count edge_eqb (u, v) (map sort_edge (get_edges ts)) = edge_uses u v ts.
Proof.
  intros Hle. unfold count, edge_uses. induction ts as [|[[a b] c] ts IH]; [reflexivity|].
  unfold get_edges in *. cbn [flat_map app map list_sum fold_right filter].
  rewrite !sort_edge_pair by assumption.
  change (fold_right Nat.add 0 (map (side_uses u v) ts)) with (list_sum (map (side_uses u v) ts)).
  cbn [side_uses]. rewrite (same_pair_swap u v c a).
  destruct (same_pair u v a b), (same_pair u v a c), (same_pair u v b c); simpl; rewrite IH; lia.
Qed.

Lemma get_boundary_edges_In ts u v :
  In (u, v) (get_boundary_edges ts) <-> u <= v /\ edge_uses u v ts = 1.
Proof.
  unfold get_boundary_edges. rewrite in_map_iff. split.
  - intros [[e n] [Huv H]]. simpl in Huv. subst e. apply filter_In in H. destruct H as [H Hn]. simpl in *.
    apply Nat.eqb_eq in Hn. subst n.
    apply (unique_counts_spec edge_leb edge_eqb edge_eqb_eq edge_leb_total edge_leb_trans edge_leb_antisym) in H.
    destruct H as [Hin Hc]. apply in_map_iff in Hin. destruct Hin as [[a b] [He _]].
    unfold sort_edge in He; simpl in He. injection He as <- <-.
    split; [lia|]. rewrite <- count_edges by lia. auto.
  - intros [Hle Hu]. exists ((u, v), 1). split; auto. apply filter_In. split; [|apply Nat.eqb_refl].
    apply (unique_counts_spec edge_leb edge_eqb edge_eqb_eq edge_leb_total edge_leb_trans edge_leb_antisym).
    rewrite count_edges by assumption. split; auto.
    apply (count_In edge_eqb edge_eqb_eq). rewrite count_edges by assumption. lia.
Qed.

Lemma NoDup_map_fst_filter {A B} (f : A * B -> bool) l : NoDup (map fst l) -> NoDup (map fst (filter f l)).
Proof.
  induction l as [|a l IH]; simpl; intros H; [constructor|]. inversion H; subst.
  destruct (f a); simpl; auto. constructor; auto.
  intros Hin. apply H2. apply in_map_iff in Hin. destruct Hin as [x [<- Hx]].
  apply filter_In in Hx. apply in_map. tauto.
Qed.

Lemma get_boundary_edges_NoDup ts : NoDup (get_boundary_edges ts).
Proof.
  unfold get_boundary_edges. apply NoDup_map_fst_filter.
  apply (unique_NoDup edge_leb edge_eqb edge_eqb_eq edge_leb_total edge_leb_trans edge_leb_antisym).
Qed.

Lemma side_uses_nondeg u v t : nondegenerate t -> side_uses u v t >= 1 -> u <> v.
Proof.
  destruct t as [[a b] c]. simpl. intros (H1 & H2 & H3) H ->.
  assert (forall x y, x <> y -> same_pair v v x y = false) as G.
  { intros x y Hxy. destruct (same_pair v v x y) eqn:E; auto. unfold same_pair in E.
    rewrite orb_true_iff, !andb_true_iff, !Nat.eqb_eq in E. lia. }
  rewrite !G in H by auto. lia.
Qed.

Lemma edge_uses_ge u v ts : edge_uses u v ts >= 1 -> exists t, In t ts /\ side_uses u v t >= 1.
Proof.
  unfold edge_uses. induction ts as [|t ts IH]; [simpl; lia|].
  change (list_sum (map (side_uses u v) (t :: ts))) with (side_uses u v t + list_sum (map (side_uses u v) ts)).
  intros H. destruct (Nat.eq_dec (side_uses u v t) 0) as [E|E].
  - destruct IH as (t' & Ht & Hs); [lia|]. exists t'. simpl; auto.
  - exists t. simpl; split; auto. lia.
Qed.

Lemma edge_uses_nondeg ts u v : Forall nondegenerate ts -> edge_uses u v ts >= 1 -> u <> v.
Proof.
  intros Hf H. destruct (edge_uses_ge _ _ _ H) as (t & Ht & Hs).
  rewrite Forall_forall in Hf. eapply side_uses_nondeg; eauto.
Qed.

(** * Winding *)
Lemma rows_with_In be v r :
  In r (rows_with be v) <-> exists e, nth_error be r = Some e /\ touches e v.
Proof.
  unfold rows_with. rewrite in_flat_map. split.
  - intros ([i [a b]] & Hin & Hr). apply In_combine_seq in Hin. destruct Hin as [_ Hin].
    rewrite Nat.sub_0_r in Hin. apply in_app_or in Hr. exists (a, b). unfold touches; simpl.
    destruct Hr as [Hr|Hr].
    + destruct (a =? v) eqn:E; [|contradiction]. apply Nat.eqb_eq in E. destruct Hr as [<-|[]]. auto.
    + destruct (b =? v) eqn:E; [|contradiction]. apply Nat.eqb_eq in E. destruct Hr as [<-|[]]. auto.
  - intros ([a b] & Hn & Ht). exists (r, (a, b)). split.
    + apply In_combine_seq. rewrite Nat.sub_0_r. split; [lia|auto].
    + apply in_or_app. destruct Ht as [->| ->]; simpl; rewrite Nat.eqb_refl; [left|right]; simpl; auto.
Qed.

Lemma walk_app v w v' w' v'' : walk v w v' -> walk v' w' v'' -> walk v (w ++ w') v''.
Proof.
  revert v; induction w as [|[a b] w IH]; simpl; intros v H H'.
  - subst; auto.
  - destruct H as [[-> H]|[-> H]]; [left|right]; auto.
Qed.

Definition nth_edges (be : list edge) (o : list nat) : list edge := map (fun i => nth i be (0, 0)) o.

Record wind_inv (be : list edge) (vis : list bool) (o : list nat) (s v : nat) : Prop := {
  wi_len : length vis = length be;
  wi_vis : forall i, i < length be -> (nth i vis true = true <-> In i o);
  wi_nd : NoDup o;
  wi_lt : forall i, In i o -> i < length be;
  wi_walk : walk s (nth_edges be o) v
}.

Definition unvisited (n : nat) (o : list nat) : nat := n - length o.

Lemma NoDup_lt_length (o : list nat) n : NoDup o -> (forall i, In i o -> i < n) -> length o <= n.
Proof.
  intros H1 H2. rewrite <- (seq_length n 0). apply NoDup_incl_length; auto.
  intros i Hi. apply in_seq. specialize (H2 _ Hi). lia.
Qed.

Lemma wind_step be vis o s v choice rest a b x xs :
  wind_inv be vis o s v ->
  filter (fun r => negb (nth r vis true)) (rows_with be v) = choice :: rest ->
  nth choice be (0, 0) = (a, b) ->
  filter (fun y => negb (y =? v)) [a; b] = x :: xs ->
  wind_inv be (upd vis choice true) (o ++ [choice]) s x /\ ~ In choice o /\ choice < length be.
Proof.
  intros I Hf Hab Hx.
  assert (Hc : In choice (filter (fun r => negb (nth r vis true)) (rows_with be v))) by (rewrite Hf; simpl; auto).
  apply filter_In in Hc. destruct Hc as [Hc Hu]. apply rows_with_In in Hc.
  destruct Hc as (e & He & Ht).
  assert (Hlt : choice < length be) by (apply nth_error_Some; congruence).
  assert (Hno : ~ In choice o).
  { intros Hi. apply (wi_vis _ _ _ _ _ I) in Hi; auto. rewrite Hi in Hu. discriminate. }
  assert (e = (a, b)) by (rewrite <- Hab; symmetry; now apply nth_error_nth). subst e.
  split; [|split]; auto. constructor.
  - rewrite upd_length. apply I.
  - intros i Hi. destruct (Nat.eq_dec choice i) as [->|Hn].
    + rewrite upd_nth_same by (rewrite (wi_len _ _ _ _ _ I); auto). rewrite in_app_iff. simpl. tauto.
    + rewrite upd_nth_other by auto. rewrite (wi_vis _ _ _ _ _ I) by auto.
      rewrite in_app_iff. simpl. intuition congruence.
  - apply (Permutation_NoDup (Permutation_cons_append o choice)). constructor; auto. apply I.
  - intros i Hi. apply in_app_or in Hi. destruct Hi as [Hi|[<-|[]]]; auto. now apply I.
  - unfold nth_edges. rewrite map_app. eapply walk_app; [apply I|]. simpl. rewrite Hab.
    unfold touches in Ht; simpl in Ht. simpl in Hx.
    destruct (a =? v) eqn:Ea; simpl in Hx.
    + apply Nat.eqb_eq in Ea. subst a. destruct (b =? v) eqn:Eb; simpl in Hx; [discriminate|].
      injection Hx as <- _. left; auto.
    + apply Nat.eqb_neq in Ea. destruct Ht as [->| ->]; [congruence|].
      injection Hx as <- _. right; auto.
Qed.

(** The loop never runs out of fuel. *)
Lemma wind_loop_total fuel : forall be vis o s v, wind_inv be vis o s v ->
  length be < length o + fuel -> wind_loop fuel be vis o v <> OutOfFuel.
Proof.
  induction fuel as [|fuel IH]; intros be vis o s v I Hlen.
  - exfalso. assert (length o <= length be) by (apply NoDup_lt_length; apply I). lia.
  - cbn [wind_loop].
    destruct (filter (fun r => negb (nth r vis true)) (rows_with be v)) as [|choice rest] eqn:Hf; [discriminate|].
    destruct (nth choice be (0, 0)) as [a b] eqn:Hab.
    destruct (filter (fun y => negb (y =? v)) [a; b]) as [|x xs] eqn:Hx; [discriminate|].
    destruct (wind_step _ _ _ _ _ _ _ _ _ _ _ I Hf Hab Hx) as (I' & _ & _).
    apply (IH _ _ _ _ _ I'). rewrite app_length. simpl. lia.
Qed.

Lemma wind_loop_ok fuel : forall be vis o s v, wind_inv be vis o s v ->
  (forall a b, In (a, b) be -> a <> b) ->
  length be < length o + fuel ->
  exists o' t vis', wind_loop fuel be vis o v = Ok o' /\ wind_inv be vis' o' s t /\
    (exists o'', o' = o ++ o'') /\
    (forall i e, nth_error be i = Some e -> touches e t -> In i o').
Proof.
  induction fuel as [|fuel IH]; intros be vis o s v I Hne Hlen.
  - exfalso. assert (length o <= length be) by (apply NoDup_lt_length; apply I). lia.
  - cbn [wind_loop].
    destruct (filter (fun r => negb (nth r vis true)) (rows_with be v)) as [|choice rest] eqn:Hf.
    + exists o, v, vis. split; [auto|]. split; [auto|]. split.
      * exists []. now rewrite app_nil_r.
      * intros i e Hi Ht.
        assert (Hlt : i < length be) by (apply nth_error_Some; congruence).
        apply (wi_vis _ _ _ _ _ I); auto.
        destruct (nth i vis true) eqn:E; auto. exfalso.
        assert (In i []) as [].
        rewrite <- Hf. apply filter_In. rewrite E. split; auto. apply rows_with_In. eauto.
    + destruct (nth choice be (0, 0)) as [a b] eqn:Hab.
      assert (Hcl : choice < length be).
      { assert (Hc : In choice (filter (fun r => negb (nth r vis true)) (rows_with be v))) by (rewrite Hf; simpl; auto).
        apply filter_In in Hc. destruct Hc as [Hc _]. apply rows_with_In in Hc. destruct Hc as (e & He & _).
        apply nth_error_Some; congruence. }
      assert (Hin : In (a, b) be) by (rewrite <- Hab; now apply nth_In).
      specialize (Hne _ _ Hin) as Hab'.
      destruct (filter (fun y => negb (y =? v)) [a; b]) as [|x xs] eqn:Hx.
      { exfalso. simpl in Hx. destruct (a =? v) eqn:Ea; simpl in Hx; [|discriminate].
        destruct (b =? v) eqn:Eb; simpl in Hx; [|discriminate].
        apply Nat.eqb_eq in Ea, Eb. congruence. }
      destruct (wind_step _ _ _ _ _ _ _ _ _ _ _ I Hf Hab Hx) as (I' & _ & _).
      destruct (IH _ _ _ _ _ I' Hne) as (o' & t & vis' & H1 & H2 & (o'' & H3) & H4).
      { rewrite app_length. simpl. lia. }
      exists o', t, vis'. split; [auto|]. split; [auto|]. split; [|auto].
      exists (choice :: o''). rewrite H3, <- app_assoc. reflexivity.
Qed.

Lemma wind_init be choice a b : nth_error be choice = Some (a, b) ->
  wind_inv be (upd (repeat false (length be)) choice true) [choice] a b.
Proof.
  intros H. assert (Hlt : choice < length be) by (apply nth_error_Some; congruence).
  constructor.
  - rewrite upd_length, repeat_length. reflexivity.
  - intros i Hi. destruct (Nat.eq_dec choice i) as [->|Hn].
    + rewrite upd_nth_same by (rewrite repeat_length; auto). simpl. tauto.
    + rewrite upd_nth_other by auto.
      replace (nth i (repeat false (length be)) true) with false; [simpl; intuition congruence|].
      rewrite nth_indep with (d' := false) by (rewrite repeat_length; auto).
      now rewrite nth_repeat.
  - repeat constructor. simpl; tauto.
  - intros i [<-|[]]. auto.
  - simpl. rewrite (nth_error_nth _ _ _ H). left; auto.
Qed.

Lemma wind_start_spec be vf : be <> [] ->
  wind_start be vf < length be /\
  (forall v, vf = Some v -> (exists e, In e be /\ touches e v) ->
     exists e, nth_error be (wind_start be vf) = Some e /\ touches e v).
Proof.
  intros Hne. assert (Hl : 0 < length be) by (destruct be; simpl; [congruence|lia]).
  unfold wind_start. destruct vf as [v|]; [|split; auto; discriminate].
  destruct (find _ _) as [[i e]|] eqn:F.
  - apply find_some in F. destruct F as [Hin Ht]. apply In_combine_seq in Hin.
    rewrite Nat.sub_0_r in Hin. destruct Hin as [_ Hin]. split.
    + apply nth_error_Some. congruence.
    + intros v' [= <-] _. exists e. split; auto. simpl in Ht.
      rewrite orb_true_iff, !Nat.eqb_eq in Ht. unfold touches. intuition.
  - split; auto. intros v' [= <-] (e & He & Ht). exfalso.
    apply In_nth_error in He. destruct He as [i Hi].
    assert (G : In (i, e) (combine (seq 0 (length be)) be)).
    { apply In_combine_seq. rewrite Nat.sub_0_r. split; [lia|auto]. }
    apply (find_none _ _ F) in G. simpl in G. rewrite orb_false_iff, !Nat.eqb_neq in G.
    unfold touches in Ht. intuition.
Qed.

Lemma boundary_nondeg ts a b : Forall nondegenerate ts -> In (a, b) (get_boundary_edges ts) -> a <> b.
Proof.
  intros H Hin. apply get_boundary_edges_In in Hin. apply (edge_uses_nondeg ts); auto. lia.
Qed.

Lemma nth_edges_In be o e : In e (nth_edges be o) -> (forall i, In i o -> i < length be) -> In e be.
Proof.
  unfold nth_edges. rewrite in_map_iff. intros (i & <- & Hi) H. apply nth_In. auto.
Qed.

Lemma nth_edges_NoDup be o : NoDup be -> NoDup o -> (forall i, In i o -> i < length be) -> NoDup (nth_edges be o).
Proof.
  intros Hb Ho Hlt. unfold nth_edges. induction Ho; simpl; constructor.
  - intros Hin. apply in_map_iff in Hin. destruct Hin as (j & Hj & Hjl).
    apply H. rewrite (NoDup_nth _ (0, 0)) in Hb.
    rewrite <- (Hb j x); [assumption|apply Hlt; simpl; auto|apply Hlt; simpl; auto|assumption].
  - apply IHHo. intros i Hi; apply Hlt; simpl; auto.
Qed.

Lemma winded_total ts vf : get_winded_boundary_edges ts vf <> OutOfFuel.
Proof.
  unfold get_winded_boundary_edges.
  destruct (nth_error (get_boundary_edges ts) (wind_start (get_boundary_edges ts) vf)) as [[a b]|] eqn:E; [|discriminate].
  pose proof (wind_loop_total (S (length (get_boundary_edges ts))) _ _ _ _ _ (wind_init _ _ _ _ E)) as H.
  simpl length in H. specialize (H ltac:(lia)).
  destruct (wind_loop _ _ _ _ _); simpl; congruence.
Qed.

Lemma winded_spec ts vf :
  Forall nondegenerate ts ->
  (exists u v, edge_uses u v ts = 1) ->
  exists w s t,
    get_winded_boundary_edges ts vf = Ok w /\ w <> [] /\ NoDup w /\ walk s w t /\
    (forall u v, In (u, v) w -> u < v /\ edge_uses u v ts = 1) /\
    (forall u v, u < v -> edge_uses u v ts = 1 -> touches (u, v) t -> In (u, v) w) /\
    (forall v, vf = Some v -> (exists u, edge_uses u v ts = 1) ->
       exists e w', w = e :: w' /\ touches e v).
Proof.
  intros Hnd (u0 & v0 & H0).
  set (be := get_boundary_edges ts).
  assert (Hbe : be <> []).
  { intros E. destruct (Nat.le_ge_cases u0 v0) as [Hle|Hle].
    - assert (In (u0, v0) be) by (apply get_boundary_edges_In; auto). rewrite E in H; destruct H.
    - assert (In (v0, u0) be) by (apply get_boundary_edges_In; rewrite edge_uses_sym; auto).
      rewrite E in H; destruct H. }
  destruct (wind_start_spec be vf Hbe) as [Hst Hst'].
  unfold get_winded_boundary_edges. fold be.
  destruct (nth_error be (wind_start be vf)) as [[a b]|] eqn:E;
    [|apply nth_error_None in E; lia].
  destruct (wind_loop_ok (S (length be)) _ _ _ _ _ (wind_init _ _ _ _ E)) as (o' & t & vis' & H1 & I & (o'' & H3) & H4).
  { intros x y Hxy. eapply boundary_nondeg; eauto. }
  { simpl. lia. }
  rewrite H1. simpl bind. exists (nth_edges be o'), a, t.
  split; [reflexivity|]. split; [subst o'; discriminate|].
  split; [apply nth_edges_NoDup; [apply get_boundary_edges_NoDup|apply I|apply I]|].
  split; [apply I|]. split; [|split].
  - intros u v Hin. apply nth_edges_In in Hin; [|apply I]. pose proof Hin as Hin'.
    apply get_boundary_edges_In in Hin. split; [|tauto].
    assert (u <> v) by (eapply boundary_nondeg; eauto). lia.
  - intros u v Hlt Hu Ht.
    assert (Hin : In (u, v) be) by (apply get_boundary_edges_In; split; [lia|auto]).
    apply In_nth_error in Hin. destruct Hin as [i Hi].
    specialize (H4 _ _ Hi Ht). unfold nth_edges. apply in_map_iff. exists i.
    split; auto. now apply nth_error_nth.
  - intros v Hv (u & Hu). destruct (Hst' v Hv) as (e & He & Het).
    { destruct (Nat.le_ge_cases u v) as [Hle|Hle].
      - exists (u, v). split; [apply get_boundary_edges_In; auto|right; auto].
      - exists (v, u). split; [apply get_boundary_edges_In; rewrite edge_uses_sym; auto|left; auto]. }
    injection He as <-. exists (a, b), (nth_edges be o''). split; auto.
    subst o'. unfold nth_edges. simpl. f_equal. now apply nth_error_nth.
Qed.

(** * Closed boundaries *)
Definition touchesb (v : nat) (e : edge) : bool := (fst e =? v) || (snd e =? v).
Lemma touchesb_spec v e : touchesb v e = true <-> touches e v.
Proof. unfold touchesb, touches. rewrite orb_true_iff, !Nat.eqb_eq. intuition. Qed.

Definition wdeg (w : list edge) (v : nat) : nat := length (filter (touchesb v) w).

Lemma walk_parity w : forall s t v, (forall a b, In (a, b) w -> a <> b) -> walk s w t ->
  Nat.even (wdeg w v + (if v =? s then 1 else 0) + (if v =? t then 1 else 0)) = true.
Proof.
  induction w as [|[a b] w IH]; intros s t v Hne H.
  - simpl in H. subst. simpl. destruct (v =? t); reflexivity.
  - assert (Hab : a <> b) by (apply Hne; simpl; auto).
    assert (G : forall x, walk x w t -> Nat.even (wdeg w v + (if v =? x then 1 else 0) + (if v =? t then 1 else 0)) = true).
    { intros x Hx. apply IH; auto. intros; apply Hne; simpl; auto. }
    unfold wdeg in *. simpl. unfold touchesb at 1. simpl.
    destruct H as [[-> H]|[-> H]]; specialize (G _ H); revert G;
      destruct (a =? v) eqn:E1, (b =? v) eqn:E2; rewrite ?(Nat.eqb_sym v a), ?(Nat.eqb_sym v b), ?E1, ?E2; simpl;
      try (apply Nat.eqb_eq in E1); try (apply Nat.eqb_eq in E2); try congruence;
      destruct (v =? t); rewrite ?Nat.add_0_r, ?Nat.add_1_r; simpl; auto.
Qed.

(** Boundary degree counted on the edge list equals the degree of the specification. *)
Lemma NoDup_filter {A} (f : A -> bool) l : NoDup l -> NoDup (filter f l).
Proof.
  induction 1; simpl; [constructor|]. destruct (f x); auto. constructor; auto.
  intros Hin. apply filter_In in Hin. tauto.
Qed.

Lemma has_vertex_lt ts t v : In t ts -> has_vertex v t -> v < vbound ts.
Proof.
  intros Hin Hv. unfold vbound. apply Nat.lt_succ_r. apply list_max_ge.
  apply in_flat_map. exists t. split; auto. destruct t as [[a b] c]. simpl in *. intuition.
Qed.

Lemma same_pair_true u v x y : same_pair u v x y = true <-> (u = x /\ v = y) \/ (u = y /\ v = x).
Proof. unfold same_pair. rewrite orb_true_iff, !andb_true_iff, !Nat.eqb_eq. tauto. Qed.

Lemma side_uses_vertex u v t : side_uses u v t >= 1 -> has_vertex u t /\ has_vertex v t.
Proof.
  destruct t as [[a b] c]. simpl.
  destruct (same_pair u v a b) eqn:E1; [apply same_pair_true in E1; lia|].
  destruct (same_pair u v b c) eqn:E2; [apply same_pair_true in E2; lia|].
  destruct (same_pair u v c a) eqn:E3; [apply same_pair_true in E3; lia|]. lia.
Qed.

Lemma edge_uses_lt ts u v : edge_uses u v ts >= 1 -> u < vbound ts /\ v < vbound ts.
Proof.
  intros H. destruct (edge_uses_ge _ _ _ H) as (t & Ht & Hs).
  apply side_uses_vertex in Hs. split; eapply has_vertex_lt; eauto; tauto.
Qed.

Definition other (v : nat) (e : edge) : nat := if fst e =? v then snd e else fst e.

Lemma boundary_degree_wdeg ts v : Forall nondegenerate ts ->
  wdeg (get_boundary_edges ts) v = boundary_degree ts v.
Proof.
  intros Hnd. unfold wdeg, boundary_degree.
  rewrite <- (map_length (other v) (filter (touchesb v) (get_boundary_edges ts))).
  apply Permutation_length. apply NoDup_Permutation.
  - assert (Hnb : NoDup (filter (touchesb v) (get_boundary_edges ts)))
      by (apply NoDup_filter, get_boundary_edges_NoDup).
    assert (Hb : forall e, In e (filter (touchesb v) (get_boundary_edges ts)) ->
                 fst e < snd e /\ touches e v).
    { intros [a b] Hin. apply filter_In in Hin. destruct Hin as [Hin Ht].
      apply touchesb_spec in Ht. split; auto.
      pose proof (boundary_nondeg _ _ _ Hnd Hin). apply get_boundary_edges_In in Hin. simpl; lia. }
    induction (filter (touchesb v) (get_boundary_edges ts)) as [|e l IH]; simpl; constructor.
    + intros Hin. apply in_map_iff in Hin. destruct Hin as (f & Hf & Hfl).
      inversion Hnb as [|? ? Hnot Hnd']; subst. apply Hnot.
      destruct (Hb e (or_introl eq_refl)) as [Hlt Ht].
      destruct (Hb f (or_intror Hfl)) as [Hlt' Ht'].
      replace e with f; auto. destruct e as [a b], f as [c d].
      unfold other, touches in *; simpl in *.
      destruct (a =? v) eqn:E1, (c =? v) eqn:E2; rewrite ?Nat.eqb_eq, ?Nat.eqb_neq in *; f_equal; lia.
    + apply IH. inversion Hnb; auto. intros f Hf. apply Hb. simpl; auto.
  - apply NoDup_filter, seq_NoDup.
  - intros u. rewrite in_map_iff, filter_In, in_seq, Nat.eqb_eq. split.
    + intros ([a b] & Ho & Hin). apply filter_In in Hin. destruct Hin as [Hin Ht].
      pose proof (boundary_nondeg _ _ _ Hnd Hin) as Hab.
      apply touchesb_spec in Ht. apply get_boundary_edges_In in Hin. destruct Hin as [_ Hu].
      destruct (edge_uses_lt ts a b) as [Ha Hb]; [lia|].
      unfold other, touches in *; simpl in *.
      destruct (a =? v) eqn:E1; [apply Nat.eqb_eq in E1|apply Nat.eqb_neq in E1]; subst.
      * rewrite edge_uses_sym. split; [lia|auto].
      * destruct Ht as [->|Ht]; [congruence|subst]. split; [lia|auto].
    + intros [Hu H]. assert (Huv : u <> v) by (apply (edge_uses_nondeg ts); auto; lia).
      exists (Nat.min u v, Nat.max u v). destruct (Nat.lt_ge_cases u v) as [Hlt|Hge].
      * rewrite Nat.min_l, Nat.max_r by lia. unfold other; simpl.
        destruct (u =? v) eqn:E; [apply Nat.eqb_eq in E; congruence|]. split; auto.
        apply filter_In. split; [apply get_boundary_edges_In; split; auto; lia|].
        apply touchesb_spec. right; auto.
      * rewrite Nat.min_r, Nat.max_l by lia. unfold other; simpl. rewrite Nat.eqb_refl. split; auto.
        apply filter_In. split; [apply get_boundary_edges_In; split; [lia|rewrite edge_uses_sym; auto]|].
        apply touchesb_spec. left; auto.
Qed.

Lemma wdeg_incl_le w be v : NoDup w -> incl w be -> wdeg w v <= wdeg be v.
Proof.
  intros Hnd Hi. unfold wdeg. apply NoDup_incl_length; [now apply NoDup_filter|].
  intros e He. apply filter_In in He. apply filter_In. split; [apply Hi|]; tauto.
Qed.

Lemma wdeg_full w be v : NoDup w -> incl w be -> wdeg be v <= wdeg w v ->
  forall e, In e be -> touches e v -> In e w.
Proof.
  intros Hnd Hi Hle e He Ht. unfold wdeg in Hle.
  assert (Hinc : incl (filter (touchesb v) be) (filter (touchesb v) w)).
  { apply NoDup_length_incl; [now apply NoDup_filter|exact Hle|].
    intros f Hf. apply filter_In in Hf. apply filter_In. split; [apply Hi|]; tauto. }
  assert (In e (filter (touchesb v) w)).
  { apply Hinc. apply filter_In. split; auto. now apply touchesb_spec. }
  apply filter_In in H. tauto.
Qed.

Lemma wdeg_pos w v e : In e w -> touches e v -> wdeg w v >= 1.
Proof.
  intros H Ht. unfold wdeg. assert (In e (filter (touchesb v) w)).
  { apply filter_In. split; auto. now apply touchesb_spec. }
  destruct (filter (touchesb v) w); simpl in *; [contradiction|lia].
Qed.

Lemma walk_end_touched w : forall s t, w <> [] -> walk s w t -> exists e, In e w /\ touches e t.
Proof.
  induction w as [|[a b] w IH]; intros s t Hne H; [congruence|].
  destruct w as [|f w].
  - exists (a, b). simpl in *. unfold touches; simpl. split; auto. intuition subst; auto.
  - assert (G : exists x, walk x (f :: w) t).
    { cbn [walk] in H. destruct H as [[_ H]|[_ H]]; eexists; exact H. }
    destruct G as [x Hx]. destruct (IH x t) as (e & He & Ht); auto; [discriminate|].
    exists e. split; simpl in *; auto.
Qed.

Lemma winded_closed ts vf :
  Forall nondegenerate ts ->
  (exists u v, edge_uses u v ts = 1) ->
  (forall v, boundary_degree ts v = 0 \/ boundary_degree ts v = 2) ->
  exists w s,
    get_winded_boundary_edges ts vf = Ok w /\ w <> [] /\ NoDup w /\ walk s w s /\
    (forall u v, In (u, v) w -> u < v /\ edge_uses u v ts = 1) /\
    (forall e f v, In e w -> touches e v -> fst f < snd f -> on_boundary ts (fst f) (snd f) ->
       touches f v -> In f w).
Proof.
  intros Hnd Hex Hdeg.
  destruct (winded_spec ts vf Hnd Hex) as (w & s & t & H1 & H2 & H3 & H4 & H5 & H6 & _).
  assert (Hinc : incl w (get_boundary_edges ts)).
  { intros [u v] Hin. apply get_boundary_edges_In. apply H5 in Hin. split; [lia|tauto]. }
  assert (Hne : forall a b, In (a, b) w -> a <> b) by (intros a b Hin; apply H5 in Hin; lia).
  assert (Hpar := fun v => walk_parity w s t v Hne H4).
  assert (Hd : forall v, wdeg (get_boundary_edges ts) v = boundary_degree ts v)
    by (intros; now apply boundary_degree_wdeg).
  assert (Hle : forall v, wdeg w v <= 2).
  { intros v. pose proof (wdeg_incl_le w _ v H3 Hinc) as G. rewrite Hd in G. destruct (Hdeg v); lia. }
  assert (Hst : s = t).
  { destruct (walk_end_touched w s t H2 H4) as (e & He & Ht).
    pose proof (wdeg_pos w t e He Ht) as Hp.
    assert (Hfull : wdeg (get_boundary_edges ts) t <= wdeg w t).
    { unfold wdeg. apply NoDup_incl_length; [apply NoDup_filter, get_boundary_edges_NoDup|].
      intros [u v] Hf. apply filter_In in Hf. destruct Hf as [Hf Hft]. apply filter_In. split; auto.
      pose proof (boundary_nondeg _ _ _ Hnd Hf). apply get_boundary_edges_In in Hf.
      apply H6; [lia|tauto|now apply touchesb_spec]. }
    assert (wdeg (get_boundary_edges ts) t >= 1).
    { pose proof (wdeg_incl_le w _ t H3 Hinc). lia. }
    rewrite Hd in *. assert (E : wdeg w t = 2) by (destruct (Hdeg t); pose proof (Hle t); lia).
    specialize (Hpar t). rewrite E, Nat.eqb_refl in Hpar.
    destruct (t =? s) eqn:Ets; [apply Nat.eqb_eq in Ets; auto|discriminate]. }
  subst t. exists w, s. split; [auto|]. split; [auto|]. split; [auto|]. split; [auto|]. split; [auto|].
  intros e f v He Hev Hf Hfb Hfv.
  apply (wdeg_full w (get_boundary_edges ts) v); auto.
  - rewrite Hd. pose proof (wdeg_pos w v e He Hev) as Hp. specialize (Hpar v).
    specialize (Hle v). assert (E : wdeg w v = 2).
    { assert (E : wdeg w v = 1 \/ wdeg w v = 2) by lia. destruct E as [E|E]; auto.
      rewrite E in Hpar. destruct (v =? s); discriminate. }
    rewrite E. destruct (Hdeg v); lia.
  - destruct f as [x y]. apply get_boundary_edges_In. simpl in *. split; [lia|exact Hfb].
Qed.

Lemma winded_component ts vf :
  Forall nondegenerate ts ->
  (exists u v, edge_uses u v ts = 1) ->
  (forall v, boundary_degree ts v = 0 \/ boundary_degree ts v = 2) ->
  exists w s,
    get_winded_boundary_edges ts vf = Ok w /\ w <> [] /\ NoDup w /\ walk s w s /\
    (forall u v, In (u, v) w -> u < v /\ edge_uses u v ts = 1) /\
    (forall e u v, In e w -> u < v -> on_boundary ts u v -> blinked ts e (u, v) -> In (u, v) w).
Proof.
  intros Hnd Hex Hdeg.
  destruct (winded_closed ts vf Hnd Hex Hdeg) as (w & s & H1 & H2 & H3 & H4 & H5 & H6).
  exists w, s. split; [auto|]. split; [auto|]. split; [auto|]. split; [auto|]. split; [auto|].
  (* the walk is closed under sharing a vertex with an edge written in either direction *)
  assert (G : forall e g, blinked ts e g ->
            (In e w \/ In (snd e, fst e) w) -> In g w \/ In (snd g, fst g) w).
  { induction 1 as [e|e f g v Hf Hev Hfv Hl IH]; auto. intros He. apply IH.
    assert (Hfn : fst f <> snd f) by (apply (edge_uses_nondeg ts); auto; unfold on_boundary in Hf; lia).
    assert (He' : exists e', In e' w /\ touches e' v).
    { destruct He as [He|He]; [exists e|exists (snd e, fst e)]; split; auto.
      unfold touches in *; simpl; tauto. }
    destruct He' as (e' & He' & Hev').
    destruct (Nat.lt_ge_cases (fst f) (snd f)).
    - left. apply (H6 e' f v); auto.
    - right. apply (H6 e' (snd f, fst f) v); simpl; auto; [lia| |].
      + unfold on_boundary in *. rewrite edge_uses_sym. auto.
      + unfold touches in *; simpl; tauto. }
  intros e u v He Huv Hb Hl. destruct (G _ _ Hl (or_introl He)) as [Hin|Hin]; auto.
  simpl in Hin. apply H5 in Hin. lia.
Qed.

(** * Polygon edges *)
Lemma nan_positions_repeat_false i n r :
  nan_positions i (repeat false n ++ r) = nan_positions (i + Z.of_nat n) r.
Proof.
  revert i; induction n; intros; simpl repeat; cbn [app nan_positions].
  - f_equal. lia.
  - rewrite IHn. f_equal. lia.
Qed.

Lemma nan_positions_tail i n : nan_positions i (repeat false n) = [].
Proof. rewrite <- (app_nil_r (repeat false n)), nan_positions_repeat_false. reflexivity. Qed.

Lemma poly_edges_parts lens : forall off extra,
  poly_edges_from ((off - 1)%Z :: nan_positions off (nan_column lens ++ repeat false extra)) =
  flat_map (fun p => feature_edges (fst p - 1) (fst p + Z.of_nat (snd p))) (part_offsets off lens).
Proof.
  induction lens as [|m lens IH]; intros off extra.
  - simpl. rewrite nan_positions_tail. reflexivity.
  - simpl nan_column. simpl part_offsets. cbn [flat_map fst snd].
    rewrite <- !app_assoc, nan_positions_repeat_false. cbn [app nan_positions].
    specialize (IH (off + Z.of_nat m + 1)%Z extra).
    replace (off + Z.of_nat m + 1 - 1)%Z with (off + Z.of_nat m)%Z in IH by lia.
    rewrite <- IH. reflexivity.
Qed.

Lemma get_poly_edges_parts lens extra : lens <> [] ->
  get_poly_edges (nan_column lens ++ repeat false extra) =
  Ok (flat_map (fun p => feature_edges (fst p - 1) (fst p + Z.of_nat (snd p))) (part_offsets 0 lens)).
Proof.
  intros H. unfold get_poly_edges. pose proof (poly_edges_parts lens 0 extra) as G.
  change (0 - 1)%Z with (-1)%Z in G.
  destruct (nan_positions 0 (nan_column lens ++ repeat false extra)) eqn:E; [|now rewrite G].
  exfalso. destruct lens as [|m lens]; [congruence|]. simpl in E.
  rewrite <- !app_assoc, nan_positions_repeat_false in E. discriminate.
Qed.

Lemma arange_In lo hi k : In k (arange lo hi) <-> (lo <= k < hi)%Z.
Proof.
  unfold arange. rewrite in_map_iff. split.
  - intros (i & <- & Hi). apply in_seq in Hi. lia.
  - intros H. exists (Z.to_nat (k - lo)). split; [lia|]. apply in_seq. lia.
Qed.

Lemma combine_arange lo n :
  combine (map (fun k => lo + Z.of_nat k)%Z (seq 0 n)) (map (fun k => lo + 1 + Z.of_nat k)%Z (seq 0 n)) =
  map (fun k => (lo + Z.of_nat k, lo + Z.of_nat k + 1)%Z) (seq 0 n).
Proof.
  generalize 0. induction n; intros s; simpl; auto. f_equal; auto. f_equal. lia.
Qed.

Lemma feature_edges_eq off m :
  feature_edges (off - 1) (off + Z.of_nat m) =
  map (fun k => (off + Z.of_nat k, off + Z.of_nat k + 1)%Z) (seq 0 (m - 2))
  ++ [(off + Z.of_nat m - 1, off)%Z].
Proof.
  unfold feature_edges, arange. replace (off - 1 + 1)%Z with off by lia.
  replace (Z.to_nat (off + Z.of_nat m - 1 - 1 - off)) with (m - 2) by lia.
  replace (Z.to_nat (off + Z.of_nat m - 1 - (off + 1))) with (m - 2) by lia.
  now rewrite combine_arange.
Qed.

Lemma chain_app {P} (s1 : list (P * P)) : forall x y s2 z,
  chain x s1 y -> chain y s2 z -> chain x (s1 ++ s2) z.
Proof.
  induction s1 as [|[a b] s1 IH]; simpl; intros x y s2 z H1 H2; [subst; auto|].
  destruct H1 as [-> H1]. split; eauto.
Qed.
Lemma chain_app_inv {P} (s1 : list (P * P)) : forall x s2 z,
  chain x (s1 ++ s2) z -> exists y, chain x s1 y /\ chain y s2 z.
Proof.
  induction s1 as [|[a b] s1 IH]; simpl; intros x s2 z H; [eauto|].
  destruct H as [-> H]. destruct (IH _ _ _ H) as (y & H1 & H2). eauto.
Qed.
Lemma chain_end {P} (s : list (P * P)) : forall x y y', chain x s y -> chain x s y' -> y = y'.
Proof.
  induction s as [|[a b] s IH]; simpl; intros x y y'; [congruence|]. intros [-> H] [_ H']. eauto.
Qed.

Lemma chain_seq {P} (c : Z -> P) n : forall s off,
  chain (c (off + Z.of_nat s)%Z)
    (map (fun k => (c (off + Z.of_nat k), c (off + Z.of_nat k + 1)))%Z (seq s n))
    (c (off + Z.of_nat (s + n))%Z).
Proof.
  induction n; intros s off; simpl.
  - f_equal. lia.
  - split; auto. specialize (IHn (S s) off).
    replace (off + Z.of_nat (S s))%Z with (off + Z.of_nat s + 1)%Z in IHn by lia.
    replace (s + S n) with (S s + n) by lia. exact IHn.
Qed.

Definition seg_coords {P} (c : Z -> P) (e : zedge) : P * P := (c (fst e), c (snd e)).

Lemma feature_closed {P} (c : Z -> P) off m : 2 <= m ->
  (closed_chain (map (seg_coords c) (feature_edges (off - 1) (off + Z.of_nat m)))
   <-> c (off + Z.of_nat m - 2)%Z = c (off + Z.of_nat m - 1)%Z).
Proof.
  intros Hm. rewrite feature_edges_eq, map_app, map_map. unfold seg_coords at 1. simpl fst; simpl snd.
  cbn [map]. unfold seg_coords. simpl fst; simpl snd.
  pose proof (chain_seq c (m - 2) 0 off) as G.
  replace (off + Z.of_nat 0)%Z with off in G by lia.
  replace (off + Z.of_nat (0 + (m - 2)))%Z with (off + Z.of_nat m - 2)%Z in G by lia.
  split.
  - intros (x & _ & H). apply chain_app_inv in H. destruct H as (y & H1 & H2).
    simpl in H2. destruct H2 as [-> H2].
    assert (Hx : x = c off) by auto. subst x.
    symmetry. eapply chain_end; eauto.
  - intros E. exists (c off). split.
    + destruct (map _ (seq 0 (m - 2))); discriminate.
    + eapply chain_app; [exact G|]. simpl. auto.
Qed.

Lemma feature_missing off m : 3 <= m ->
  ~ In (off + Z.of_nat m - 2, off + Z.of_nat m - 1)%Z (feature_edges (off - 1) (off + Z.of_nat m)) /\
  ~ In (off + Z.of_nat m - 1, off + Z.of_nat m - 2)%Z (feature_edges (off - 1) (off + Z.of_nat m)).
Proof.
  intros Hm. rewrite feature_edges_eq. split; rewrite in_app_iff, in_map_iff;
    (intros [(k & E & Hk)|[E|[]]]; [apply in_seq in Hk|]; injection E; lia).
Qed.

Lemma poly_edges_by_part lens extra : lens <> [] ->
  get_poly_edges (nan_column lens ++ repeat false extra) =
  Ok (flat_map (fun p => map (fun k => (fst p + Z.of_nat k, fst p + Z.of_nat k + 1)%Z) (seq 0 (snd p - 2))
                         ++ [(fst p + Z.of_nat (snd p) - 1, fst p)%Z]) (part_offsets 0 lens)).
Proof.
  intros H. rewrite get_poly_edges_parts by assumption. f_equal.
  apply flat_map_ext. intros [off m]. apply feature_edges_eq.
Qed.

Lemma ring_closed_iff (P : Type) (coord : Z -> P) (m extra : nat) es :
  2 <= m -> get_poly_edges (nan_column [m] ++ repeat false extra) = Ok es ->
  (closed_chain (map (fun e => (coord (fst e), coord (snd e))) es)
   <-> coord (Z.of_nat m - 2)%Z = coord (Z.of_nat m - 1)%Z).
Proof.
  intros Hm. rewrite get_poly_edges_parts by discriminate. intros [= <-].
  cbn [part_offsets flat_map fst snd]. rewrite app_nil_r.
  exact (feature_closed coord 0 m Hm).
Qed.

Definition unit_square (i : Z) : nat * nat :=
  match i with 1%Z => (1, 0) | 2%Z => (1, 1) | 3%Z => (0, 1) | _ => (0, 0) end.

Lemma poly_edges_open_square : exists (coord : Z -> nat * nat) es,
  coord 0%Z = coord 4%Z /\
  get_poly_edges (nan_column [5]) = Ok es /\
  ~ closed_chain (map (fun e => (coord (fst e), coord (snd e))) es) /\
  ~ In (coord 3%Z, coord 4%Z) (map (fun e => (coord (fst e), coord (snd e))) es).
Proof.
  exists unit_square. eexists. split; [reflexivity|]. split; [reflexivity|]. split.
  - intros (x & _ & H). simpl in H. intuition congruence.
  - simpl. intuition congruence.
Qed.

Definition annulus : list tri :=
  [(0, 1, 4); (1, 5, 4); (1, 2, 5); (2, 6, 5); (2, 3, 6); (3, 7, 6); (3, 0, 7); (0, 4, 7)].

Lemma boundary_degree_out ts v : vbound ts <= v -> boundary_degree ts v = 0.
Proof.
  intros H. unfold boundary_degree.
  destruct (filter _ _) as [|u l] eqn:E; auto. exfalso.
  assert (In u (filter (fun u => edge_uses u v ts =? 1) (seq 0 (vbound ts)))) by (rewrite E; simpl; auto).
  apply filter_In in H0. destruct H0 as [_ H0]. apply Nat.eqb_eq in H0.
  destruct (edge_uses_lt ts u v); lia.
Qed.

Lemma annulus_winding v : wind_start (get_boundary_edges annulus) v <= 7.
Proof.
  destruct (wind_start_spec (get_boundary_edges annulus) v) as [H _]; [discriminate|].
  replace (length (get_boundary_edges annulus)) with 8 in H by reflexivity. lia.
Qed.

Lemma winding_incomplete : exists ts,
  Forall nondegenerate ts /\
  (forall v, boundary_degree ts v = 0 \/ boundary_degree ts v = 2) /\
  forall vFirst w, get_winded_boundary_edges ts vFirst = Ok w ->
    exists u v, on_boundary ts u v /\ ~ In (u, v) w /\ ~ In (v, u) w.
Proof.
  exists annulus. split; [repeat constructor; discriminate|]. split.
  - intros v. destruct (Nat.lt_ge_cases v 8) as [H|H].
    + right. do 8 (destruct v as [|v]; [reflexivity|]). lia.
    + left. apply boundary_degree_out. exact H.
  - intros vf w. unfold get_winded_boundary_edges.
    pose proof (annulus_winding vf) as Hs. revert Hs.
    generalize (wind_start (get_boundary_edges annulus) vf). intros s Hs.
    do 8 (destruct s as [|s]; [intros H; vm_compute in H; injection H as <-;
      first [exists 0, 1; split; [reflexivity|]; split; simpl; intuition congruence
            |exists 4, 5; split; [reflexivity|]; split; simpl; intuition congruence]|]).
    lia.
Qed.
