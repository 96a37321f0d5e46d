(** Facts on lists missing from the standard library. No model definitions here. *)
From Coq Require Import List Arith Lia Bool Permutation Sorted.
From Verif Require Import M_Base M_Numpy.
Import ListNotations.

(** * Insertion sort *)
Section Isort.
  Context {A : Type} (leb : A -> A -> bool).

  Lemma insert_perm x l : Permutation (insert leb x l) (x :: l).
  Proof.
    induction l as [|y l IH]; simpl; [reflexivity|].
    destruct (leb x y); [reflexivity|].
    rewrite IH. apply perm_swap.
  Qed.

  Lemma isort_perm l : Permutation (isort leb l) l.
  Proof.
    induction l as [|x l IH]; simpl; [reflexivity|].
    rewrite insert_perm. now constructor.
  Qed.

  Lemma isort_length l : length (isort leb l) = length l.
  Proof. apply Permutation_length, isort_perm. Qed.

  Lemma isort_In l x : In x (isort leb l) <-> In x l.
  Proof.
    split; apply Permutation_in; [|symmetry]; apply isort_perm.
  Qed.

  Hypothesis total : forall x y, leb x y = true \/ leb y x = true.
  Hypothesis trans : forall x y z, leb x y = true -> leb y z = true -> leb x z = true.

  Lemma insert_sorted x l :
    StronglySorted (fun a b => leb a b = true) l ->
    StronglySorted (fun a b => leb a b = true) (insert leb x l).
  Proof.
    induction l as [|y l IH]; simpl; intros H.
    - repeat constructor.
    - inversion H as [|? ? Hs Hf]; subst.
      destruct (leb x y) eqn:E.
      + constructor; [assumption|]. constructor; [assumption|].
        eapply Forall_impl; [|exact Hf]. simpl. intros a Ha. eapply trans; eauto.
      + constructor; [now apply IH|].
        assert (Hyx : leb y x = true) by (destruct (total x y); congruence).
        apply Forall_forall. intros z Hz.
        apply (Permutation_in _ (insert_perm x l)) in Hz. destruct Hz as [->|Hz]; [assumption|].
        rewrite Forall_forall in Hf. auto.
  Qed.

  Lemma isort_sorted l : StronglySorted (fun a b => leb a b = true) (isort leb l).
  Proof. induction l; simpl; [constructor|now apply insert_sorted]. Qed.

End Isort.

(** * Sorted lists with an antisymmetric order are determined by their elements *)
Lemma StronglySorted_app_inv {A} (R : A -> A -> Prop) l1 l2 :
  StronglySorted R (l1 ++ l2) -> StronglySorted R l1 /\ StronglySorted R l2 /\
  (forall x y, In x l1 -> In y l2 -> R x y).
Proof.
  induction l1 as [|a l1 IH]; simpl; intros H.
  - repeat split; auto; [constructor|contradiction].
  - inversion H as [|? ? Hs Hf]; subst. destruct (IH Hs) as (H1 & H2 & H3).
    rewrite Forall_forall in Hf. repeat split; auto.
    + constructor; auto. apply Forall_forall. intros. apply Hf. apply in_or_app; auto.
    + intros x y [->|Hx] Hy; auto. apply Hf, in_or_app; auto.
Qed.

Lemma StronglySorted_impl {A} (R R' : A -> A -> Prop) l :
  (forall x y, R x y -> R' x y) -> StronglySorted R l -> StronglySorted R' l.
Proof.
  intros H; induction 1; constructor; auto.
  eapply Forall_impl; [|eassumption]. auto.
Qed.

Lemma StronglySorted_filter {A} (R : A -> A -> Prop) (f : A -> bool) l :
  StronglySorted R l -> StronglySorted R (filter f l).
Proof.
  induction 1; simpl; [constructor|].
  destruct (f a); auto. constructor; auto.
  rewrite Forall_forall in *. intros x Hx. apply filter_In in Hx. apply H0; tauto.
Qed.

Lemma StronglySorted_map {A B} (R : B -> B -> Prop) (f : A -> B) l :
  StronglySorted (fun a b => R (f a) (f b)) l <-> StronglySorted R (map f l).
Proof.
  split; induction l; simpl; intros H; try constructor; inversion H; subst; auto.
  - rewrite Forall_map. assumption.
  - now rewrite Forall_map in H3.
Qed.

(** * Runs *)
Section Runs.
  Context {A : Type} (eqb : A -> A -> bool).
  Hypothesis eqb_eq : forall x y, eqb x y = true <-> x = y.

  Lemma eqb_refl' x : eqb x x = true. Proof. now apply eqb_eq. Qed.

  Lemma runs_In l x : In x (map fst (runs eqb l)) <-> In x l.
  Proof.
    induction l as [|a l IH]; simpl; [tauto|].
    destruct (runs eqb l) as [|[y n] r]; simpl in *.
    - intuition.
    - destruct (eqb a y) eqn:E; simpl.
      + apply eqb_eq in E; subst. tauto.
      + tauto.
  Qed.

  Lemma runs_hd l y n r : runs eqb l = (y, n) :: r -> exists l', l = y :: l'.
  Proof.
    destruct l as [|a l]; simpl; [discriminate|].
    destruct (runs eqb l) as [|[z m] s].
    - intros [= -> _ _]. eauto.
    - destruct (eqb a z); intros [= -> _ _]; eauto.
  Qed.

  Context (R : A -> A -> Prop).
  Hypothesis R_antisym : forall x y, R x y -> R y x -> x = y.

  Lemma runs_sorted l :
    StronglySorted R l ->
    StronglySorted (fun x y => R x y /\ x <> y) (map fst (runs eqb l)).
  Proof.
    induction l as [|a l IH]; simpl; intros H; [constructor|].
    inversion H as [|? ? Hs Hf]; subst. specialize (IH Hs).
    pose proof (runs_In l) as HI.
    destruct (runs eqb l) as [|[y n] r] eqn:E; simpl in *.
    - repeat constructor.
    - destruct (eqb a y) eqn:Ey.
      + apply eqb_eq in Ey; subst. simpl. exact IH.
      + simpl. constructor; [exact IH|].
        assert (Hay : a <> y) by (intros ->; rewrite eqb_refl' in Ey; discriminate).
        destruct (runs_hd _ _ _ _ E) as [l' ->].
        inversion IH as [|? ? Hs' Hf']; subst.
        rewrite Forall_forall in *.
        assert (Ray : R a y) by (apply Hf; simpl; auto).
        intros z [<-|Hz]; [split; auto|].
        split; [apply Hf, HI; auto|]. intros ->.
        destruct (Hf' _ Hz). apply Hay. apply R_antisym; auto.
  Qed.

  Lemma runs_NoDup l : StronglySorted R l -> NoDup (map fst (runs eqb l)).
  Proof.
    intros H. apply runs_sorted in H. revert H.
    generalize (map fst (runs eqb l)). intros m H.
    induction H; constructor; auto.
    rewrite Forall_forall in *. intros Hi. destruct (H0 _ Hi). congruence.
  Qed.

  Definition count (x : A) (l : list A) : nat := length (filter (eqb x) l).

  Lemma count_notin x l : ~ In x l -> count x l = 0.
  Proof.
    unfold count. induction l as [|a l IH]; simpl; auto. intros H.
    destruct (eqb x a) eqn:E; [apply eqb_eq in E; subst; tauto|]. apply IH. tauto.
  Qed.

  Lemma count_In x l : count x l > 0 <-> In x l.
  Proof.
    unfold count. split.
    - destruct (filter (eqb x) l) as [|y m] eqn:E; simpl; [lia|]. intros _.
      assert (In y (filter (eqb x) l)) by (rewrite E; simpl; auto).
      apply filter_In in H. destruct H as [? H]. apply eqb_eq in H. now subst.
    - intros H. assert (In x (filter (eqb x) l)).
      { apply filter_In; split; auto. apply eqb_refl'. }
      destruct (filter (eqb x) l); simpl in *; [contradiction|lia].
  Qed.

  Lemma count_perm x l l' : Permutation l l' -> count x l = count x l'.
  Proof.
    unfold count. induction 1; simpl; auto.
    - destruct (eqb x x0); simpl; auto.
    - destruct (eqb x y), (eqb x x0); simpl; auto.
    - congruence.
  Qed.

  Lemma runs_count l x n : StronglySorted R l -> In (x, n) (runs eqb l) -> n = count x l.
  Proof.
    unfold count. revert x n. induction l as [|a l IH]; simpl; intros x n H Hin; [contradiction|].
    inversion H as [|? ? Hs Hf]; subst.
    pose proof (runs_NoDup _ H) as Hnd. simpl in Hnd.
    destruct (runs eqb l) as [|[y m] r] eqn:E.
    - destruct Hin as [[= -> <-]|[]]. rewrite eqb_refl'.
      assert (l = []) by (destruct l as [|b l]; auto; simpl in E; destruct (runs eqb l) as [|[? ?] ?]; try destruct (eqb b a); discriminate).
      subst. reflexivity.
    - destruct (eqb a y) eqn:Ey.
      + apply eqb_eq in Ey; subst y. destruct Hin as [[= -> <-]|Hin].
        * rewrite eqb_refl'. simpl. f_equal. apply IH; simpl; auto.
        * assert (eqb x a = false).
          { destruct (eqb x a) eqn:Ex; auto. apply eqb_eq in Ex; subst.
            inversion Hnd as [|? ? H2 H3]; subst. exfalso. exact (H2 (in_map fst _ _ Hin)). }
          rewrite H0. apply IH; simpl; auto.
      + destruct Hin as [[= -> <-]|Hin].
        * rewrite eqb_refl'. simpl. f_equal. fold (count x l). symmetry. apply count_notin.
          intros Hx. apply (runs_In l) in Hx. rewrite E in Hx.
          inversion Hnd; subst. contradiction.
        * assert (eqb x a = false).
          { destruct (eqb x a) eqn:Ex; auto. apply eqb_eq in Ex; subst.
            inversion Hnd as [|? ? H2 H3]; subst. exfalso. exact (H2 (in_map fst _ _ Hin)). }
          rewrite H0. apply IH; auto.
  Qed.
End Runs.

Section Unique.
  Context {A : Type} (leb eqb : A -> A -> bool).
  Hypothesis eqb_eq : forall x y, eqb x y = true <-> x = y.
  Hypothesis total : forall x y, leb x y = true \/ leb y x = true.
  Hypothesis trans : forall x y z, leb x y = true -> leb y z = true -> leb x z = true.
  Hypothesis antisym : forall x y, leb x y = true -> leb y x = true -> x = y.

  Lemma unique_In l x : In x (unique leb eqb l) <-> In x l.
  Proof. unfold unique, unique_counts. rewrite runs_In by assumption. apply isort_In. Qed.

  Lemma unique_NoDup l : NoDup (unique leb eqb l).
  Proof.
    eapply (runs_NoDup eqb eqb_eq (fun a b => leb a b = true)); eauto using isort_sorted.
  Qed.

  Lemma unique_sorted l :
    StronglySorted (fun x y => leb x y = true /\ x <> y) (unique leb eqb l).
  Proof.
    apply (runs_sorted eqb eqb_eq (fun a b => leb a b = true)); eauto using isort_sorted.
  Qed.

  Lemma unique_counts_spec l x n :
    In (x, n) (unique_counts leb eqb l) <-> In x l /\ n = count eqb x l.
  Proof.
    unfold unique_counts. split.
    - intros H. split.
      + apply (isort_In leb). apply (runs_In eqb eqb_eq). apply in_map_iff. exists (x, n). auto.
      + rewrite <- (count_perm eqb x _ _ (isort_perm leb l)).
        apply (runs_count eqb eqb_eq (fun a b => leb a b = true)); eauto using isort_sorted.
    - intros [H ->]. apply (isort_In leb) in H. apply (runs_In eqb eqb_eq) in H.
      apply in_map_iff in H. destruct H as [[y m] [<- H]]. simpl.
      replace (count eqb y l) with m; auto.
      rewrite <- (count_perm eqb y _ _ (isort_perm leb l)).
      apply (runs_count eqb eqb_eq (fun a b => leb a b = true)); eauto using isort_sorted.
  Qed.

  Lemma unique_counts_NoDup l : NoDup (unique_counts leb eqb l).
  Proof.
    pose proof (unique_NoDup l) as H. unfold unique in H.
    revert H. generalize (unique_counts leb eqb l). intros m.
    induction m; simpl; intros H; constructor; inversion H; subst; auto.
    intros Hi. apply H2. apply in_map_iff. now exists a.
  Qed.
End Unique.

Section IndexOf.
  Context {A : Type} (eqb : A -> A -> bool).
  Hypothesis eqb_eq : forall x y, eqb x y = true <-> x = y.
  Lemma index_of_lt x l : In x l -> index_of eqb x l < length l.
  Proof.
    induction l as [|y l IH]; simpl; [contradiction|].
    destruct (eqb x y) eqn:E; [lia|]. intros [->|H].
    - rewrite (proj2 (eqb_eq x x) eq_refl) in E. discriminate.
    - apply IH in H. lia.
  Qed.
  Lemma index_of_nth x l d : In x l -> nth (index_of eqb x l) l d = x.
  Proof.
    induction l as [|y l IH]; simpl; [contradiction|].
    destruct (eqb x y) eqn:E; [apply eqb_eq in E; auto|]. intros [->|H]; auto.
    rewrite (proj2 (eqb_eq x x) eq_refl) in E. discriminate.
  Qed.
  Lemma index_of_first x l d j : j < index_of eqb x l -> nth j l d <> x \/ length l <= j.
  Proof.
    revert j; induction l as [|y l IH]; simpl; intros j H; [lia|].
    destruct (eqb x y) eqn:E; [lia|]. destruct j as [|j]; simpl.
    - left. intros ->. rewrite (proj2 (eqb_eq x x) eq_refl) in E. discriminate.
    - destruct (IH j) as [?|?]; [lia| |]; [left; auto|right; lia].
  Qed.
End IndexOf.

(** * Indexing *)
Lemma upd_length {A} (l : list A) i v : length (upd l i v) = length l.
Proof. revert i; induction l; destruct i; simpl; auto. Qed.

Lemma upd_nth_same {A} (l : list A) i v d : i < length l -> nth i (upd l i v) d = v.
Proof. revert i; induction l; destruct i; simpl; intros; auto; try lia; apply IHl; lia. Qed.

Lemma upd_nth_other {A} (l : list A) i j v d : i <> j -> nth j (upd l i v) d = nth j l d.
Proof.
  revert i j; induction l; destruct i, j; simpl; intros; auto; try congruence.
Qed.

Lemma nth_combine' {A B} (l : list A) (m : list B) i a b :
  length l = length m -> nth i (combine l m) (a, b) = (nth i l a, nth i m b).
Proof.
  revert m i; induction l; destruct m, i; simpl; intros; auto; try lia; apply IHl; lia.
Qed.

Lemma In_combine_seq {A} (l : list A) s i x :
  In (i, x) (combine (seq s (length l)) l) <-> (s <= i /\ nth_error l (i - s) = Some x).
Proof.
  revert s; induction l as [|y l IH]; simpl; intros s.
  - split; [contradiction|]. intros [_ H]. now destruct (i - s).
  - split.
    + intros [[= -> ->]|H].
      * rewrite Nat.sub_diag. auto.
      * apply IH in H. destruct H. split; [lia|]. replace (i - s) with (S (i - S s)) by lia. auto.
    + intros [Hi H]. destruct (Nat.eq_dec i s) as [->|Hn].
      * rewrite Nat.sub_diag in H. injection H as ->. auto.
      * right. apply IH. split; [lia|]. replace (i - s) with (S (i - S s)) in H by lia. auto.
Qed.

Lemma combine_map_fst {A B} (l : list A) (m : list B) : length l = length m -> map fst (combine l m) = l.
Proof. revert m; induction l; destruct m; simpl; intros; auto; try lia; f_equal; auto. Qed.
Lemma combine_map_snd {A B} (l : list A) (m : list B) : length l = length m -> map snd (combine l m) = m.
Proof. revert m; induction l; destruct m; simpl; intros; auto; try lia; f_equal; auto. Qed.

(** * The byte order of numpy views is a total order *)
Lemma le_compare_fuel f a b : a <= f -> b <= f -> forall g, f <= g -> le_compare g a b = le_compare f a b.
Proof.
  revert a b; induction f as [|f IH]; intros a b Ha Hb g Hg.
  - assert (a = 0) by lia. assert (b = 0) by lia. subst. clear.
    induction g; simpl; auto.
  - destruct g as [|g]; [lia|]. cbn [le_compare].
    destruct (Nat.compare (a mod 256) (b mod 256)); auto.
    assert (a / 256 <= f).
    { destruct a; [simpl; lia|]. assert (S a / 256 < S a) by (apply Nat.div_lt; lia). lia. }
    assert (b / 256 <= f).
    { destruct b; [simpl; lia|]. assert (S b / 256 < S b) by (apply Nat.div_lt; lia). lia. }
    apply IH; lia.
Qed.

Lemma le_compare_eq f a b : a <= f -> b <= f -> le_compare f a b = Eq -> a = b.
Proof.
  revert a b; induction f as [|f IH]; intros a b Ha Hb; [lia|]. cbn [le_compare].
  destruct (Nat.compare (a mod 256) (b mod 256)) eqn:E; try discriminate. intros H.
  apply Nat.compare_eq in E.
  assert (a / 256 <= f).
  { destruct a; [simpl; lia|]. assert (S a / 256 < S a) by (apply Nat.div_lt; lia). lia. }
  assert (b / 256 <= f).
  { destruct b; [simpl; lia|]. assert (S b / 256 < S b) by (apply Nat.div_lt; lia). lia. }
  apply IH in H; auto. rewrite (Nat.div_mod a 256), (Nat.div_mod b 256) by lia. congruence.
Qed.

Lemma le_compare_refl f a : le_compare f a a = Eq.
Proof. revert a; induction f; intros; cbn [le_compare]; auto. rewrite Nat.compare_refl. auto. Qed.

Lemma le_compare_antisym f a b : le_compare f b a = CompOpp (le_compare f a b).
Proof.
  revert a b; induction f; intros; cbn [le_compare]; auto.
  rewrite (Nat.compare_antisym (a mod 256)). destruct (Nat.compare (a mod 256) (b mod 256)); simpl; auto.
Qed.

Lemma le_compare_trans f a b c r :
  le_compare f a b = r -> le_compare f b c = r -> le_compare f a c = r.
Proof.
  revert a b c; induction f; intros a b c; cbn [le_compare]; auto.
  destruct (Nat.compare (a mod 256) (b mod 256)) eqn:E1, (Nat.compare (b mod 256) (c mod 256)) eqn:E2;
    intros H1 H2; try congruence;
    try apply Nat.compare_eq in E1; try apply Nat.compare_eq in E2;
    try rewrite Nat.compare_lt_iff in *; try rewrite Nat.compare_gt_iff in *.
  - assert (E : Nat.compare (a mod 256) (c mod 256) = Eq) by (apply Nat.compare_eq_iff; lia).
    rewrite E. eauto.
  - subst r. assert (E : Nat.compare (a mod 256) (c mod 256) = Lt) by (apply Nat.compare_lt_iff; lia).
    now rewrite E.
  - subst r. assert (E : Nat.compare (a mod 256) (c mod 256) = Gt) by (apply Nat.compare_gt_iff; lia).
    now rewrite E.
  - subst r. assert (E : Nat.compare (a mod 256) (c mod 256) = Lt) by (apply Nat.compare_lt_iff; lia).
    now rewrite E.
  - subst r. assert (E : Nat.compare (a mod 256) (c mod 256) = Lt) by (apply Nat.compare_lt_iff; lia).
    now rewrite E.
  - subst r. assert (E : Nat.compare (a mod 256) (c mod 256) = Gt) by (apply Nat.compare_gt_iff; lia).
    now rewrite E.
  - subst r. assert (E : Nat.compare (a mod 256) (c mod 256) = Gt) by (apply Nat.compare_gt_iff; lia).
    now rewrite E.
Qed.

Section RowOrder.
  (** Lexicographic order on rows (lists of integers) by bytes. *)
  Lemma row_cmp_fuel f r1 r2 : (forall x, In x r1 -> x <= f) -> (forall x, In x r2 -> x <= f) ->
    forall g, f <= g -> row_compare g r1 r2 = row_compare f r1 r2.
  Proof.
    revert r2; induction r1 as [|a r1 IH]; destruct r2 as [|b r2]; simpl; intros H1 H2 g Hg; auto.
    rewrite (le_compare_fuel f a b) by auto.
    destruct (le_compare f a b); auto.
  Qed.

  Lemma row_cmp_antisym f r1 r2 : row_compare f r2 r1 = CompOpp (row_compare f r1 r2).
  Proof.
    revert r2; induction r1 as [|a r1 IH]; destruct r2 as [|b r2]; simpl; auto.
    rewrite (le_compare_antisym f a b). destruct (le_compare f a b); simpl; auto.
  Qed.

  Lemma row_cmp_trans f r : forall r1 r2 r3,
    (forall x, In x r1 -> x <= f) -> (forall x, In x r2 -> x <= f) -> (forall x, In x r3 -> x <= f) ->
    row_compare f r1 r2 = r -> row_compare f r2 r3 = r -> row_compare f r1 r3 = r.
  Proof.
    induction r1 as [|a r1 IH]; destruct r2 as [|b r2], r3 as [|c r3]; cbn [row_compare];
      intros G1 G2 G3 H1 H2; try congruence.
    destruct (le_compare f a b) eqn:E1, (le_compare f b c) eqn:E2;
      try congruence;
      try (apply le_compare_eq in E1; [|apply G1; simpl; auto|apply G2; simpl; auto]; subst a);
      try (apply le_compare_eq in E2; [|apply G2; simpl; auto|apply G3; simpl; auto]; subst b).
    - rewrite le_compare_refl. apply (IH r2 r3); auto; intros x Hx; [apply G1|apply G2|apply G3]; simpl; auto.
    - now rewrite E2.
    - now rewrite E2.
    - now rewrite E1.
    - rewrite (le_compare_trans f a b c Lt); auto.
    - now rewrite E1.
    - rewrite (le_compare_trans f a b c Gt); auto.
  Qed.

  Lemma row_cmp_eq f : forall r1 r2,
    (forall x, In x r1 -> x <= f) -> (forall x, In x r2 -> x <= f) ->
    row_compare f r1 r2 = Eq -> r1 = r2.
  Proof.
    induction r1 as [|a r1 IH]; destruct r2 as [|b r2]; cbn [row_compare]; intros G1 G2 H; try congruence.
    destruct (le_compare f a b) eqn:E; try congruence.
    apply le_compare_eq in E; [|apply G1; simpl; auto|apply G2; simpl; auto]. subst. f_equal.
    apply IH; auto; intros x Hx; [apply G1|apply G2]; simpl; auto.
  Qed.

  Lemma list_max_ge x l : In x l -> x <= list_max l.
  Proof.
    intros H. pose proof (proj1 (list_max_le l (list_max l)) (le_n _)) as G.
    rewrite Forall_forall in G. auto.
  Qed.

  Lemma row_leb_fuel r1 r2 f : list_max (r1 ++ r2) <= f ->
    row_leb r1 r2 = match row_compare f r1 r2 with Gt => false | _ => true end.
  Proof.
    intros H. unfold row_leb. rewrite (row_cmp_fuel (list_max (r1 ++ r2)) r1 r2) with (g := f); auto;
    intros; apply list_max_ge, in_or_app; auto.
  Qed.

  Lemma row_leb_total r1 r2 : row_leb r1 r2 = true \/ row_leb r2 r1 = true.
  Proof.
    set (f := list_max (r1 ++ r2)).
    rewrite (row_leb_fuel r1 r2 f), (row_leb_fuel r2 r1 f).
    - rewrite (row_cmp_antisym f r1 r2). destruct (row_compare f r1 r2); simpl; auto.
    - unfold f. rewrite !list_max_app. lia.
    - unfold f. lia.
  Qed.

  Lemma row_leb_antisym r1 r2 : row_leb r1 r2 = true -> row_leb r2 r1 = true -> r1 = r2.
  Proof.
    set (f := list_max (r1 ++ r2)).
    rewrite (row_leb_fuel r1 r2 f), (row_leb_fuel r2 r1 f).
    - rewrite (row_cmp_antisym f r1 r2). destruct (row_compare f r1 r2) eqn:E; simpl; try discriminate.
      intros _ _. apply (row_cmp_eq f); auto; intros; apply list_max_ge, in_or_app; auto.
    - unfold f. rewrite !list_max_app. lia.
    - unfold f. lia.
  Qed.

  Lemma row_leb_trans r1 r2 r3 : row_leb r1 r2 = true -> row_leb r2 r3 = true -> row_leb r1 r3 = true.
  Proof.
    set (f := list_max (r1 ++ r2 ++ r3)).
    rewrite (row_leb_fuel r1 r2 f), (row_leb_fuel r2 r3 f), (row_leb_fuel r1 r3 f);
      try (unfold f; rewrite !list_max_app; lia).
    assert (G : forall x, In x r1 \/ In x r2 \/ In x r3 -> x <= f).
    { intros. apply list_max_ge. rewrite !in_app_iff. auto. }
    destruct (row_compare f r1 r2) eqn:E1; try discriminate;
    destruct (row_compare f r2 r3) eqn:E2; try discriminate; intros _ _.
    - apply row_cmp_eq in E1; auto. subst. now rewrite E2.
    - apply row_cmp_eq in E1; auto. subst. now rewrite E2.
    - apply row_cmp_eq in E2; auto. subst. now rewrite E1.
    - rewrite (row_cmp_trans f Lt r1 r2 r3); auto.
  Qed.
End RowOrder.
