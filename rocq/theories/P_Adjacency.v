(** Proofs about the connectivity tables. *)
From Coq Require Import List Arith Bool Permutation Sorted Relations Lia.
From Verif Require Import M_Base M_Numpy M_Edges M_FixMesh M_Adjacency S_Edges S_FixMesh S_Adjacency Util P_Edges P_FixMesh.
Import ListNotations.
Open Scope nat_scope.

(** * argsort *)
Lemma map_nth_combine_seq {A} (l : list A) d s :
  forall p, In p (combine l (seq s (length l))) -> fst p = nth (snd p - s) l d /\ s <= snd p < s + length l.
Proof.
  revert s. induction l as [|x l IH]; simpl; intros s p Hp; [contradiction|].
  destruct Hp as [<-|Hp].
  - simpl. rewrite Nat.sub_diag. split; auto. lia.
  - destruct (IH (S s) p Hp) as [E L]. split; [|lia].
    rewrite E. replace (snd p - s) with (S (snd p - S s)) by lia. reflexivity.
Qed.

Lemma StronglySorted_In {A} (R R' : A -> A -> Prop) l : StronglySorted R l ->
  (forall a b, In a l -> In b l -> R a b -> R' a b) -> StronglySorted R' l.
Proof.
  induction 1 as [|a l Hs IH Hf]; intros H; constructor.
  - apply IH. intros; apply H; simpl; auto.
  - rewrite Forall_forall in *. intros b Hb. apply H; simpl; auto.
Qed.

Lemma argsort_spec f keys : is_argsort f ->
  Permutation (f keys) (seq 0 (length keys)) /\
  StronglySorted (fun a b => nth a keys 0 <= nth b keys 0) (f keys).
Proof.
  intros H. destruct (H keys) as (ps & E & Hp & Hs). rewrite <- E. split.
  - rewrite Hp. rewrite combine_map_snd by now rewrite seq_length. reflexivity.
  - refine (proj1 (StronglySorted_map _ (@snd nat nat) ps) _).
    assert (Hin : forall p, In p ps -> fst p = nth (snd p) keys 0).
    { intros p Hi. eapply Permutation_in in Hi; [|exact Hp]. apply (map_nth_combine_seq keys 0 0) in Hi.
      rewrite Nat.sub_0_r in Hi. tauto. }
    eapply StronglySorted_In; [exact Hs|]. intros a b Ia Ib L. rewrite <- (Hin a), <- (Hin b) by auto. exact L.
Qed.

Section Stable.
  Context {A : Type} (leb : A -> A -> bool) (R : A -> A -> Prop).
  Hypothesis tot : forall x y, leb x y = true \/ leb y x = true.
  Hypothesis trans : forall x y z, leb x y = true -> leb y z = true -> leb x z = true.
  Let S' a b := leb a b = true /\ (leb b a = true -> R a b).

  Lemma insert_stable x l : StronglySorted S' l -> Forall (R x) l -> StronglySorted S' (insert leb x l).
  Proof.
    induction l as [|y l IH]; simpl; intros Hs Hf.
    - repeat constructor.
    - inversion Hs as [|? ? Hs' Hf']; subst. inversion Hf as [|? ? Hxy Hf2]; subst.
      destruct (leb x y) eqn:E.
      + constructor; auto. constructor; [split; auto|].
        rewrite Forall_forall in *. intros z Hz. split; [|intros _; auto].
        eapply trans; [exact E|]. apply Hf'; auto.
      + constructor; [apply IH; auto|]. rewrite Forall_forall in *. intros z Hz.
        eapply Permutation_in in Hz; [|apply insert_perm]. destruct Hz as [<-|Hz]; auto.
        split; [destruct (tot x y); congruence|congruence].
  Qed.

  Lemma isort_stable l : StronglySorted R l -> StronglySorted S' (isort leb l).
  Proof.
    induction 1; simpl; [constructor|]. apply insert_stable; auto.
    rewrite Forall_forall in *. intros z Hz. apply isort_In in Hz. auto.
  Qed.
End Stable.

Lemma seq_sorted s n : StronglySorted lt (seq s n).
Proof.
  revert s; induction n; simpl; intros; constructor; auto.
  apply Forall_forall. intros x Hx. apply in_seq in Hx. lia.
Qed.

Lemma stable_argsort_spec keys :
  Permutation (stable_argsort keys) (seq 0 (length keys)) /\
  StronglySorted (fun a b => nth a keys 0 <= nth b keys 0 /\ (nth a keys 0 = nth b keys 0 -> a < b)) (stable_argsort keys).
Proof.
  unfold stable_argsort. set (lebf := fun a b : nat * nat => fst a <=? fst b).
  set (ps := combine keys (seq 0 (length keys))). split.
  - rewrite (isort_perm lebf ps). unfold ps. rewrite combine_map_snd by now rewrite seq_length. reflexivity.
  - refine (proj1 (StronglySorted_map _ (@snd nat nat) _) _).
    assert (Hs : StronglySorted (fun a b => lebf a b = true /\ (lebf b a = true -> snd a < snd b)) (isort lebf ps)).
    { apply isort_stable.
      - intros x y. unfold lebf. rewrite !Nat.leb_le. lia.
      - intros x y z. unfold lebf. rewrite !Nat.leb_le. lia.
      - apply (StronglySorted_map lt (@snd nat nat)). unfold ps. rewrite combine_map_snd by now rewrite seq_length.
        apply seq_sorted. }
    assert (Hin : forall p, In p (isort lebf ps) -> fst p = nth (snd p) keys 0).
    { intros p Hi. apply isort_In in Hi. apply (map_nth_combine_seq keys 0 0) in Hi.
      rewrite Nat.sub_0_r in Hi. tauto. }
    eapply StronglySorted_In; [exact Hs|]. intros a b Ia Ib [H1 H2]. rewrite <- (Hin a), <- (Hin b) by auto.
    unfold lebf in *. rewrite !Nat.leb_le in *. split; auto. intros E. apply H2. lia.
Qed.

Lemma take_perm {A} (d : A) l ix : Permutation ix (seq 0 (length l)) -> Permutation (take d l ix) l.
Proof.
  intros H. unfold take. rewrite H. rewrite map_nth_seq. reflexivity.
Qed.

Definition lex_le (p q : nat * nat) : Prop := fst p < fst q \/ (fst p = fst q /\ snd p <= snd q).

Lemma lex_le_antisym p q : lex_le p q -> lex_le q p -> p = q.
Proof. unfold lex_le. destruct p, q; simpl. intros. f_equal; lia. Qed.
Lemma lex_le_trans p q r : lex_le p q -> lex_le q r -> lex_le p r.
Proof. unfold lex_le. lia. Qed.

Lemma StronglySorted_nth {A} (R : A -> A -> Prop) l d : StronglySorted R l ->
  forall i j, i < j -> j < length l -> R (nth i l d) (nth j l d).
Proof.
  induction 1 as [|a l Hs IH Hf]; simpl; intros i j Hij Hj; [lia|].
  destruct j; [lia|]. destruct i.
  - rewrite Forall_forall in Hf. apply Hf. apply nth_In. lia.
  - apply IH; lia.
Qed.

(** * Pointer arrays *)
Definition below (k : nat) (l : list nat) : nat := length (filter (fun y => y <? k) l).

Lemma below_cons k x l : below k (x :: l) = (if x <? k then 1 else 0) + below k l.
Proof. unfold below. simpl. destruct (x <? k); reflexivity. Qed.

Lemma breaks_spec l : forall i x0 n, StronglySorted le (x0 :: l) ->
  (forall k, In k (x0 :: l) <-> x0 <= k < n) ->
  breaks i (x0 :: l) = map (fun k => i + below k (x0 :: l)) (seq (S x0) (n - 1 - x0)).
Proof.
  induction l as [|y l IH]; intros i x0 n Hs Hv.
  - assert (n = S x0) as ->.
    { destruct (proj1 (Hv x0)) as [_ H]; [now left|].
      destruct (Nat.eq_dec n (S x0)); auto. exfalso.
      assert (In (S x0) [x0]) as [E|[]] by (apply Hv; lia). lia. }
    replace (S x0 - 1 - x0) with 0 by lia. reflexivity.
  - inversion Hs as [|? ? Hs' Hf]; subst. inversion Hf as [|? ? Hxy _]; subst.
    change (breaks i (x0 :: y :: l)) with ((if x0 =? y then [] else [S i]) ++ breaks (S i) (y :: l)).
    destruct (Nat.eqb_spec x0 y) as [<-|Hne].
    + change ([] ++ breaks (S i) (x0 :: l)) with (breaks (S i) (x0 :: l)). rewrite (IH (S i) x0 n); auto.
      * apply map_ext_in. intros k Hk. apply in_seq in Hk. rewrite (below_cons k x0 (x0 :: l)).
        destruct (Nat.ltb_spec x0 k); lia.
      * intros k. rewrite <- Hv. simpl. tauto.
    + assert (y = S x0).
      { assert (In (S x0) (x0 :: y :: l)) as [E|[E|Hin]] by (apply Hv; destruct (proj1 (Hv y)); simpl; auto; lia).
        - lia.
        - auto.
        - inversion Hs' as [|? ? _ Hf']; subst. rewrite Forall_forall in Hf'. specialize (Hf' _ Hin). lia. }
      subst y. assert (Hn : S x0 < n) by (apply (proj1 (Hv (S x0))); simpl; auto).
      rewrite (IH (S i) (S x0) n); auto.
      * replace (n - 1 - x0) with (S (n - 1 - S x0)) by lia. cbn [seq map app]. f_equal.
        -- rewrite below_cons. destruct (Nat.ltb_spec x0 (S x0)); [|lia].
           replace (below (S x0) (S x0 :: l)) with 0; [lia|].
           unfold below. symmetry. replace (filter (fun y => y <? S x0) (S x0 :: l)) with (@nil nat); auto.
           symmetry. inversion Hs' as [|? ? _ Hf']; subst. rewrite Forall_forall in Hf'.
           assert (G : forall m, (forall z, In z m -> S x0 <= z) -> filter (fun y => y <? S x0) m = []).
           { clear. induction m as [|z m IHm]; simpl; intros H; auto.
             destruct (Nat.ltb_spec z (S x0)); [specialize (H z (or_introl eq_refl)); lia|]. apply IHm. auto. }
           apply G. intros z [<-|Hz]; auto.
        -- apply map_ext_in. intros k Hk. apply in_seq in Hk. rewrite (below_cons k x0).
           destruct (Nat.ltb_spec x0 k); lia.
      * intros k. split.
        -- intros Hk. assert (x0 <= k < n) by (apply Hv; now right).
           inversion Hs' as [|? ? _ Hf']; subst. rewrite Forall_forall in Hf'.
           destruct Hk as [<-|Hk]; [lia|]. specialize (Hf' _ Hk). lia.
        -- intros Hk. assert (In k (x0 :: S x0 :: l)) as [E|Hin] by (apply Hv; lia); [lia|auto].
Qed.

Lemma below_all k l : (forall x, In x l -> x < k) -> below k l = length l.
Proof.
  unfold below. induction l as [|x l IH]; simpl; intros H; auto.
  destruct (Nat.ltb_spec x k); [simpl; rewrite IH; auto|]. specialize (H x (or_introl eq_refl)). lia.
Qed.
Lemma below_0 l : below 0 l = 0.
Proof. unfold below. induction l; simpl; auto. Qed.

Lemma pointers_spec l n : StronglySorted le l -> (forall k, In k l <-> k < n) -> 0 < n ->
  pointers l = map (fun k => below k l) (seq 0 (S n)).
Proof.
  intros Hs Hv Hn. destruct l as [|x0 l]; [exfalso; apply (proj2 (Hv 0)); auto|].
  assert (x0 = 0).
  { assert (In 0 (x0 :: l)) as [E|Hin] by (apply Hv; lia); auto.
    inversion Hs as [|? ? _ Hf]; subst. rewrite Forall_forall in Hf. specialize (Hf _ Hin). lia. }
  subst x0. unfold pointers. rewrite (breaks_spec l 0 0 n) by (auto; intros; rewrite Hv; lia).
  change (seq 0 (S n)) with (0 :: seq 1 n). cbn [map]. rewrite below_0. f_equal.
  replace n with (S (n - 1)) at 2 by lia. rewrite seq_S, map_app. f_equal.
  - rewrite Nat.sub_0_r. apply map_ext. reflexivity.
  - simpl map. f_equal. symmetry. apply below_all. intros x Hx. apply Hv in Hx. lia.
Qed.

Lemma filter_nil_iff {A} (f : A -> bool) l : (forall x, In x l -> f x = false) -> filter f l = [].
Proof.
  induction l as [|x l IH]; simpl; intros H; auto. rewrite (H x (or_introl eq_refl)). apply IH. auto.
Qed.
Lemma sorted_split (l : list (nat * nat)) k : StronglySorted (fun a b => fst a <= fst b) l ->
  l = filter (fun p => fst p <? k) l ++ filter (fun p => fst p =? k) l ++ filter (fun p => k <? fst p) l.
Proof.
  induction 1 as [|a l Hs IH Hf]; simpl; auto. rewrite Forall_forall in Hf.
  destruct (Nat.ltb_spec (fst a) k), (Nat.eqb_spec (fst a) k), (Nat.ltb_spec k (fst a)); try lia.
  - simpl. f_equal. exact IH.
  - assert (N1 : filter (fun p => fst p <? k) l = []).
    { apply filter_nil_iff. intros x Hx. apply Nat.ltb_ge. specialize (Hf _ Hx). lia. }
    rewrite N1 in *. simpl in *. f_equal. exact IH.
  - assert (N1 : filter (fun p => fst p <? k) l = []).
    { apply filter_nil_iff. intros x Hx. apply Nat.ltb_ge. specialize (Hf _ Hx). lia. }
    assert (N2 : filter (fun p => fst p =? k) l = []).
    { apply filter_nil_iff. intros x Hx. apply Nat.eqb_neq. specialize (Hf _ Hx). lia. }
    rewrite N1, N2 in *. simpl in *. f_equal. exact IH.
Qed.

Lemma below_map k (l : list (nat * nat)) : below k (map fst l) = length (filter (fun p => fst p <? k) l).
Proof. unfold below. induction l as [|a l IH]; simpl; auto. destruct (fst a <? k); simpl; auto. Qed.

Lemma filter_ltS_length (l : list (nat * nat)) k :
  length (filter (fun p => fst p <? S k) l) = length (filter (fun p => fst p <? k) l) + length (filter (fun p => fst p =? k) l).
Proof.
  induction l as [|a l IH]; simpl; auto.
  destruct (Nat.ltb_spec (fst a) (S k)), (Nat.ltb_spec (fst a) k), (Nat.eqb_spec (fst a) k); simpl; lia.
Qed.

Lemma row_of_spec tab n c : StronglySorted (fun a b => fst a <= fst b) tab ->
  (forall k, In k (map fst tab) <-> k < n) -> c < n ->
  row_of tab (pointers (map fst tab)) c = Ok (map snd (filter (fun p => fst p =? c) tab)).
Proof.
  intros Hs Hv Hc. rewrite (pointers_spec _ n); auto; [|now apply (StronglySorted_map le (@fst nat nat))|lia].
  assert (G : forall k, k < S n -> get (map (fun k => below k (map fst tab)) (seq 0 (S n))) k = Ok (below k (map fst tab))).
  { intros k Hk. unfold get. rewrite nth_error_map.
    rewrite (nth_error_nth' _ 0) by now rewrite seq_length. now rewrite seq_nth. }
  unfold row_of. rewrite !G by lia. simpl bind. f_equal. f_equal.
  rewrite !below_map, filter_ltS_length. unfold slice.
  rewrite Nat.add_comm, Nat.add_sub.
  rewrite (sorted_split tab c Hs) at 3.
  rewrite skipn_app, skipn_all, Nat.sub_diag. simpl.
  rewrite firstn_app, firstn_all, Nat.sub_diag. simpl. now rewrite app_nil_r.
Qed.

(** * Tagged incidences *)
Lemma combine_app {A B} (l1 l2 : list A) (m1 m2 : list B) : length l1 = length m1 ->
  combine (l1 ++ l2) (m1 ++ m2) = combine l1 m1 ++ combine l2 m2.
Proof. revert m1; induction l1; destruct m1; simpl; intros; auto; try lia. f_equal. apply IHl1. lia. Qed.

Definition tagged {A} (g : tri -> list A) (s : nat) (ts : list tri) : list (A * nat) :=
  flat_map (fun p => map (fun x => (x, fst p)) (g (snd p))) (combine (seq s (length ts)) ts).

Lemma tag_eq {A} (g : tri -> list A) ts : (forall t, length (g t) = 3) -> forall s,
  combine (flat_map g ts) (flat_map (fun i => [i; i; i]) (seq s (length ts))) = tagged g s ts.
Proof.
  intros Hg. unfold tagged. induction ts as [|t ts IH]; intros s; simpl; auto.
  change (s :: s :: s :: flat_map (fun i => [i; i; i]) (seq (S s) (length ts)))
    with ([s; s; s] ++ flat_map (fun i => [i; i; i]) (seq (S s) (length ts))).
  rewrite combine_app by (now rewrite Hg). rewrite IH. f_equal.
  specialize (Hg t). destruct (g t) as [|x [|y [|z [|]]]]; simpl in *; try lia. reflexivity.
Qed.

Lemma tagged_In {A} (g : tri -> list A) ts x f :
  In (x, f) (tagged g 0 ts) <-> f < length ts /\ In x (g (nth f ts no_face)).
Proof.
  unfold tagged. rewrite in_flat_map. split.
  - intros ([i t] & Hin & Hx). apply in_map_iff in Hx. simpl in Hx. destruct Hx as (y & [= -> ->] & Hy).
    apply In_combine_seq in Hin. destruct Hin as [_ Hn]. rewrite Nat.sub_0_r in Hn.
    split; [apply nth_error_Some; congruence|]. erewrite nth_error_nth; eauto.
  - intros [Hf Hx]. exists (f, nth f ts no_face). split.
    + apply In_combine_seq. split; [lia|]. rewrite Nat.sub_0_r. now apply nth_error_nth'.
    + simpl. apply in_map_iff. eauto.
Qed.

Lemma tagged_fst {A} (g : tri -> list A) ts : forall s, map fst (tagged g s ts) = flat_map g ts.
Proof.
  unfold tagged. induction ts as [|t ts IH]; intros s; simpl; auto.
  rewrite map_app, IH, map_map. simpl. now rewrite map_id.
Qed.

Lemma filter_app' {A} (f : A -> bool) l m : filter f (l ++ m) = filter f l ++ filter f m.
Proof. induction l; simpl; auto. destruct (f a); simpl; congruence. Qed.

Lemma tagged_filter {A} (g : tri -> list A) (P : A -> bool) ts f s : s <= f -> f < s + length ts ->
  filter (fun p => (snd p =? f) && P (fst p)) (tagged g s ts) = map (fun x => (x, f)) (filter P (g (nth (f - s) ts no_face))).
Proof.
  unfold tagged. revert s. induction ts as [|t ts IH]; intros s Hs Hf; simpl in *; [lia|].
  rewrite filter_app'.
  assert (Hm : forall i l, filter (fun p : A * nat => (snd p =? f) && P (fst p)) (map (fun x => (x, i)) l) =
               if i =? f then map (fun x => (x, i)) (filter P l) else []).
  { intros i. induction l as [|x l IHl]; simpl; [destruct (i =? f); auto|]. rewrite IHl.
    destruct (i =? f); simpl; auto. destruct (P x); auto. }
  rewrite Hm. destruct (Nat.eqb_spec s f) as [->|Hne].
  - rewrite Nat.sub_diag. transitivity (map (fun x => (x, f)) (filter P (g t)) ++ []); [f_equal; apply filter_nil_iff|apply app_nil_r].
    intros [x i] Hin. apply in_flat_map in Hin. destruct Hin as ([j t'] & Hj & Hx).
    apply In_combine_seq in Hj. apply in_map_iff in Hx. destruct Hx as (y & [= <- <-] & _). simpl in *.
    destruct (Nat.eqb_spec j f); [lia|reflexivity].
  - rewrite IH by lia. replace (f - s) with (S (f - S s)) by lia. reflexivity.
Qed.

Lemma filter_perm {A} (f : A -> bool) l l' : Permutation l l' -> Permutation (filter f l) (filter f l').
Proof.
  induction 1; simpl; auto.
  - destruct (f x); auto.
  - destruct (f x), (f y); auto. constructor.
  - eapply perm_trans; eauto.
Qed.

Lemma take_map {A B} (f : A -> B) d l ix : map f (take d l ix) = take (f d) (map f l) ix.
Proof. unfold take. rewrite map_map. apply map_ext. intros. symmetry. apply map_nth. Qed.

(** * Sides of a sorted row *)
Definition row_edges (t : tri) : list edge := get_edges [sort_tri t].

Lemma row_edges_length t : length (row_edges t) = 3.
Proof. unfold row_edges. destruct (sort_tri t) as [[a b] c]. reflexivity. Qed.

Lemma sort_tri_sorted t : let '(a, b, c) := sort_tri t in a <= b /\ b <= c.
Proof.
  pose proof (sort_tri_corners t) as H. destruct (sort_tri t) as [[a b] c].
  pose proof (isort_sorted Nat.leb nat_leb_total nat_leb_trans (corners t)) as Hs. rewrite <- H in Hs.
  simpl in Hs. inversion Hs as [|? ? Hs1 Hf1]; subst. inversion Hs1 as [|? ? Hs2 Hf2]; subst.
  inversion Hf1; subst. inversion Hf2; subst. rewrite Nat.leb_le in *. lia.
Qed.

Lemma row_edges_sorted t e : In e (row_edges t) -> fst e <= snd e.
Proof.
  unfold row_edges. pose proof (sort_tri_sorted t) as H. destruct (sort_tri t) as [[a b] c].
  simpl. intros [<-|[<-|[<-|[]]]]; simpl; lia.
Qed.

Lemma side_uses_perm3 u v a b c :
  side_uses u v (a, b, c) = side_uses u v (b, a, c) /\ side_uses u v (a, b, c) = side_uses u v (a, c, b).
Proof.
  unfold side_uses. rewrite (same_pair_swap u v b a), (same_pair_swap u v c a), (same_pair_swap u v c b). split; lia.
Qed.

Lemma perm3_inv {A} (a b c x y z : A) : Permutation [a; b; c] [x; y; z] ->
  (a = x /\ b = y /\ c = z) \/ (a = x /\ b = z /\ c = y) \/ (a = y /\ b = x /\ c = z) \/
  (a = y /\ b = z /\ c = x) \/ (a = z /\ b = x /\ c = y) \/ (a = z /\ b = y /\ c = x).
Proof.
  intros H. assert (Ha : In a [x; y; z]) by (eapply Permutation_in; [exact H|simpl; auto]).
  simpl in Ha. destruct Ha as [<-|[<-|[<-|[]]]].
  - apply Permutation_cons_inv in H. apply Permutation_length_2 in H. intuition.
  - apply (Permutation_cons_app_inv [x] [z]) in H. simpl in H. apply Permutation_length_2 in H. intuition.
  - apply (Permutation_cons_app_inv [x; y] []) in H. simpl in H. apply Permutation_length_2 in H. intuition.
Qed.

Lemma side_uses_perm u v t s : Permutation (corners t) (corners s) -> side_uses u v t = side_uses u v s.
Proof.
  destruct t as [[a b] c], s as [[x y] z]. simpl corners. intros H. apply perm3_inv in H.
  destruct (side_uses_perm3 u v x y z) as [A1 A2]. destruct (side_uses_perm3 u v y x z) as [B1 B2].
  destruct (side_uses_perm3 u v z x y) as [C1 C2]. destruct (side_uses_perm3 u v x z y) as [D1 D2].
  decompose [or and] H; subst; congruence.
Qed.

Lemma edge_uses_map u v f ts : (forall t, In t ts -> Permutation (corners (f t)) (corners t)) ->
  edge_uses u v (map f ts) = edge_uses u v ts.
Proof.
  intros H. unfold edge_uses. f_equal. rewrite map_map. apply map_ext_in. intros t Ht. apply side_uses_perm. auto.
Qed.

Lemma sort_edge_id (e : edge) : fst e <= snd e -> sort_edge e = e.
Proof. destruct e. unfold sort_edge. simpl. intros. f_equal; lia. Qed.

Lemma row_edges_count u v t : u <= v -> count edge_eqb (u, v) (row_edges t) = side_uses u v t.
Proof.
  intros H. rewrite <- (map_id (row_edges t)).
  rewrite (map_ext_in _ sort_edge (row_edges t)) by (intros e He; symmetry; apply sort_edge_id; eapply row_edges_sorted; eauto).
  unfold row_edges. rewrite count_edges by auto. unfold edge_uses. simpl. rewrite Nat.add_0_r.
  apply side_uses_perm. apply sort_tri_perm.
Qed.

Lemma row_edges_In u v t : In (u, v) (row_edges t) <-> u <= v /\ side_uses u v t >= 1.
Proof.
  split.
  - intros H. pose proof (row_edges_sorted _ _ H) as Hle. simpl in Hle. split; auto.
    rewrite <- row_edges_count by auto. apply (count_In edge_eqb edge_eqb_eq) in H. lia.
  - intros [H1 H2]. rewrite <- row_edges_count in H2 by auto. apply (count_In edge_eqb edge_eqb_eq). lia.
Qed.

Lemma tagged_edges_eq ts : tagged_edges ts = tagged row_edges 0 ts.
Proof.
  unfold tagged_edges. rewrite <- tag_eq by apply row_edges_length. f_equal.
  unfold row_edges, get_edges. rewrite !flat_map_concat_map, map_map. f_equal. apply map_ext.
  intros t. simpl. destruct (sort_tri t) as [[a b] c]. reflexivity.
Qed.

Lemma tagged_edges_count ts u v : u <= v -> count edge_eqb (u, v) (map fst (tagged_edges ts)) = edge_uses u v ts.
Proof.
  intros H. rewrite tagged_edges_eq, tagged_fst. induction ts as [|t ts IH]; simpl; auto.
  unfold edge_uses in *. simpl. unfold count in *. rewrite filter_app', app_length, IH. f_equal.
  now apply row_edges_count.
Qed.

Lemma tagged_edges_In ts u v i : In ((u, v), i) (tagged_edges ts) <->
  i < length ts /\ u <= v /\ side_uses u v (nth i ts no_face) >= 1.
Proof. rewrite tagged_edges_eq, tagged_In, row_edges_In. tauto. Qed.

(** * Pairs of adjacent equal rows in a sorted table *)
Notation elt := (edge * nat)%type.
Definition ele (a b : elt) : Prop := lex_le (fst a) (fst b).

Lemma adjacent_pairs_cons e i f j l :
  adjacent_pairs ((e, i) :: (f, j) :: l) = (if edge_eqb e f then [(i, j)] else []) ++ adjacent_pairs ((f, j) :: l).
Proof. reflexivity. Qed.

Lemma adjacent_pairs_sound l i j : In (i, j) (adjacent_pairs l) -> exists e, In (e, i) l /\ In (e, j) l.
Proof.
  induction l as [|[e a] [|[f b] l] IH]; try contradiction.
  rewrite adjacent_pairs_cons, in_app_iff. intros [H|H].
  - destruct (edge_eqb e f) eqn:E; [|contradiction]. apply edge_eqb_eq in E. subst f.
    destruct H as [[= -> ->]|[]]. exists e. simpl. auto.
  - destruct (IH H) as (g & H1 & H2). exists g. simpl in *. auto.
Qed.

Lemma sorted_head_group e i f j l : StronglySorted ele ((e, i) :: (f, j) :: l) ->
  forall k, In (e, k) ((f, j) :: l) -> e = f.
Proof.
  intros H k Hk. inversion H as [|? ? Hs Hf]; subst. inversion Hs as [|? ? _ Hf']; subst.
  rewrite Forall_forall in *. destruct Hk as [[= <- _]|Hk]; auto.
  specialize (Hf' _ Hk). assert (Hef : ele (e, i) (f, j)) by (apply Hf; simpl; auto).
  unfold ele in *. simpl in *. now apply lex_le_antisym.
Qed.

Lemma adjacent_pairs_chain l : StronglySorted ele l -> forall e i j, In (e, i) l -> In (e, j) l ->
  clos_refl_sym_trans nat (fun a b => In (a, b) (adjacent_pairs l)) i j.
Proof.
  intros Hs.
  assert (Hmono : forall a l', clos_refl_sym_trans nat (fun x y => In (x, y) (adjacent_pairs l')) a a) by (intros; apply rst_refl).
  induction l as [|[e0 i0] [|[f j0] l] IH]; intros e i j Hi Hj; [contradiction| |].
  - destruct Hi as [[= <- <-]|[]]. destruct Hj as [[= <-]|[]]. apply rst_refl.
  - assert (Hs' : StronglySorted ele ((f, j0) :: l)) by now inversion Hs.
    assert (Hlift : forall a b, clos_refl_sym_trans nat (fun x y => In (x, y) (adjacent_pairs ((f, j0) :: l))) a b ->
                    clos_refl_sym_trans nat (fun x y => In (x, y) (adjacent_pairs ((e0, i0) :: (f, j0) :: l))) a b).
    { intros a b. induction 1; [apply rst_step|apply rst_refl|apply rst_sym; auto|eapply rst_trans; eauto].
      rewrite adjacent_pairs_cons, in_app_iff. auto. }
    assert (Hstep : e0 = f -> clos_refl_sym_trans nat (fun x y => In (x, y) (adjacent_pairs ((e0, i0) :: (f, j0) :: l))) i0 j0).
    { intros ->. apply rst_step. rewrite adjacent_pairs_cons, (proj2 (edge_eqb_eq f f) eq_refl). simpl. auto. }
    assert (Hhead : forall k, In (e0, k) ((f, j0) :: l) ->
              clos_refl_sym_trans nat (fun x y => In (x, y) (adjacent_pairs ((e0, i0) :: (f, j0) :: l))) i0 k).
    { intros k Hk. pose proof (sorted_head_group _ _ _ _ _ Hs k Hk) as E. eapply rst_trans; [apply Hstep; exact E|].
      apply Hlift. apply (IH Hs' f); [simpl; auto|]. rewrite E in Hk. exact Hk. }
    destruct Hi as [[= <- <-]|Hi], Hj as [[= E]|Hj].
    + subst. apply rst_refl.
    + apply Hhead. exact Hj.
    + subst. apply rst_sym. apply Hhead. exact Hi.
    + apply Hlift. eapply IH; eauto.
Qed.

Lemma count_cons_map e f (i : nat) (l : list elt) :
  count edge_eqb e (map fst ((f, i) :: l)) = (if edge_eqb e f then 1 else 0) + count edge_eqb e (map fst l).
Proof. unfold count. simpl. destruct (edge_eqb e f); reflexivity. Qed.

Lemma count_fst_notin e (l : list elt) : (forall k, ~ In (e, k) l) -> count edge_eqb e (map fst l) = 0.
Proof.
  intros H. apply count_notin; [apply edge_eqb_eq|]. intros Hin. apply in_map_iff in Hin.
  destruct Hin as ([g k] & E & Hin). simpl in E. subst. eapply H; eauto.
Qed.

Lemma edge_eqb_refl e : edge_eqb e e = true.
Proof. now apply edge_eqb_eq. Qed.
Lemma edge_eqb_neq e f : edge_eqb e f = false <-> e <> f.
Proof. rewrite <- edge_eqb_eq. destruct (edge_eqb e f); intuition congruence. Qed.

(** Induction over the groups of a sorted table whose groups have one or two rows. *)
Lemma groups_ind (P : list elt -> Prop) :
  P [] ->
  (forall e i l, (forall k, ~ In (e, k) l) -> P l -> P ((e, i) :: l)) ->
  (forall e i j l, (forall k, ~ In (e, k) l) -> P l -> P ((e, i) :: (e, j) :: l)) ->
  forall l, StronglySorted ele l -> (forall e, count edge_eqb e (map fst l) <= 2) -> P l.
Proof.
  intros P0 P1 P2 l. remember (length l) as n eqn:En. revert l En.
  induction n as [n IH] using lt_wf_ind. intros l En Hs Hc.
  destruct l as [|[e i] [|[f j] l]]; auto.
  - assert (Hs' : StronglySorted ele ((f, j) :: l)) by now inversion Hs.
    destruct (edge_eqb e f) eqn:E.
    + apply edge_eqb_eq in E. subst f. 
      assert (Hno : forall k, ~ In (e, k) l).
      { intros k Hk. specialize (Hc e). rewrite !count_cons_map, !edge_eqb_refl in Hc.
        assert (count edge_eqb e (map fst l) > 0); [|lia]. apply (count_In edge_eqb edge_eqb_eq).
        change e with (fst (e, k)). now apply in_map. }
      apply P2; auto. apply (IH (length l)); auto; [simpl in En; lia|now inversion Hs'|].
      intros g. specialize (Hc g). rewrite !count_cons_map in Hc. lia.
    + apply edge_eqb_neq in E. apply P1.
      * intros k Hk. apply E. eapply sorted_head_group; eauto.
      * apply (IH (length ((f, j) :: l))); auto; [simpl in *; lia|].
        intros g. specialize (Hc g). rewrite count_cons_map in Hc. lia.
Qed.

Lemma adjacent_pairs_new e i l : (forall k, ~ In (e, k) l) -> adjacent_pairs ((e, i) :: l) = adjacent_pairs l.
Proof.
  intros H. destruct l as [|[f j] l]; auto. rewrite adjacent_pairs_cons.
  destruct (edge_eqb e f) eqn:E; auto. apply edge_eqb_eq in E. subst. exfalso. eapply H. left; eauto.
Qed.

Lemma adjacent_pairs_complete l : StronglySorted ele l -> (forall e, count edge_eqb e (map fst l) <= 2) ->
  forall e i j, In (e, i) l -> In (e, j) l -> i <> j -> In (i, j) (adjacent_pairs l) \/ In (j, i) (adjacent_pairs l).
Proof.
  intros Hs Hc. revert Hs Hc. apply (groups_ind (fun l => forall e i j, In (e, i) l -> In (e, j) l -> i <> j -> In (i, j) (adjacent_pairs l) \/ In (j, i) (adjacent_pairs l))).
  - contradiction.
  - intros e i l' Hno IH g a b Ha Hb Hab. rewrite adjacent_pairs_new by auto.
    destruct Ha as [[= <- <-]|Ha], Hb as [[= E]|Hb]; subst; eauto; try congruence; exfalso; eapply Hno; eauto.
  - intros e i j l' Hno IH g a b Ha Hb Hab. rewrite adjacent_pairs_cons, edge_eqb_refl, adjacent_pairs_new by auto.
    rewrite !in_app_iff. simpl in Ha, Hb.
    destruct Ha as [[= <- <-]|[[= <- <-]|Ha]], Hb as [[= E]|[[= E]|Hb]]; subst; simpl; auto; try congruence;
      try (exfalso; eapply Hno; eauto; fail). destruct (IH _ _ _ Ha Hb Hab); auto.
Qed.

Definition shared_rows (l : list elt) (i : nat) : nat :=
  length (filter (fun p => (snd p =? i) && (2 <=? count edge_eqb (fst p) (map fst l))) l).

Lemma filter_ext_in' {A} (f g : A -> bool) l : (forall a, In a l -> f a = g a) -> filter f l = filter g l.
Proof.
  induction l as [|x l IH]; simpl; intros H; auto. rewrite (H x), IH by auto. reflexivity.
Qed.

Lemma adjacent_pairs_degree l i : StronglySorted ele l -> (forall e, count edge_eqb e (map fst l) <= 2) ->
  length (filter (fun p => fst p =? i) (adjacent_pairs l)) + length (filter (fun p => snd p =? i) (adjacent_pairs l))
  = shared_rows l i.
Proof.
  revert l. apply (groups_ind (fun l =>
    length (filter (fun p => fst p =? i) (adjacent_pairs l)) + length (filter (fun p => snd p =? i) (adjacent_pairs l))
    = shared_rows l i)).
  - reflexivity.
  - intros e k l Hno IH. rewrite adjacent_pairs_new by auto. rewrite IH. unfold shared_rows.
    cbn [filter fst snd]. rewrite count_cons_map, edge_eqb_refl, (count_fst_notin e l Hno). change (2 <=? 1 + 0) with false.
    rewrite andb_false_r. f_equal. apply filter_ext_in'. intros [g a] Hin. change (fst (g, a)) with g. rewrite count_cons_map.
    replace (edge_eqb g e) with false; auto. symmetry. apply edge_eqb_neq. intros ->. eapply Hno; eauto.
  - intros e a b l Hno IH. rewrite adjacent_pairs_cons, edge_eqb_refl, adjacent_pairs_new by auto.
    unfold shared_rows in *. cbn [filter fst snd app]. rewrite !count_cons_map, edge_eqb_refl, (count_fst_notin e l Hno).
    change (2 <=? 1 + (1 + 0)) with true. rewrite !andb_true_r.
    assert (E : filter (fun p : elt => (snd p =? i) && (2 <=? count edge_eqb (fst p) (map fst ((e, a) :: (e, b) :: l)))) l
              = filter (fun p : elt => (snd p =? i) && (2 <=? count edge_eqb (fst p) (map fst l))) l).
    { apply filter_ext_in'. intros [g c] Hin. change (fst (g, c)) with g. rewrite !count_cons_map.
      replace (edge_eqb g e) with false; auto. symmetry. apply edge_eqb_neq. intros ->. eapply Hno; eauto. }
    rewrite E. destruct (a =? i), (b =? i); cbn [length]; lia.
Qed.

Lemma length_filter_perm {A} (f : A -> bool) l l' : Permutation l l' -> length (filter f l) = length (filter f l').
Proof. intros. apply Permutation_length. now apply filter_perm. Qed.

Lemma shared_rows_perm l l' i : Permutation l l' -> shared_rows l i = shared_rows l' i.
Proof.
  intros H. unfold shared_rows. rewrite (length_filter_perm _ _ _ H). f_equal. apply filter_ext_in'. intros a _.
  f_equal. f_equal. apply count_perm. now apply Permutation_map.
Qed.

Lemma interior_sides_perm ts t s : Permutation (corners t) (corners s) -> interior_sides ts t = interior_sides ts s.
Proof.
  destruct t as [[a b] c], s as [[x y] z]. simpl corners. intros H. apply perm3_inv in H. unfold interior_sides.
  rewrite (edge_uses_sym x y), (edge_uses_sym y z), (edge_uses_sym z x).
  decompose [or and] H; subst; rewrite ?(edge_uses_sym x y), ?(edge_uses_sym y z), ?(edge_uses_sym z x); lia.
Qed.

Lemma shared_rows_tagged ts i : i < length ts -> shared_rows (tagged_edges ts) i = interior_sides ts (nth i ts no_face).
Proof.
  intros Hi. unfold shared_rows. rewrite tagged_edges_eq.
  rewrite (tagged_filter row_edges (fun e => 2 <=? count edge_eqb e (map fst (tagged row_edges 0 ts)))) by lia.
  rewrite map_length, Nat.sub_0_r.
  rewrite <- (interior_sides_perm ts _ _ (sort_tri_perm (nth i ts no_face))).
  rewrite <- tagged_edges_eq.
  assert (Hin := row_edges_sorted (nth i ts no_face)). unfold row_edges in *.
  destruct (sort_tri (nth i ts no_face)) as [[a b] c]. simpl in Hin.
  assert (a <= b) by (apply (Hin (a, b)); auto). assert (b <= c) by (apply (Hin (b, c)); auto).
  simpl get_edges. cbn [filter]. rewrite !tagged_edges_count by lia. unfold interior_sides.
  rewrite (edge_uses_sym c a).
  destruct (2 <=? edge_uses a b ts), (2 <=? edge_uses a c ts), (2 <=? edge_uses b c ts); reflexivity.
Qed.

Section WithArgsort.
  Variable argsort : list nat -> list nat.
  Hypothesis Ha : is_argsort argsort.

  Lemma arg_sortrows_perm rows : Permutation (arg_sortrows argsort rows) (seq 0 (length rows)).
  Proof.
    unfold arg_sortrows.
    destruct (argsort_spec argsort (map snd rows) Ha) as [Hp Hs]. rewrite map_length in Hp.
    set (i := argsort (map snd rows)) in *.
    destruct (stable_argsort_spec (map (fun a => fst (nth a rows (0, 0))) i)) as [Hp2 Hs2].
    rewrite map_length in Hp2. rewrite take_perm; auto.
  Qed.

  Lemma arg_sortrows_sorted rows :
    StronglySorted lex_le (take (0, 0) rows (arg_sortrows argsort rows)).
  Proof.
    unfold arg_sortrows.
    destruct (argsort_spec argsort (map snd rows) Ha) as [Hp Hs]. rewrite map_length in Hp.
    set (i := argsort (map snd rows)) in *.
    set (keys := map (fun a => fst (nth a rows (0, 0))) i).
    destruct (stable_argsort_spec keys) as [Hp2 Hs2].
    assert (Lk : length keys = length i) by (unfold keys; now rewrite map_length).
    unfold take. rewrite map_map. refine (proj1 (StronglySorted_map lex_le _ _) _).
    assert (Hlt : forall a, In a (stable_argsort keys) -> a < length i).
    { intros a Hin. eapply Permutation_in in Hin; [|exact Hp2]. apply in_seq in Hin. lia. }
    assert (Hkey : forall a, a < length i -> nth a keys 0 = fst (nth (nth a i 0) rows (0, 0))).
    { intros a Hl. unfold keys. rewrite (nth_indep _ 0 (fst (nth 0 rows (0, 0)))) by (rewrite map_length; auto).
      now rewrite (map_nth (fun a => fst (nth a rows (0, 0)))). }
    assert (Hsnd : forall a b, a < b -> b < length i -> snd (nth (nth a i 0) rows (0, 0)) <= snd (nth (nth b i 0) rows (0, 0))).
    { intros a b Hab Hb. pose proof (StronglySorted_nth _ i 0 Hs a b Hab Hb) as H. simpl in H.
      assert (Hn : forall k, nth k (map snd rows) 0 = snd (nth k rows (0, 0))) by (intros; apply (map_nth snd rows (0, 0))).
      rewrite !Hn in H. exact H. }
    eapply StronglySorted_In; [exact Hs2|]. intros a b Ia Ib [H1 H2].
    apply Hlt in Ia. apply Hlt in Ib. rewrite !Hkey in H1, H2 by auto. unfold lex_le.
    destruct (Nat.eq_dec (fst (nth (nth a i 0) rows (0, 0))) (fst (nth (nth b i 0) rows (0, 0)))) as [E|E]; [|lia].
    right. split; auto.
  Qed.

  (** * _vertex_to_face *)
  Definition incidences (ts : list tri) : list (nat * nat) := tagged tri_vertices 0 ts.

  Lemma vertex_to_face_perm ts : Permutation (fst (vertex_to_face argsort ts)) (incidences ts).
  Proof.
    unfold vertex_to_face, incidences. simpl. rewrite tag_eq by (intros [[? ?] ?]; reflexivity).
    apply take_perm. destruct (argsort_spec argsort (map fst (tagged tri_vertices 0 ts)) Ha) as [Hp _].
    now rewrite map_length in Hp.
  Qed.

  Lemma vertex_to_face_sorted ts : StronglySorted (fun a b => fst a <= fst b) (fst (vertex_to_face argsort ts)).
  Proof.
    unfold vertex_to_face. simpl. set (ve := combine _ _).
    destruct (argsort_spec argsort (map fst ve) Ha) as [_ Hs].
    unfold take. refine (proj1 (StronglySorted_map _ _ _) _).
    eapply StronglySorted_impl; [|exact Hs]. simpl. intros a b.
    assert (Hn : forall k, nth k (map fst ve) 0 = fst (nth k ve (0, 0))) by (intros; apply (map_nth fst ve (0, 0))).
    now rewrite !Hn.
  Qed.

  Lemma incidences_In ts v f : In (v, f) (incidences ts) <-> f < length ts /\ In v (corners (nth f ts no_face)).
  Proof. apply tagged_In. Qed.

  Lemma vertex_to_face_row ts n v : all_used n ts -> v < n ->
    exists l, row_of (fst (vertex_to_face argsort ts)) (snd (vertex_to_face argsort ts)) v = Ok l /\
      Permutation l (map snd (filter (fun p => fst p =? v) (incidences ts))).
  Proof.
    intros Hu Hv. pose proof (vertex_to_face_perm ts) as Hp. pose proof (vertex_to_face_sorted ts) as Hs.
    change (snd (vertex_to_face argsort ts)) with (pointers (map fst (fst (vertex_to_face argsort ts)))).
    eexists. split; [apply (row_of_spec _ n); auto|].
    - intros k. split.
      + intros Hin. eapply Permutation_in in Hin; [|apply Permutation_map; exact Hp].
        apply in_map_iff in Hin. destruct Hin as ([w f] & <- & Hin). apply incidences_In in Hin.
        apply Hu. exists (nth f ts no_face). split; [apply nth_In|]; apply Hin.
      + intros Hk. apply Hu in Hk. destruct Hk as (t & Ht & Hc). destruct (In_nth _ _ no_face Ht) as (f & Hf & E).
        eapply Permutation_in; [apply Permutation_map; symmetry; exact Hp|].
        change k with (fst (k, f)). apply in_map. apply incidences_In. rewrite E. auto.
    - apply Permutation_map. now apply filter_perm.
  Qed.

  Lemma vertex_to_face_row_In ts n v : all_used n ts -> v < n ->
    exists l, row_of (fst (vertex_to_face argsort ts)) (snd (vertex_to_face argsort ts)) v = Ok l /\
      forall f, In f l <-> f < length ts /\ In v (corners (nth f ts no_face)).
  Proof.
    intros Hu Hv. destruct (vertex_to_face_row ts n v Hu Hv) as (l & E & Hp). exists l. split; auto.
    intros f. rewrite <- incidences_In. split.
    - intros H. eapply Permutation_in in H; [|exact Hp]. apply in_map_iff in H. destruct H as ([w g] & <- & H).
      apply filter_In in H. destruct H as [H1 H2]. simpl in *. apply Nat.eqb_eq in H2. now subst.
    - intros H. eapply Permutation_in; [symmetry; exact Hp|]. change f with (snd (v, f)). apply in_map.
      apply filter_In. split; auto. simpl. apply Nat.eqb_refl.
  Qed.

  (** * _face_to_face *)
  Definition sorted_rows (ts : list tri) : list elt :=
    take ((0, 0), 0) (tagged_edges ts) (arg_sortrows argsort (map fst (tagged_edges ts))).
  Definition side_pairs (ts : list tri) : list (nat * nat) := adjacent_pairs (sorted_rows ts).

  Lemma sorted_rows_perm ts : Permutation (sorted_rows ts) (tagged_edges ts).
  Proof.
    unfold sorted_rows. apply take_perm.
    rewrite arg_sortrows_perm, map_length. reflexivity.
  Qed.
  Lemma sorted_rows_sorted ts : StronglySorted ele (sorted_rows ts).
  Proof.
    unfold ele. apply (proj2 (StronglySorted_map lex_le (@fst edge nat) (sorted_rows ts))).
    unfold sorted_rows. rewrite take_map. apply arg_sortrows_sorted.
  Qed.

  Lemma f2f_table_perm ts : Permutation (fst (face_to_face argsort ts))
    (side_pairs ts ++ map (fun p => (snd p, fst p)) (side_pairs ts) ++ map (fun i => (i, i)) (seq 0 (length ts))).
  Proof.
    unfold face_to_face. cbv zeta. simpl fst. fold (sorted_rows ts). fold (side_pairs ts).
    rewrite take_perm by apply arg_sortrows_perm.
    destruct (argsort_spec argsort (map fst (side_pairs ts)) Ha) as [H1 _].
    destruct (argsort_spec argsort (map snd (side_pairs ts)) Ha) as [H2 _]. rewrite map_length in H1, H2.
    apply Permutation_app; [now apply take_perm|]. apply Permutation_app; [|reflexivity].
    apply Permutation_map. now apply take_perm.
  Qed.

  Lemma f2f_table_sorted ts : StronglySorted (fun a b => fst a <= fst b) (fst (face_to_face argsort ts)).
  Proof.
    unfold face_to_face. cbv zeta. simpl fst. eapply StronglySorted_impl; [|apply arg_sortrows_sorted].
    unfold lex_le. simpl. lia.
  Qed.

  Lemma sorted_rows_In ts u v i : In ((u, v), i) (sorted_rows ts) <->
    i < length ts /\ u <= v /\ side_uses u v (nth i ts no_face) >= 1.
  Proof.
    rewrite <- tagged_edges_In. split; apply Permutation_in; [|symmetry]; apply sorted_rows_perm.
  Qed.

  Lemma side_pairs_adjacent ts i j : In (i, j) (side_pairs ts) -> adjacent ts i j.
  Proof.
    intros H. apply adjacent_pairs_sound in H. destruct H as ([u v] & H1 & H2).
    apply sorted_rows_In in H1. apply sorted_rows_In in H2.
    split; [apply H1|]. split; [apply H2|]. exists u, v. tauto.
  Qed.

  Lemma f2f_first_col ts k : In k (map fst (fst (face_to_face argsort ts))) <-> k < length ts.
  Proof.
    split.
    - intros H. apply in_map_iff in H. destruct H as ([i j] & <- & H). simpl.
      eapply Permutation_in in H; [|apply f2f_table_perm]. rewrite !in_app_iff, !in_map_iff in H.
      destruct H as [H|[([a b] & [= <- <-] & H)|(a & [= <- <-] & H)]].
      + apply side_pairs_adjacent in H. apply H.
      + apply side_pairs_adjacent in H. apply H.
      + apply in_seq in H. lia.
    - intros H. change k with (fst (k, k)). apply in_map.
      eapply Permutation_in; [symmetry; apply f2f_table_perm|]. rewrite !in_app_iff. right. right.
      apply in_map_iff. exists k. split; auto. apply in_seq. lia.
  Qed.

  Definition neighbours (ts : list tri) (c : nat) : list nat :=
    map snd (filter (fun p => fst p =? c) (side_pairs ts)) ++ map fst (filter (fun p => snd p =? c) (side_pairs ts)).

  Lemma filter_flip (l : list (nat * nat)) c :
    map snd (filter (fun p => fst p =? c) (map (fun p => (snd p, fst p)) l)) = map fst (filter (fun p => snd p =? c) l).
  Proof. induction l as [|[a b] l IH]; simpl; auto. destruct (b =? c); simpl; congruence. Qed.
  Lemma filter_diag c n : forall s, s <= c < s + n ->
    map snd (filter (fun p => fst p =? c) (map (fun i => (i, i)) (seq s n))) = [c].
  Proof.
    induction n as [|n IH]; intros s H; simpl; [lia|].
    destruct (Nat.eqb_spec s c) as [->|Hne].
    - simpl. f_equal. rewrite filter_nil_iff; auto. intros [a b] Hin. apply in_map_iff in Hin.
      destruct Hin as (i & [= <- <-] & Hi). apply in_seq in Hi. simpl. apply Nat.eqb_neq. lia.
    - apply IH. lia.
  Qed.

  Lemma f2f_row ts c : c < length ts ->
    exists l, row_of (fst (face_to_face argsort ts)) (snd (face_to_face argsort ts)) c = Ok l /\
      Permutation l (c :: neighbours ts c).
  Proof.
    intros Hc. change (snd (face_to_face argsort ts)) with (pointers (map fst (fst (face_to_face argsort ts)))).
    eexists. split; [apply (row_of_spec _ (length ts)); auto using f2f_table_sorted, f2f_first_col|].
    rewrite (filter_perm _ _ _ (f2f_table_perm ts)).
    rewrite !filter_app', !map_app, filter_flip, filter_diag by lia. unfold neighbours.
    rewrite app_assoc. rewrite Permutation_app_comm. reflexivity.
  Qed.

  Lemma neighbours_In ts c j : In j (neighbours ts c) <-> In (c, j) (side_pairs ts) \/ In (j, c) (side_pairs ts).
  Proof.
    unfold neighbours. rewrite in_app_iff, !in_map_iff. split.
    - intros [([a b] & <- & H)|([a b] & <- & H)]; apply filter_In in H; destruct H as [H E]; simpl in *;
        apply Nat.eqb_eq in E; subst; auto.
    - intros [H|H]; [left; exists (c, j)|right; exists (j, c)]; (split; [auto|]); apply filter_In; simpl; rewrite Nat.eqb_refl; auto.
  Qed.

  Lemma sorted_rows_count ts e : manifold ts -> count edge_eqb e (map fst (sorted_rows ts)) <= 2.
  Proof.
    intros Hm. destruct e as [u v].
    rewrite (count_perm edge_eqb _ _ _ (Permutation_map fst (sorted_rows_perm ts))).
    destruct (le_lt_dec u v) as [L|L]; [rewrite tagged_edges_count by auto; apply Hm|].
    rewrite count_fst_notin; [lia|]. intros k Hk. apply tagged_edges_In in Hk. lia.
  Qed.

  Lemma adjacent_sym ts i j : adjacent ts i j -> adjacent ts j i.
  Proof. intros (H1 & H2 & u & v & H3 & H4). split; auto. split; auto. exists u, v. auto. Qed.

  Lemma adjacent_row ts i j : adjacent ts i j -> exists e, In (e, i) (sorted_rows ts) /\ In (e, j) (sorted_rows ts).
  Proof.
    intros (H1 & H2 & u & v & H3 & H4). destruct (le_lt_dec u v) as [L|L].
    - exists (u, v). rewrite !sorted_rows_In. auto.
    - exists (v, u). rewrite !sorted_rows_In. rewrite !(side_uses_sym v u). split; (split; [auto|split; [lia|auto]]).
  Qed.

  Lemma f2f_exact ts : manifold ts -> forall i, i < length ts ->
    exists l, row_of (fst (face_to_face argsort ts)) (snd (face_to_face argsort ts)) i = Ok l /\
      forall j, In j l <-> i = j \/ adjacent ts i j.
  Proof.
    intros Hm i Hi. destruct (f2f_row ts i Hi) as (l & E & Hp). exists l. split; auto. intros j.
    transitivity (In j (i :: neighbours ts i)).
    { split; apply Permutation_in; auto. now symmetry. }
    simpl. rewrite neighbours_In. split.
    - intros [->|[H|H]]; auto; apply side_pairs_adjacent in H; auto. right. now apply adjacent_sym.
    - intros [->|H]; auto. destruct (Nat.eq_dec i j) as [->|Hne]; auto. right.
      destruct (adjacent_row _ _ _ H) as (e & A & B).
      eapply adjacent_pairs_complete; eauto using sorted_rows_sorted. intros; now apply sorted_rows_count.
  Qed.

  Lemma f2f_sound ts i : i < length ts ->
    exists l, row_of (fst (face_to_face argsort ts)) (snd (face_to_face argsort ts)) i = Ok l /\ In i l /\
      forall j, In j l -> i = j \/ adjacent ts i j.
  Proof.
    intros Hi. destruct (f2f_row ts i Hi) as (l & E & Hp). exists l. split; auto. split.
    - eapply Permutation_in; [symmetry; exact Hp|simpl; auto].
    - intros j Hj. eapply Permutation_in in Hj; [|exact Hp]. destruct Hj as [->|Hj]; auto.
      apply neighbours_In in Hj. destruct Hj as [H|H]; apply side_pairs_adjacent in H; auto. right. now apply adjacent_sym.
  Qed.

  (** The relation "j is listed in the row of i". *)
  Definition listed (ts : list tri) (i j : nat) : Prop :=
    exists l, row_of (fst (face_to_face argsort ts)) (snd (face_to_face argsort ts)) i = Ok l /\ In j l.

  Lemma listed_iff ts i j : i < length ts -> (listed ts i j <-> i = j \/ In (i, j) (side_pairs ts) \/ In (j, i) (side_pairs ts)).
  Proof.
    intros Hi. destruct (f2f_row ts i Hi) as (l & E & Hp). rewrite <- neighbours_In. unfold listed. split.
    - intros (l' & E' & Hj). rewrite E in E'. injection E' as <-.
      eapply Permutation_in in Hj; [|exact Hp]. exact Hj.
    - intros H. exists l. split; auto. eapply Permutation_in; [symmetry; exact Hp|]. exact H.
  Qed.

  Lemma listed_sym ts i j : i < length ts -> listed ts i j -> listed ts j i.
  Proof.
    intros Hi H. apply listed_iff in H; auto. apply listed_iff; [|intuition].
    destruct H as [->|[H|H]]; auto; apply side_pairs_adjacent in H; apply H.
  Qed.

  Lemma f2f_connected ts i j : i < length ts -> (clos_refl_trans nat (listed ts) i j <-> connected ts i j).
  Proof.
    intros Hi. split.
    - intros H. apply clos_rt_rt1n in H. revert Hi. induction H as [i|i k j H1 H2 IH]; intros Hi; [apply rt_refl|].
      destruct (f2f_sound ts i Hi) as (l & E & _ & Hs). destruct H1 as (l' & E' & Hk). rewrite E in E'. injection E' as <-.
      destruct (Hs k Hk) as [->|Hadj]; auto. eapply rt_trans; [apply rt_step; exact Hadj|]. apply IH. apply Hadj.
    - intros H. apply clos_rt_rt1n in H. induction H as [i|i k j H1 H2 IH]; [apply rt_refl|].
      assert (Hk : k < length ts) by apply H1. eapply rt_trans; [|apply IH; auto].
      destruct (adjacent_row _ _ _ H1) as (e & A & B).
      pose proof (adjacent_pairs_chain _ (sorted_rows_sorted ts) e i k A B) as C. fold (side_pairs ts) in C. clear IH H2 A B.
      assert (G : forall a b, clos_refl_sym_trans nat (fun a b => In (a, b) (side_pairs ts)) a b ->
                  clos_refl_trans nat (listed ts) a b /\ clos_refl_trans nat (listed ts) b a).
      { intros a b. induction 1 as [a b H|a|a b _ [I1 I2]|a b c _ [I1 I2] _ [I3 I4]].
        - pose proof (side_pairs_adjacent _ _ _ H) as (La & Lb & _).
          split; apply rt_step; apply listed_iff; auto.
        - split; apply rt_refl.
        - auto.
        - split; eapply rt_trans; eauto. }
      exact (proj1 (G _ _ C)).
  Qed.

  Lemma f2f_row_length ts c : manifold ts -> c < length ts ->
    exists l, row_of (fst (face_to_face argsort ts)) (snd (face_to_face argsort ts)) c = Ok l /\
      length l = S (interior_sides ts (nth c ts no_face)).
  Proof.
    intros Hm Hc. destruct (f2f_row ts c Hc) as (l & E & Hp). exists l. split; auto.
    rewrite (Permutation_length Hp). simpl. f_equal. unfold neighbours. rewrite app_length, !map_length.
    unfold side_pairs. rewrite adjacent_pairs_degree; [|apply sorted_rows_sorted|intros; now apply sorted_rows_count].
    rewrite (shared_rows_perm _ _ c (sorted_rows_perm ts)). now apply shared_rows_tagged.
  Qed.
End WithArgsort.

(** * Witnesses and an admissible argsort *)
Lemma stable_is_argsort : is_argsort stable_argsort.
Proof.
  intros keys. exists (isort (fun a b => fst a <=? fst b) (combine keys (seq 0 (length keys)))).
  split; [reflexivity|]. split; [apply isort_perm|].
  eapply StronglySorted_impl; [|apply isort_sorted].
  - simpl. intros x y H. now apply Nat.leb_le.
  - intros x y. rewrite !Nat.leb_le. lia.
  - intros x y z. rewrite !Nat.leb_le. lia.
Qed.

(** Vertex 1 is not used by the only face. *)
Lemma vertex_to_face_misaligned argsort : is_argsort argsort ->
  row_of (fst (vertex_to_face argsort [(0, 2, 3)])) (snd (vertex_to_face argsort [(0, 2, 3)])) 1 = Ok [0] /\
  ~ In 1 (corners (0, 2, 3)) /\
  row_of (fst (vertex_to_face argsort [(0, 2, 3)])) (snd (vertex_to_face argsort [(0, 2, 3)])) 3 = Raise IndexError.
Proof.
  intros Ha. pose proof (vertex_to_face_perm argsort Ha [(0, 2, 3)]) as Hp.
  pose proof (vertex_to_face_sorted argsort Ha [(0, 2, 3)]) as Hs.
  change (snd (vertex_to_face argsort [(0, 2, 3)])) with (pointers (map fst (fst (vertex_to_face argsort [(0, 2, 3)])))).
  remember (fst (vertex_to_face argsort [(0, 2, 3)])) as tab eqn:Et. clear Et.
  change (incidences [(0, 2, 3)]) with [(0, 0); (2, 0); (3, 0)] in Hp.
  assert (E : tab = [(0, 0); (2, 0); (3, 0)]).
  { pose proof (Permutation_length Hp) as L. destruct tab as [|a [|b [|c [|]]]]; simpl in L; try lia.
    apply perm3_inv in Hp. inversion Hs as [|? ? Hs1 Hf1]; subst. inversion Hs1 as [|? ? Hs2 Hf2]; subst.
    inversion Hf1 as [|? ? Hab Hf1']; subst. inversion Hf1' as [|? ? Hac _]; subst. inversion Hf2 as [|? ? Hbc _]; subst.
    decompose [or and] Hp; subst; simpl in *; auto; lia. }
  subst tab. split; [reflexivity|]. split; [simpl; lia|reflexivity].
Qed.
