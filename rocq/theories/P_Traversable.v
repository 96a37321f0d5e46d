(** Proofs about make_mesh_boundaries_traversable and delete_faces_connected_to_one_face. *)
From Coq Require Import List Arith Bool Lia Relations Permutation Sorted ZArith QArith Qabs Lqa.
From Verif Require Import M_Base M_Numpy M_Edges M_FixMesh M_Adjacency M_Clean.
From Verif Require Import S_Edges S_FixMesh S_Adjacency S_Clean Util P_Edges P_FixMesh P_Adjacency P_Search P_Exterior P_Interior.
Import ListNotations.
Open Scope nat_scope.

(** * Counting *)
Lemma list_sum_perm l l' : Permutation l l' -> list_sum l = list_sum l'.
Proof. induction 1; simpl; lia. Qed.
Lemma edge_uses_perm u v ts ts' : Permutation ts ts' -> edge_uses u v ts = edge_uses u v ts'.
Proof. intros H. unfold edge_uses. apply list_sum_perm, Permutation_map, H. Qed.
Lemma edge_uses_app u v ts ts' : edge_uses u v (ts ++ ts') = edge_uses u v ts + edge_uses u v ts'.
Proof. unfold edge_uses. rewrite map_app. apply list_sum_app. Qed.
Lemma edge_uses_cons u v t ts : edge_uses u v (t :: ts) = side_uses u v t + edge_uses u v ts.
Proof. reflexivity. Qed.

Definition total (l : list (nat * nat)) : nat := list_sum (map snd l).
Lemma runs_total (l : list nat) : total (runs Nat.eqb l) = length l.
Proof.
  induction l as [|x l IH]; auto. cbn [runs length]. rewrite <- IH.
  destruct (runs Nat.eqb l) as [|[y n] r]; [reflexivity|]. destruct (x =? y); reflexivity.
Qed.
Lemma boundary_ends_length ts : length (boundary_ends ts) = 2 * length (get_boundary_edges ts).
Proof. unfold boundary_ends. induction (get_boundary_edges ts); simpl in *; lia. Qed.
Lemma counts_sum ts : total (unique_counts Nat.leb Nat.eqb (boundary_ends ts)) = 2 * length (get_boundary_edges ts).
Proof. unfold unique_counts. rewrite runs_total, isort_length. apply boundary_ends_length. Qed.
Lemma counts_length ts : length (unique_counts Nat.leb Nat.eqb (boundary_ends ts)) = length (bverts ts).
Proof. unfold bverts, unique. now rewrite map_length. Qed.
Lemma total_le l k : (forall c, In c l -> snd c <= k) -> total l <= k * length l.
Proof.
  intros H. unfold total. induction l as [|c l IH]; [simpl; lia|]. cbn [map list_sum fold_right length].
  assert (snd c <= k) by (apply H; now left). specialize (IH (fun c Hc => H c (or_intror Hc))). unfold list_sum in *. lia.
Qed.
Lemma total_ge l k : (forall c, In c l -> k <= snd c) -> k * length l <= total l.
Proof.
  intros H. unfold total. induction l as [|c l IH]; [simpl; lia|]. cbn [map list_sum fold_right length].
  assert (k <= snd c) by (apply H; now left). specialize (IH (fun c Hc => H c (or_intror Hc))). unfold list_sum in *. lia.
Qed.
Lemma total_ge_eq l k : (forall c, In c l -> k <= snd c) -> total l <= k * length l -> forall c, In c l -> snd c = k.
Proof.
  induction l as [|c l IH]; intros H Ht x Hx; [contradiction|].
  unfold total in *. cbn [map list_sum fold_right length] in Ht.
  assert (k <= snd c) by (apply H; now left).
  assert (k * length l <= total l) by (apply total_ge; intros; apply H; now right). unfold total, list_sum in *.
  destruct Hx as [<-|Hx]; [lia|]. apply IH; auto; [intros; apply H; now right|lia].
Qed.
Lemma counts_spec ts v n : In (v, n) (unique_counts Nat.leb Nat.eqb (boundary_ends ts)) <-> In v (boundary_ends ts) /\ n = ends_at ts v.
Proof. apply unique_counts_spec; [exact Nat.eqb_eq|exact nat_leb_total|exact nat_leb_trans|exact nat_leb_antisym]. Qed.

(** More boundary edges than vertices: some vertex has more than two. *)
Lemma crowded ts : length (bverts ts) < length (get_boundary_edges ts) -> exists v, 2 < ends_at ts v.
Proof.
  intros H. destruct (Exists_dec (fun c => 2 < snd c) (unique_counts Nat.leb Nat.eqb (boundary_ends ts))) as [He|He].
  { intros c. apply lt_dec. }
  - apply Exists_exists in He. destruct He as ([v n] & Hc & Hn). apply counts_spec in Hc. destruct Hc as [_ ->]. eauto.
  - exfalso. assert (Hle : total (unique_counts Nat.leb Nat.eqb (boundary_ends ts)) <= 2 * length (unique_counts Nat.leb Nat.eqb (boundary_ends ts))).
    { apply total_le. intros c Hc. destruct (le_lt_dec (snd c) 2); auto. exfalso. apply He. apply Exists_exists. eauto. }
    rewrite counts_sum, counts_length in Hle. lia.
Qed.

(** * The boundary degree is even in a manifold mesh *)
Lemma sum_map_add {A} (f g : A -> nat) l : list_sum (map (fun x => f x + g x) l) = list_sum (map f l) + list_sum (map g l).
Proof. induction l; simpl; lia. Qed.
Lemma sum_map_0 {A} (f : A -> nat) l : (forall x, In x l -> f x = 0) -> list_sum (map f l) = 0.
Proof. induction l as [|a l IH]; intros H; auto. simpl. rewrite (H a (or_introl eq_refl)), IH; auto. intros; apply H; now right. Qed.
Lemma sum_delta x s n k : s <= x < s + n -> list_sum (map (fun u => if u =? x then k else 0) (seq s n)) = k.
Proof.
  revert s. induction n as [|n IH]; intros s H; [lia|]. cbn [seq map list_sum fold_right].
  destruct (Nat.eqb_spec s x) as [->|Hne].
  - replace (fold_right plus 0 _) with 0; [lia|]. symmetry. apply (sum_map_0 (fun u => if u =? x then k else 0)). intros y Hy. apply in_seq in Hy.
    destruct (Nat.eqb_spec y x); lia.
  - simpl. apply IH. lia.
Qed.
Lemma same_pair_delta u v a b : a <> b ->
  (if same_pair u v a b then 1 else 0) = (if v =? a then (if u =? b then 1 else 0) else 0) + (if v =? b then (if u =? a then 1 else 0) else 0).
Proof.
  intros H. unfold same_pair.
  destruct (Nat.eqb_spec u a), (Nat.eqb_spec v b), (Nat.eqb_spec u b), (Nat.eqb_spec v a); simpl; subst; try lia; congruence.
Qed.
Lemma sum_pair v a b n : a <> b -> a < n -> b < n ->
  list_sum (map (fun u => if same_pair u v a b then 1 else 0) (seq 0 n)) = (if v =? a then 1 else 0) + (if v =? b then 1 else 0).
Proof.
  intros H Ha Hb.
  rewrite (map_ext _ (fun u => (if v =? a then (if u =? b then 1 else 0) else 0) + (if v =? b then (if u =? a then 1 else 0) else 0)))
    by (intros; now apply same_pair_delta).
  rewrite (sum_map_add (fun u => if v =? a then (if u =? b then 1 else 0) else 0) (fun u => if v =? b then (if u =? a then 1 else 0) else 0)).
  f_equal.
  - destruct (v =? a); [apply sum_delta; lia|apply sum_map_0; auto].
  - destruct (v =? b); [apply sum_delta; lia|apply sum_map_0; auto].
Qed.
Lemma sum_sides v t n : nondegenerate t -> in_range n t ->
  exists k, list_sum (map (fun u => side_uses u v t) (seq 0 n)) = 2 * k.
Proof.
  destruct t as [[a b] c]. intros (H1 & H2 & H3) Hr. unfold in_range in Hr. cbn [corners] in Hr.
  inversion Hr as [|? ? Ha Hr1]; subst. inversion Hr1 as [|? ? Hb Hr2]; subst. inversion Hr2 as [|? ? Hc _]; subst.
  cbn [side_uses].
  rewrite (sum_map_add (fun u => (if same_pair u v a b then 1 else 0) + (if same_pair u v b c then 1 else 0)) (fun u => if same_pair u v c a then 1 else 0)).
  rewrite (sum_map_add (fun u => if same_pair u v a b then 1 else 0) (fun u => if same_pair u v b c then 1 else 0)).
  rewrite !sum_pair by auto.
  exists ((if v =? a then 1 else 0) + (if v =? b then 1 else 0) + (if v =? c then 1 else 0)). lia.
Qed.
Lemma sum_uses v ts n : Forall nondegenerate ts -> Forall (in_range n) ts ->
  exists k, list_sum (map (fun u => edge_uses u v ts) (seq 0 n)) = 2 * k.
Proof.
  induction ts as [|t ts IH]; intros Hn Hr.
  - exists 0. apply sum_map_0. reflexivity.
  - inversion Hn; subst. inversion Hr; subst. destruct IH as (k & Hk); auto.
    destruct (sum_sides v t n) as (j & Hj); auto. exists (j + k).
    rewrite (map_ext _ (fun u => side_uses u v t + edge_uses u v ts)) by (intros; apply edge_uses_cons).
    rewrite (sum_map_add (fun u => side_uses u v t) (fun u => edge_uses u v ts)). lia.
Qed.
Lemma sum_le2 (f : nat -> nat) l : (forall u, f u <= 2) ->
  exists k, list_sum (map f l) = length (filter (fun u => f u =? 1) l) + 2 * k.
Proof.
  intros H. induction l as [|a l IH]; [exists 0; auto|]. destruct IH as (k & Hk). cbn [map list_sum fold_right filter]. fold (list_sum (map f l)). rewrite Hk.
  specialize (H a). destruct (f a) as [|[|[|x]]] eqn:E; simpl; try lia; [exists k|exists k|exists (S k)]; lia.
Qed.
Lemma vbound_range ts : Forall (in_range (vbound ts)) ts.
Proof.
  apply Forall_forall. intros t Ht. apply Forall_forall. intros v Hv. apply (has_vertex_lt ts t); auto.
  destruct t as [[a b] c]. simpl in *. intuition.
Qed.
Lemma degree_even ts v : manifold ts -> Forall nondegenerate ts -> exists k, boundary_degree ts v = 2 * k.
Proof.
  intros Hm Hn. destruct (sum_uses v ts (vbound ts) Hn (vbound_range ts)) as (k & Hk).
  destruct (sum_le2 (fun u => edge_uses u v ts) (seq 0 (vbound ts))) as (j & Hj); [intros u; apply Hm|].
  unfold boundary_degree. exists (k - j). lia.
Qed.

(** * The exit condition *)
Lemma exit_traversable ts : manifold ts -> Forall nondegenerate ts ->
  length (get_boundary_edges ts) <= length (bverts ts) -> traversable ts.
Proof.
  intros Hm Hn Hle v. destruct (in_dec Nat.eq_dec v (boundary_ends ts)) as [Hv|Hv].
  - right. rewrite <- ends_at_nondeg by auto.
    apply (total_ge_eq (unique_counts Nat.leb Nat.eqb (boundary_ends ts)) 2) with (c := (v, ends_at ts v)).
    + intros [x n] Hc. apply counts_spec in Hc. destruct Hc as [Hx ->]. cbn [snd].
      apply (count_In Nat.eqb Nat.eqb_eq) in Hx. fold (ends_at ts x) in Hx. rewrite ends_at_nondeg in * by auto.
      destruct (degree_even ts x Hm Hn) as (k & Hk). lia.
    + rewrite counts_sum, counts_length. lia.
    + apply counts_spec. auto.
  - left. rewrite <- ends_at_nondeg by auto. unfold ends_at. apply count_notin; [exact Nat.eqb_eq|auto].
Qed.
Lemma traversable_exit ts : Forall nondegenerate ts -> traversable ts -> length (get_boundary_edges ts) = length (bverts ts).
Proof.
  intros Hn Ht. pose proof (counts_sum ts) as H. rewrite <- (counts_length ts).
  assert (Hall : forall c, In c (unique_counts Nat.leb Nat.eqb (boundary_ends ts)) -> snd c = 2).
  { intros [v n] Hc. apply counts_spec in Hc. destruct Hc as [Hv ->]. cbn [snd].
    apply (count_In Nat.eqb Nat.eqb_eq) in Hv. fold (ends_at ts v) in Hv. rewrite ends_at_nondeg in * by auto.
    destruct (Ht v); lia. }
  pose proof (total_le _ 2 (fun c Hc => Nat.eq_le_incl _ _ (Hall c Hc))).
  pose proof (total_ge _ 2 (fun c Hc => Nat.eq_le_incl _ _ (eq_sym (Hall c Hc)))). lia.
Qed.

(** * Matching the faces of the output of fix_mesh with input faces *)
Lemma match_faces (R : tri -> tri -> Prop) t' : forall ts,
  no_two same_vertices t' ->
  (forall s, In s t' -> exists t, In t ts /\ R t s) ->
  (forall t s s', R t s -> R t s' -> same_vertices s s') ->
  exists ts1 rest, Permutation ts (ts1 ++ rest) /\ Forall2 R ts1 t'.
Proof.
  induction t' as [|s t' IH]; intros ts Hn Hex Hfun.
  - exists [], ts. split; auto.
  - inversion Hn as [|? ? Hs Hn']; subst.
    destruct (Hex s (or_introl eq_refl)) as (t & Ht & HR).
    apply in_split in Ht. destruct Ht as (l1 & l2 & ->).
    destruct (IH (l1 ++ l2) Hn') as (ts1 & rest & HP & HF); auto.
    + intros s' Hs'. destruct (Hex s' (or_intror Hs')) as (t2 & Ht2 & HR2). exists t2. split; auto.
      apply in_app_iff in Ht2. apply in_or_app. destruct Ht2 as [?|[<-|?]]; auto.
      exfalso. rewrite Forall_forall in Hs. apply (Hs s' Hs'). eapply Hfun; eauto.
    + exists (t :: ts1), rest. split; [|constructor; auto].
      apply Permutation_trans with (t :: l1 ++ l2); [symmetry; apply Permutation_middle|]. simpl. now constructor.
Qed.

Definition imaged (m : nat -> nat) (t s : tri) : Prop := Permutation (map m (corners t)) (corners s).
Lemma imaged_fun m t s s' : imaged m t s -> imaged m t s' -> same_vertices s s'.
Proof. unfold imaged, same_vertices. intros H H'. eapply Permutation_trans; [symmetry; exact H|exact H']. Qed.

Lemma side_uses_image m u v t s : imaged m t s ->
  (forall x y, In x (u :: v :: corners t) -> In y (u :: v :: corners t) -> m x = m y -> x = y) ->
  side_uses (m u) (m v) s = side_uses u v t.
Proof.
  intros Hi Hinj. rewrite <- (side_uses_perm (m u) (m v) (map_tri m t) s) by (rewrite corners_map_tri; exact Hi).
  destruct t as [[a b] c]. cbn [map_tri side_uses]. cbn [corners] in Hinj.
  assert (E : forall x y, In x [u; v; a; b; c] -> In y [u; v; a; b; c] -> (m x =? m y) = (x =? y)).
  { intros x y Hx Hy. destruct (Nat.eqb_spec x y) as [->|Hne]; [apply Nat.eqb_refl|].
    apply Nat.eqb_neq. intros Heq. apply Hne. now apply Hinj. }
  unfold same_pair. rewrite !E by (simpl; auto 10). reflexivity.
Qed.
Lemma edge_uses_image m u v ts1 t' : Forall2 (imaged m) ts1 t' ->
  (forall x y, In x (u :: v :: flat_map corners ts1) -> In y (u :: v :: flat_map corners ts1) -> m x = m y -> x = y) ->
  edge_uses (m u) (m v) t' = edge_uses u v ts1.
Proof.
  induction 1 as [|t s ts1 t' H HF IH]; intros Hinj; auto. rewrite !edge_uses_cons. f_equal.
  - apply side_uses_image; auto. intros x y Hx Hy. apply Hinj; simpl in *; rewrite in_app_iff; tauto.
  - apply IH. intros x y Hx Hy. apply Hinj; simpl in *; rewrite in_app_iff; tauto.
Qed.

(** * One call of fix_mesh with delete_unused=True *)
Section Fix.
  Variable kleb : Z * Z -> Z * Z -> bool.
  Hypothesis Hk : total_order kleb.
  Variable ptol : Q.

  Lemma fix_match p ts p' t' jx : fix_mesh kleb ptol p ts true = Ok (p', t', jx) ->
    exists m ts1 rest, Permutation ts (ts1 ++ rest) /\ Forall2 (imaged m) ts1 t' /\
      all_used (length p') t' /\
      (forall x, x < length p' -> exists u, m u = x /\ u < length p /\ exists t, In t ts /\ In u (corners t)) /\
      (forall t u, In t ts -> In u (corners t) -> m u < length p').
  Proof.
    intros Hf. assert (Hr : p <> [] /\ Forall (in_range (length p)) ts) by (eapply fix_mesh_total; eauto).
    destruct Hr as [_ Hr].
    destruct (fix_mesh_inv kleb ptol Hk _ _ _ _ _ _ Hf) as (m & H1 & H2 & H3 & H4 & H5 & H6 & H7 & H8 & H9 & _).
    destruct (match_faces (imaged m) t' ts) as (ts1 & rest & HP & HF); auto.
    { apply imaged_fun. }
    assert (Hused : all_used (length p') t').
    { intros v. split; [now apply H9|]. intros (t & Ht & Hv). specialize (H8 t Ht). unfold in_range in H8.
      rewrite Forall_forall in H8. auto. }
    exists m, ts1, rest. split; auto. split; auto. split; auto. split.
    - intros x Hx. destruct (proj1 (Hused x) Hx) as (s & Hs & Hin). destruct (H5 s Hs) as (t & Ht & Hp).
      apply (Permutation_in _ (Permutation_sym Hp)) in Hin. apply in_map_iff in Hin. destruct Hin as (u & Hu & Hin).
      exists u. split; auto. rewrite Forall_forall in Hr. specialize (Hr t Ht). unfold in_range in Hr.
      rewrite Forall_forall in Hr. split; eauto.
    - intros t u Ht Hu. apply H1; [|right; eauto]. rewrite Forall_forall in Hr. specialize (Hr t Ht). unfold in_range in Hr.
      rewrite Forall_forall in Hr. auto.
  Qed.

  Lemma Forall2_length' {A B} (R : A -> B -> Prop) l m : Forall2 R l m -> length l = length m.
  Proof. induction 1; simpl; auto. Qed.

  Lemma fix_smaller p ts p' t' jx : fix_mesh kleb ptol p ts true = Ok (p', t', jx) ->
    length p' <= length p /\ length t' <= length ts.
  Proof.
    intros Hf. destruct (fix_match _ _ _ _ _ Hf) as (m & ts1 & rest & HP & HF & _ & Hs & _). split.
    - rewrite <- (seq_length (length p') 0), <- (seq_length (length p) 0), <- (map_length m (seq 0 (length p))).
      apply NoDup_incl_length; [apply seq_NoDup|]. intros x Hx. apply in_seq in Hx.
      destruct (Hs x) as (u & <- & Hu & _); [lia|]. apply in_map, in_seq. lia.
    - rewrite (Permutation_length HP), app_length, (Forall2_length' _ _ _ HF). lia.
  Qed.

  (** If nothing is lost, the renumbering keeps crowded boundaries crowded. *)
  Lemma surj_inj (m : nat -> nat) n (U : nat -> Prop) : (forall x, x < n -> exists u, m u = x /\ u < n /\ U u) ->
    forall x y, x < n -> y < n -> m x = m y -> x = y.
  Proof.
    intros H x y Hx Hy E. destruct (Nat.eq_dec x y) as [|Hne]; auto. exfalso.
    assert (Hl : incl (seq 0 n) (map m (filter (fun i => negb (i =? y)) (seq 0 n)))).
    { intros z Hz. apply in_seq in Hz. destruct (H z) as (u & Hu & Hun & _); [lia|].
      destruct (Nat.eq_dec u y) as [->|Huy].
      - apply in_map_iff. exists x. split; [congruence|]. apply filter_In. split; [apply in_seq; lia|].
        apply negb_true_iff, Nat.eqb_neq. auto.
      - apply in_map_iff. exists u. split; auto. apply filter_In. split; [apply in_seq; lia|].
        apply negb_true_iff, Nat.eqb_neq. auto. }
    apply NoDup_incl_length in Hl; [|apply seq_NoDup]. rewrite map_length, seq_length in Hl.
    assert (Hlt : length (filter (fun i => negb (i =? y)) (seq 0 n)) < n); [|lia].
    assert (Hnd : NoDup (y :: filter (fun i => negb (i =? y)) (seq 0 n))).
    { constructor; [|apply NoDup_filter, seq_NoDup]. rewrite filter_In, Nat.eqb_refl. simpl. intros [_ ?]. discriminate. }
    apply (NoDup_lt_length _ n) in Hnd; [simpl in Hnd; lia|]. intros i [<-|Hi]; auto. apply filter_In in Hi.
    destruct Hi as [Hi _]. apply in_seq in Hi. lia.
  Qed.

  Lemma fix_crowded p ts p' t' jx : fix_mesh kleb ptol p ts true = Ok (p', t', jx) ->
    length p' = length p -> length t' = length ts ->
    length (bverts ts) < length (get_boundary_edges ts) ->
    length (bverts t') < length (get_boundary_edges t').
  Proof.
    intros Hf Hlp Hlt Hcr. destruct (fix_match _ _ _ _ _ Hf) as (m & ts1 & rest & HP & HF & Hu & Hs & Hm).
    assert (Hrest : rest = []).
    { apply length_zero_iff_nil. pose proof (Permutation_length HP) as HL. rewrite app_length, (Forall2_length' _ _ _ HF) in HL. lia. }
    subst rest. rewrite app_nil_r in HP.
    assert (Hr : Forall (in_range (length p)) ts) by (eapply fix_mesh_total; eauto).
    assert (Hinj : forall x y, x < length p -> y < length p -> m x = m y -> x = y).
    { apply surj_inj with (U := fun _ => True). intros x Hx. destruct (Hs x) as (u & H1 & H2 & _); [lia|]. eauto. }
    assert (Hlt1 : forall t x, In t ts -> In x (corners t) -> x < length p).
    { intros t x Ht Hx. rewrite Forall_forall in Hr. specialize (Hr t Ht). unfold in_range in Hr. rewrite Forall_forall in Hr. auto. }
    assert (Hfl : forall x, In x (flat_map corners ts1) -> x < length p).
    { intros x Hx. apply in_flat_map in Hx. destruct Hx as (t & Ht & Hx).
      apply (Permutation_in _ (Permutation_sym HP)) in Ht. eauto. }
    assert (Huse : forall u v, u < length p -> v < length p -> edge_uses (m u) (m v) t' = edge_uses u v ts).
    { intros u v Hu' Hv'. rewrite (edge_uses_perm u v ts ts1 HP). apply edge_uses_image; auto.
      intros x y Hx Hy. apply Hinj; [destruct Hx as [<-|[<-|Hx]]|destruct Hy as [<-|[<-|Hy]]]; auto. }
    apply Nat.le_lt_trans with (length (bverts ts)); [|apply Nat.lt_le_trans with (length (get_boundary_edges ts)); auto].
    - rewrite <- (map_length m (bverts ts)). apply NoDup_incl_length; [apply bverts_NoDup|].
      intros x Hx. apply bverts_In, boundary_ends_In in Hx. destruct Hx as (y & Hy).
      assert (Hxp : x < length p').
      { apply Hu. apply (edge_uses_corner t' y x). lia. }
      assert (Hyp : y < length p').
      { apply Hu. apply (edge_uses_corner t' x y). rewrite edge_uses_sym. lia. }
      destruct (Hs x Hxp) as (u & <- & Hu1 & _). destruct (Hs y Hyp) as (v & <- & Hv1 & _).
      apply in_map. apply bverts_In, boundary_ends_In. exists v. rewrite <- Huse; auto.
    - rewrite <- (map_length (fun e => sort_edge (m (fst e), m (snd e))) (get_boundary_edges ts)).
      apply NoDup_incl_length.
      + apply NoDup_map_inv'; [apply get_boundary_edges_NoDup|].
        intros [a b] [c d] H1 H2 E. apply get_boundary_edges_In in H1, H2. destruct H1 as [Hab H1], H2 as [Hcd H2].
        assert (a < length p /\ b < length p) as [Ha Hb].
        { split; [destruct (edge_uses_corner ts b a) as (t & Ht & Hc); [rewrite edge_uses_sym; lia|]|destruct (edge_uses_corner ts a b) as (t & Ht & Hc); [lia|]]; eauto. }
        assert (c < length p /\ d < length p) as [Hc Hd].
        { split; [destruct (edge_uses_corner ts d c) as (t & Ht & Hc'); [rewrite edge_uses_sym; lia|]|destruct (edge_uses_corner ts c d) as (t & Ht & Hc'); [lia|]]; eauto. }
        unfold sort_edge in E. cbn [fst snd] in E. injection E as E1 E2.
        assert ((m a = m c /\ m b = m d) \/ (m a = m d /\ m b = m c)) as [[Ea Eb]|[Ea Eb]] by lia;
          apply Hinj in Ea; apply Hinj in Eb; auto; f_equal; lia.
      + intros e He. apply in_map_iff in He. destruct He as ([a b] & <- & He). apply get_boundary_edges_In in He. destruct He as [Hab He].
        assert (a < length p /\ b < length p) as [Ha Hb].
        { split; [destruct (edge_uses_corner ts b a) as (t & Ht & Hc); [rewrite edge_uses_sym; lia|]|destruct (edge_uses_corner ts a b) as (t & Ht & Hc); [lia|]]; eauto. }
        cbn [fst snd]. unfold sort_edge; cbn [fst snd]. apply get_boundary_edges_In. split; [lia|].
        rewrite <- He, <- (Huse a b Ha Hb).
        destruct (Nat.min_spec (m a) (m b)) as [[? ->]|[? ->]], (Nat.max_spec (m a) (m b)) as [[? ->]|[? ->]]; try lia; auto using edge_uses_sym.
  Qed.

  (** * Well separated points: nothing is merged *)
  Lemma no_two_nth {A} (R : A -> A -> Prop) d l : no_two R l <->
    forall i j, i < j -> j < length l -> ~ R (nth i l d) (nth j l d).
  Proof.
    unfold no_two. split.
    - induction 1 as [|a l Hf HF IH]; intros i j Hij Hj; [simpl in Hj; lia|].
      destruct j as [|j]; [lia|]. destruct i as [|i]; simpl.
      + rewrite Forall_forall in Hf. apply Hf, nth_In. simpl in Hj. lia.
      + apply IH; simpl in Hj; lia.
    - induction l as [|a l IH]; intros H; constructor.
      + apply Forall_forall. intros x Hx. destruct (In_nth _ _ d Hx) as (k & Hkk & <-). apply (H 0 (S k)); simpl; lia.
      + apply IH. intros i j Hij Hj. apply (H (S i) (S j)); simpl; lia.
  Qed.
  Lemma near_sym d a b : near d a b -> near d b a.
  Proof. intros [H1 H2]. split; rewrite Qabs_Qminus; auto. Qed.
  Lemma no_two_index (p : list point) d i j : no_two (near d) p -> i < length p -> j < length p ->
    near d (nth i p (0, 0)%Q) (nth j p (0, 0)%Q) -> i = j.
  Proof.
    intros Hn Hi Hj HR. rewrite (no_two_nth (near d) (0, 0)%Q) in Hn.
    destruct (lt_eq_lt_dec i j) as [[H|H]|H]; auto; exfalso.
    - exact (Hn i j H Hj HR).
    - apply (Hn j i H Hi). now apply near_sym.
  Qed.

  Lemma fix_separated p ts p' t' jx : (0 < ptol)%Q -> separated ptol p -> fix_mesh kleb ptol p ts true = Ok (p', t', jx) ->
    separated ptol p' /\
    exists m ts1 rest, Permutation ts (ts1 ++ rest) /\ Forall2 (imaged m) ts1 t' /\
      (forall t, In t ts -> exists s, In s t' /\ imaged m t s) /\
      (forall t u, In t ts -> In u (corners t) -> nth (m u) p' (0, 0)%Q = nth u p (0, 0)%Q) /\
      (forall t u s v, In t ts -> In u (corners t) -> In s ts -> In v (corners s) -> m u = m v -> u = v).
  Proof.
    intros Hpt (e & He & Hn) Hf.
    assert (Hr : Forall (in_range (length p)) ts) by (eapply fix_mesh_total; eauto).
    destruct (fix_mesh_inv kleb ptol Hk _ _ _ _ _ _ Hf) as (m & H1 & H2 & H3 & H4 & H5 & H6 & H7 & H8 & H9 & _).
    assert (Hkey : forall i j, i < length p -> j < length p ->
       snap_key (snap_size p ptol) (nth i p (0, 0)%Q) = snap_key (snap_size p ptol) (nth j p (0, 0)%Q) -> i = j).
    { intros i j Hi Hj E. apply (no_two_index p (e * ptol)); auto. eapply same_cell_near; eauto; now apply nth_In. }
    assert (Hlt1 : forall t x, In t ts -> In x (corners t) -> x < length p).
    { intros t x Ht Hx. rewrite Forall_forall in Hr. specialize (Hr t Ht). unfold in_range in Hr. rewrite Forall_forall in Hr. auto. }
    split.
    - exists e. split.
      + intros a b Ha Hb. apply He; auto.
      + apply (no_two_nth (near (e * ptol)) (0, 0)%Q). intros a b Hab Hb HR.
        assert (Hina : In (nth a p' (0, 0)%Q) p) by (apply H3, nth_In; lia).
        assert (Hinb : In (nth b p' (0, 0)%Q) p) by (now apply H3, nth_In).
        destruct (In_nth _ _ (0, 0)%Q Hina) as (ka & Hka & Eka). destruct (In_nth _ _ (0, 0)%Q Hinb) as (kb & Hkb & Ekb).
        rewrite <- Eka, <- Ekb in HR. apply no_two_index in HR; auto. subst kb.
        assert (a = b); [|lia]. apply (NoDup_key_index _ _ (0, 0)%Q _ _ H2); try lia. congruence.
    - destruct (match_faces (imaged m) t' ts) as (ts1 & rest & HP & HF); auto.
      { apply imaged_fun. }
      exists m, ts1, rest. split; auto. split; auto. split; [exact H4|]. split.
      + intros t u Ht Hu. destruct (H1 u) as [Hm1 Hm2]; [eauto|right; eauto|].
        assert (Hin : In (nth (m u) p' (0, 0)%Q) p) by (now apply H3, nth_In).
        destruct (In_nth _ _ (0, 0)%Q Hin) as (k & Hk1 & Hk2). rewrite <- Hk2 in Hm2.
        apply Hkey in Hm2; eauto. subst k. auto.
      + intros t u s v Ht Hu Hs Hv E. destruct (H1 u) as [Hm1 Hm2]; [eauto|right; eauto|].
        destruct (H1 v) as [Hm3 Hm4]; [eauto|right; eauto|]. apply Hkey; eauto. rewrite Hm2, Hm4, E. reflexivity.
  Qed.

  Lemma fix_sub p ts p' t' jx : (0 < ptol)%Q -> separated ptol p -> fix_mesh kleb ptol p ts true = Ok (p', t', jx) ->
    separated ptol p' /\ submesh p ts p' t' /\
    (forall t, In t ts -> exists s, In s t' /\ Permutation (corner_points p t) (corner_points p' s)) /\
    (manifold ts -> manifold t') /\ (Forall nondegenerate ts -> Forall nondegenerate t').
  Proof.
    intros Hpt Hsep Hf. destruct (fix_separated _ _ _ _ _ Hpt Hsep Hf) as (Hs' & m & ts1 & rest & HP & HF & Hall & Hpts & Hinj).
    assert (Hin1 : forall t, In t ts1 -> In t ts).
    { intros t Ht. apply (Permutation_in _ (Permutation_sym HP)). apply in_or_app. now left. }
    assert (Hcp : forall t s, In t ts -> imaged m t s -> Permutation (corner_points p t) (corner_points p' s)).
    { intros t s Ht Hi. unfold corner_points. apply Permutation_trans with (map (fun i => nth i p' (0, 0)%Q) (map m (corners t))).
      - rewrite map_map. erewrite map_ext_in; [reflexivity|]. intros u Hu. symmetry. eapply Hpts; eauto.
      - now apply Permutation_map. }
    split; auto. split; [|split; [|split]].
    - split; [destruct (fix_mesh_inv kleb ptol Hk _ _ _ _ _ _ Hf) as (m0 & G); apply G|].
      intros s Hs. destruct (Forall2_In_r _ _ _ _ HF Hs) as (t & Ht & Hi). exists t. split; auto.
    - intros t Ht. destruct (Hall t Ht) as (s & Hs & Hi). exists s. split; auto.
    - intros Hm x y. destruct (le_lt_dec (edge_uses x y t') 2) as [|Hgt]; auto. exfalso.
      assert (Hpre : forall z, (exists s, In s t' /\ In z (corners s)) -> exists u t, m u = z /\ In t ts1 /\ In u (corners t)).
      { intros z (s & Hs & Hz). destruct (Forall2_In_r _ _ _ _ HF Hs) as (t & Ht & Hi).
        apply (Permutation_in _ (Permutation_sym Hi)) in Hz. apply in_map_iff in Hz. destruct Hz as (u & Hu & Hin). eauto. }
      destruct (Hpre x) as (u & t1 & <- & Ht1 & Hu). { apply (edge_uses_corner t' y x). rewrite edge_uses_sym. lia. }
      destruct (Hpre y) as (v & t2 & <- & Ht2 & Hv). { apply (edge_uses_corner t' (m u) y). lia. }
      rewrite (edge_uses_image m u v ts1 t' HF) in Hgt.
      + specialize (Hm u v). rewrite (edge_uses_perm _ _ _ _ HP), edge_uses_app in Hm. lia.
      + assert (Hmem : forall x, In x (u :: v :: flat_map corners ts1) -> exists t, In t ts /\ In x (corners t)).
        { intros z [<-|[<-|Hz]]; eauto. apply in_flat_map in Hz. destruct Hz as (t & Ht & Hz). eauto. }
        intros a b Ha Hb E. destruct (Hmem a Ha) as (ta & Hta & Hca), (Hmem b Hb) as (tb & Htb & Hcb).
        exact (Hinj ta a tb b Hta Hca Htb Hcb E).
    - intros Hn. apply Forall_forall. intros s Hs. destruct (Forall2_In_r _ _ _ _ HF Hs) as (t & Ht & Hi).
      rewrite Forall_forall in Hn. specialize (Hn t (Hin1 t Ht)).
      assert (Hnd : NoDup (corners s)).
      { eapply Permutation_NoDup; [exact Hi|]. apply NoDup_map_inv'.
        - destruct t as [[a b] c]. destruct Hn as (? & ? & ?). repeat constructor; simpl; intuition congruence.
        - intros x y Hx Hy E. eapply (Hinj t x t y); eauto. }
      destruct s as [[a b] c]. simpl in Hnd. inversion Hnd as [|? ? N1 Hnd1]; subst. inversion Hnd1 as [|? ? N2 Hnd2]; subst.
      simpl in *. repeat split; intros ->; intuition.
  Qed.
End Fix.

(** * Selecting faces *)
Lemma faces_at_perm_split ts l : NoDup l -> (forall i, In i l -> i < length ts) ->
  exists rest, Permutation ts (faces_at ts l ++ rest).
Proof.
  intros Hnd Hlt. exists (faces_at ts (kept (length ts) l)).
  unfold faces_at. rewrite <- map_app. fold (faces_at ts (l ++ kept (length ts) l)).
  rewrite <- (faces_at_all ts) at 1. apply Permutation_map. apply NoDup_Permutation; [apply seq_NoDup| |].
  - apply NoDup_app_intro; auto; [apply NoDup_filter, seq_NoDup|]. intros x Hx. rewrite kept_In. tauto.
  - intros i. rewrite in_app_iff, in_seq, kept_In. specialize (Hlt i). destruct (in_dec Nat.eq_dec i l); intuition lia.
Qed.
Lemma faces_at_manifold ts l : NoDup l -> (forall i, In i l -> i < length ts) -> manifold ts -> manifold (faces_at ts l).
Proof.
  intros Hnd Hlt Hm u v. destruct (faces_at_perm_split ts l Hnd Hlt) as (rest & HP).
  specialize (Hm u v). rewrite (edge_uses_perm _ _ _ _ HP), edge_uses_app in Hm. lia.
Qed.
Lemma faces_at_Forall (P : tri -> Prop) ts l : (forall i, In i l -> i < length ts) -> Forall P ts -> Forall P (faces_at ts l).
Proof.
  intros Hlt HF. rewrite Forall_forall in *. intros t Ht. apply HF. eapply faces_at_In; eauto.
Qed.
Lemma kept_NoDup n del : NoDup (kept n del).
Proof. apply NoDup_filter, seq_NoDup. Qed.
Lemma kept_in_lt n del i : In i (kept n del) -> i < n.
Proof. intros H. now apply kept_In in H. Qed.

(** * The loop *)
Section Loop.
  Variable argsort : list nat -> list nat.
  Hypothesis Ha : is_argsort argsort.
  Variable kleb : Z * Z -> Z * Z -> bool.
  Hypothesis Hk : total_order kleb.
  Variable qual : list point -> tri -> option Q.
  Variable draw : nat -> nat -> nat -> nat.
  Hypothesis Hdraw : forall c k n, 0 < n -> draw c k n < n.
  Variable m : Q.
  Hypothesis Hm : (0 <= m)%Q.

  Lemma ptol_pos : (0 < ptol_default)%Q. Proof. reflexivity. Qed.

  (** One pass of the loop. *)
  Lemma pass p ts c : Forall (in_range (length p)) ts -> length (bverts ts) < length (get_boundary_edges ts) ->
    exists keep, delete_exterior_faces argsort (draw c) p ts m = Ok (faces_at ts keep) /\
      NoDup keep /\ (forall i, In i keep -> i < length ts) /\
      (keep <> [] -> exists p1 t2 j1, fix0 kleb p (faces_at ts keep) = Ok (p1, t2, j1) /\
         (~ has_boundary t2 -> delete_interior_faces argsort qual p1 t2 = Raise IndexError) /\
         (has_boundary t2 -> exists del p2 t3 j2,
         delete_interior_faces argsort qual p1 t2 = Ok (faces_at t2 (kept (length t2) del), del) /\
         fix0 kleb p1 (faces_at t2 (kept (length t2) del)) = Ok (p2, t3, j2) /\
         Forall (in_range (length p2)) t3 /\
         length p2 + length t3 < length p + length ts)).
  Proof.
    intros Hr Hcr. destruct (exterior_total argsort (draw c) p ts m Ha (Hdraw c) Hr Hm) as (keep & K1 & K2 & K3 & K4).
    exists keep. split; auto. split; auto. split; auto. intros Hne.
    assert (Hpne : p <> []).
    { intros ->. destruct keep as [|i keep]; [congruence|]. specialize (K3 i (or_introl eq_refl)).
      rewrite Forall_forall in Hr. specialize (Hr (nth i ts no_face) (nth_In _ _ K3)).
      destruct (nth i ts no_face) as [[a b] d]. inversion Hr; subst. simpl in *; lia. }
    assert (Hr1 : Forall (in_range (length p)) (faces_at ts keep)) by (now apply faces_at_Forall).
    destruct (proj2 (fix_mesh_total kleb ptol_default Hk p (faces_at ts keep) true)) as ([[p1 t2] j1] & Hf1); auto.
    destruct (fix_match kleb Hk ptol_default _ _ _ _ _ Hf1) as (m1 & ts1 & rest & HP1 & HF1 & Hu1 & Hs1 & _).
    destruct (fix_smaller kleb Hk ptol_default _ _ _ _ _ Hf1) as [Hlp Hlt]. rewrite faces_at_length in Hlt.
    exists p1, t2, j1. split; [exact Hf1|]. split.
    { intros Hb. unfold delete_interior_faces. now rewrite external_topology_closed. }
    intros Hbd. destruct (interior_spec argsort Ha qual p1 t2 Hu1 Hbd) as (del & D1 & D2 & D3).
    assert (Hp1 : p1 <> []).
    { assert (Ht2 : exists s, In s t2).
      { destruct (fix_mesh_inv kleb ptol_default Hk _ _ _ _ _ _ Hf1) as (m0 & _ & _ & _ & G & _).
        destruct keep as [|i keep]; [congruence|]. destruct (G (nth i ts no_face) (or_introl eq_refl)) as (s & Hs & _). eauto. }
      destruct Ht2 as (s & Hs). intros ->. destruct s as [[x y] z].
      assert (x < 0) by (apply Hu1; exists (x, y, z); split; simpl; auto). lia. }
    pose proof (all_used_range _ _ Hu1) as Hr2.
    destruct (proj2 (fix_mesh_total kleb ptol_default Hk p1 (faces_at t2 (kept (length t2) del)) true)) as ([[p2 t3] j2] & Hf2).
    { split; auto. apply faces_at_Forall; auto. apply kept_in_lt. }
    destruct (fix_match kleb Hk ptol_default _ _ _ _ _ Hf2) as (m2 & ts2 & rest2 & HP2 & HF2 & Hu2 & _).
    destruct (fix_smaller kleb Hk ptol_default _ _ _ _ _ Hf2) as [Hlp2 Hlt2]. rewrite faces_at_length in Hlt2.
    exists del, p2, t3, j2. split; [exact D1|]. split; [exact Hf2|]. split; [now apply all_used_range|].
    pose proof (NoDup_lt_length keep (length ts) K2 K3). pose proof (kept_le (length t2) del).
    destruct (le_lt_dec (length p + length ts) (length p2 + length t3)) as [Hbad|]; auto. exfalso.
    assert (Hkl : length keep = length ts) by lia.
    assert (HPk : Permutation ts (faces_at ts keep)).
    { destruct (faces_at_perm_split ts keep K2 K3) as (r & HPr). pose proof (Permutation_length HPr) as HL.
      rewrite app_length, faces_at_length in HL. destruct r; [now rewrite app_nil_r in HPr|simpl in HL; lia]. }
    assert (Hcr1 : length (bverts t2) < length (get_boundary_edges t2)).
    { apply (fix_crowded kleb Hk ptol_default _ _ _ _ _ Hf1); try rewrite faces_at_length; try lia.
      assert (HE : Permutation (get_boundary_edges ts) (get_boundary_edges (faces_at ts keep))).
      { apply NoDup_Permutation; try apply get_boundary_edges_NoDup. intros [a b].
        rewrite !get_boundary_edges_In, (edge_uses_perm _ _ _ _ HPk). reflexivity. }
      assert (HV : Permutation (bverts ts) (bverts (faces_at ts keep))).
      { apply NoDup_Permutation; try apply bverts_NoDup. intros v. rewrite !bverts_In, !boundary_ends_In.
        split; intros (u & Hu); exists u; rewrite <- Hu; [symmetry|]; now apply edge_uses_perm. }
      rewrite <- (Permutation_length HE), <- (Permutation_length HV). exact Hcr. }
    destruct (crowded t2 Hcr1) as (v & Hv). destruct (D2 v Hv) as (f & Hf & Hch).
    assert (length (kept (length t2) del) < length t2) by (eapply kept_lt; eauto; apply Hch). lia.
  Qed.

  Lemma traversable_total fuel : forall c p ts, Forall (in_range (length p)) ts -> length p + length ts < fuel ->
    (exists r, traversable_loop argsort kleb qual fuel draw c p ts m = Ok r) \/
    traversable_loop argsort kleb qual fuel draw c p ts m = Raise IndexError.
  Proof.
    induction fuel as [|fuel IH]; intros c p ts Hr Hlt; [lia|]. cbn [traversable_loop].
    destruct (has_boundary_dec ts) as [Hb|Hb]; [|right; now rewrite external_topology_closed].
    rewrite external_topology_ok by auto. cbn [bind fst snd].
    destruct (Nat.leb_spec (length (get_boundary_edges ts)) (length (bverts ts))) as [Hle|Hgt]; [left; eauto|].
    destruct (pass p ts c Hr Hgt) as (keep & K1 & K2 & K3 & K4). rewrite K1. cbn [bind].
    destruct keep as [|i keep]; [right; reflexivity|].
    destruct K4 as (p1 & t2 & j1 & F1 & D0 & D); [discriminate|].
    cbn [faces_at map] in *. rewrite F1. cbn [bind].
    destruct (has_boundary_dec t2) as [Hb2|Hb2]; [|right; now rewrite (D0 Hb2)].
    destruct (D Hb2) as (del & p2 & t3 & j2 & D1 & F2 & Hr3 & Hsm). rewrite D1. cbn [bind fst]. rewrite F2. cbn [bind].
    apply IH; auto. lia.
  Qed.

  Lemma traversable_result fuel : forall c p ts p' t', Forall (in_range (length p)) ts -> 
    traversable_loop argsort kleb qual fuel draw c p ts m = Ok (p', t') ->
    has_boundary t' /\ length (get_boundary_edges t') <= length (bverts t') /\
    (separated ptol_default p -> submesh p ts p' t' /\ separated ptol_default p' /\ (manifold ts -> manifold t') /\
       (Forall nondegenerate ts -> Forall nondegenerate t')).
  Proof.
    induction fuel as [|fuel IH]; intros c p ts p' t' Hr; [discriminate|]. cbn [traversable_loop].
    destruct (has_boundary_dec ts) as [Hb|Hb]; [|rewrite external_topology_closed by auto; discriminate].
    rewrite external_topology_ok by auto. cbn [bind fst snd].
    destruct (Nat.leb_spec (length (get_boundary_edges ts)) (length (bverts ts))) as [Hle|Hgt].
    - intros H. injection H as <- <-. split; auto. split; auto. intros Hs. split; [|auto]. split; [apply incl_refl|].
      intros s Hs'. exists s. split; auto.
    - destruct (pass p ts c Hr Hgt) as (keep & K1 & K2 & K3 & K4). rewrite K1. cbn [bind].
      destruct keep as [|i keep]; [discriminate|].
      destruct K4 as (p1 & t2 & j1 & F1 & D0 & D); [discriminate|].
      set (ks := i :: keep) in *. change (nth i ts no_face :: map (fun i => nth i ts no_face) keep) with (faces_at ts ks) in *.
      replace (match faces_at ts ks with [] => Raise IndexError | _ :: _ => fix0 kleb p (faces_at ts ks) end) with (fix0 kleb p (faces_at ts ks)) by reflexivity.
      rewrite F1. cbn [bind].
      destruct (has_boundary_dec t2) as [Hb2|Hb2]; [|rewrite (D0 Hb2); discriminate].
      destruct (D Hb2) as (del & p2 & t3 & j2 & D1 & F2 & Hr3 & Hsm).
      rewrite D1. cbn [bind fst]. rewrite F2. cbn [bind]. intros H.
      destruct (IH _ _ _ _ _ Hr3 H) as (G0 & G1 & G2). split; auto. split; auto. intros Hs.
      destruct (fix_sub kleb Hk ptol_default _ _ _ _ _ ptol_pos Hs F1) as (S1 & B1 & _ & M1 & N1).
      destruct (fix_sub kleb Hk ptol_default _ _ _ _ _ ptol_pos S1 F2) as (S2 & B2 & _ & M2 & N2).
      destruct (G2 S2) as (B3 & S3 & M3 & N3).
      split; [|split; [auto|split]].
      + split.
        * intros x Hx. apply B1, B2, B3. exact Hx.
        * intros s Hs'. destruct (proj2 B3 s Hs') as (s3 & Hs3 & P3). destruct (proj2 B2 s3 Hs3) as (s2 & Hs2 & P2).
          apply faces_at_In in Hs2; [|apply kept_in_lt].
          destruct (proj2 B1 s2 Hs2) as (s1 & Hs1 & P1). apply faces_at_In in Hs1; auto.
          exists s1. split; auto. eapply Permutation_trans; [exact P1|]. eapply Permutation_trans; eauto.
      + intros Hmf. apply M3, M2. apply faces_at_manifold; [apply kept_NoDup|apply kept_in_lt|]. apply M1.
        now apply faces_at_manifold.
      + intros Hnd. apply N3, N2. apply faces_at_Forall; [apply kept_in_lt|]. apply N1. now apply faces_at_Forall.
  Qed.

  Lemma mmbt_total p ts : Forall (in_range (length p)) ts ->
    (exists r, make_mesh_boundaries_traversable argsort kleb qual draw p ts m = Ok r) \/
    make_mesh_boundaries_traversable argsort kleb qual draw p ts m = Raise IndexError.
  Proof. intros Hr. apply traversable_total; auto. Qed.

  Lemma mmbt_exit p ts p' t' : Forall (in_range (length p)) ts ->
    make_mesh_boundaries_traversable argsort kleb qual draw p ts m = Ok (p', t') ->
    (manifold t' -> Forall nondegenerate t' -> traversable t').
  Proof.
    intros Hr H Hmf Hnd. apply exit_traversable; auto. eapply (traversable_result _ _ _ _ _ _ Hr H).
  Qed.

  Lemma mmbt_spec p ts p' t' : Forall (in_range (length p)) ts -> separated ptol_default p -> manifold ts -> Forall nondegenerate ts ->
    make_mesh_boundaries_traversable argsort kleb qual draw p ts m = Ok (p', t') ->
    traversable t' /\ submesh p ts p' t' /\ manifold t' /\ Forall nondegenerate t'.
  Proof.
    intros Hr Hs Hmf Hnd H. destruct (traversable_result _ _ _ _ _ _ Hr H) as (_ & H1 & H2).
    destruct (H2 Hs) as (B & _ & M & N). split; auto. apply exit_traversable; auto.
  Qed.

  Lemma mmbt_boundary p ts p' t' : Forall (in_range (length p)) ts ->
    make_mesh_boundaries_traversable argsort kleb qual draw p ts m = Ok (p', t') -> has_boundary t'.
  Proof. intros Hr H. eapply (traversable_result _ _ _ _ _ _ Hr H). Qed.
  Lemma mmbt_closed p ts : ~ has_boundary ts -> make_mesh_boundaries_traversable argsort kleb qual draw p ts m = Raise IndexError.
  Proof. intros Hb. unfold make_mesh_boundaries_traversable. cbn [traversable_loop]. now rewrite external_topology_closed. Qed.
  Lemma mmbt_noop p ts : Forall (in_range (length p)) ts -> Forall nondegenerate ts -> has_boundary ts -> traversable ts ->
    make_mesh_boundaries_traversable argsort kleb qual draw p ts m = Ok (p, ts).
  Proof.
    intros Hr Hn Hb Ht. unfold make_mesh_boundaries_traversable. cbn [traversable_loop].
    rewrite external_topology_ok by auto. cbn [bind fst snd]. rewrite (traversable_exit ts Hn Ht), Nat.leb_refl. reflexivity.
  Qed.
End Loop.
