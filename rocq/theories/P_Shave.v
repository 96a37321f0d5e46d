(** Removing dangling faces keeps the boundary traversable. *)
From Coq Require Import List Arith Bool Lia Relations Permutation Sorted ZArith QArith.
From Verif Require Import M_Base M_Numpy M_Edges M_FixMesh M_Adjacency M_Clean.
From Verif Require Import S_Edges S_FixMesh S_Adjacency S_Clean Util P_Edges P_FixMesh P_Adjacency P_Search P_Exterior P_Interior P_Traversable P_OneFace P_MeshClean.
From Verif Require Import S_Survive S_Shave P_CleanMore P_Survive.
Import ListNotations.
Open Scope nat_scope.

(** * Boundary degrees as lengths *)
Definition bnbs (ts : list face) (v : nat) : list nat := filter (fun u => edge_uses u v ts =? 1) (seq 0 (vbound ts)).
Lemma bnbs_In ts v u : In u (bnbs ts v) <-> edge_uses u v ts = 1.
Proof.
  unfold bnbs. rewrite filter_In, in_seq, Nat.eqb_eq. split; [tauto|]. intros H. split; auto.
  assert (u < vbound ts) by (apply (edge_uses_lt ts u v); lia). lia.
Qed.
Lemma bnbs_NoDup ts v : NoDup (bnbs ts v).
Proof. apply NoDup_filter, seq_NoDup. Qed.
Lemma degree_le_map ts v ts' v' (g : nat -> nat) : (forall u, edge_uses u v ts = 1 -> edge_uses (g u) v' ts' = 1) ->
  (forall u w, edge_uses u v ts = 1 -> edge_uses w v ts = 1 -> g u = g w -> u = w) -> boundary_degree ts v <= boundary_degree ts' v'.
Proof.
  intros H I. change (length (bnbs ts v) <= length (bnbs ts' v')). rewrite <- (map_length g (bnbs ts v)).
  apply NoDup_incl_length.
  - assert (G : forall l, NoDup l -> incl l (bnbs ts v) -> NoDup (map g l)).
    { induction l as [|x l IH]; cbn; intros N J; [constructor|]. inversion N; subst. constructor.
      - rewrite in_map_iff. intros (w & E & W). assert (w = x) by (apply I; auto; apply bnbs_In, J; cbn; auto). congruence.
      - apply IH; auto. intros z Z. apply J. now right. }
    apply G; [apply bnbs_NoDup|apply incl_refl].
  - intros x Hx. apply in_map_iff in Hx. destruct Hx as (u & <- & U). apply bnbs_In, H, bnbs_In, U.
Qed.

(** * One face with one interior side *)
Definition third (u v : nat) (t : face) : nat := let '(a, b, c) := t in a + b + c - u - v.
Lemma side_cases u v a b c : side_uses u v (a, b, c) >= 1 ->
  (u = a /\ v = b) \/ (u = b /\ v = a) \/ (u = b /\ v = c) \/ (u = c /\ v = b) \/ (u = c /\ v = a) \/ (u = a /\ v = c).
Proof.
  unfold side_uses, same_pair. intros H.
  destruct (Nat.eqb_spec u a), (Nat.eqb_spec v b), (Nat.eqb_spec u b), (Nat.eqb_spec v a), (Nat.eqb_spec v c), (Nat.eqb_spec u c); cbn in H; try lia; auto 10.
Qed.
Lemma side_third a b c : a <> b -> b <> c -> a <> c ->
  side_uses a b (a, b, c) = 1 /\ side_uses b a (a, b, c) = 1 /\ side_uses b c (a, b, c) = 1 /\ side_uses c b (a, b, c) = 1 /\
  side_uses c a (a, b, c) = 1 /\ side_uses a c (a, b, c) = 1.
Proof.
  intros. unfold side_uses, same_pair. rewrite !Nat.eqb_refl.
  rewrite (proj2 (Nat.eqb_neq a b)), (proj2 (Nat.eqb_neq b c)), (proj2 (Nat.eqb_neq a c)), (proj2 (Nat.eqb_neq b a)), (proj2 (Nat.eqb_neq c b)), (proj2 (Nat.eqb_neq c a)) by auto.
  cbn. auto 10.
Qed.
Lemma third_side u v t : nondegenerate t -> side_uses u v t >= 1 -> side_uses (third u v t) v t = 1 /\ third u v t <> u.
Proof.
  destruct t as [[a b] c]. intros (N1 & N2 & N3) H. destruct (side_third a b c N1 N2 N3) as (A1 & A2 & A3 & A4 & A5 & A6).
  apply side_cases in H. unfold third. cbv iota beta.
  destruct H as [[-> ->]|[[-> ->]|[[-> ->]|[[-> ->]|[[-> ->]|[-> ->]]]]]];
    first [replace (a + b + c - _ - _) with a by lia | replace (a + b + c - _ - _) with b by lia | replace (a + b + c - _ - _) with c by lia]; auto.
Qed.
Lemma third_inj u w v t : nondegenerate t -> side_uses u v t >= 1 -> side_uses w v t >= 1 -> third u v t = third w v t -> u = w.
Proof.
  destruct t as [[a b] c]. intros (N1 & N2 & N3) H G E. apply side_cases in H, G. unfold third in E. cbv iota beta in E. lia.
Qed.
Lemma dangling_other ts t u v x : nondegenerate t -> interior_sides ts t = 1 -> side_uses u v t >= 1 -> side_uses x v t >= 1 -> u <> x ->
  2 <= edge_uses u v ts -> edge_uses x v ts < 2.
Proof.
  destruct t as [[a b] c]. intros (N1 & N2 & N3) D H G Ne U. unfold interior_sides in D.
  destruct (Nat.lt_ge_cases (edge_uses x v ts) 2) as [L|L]; auto. exfalso.
  pose proof (edge_uses_sym b a ts) as S1. pose proof (edge_uses_sym c b ts) as S2. pose proof (edge_uses_sym a c ts) as S3.
  apply side_cases in H, G.
  repeat match goal with H0 : context [?y <=? ?z] |- _ => destruct (Nat.leb_spec y z) end; cbn in D; try lia;
  destruct H as [[E F]|[[E F]|[[E F]|[[E F]|[[E F]|[E F]]]]]]; rewrite E, F in *; 
  destruct G as [[E' F']|[[E' F']|[[E' F']|[[E' F']|[[E' F']|[E' F']]]]]]; rewrite E' in *; try congruence; try lia.
Qed.

(** * Removing dangling faces *)
Lemma uses_In t ts u v : In t ts -> side_uses u v t <= edge_uses u v ts.
Proof. intros I. apply in_split in I. destruct I as (a & b & ->). rewrite edge_uses_app, edge_uses_cons. lia. Qed.
Lemma uses_two t s ts u v : In t ts -> In s ts -> side_uses u v t >= 1 -> side_uses u v s >= 1 -> edge_uses u v ts <= 1 -> t = s.
Proof.
  intros I J T S' L. apply in_split in I. destruct I as (a & b & ->). rewrite edge_uses_app, edge_uses_cons in L.
  apply in_app_or in J. destruct J as [J|[J|J]]; auto; apply (uses_In s _ u v) in J; lia.
Qed.
Definition user (u v : nat) (l : list face) : face := match find (fun t => 1 <=? side_uses u v t) l with Some t => t | None => no_face end.
Lemma user_spec u v l : edge_uses u v l >= 1 -> In (user u v l) l /\ side_uses u v (user u v l) >= 1.
Proof.
  intros H. unfold user. destruct (find _ l) as [t|] eqn:E.
  - apply find_some in E. destruct E as [I E]. apply Nat.leb_le in E. auto.
  - exfalso. apply edge_uses_ge in H. destruct H as (t & I & H). apply (find_none _ _ E) in I. apply Nat.leb_gt in I. lia.
Qed.
Lemma shave_degree ts ts' rest v : manifold ts -> Forall nondegenerate ts -> Permutation ts (ts' ++ rest) ->
  (forall t, In t rest -> interior_sides ts t = 1) -> boundary_degree ts' v <= boundary_degree ts v.
Proof.
  intros M N P D.
  assert (U : forall u w, edge_uses u w ts = edge_uses u w ts' + edge_uses u w rest).
  { intros. rewrite (edge_uses_perm _ _ _ _ P). apply edge_uses_app. }
  assert (R : forall t, In t rest -> In t ts) by (intros t I; apply (Permutation_in _ (Permutation_sym P)), in_or_app; auto).
  rewrite Forall_forall in N.
  set (g u := if edge_uses u v rest =? 0 then u else third u v (user u v rest)).
  (* a new boundary edge comes from a removed face *)
  assert (A : forall u, edge_uses u v ts' = 1 -> edge_uses u v rest <> 0 ->
    In (user u v rest) rest /\ side_uses u v (user u v rest) >= 1 /\ side_uses (third u v (user u v rest)) v (user u v rest) = 1 /\
    edge_uses (third u v (user u v rest)) v ts = 1).
  { intros u E Z. destruct (user_spec u v rest) as [I S']; [lia|]. set (t := user u v rest) in *.
    destruct (third_side u v t (N t (R t I)) S') as [T Ne]. split; auto. split; auto. split; auto.
    assert (L : edge_uses (third u v t) v ts < 2).
    { apply (dangling_other ts t u v); auto; [lia|rewrite U; lia]. }
    pose proof (uses_In t ts (third u v t) v (R t I)). lia. }
  apply (degree_le_map ts' v ts v g).
  - intros u E. unfold g. destruct (Nat.eqb_spec (edge_uses u v rest) 0) as [Z|Z]; [rewrite U; lia|]. apply A; auto.
  - intros u w E F. unfold g.
    destruct (Nat.eqb_spec (edge_uses u v rest) 0) as [Z|Z], (Nat.eqb_spec (edge_uses w v rest) 0) as [Y|Y]; auto; intros G.
    + exfalso. destruct (A w F Y) as (I & S1 & S2 & S3). rewrite <- G in S2. pose proof (uses_In _ rest u v I). lia.
    + exfalso. destruct (A u E Z) as (I & S1 & S2 & S3). rewrite G in S2. pose proof (uses_In _ rest w v I). lia.
    + destruct (A u E Z) as (I & S1 & S2 & S3), (A w F Y) as (J & T1 & T2 & T3).
      assert (X : user u v rest = user w v rest).
      { apply (uses_two _ _ rest (third u v (user u v rest)) v); auto; [lia|rewrite G; lia|rewrite U in S3; lia]. }
      rewrite X in G, S1. apply (third_inj u w v (user w v rest)); auto.
Qed.
Lemma nodup_app {A} (a b : list A) : NoDup a -> NoDup b -> (forall x, In x a -> ~ In x b) -> NoDup (a ++ b).
Proof.
  induction a as [|x a IH]; cbn; intros Na Nb H; auto. inversion Na; subst. constructor.
  - rewrite in_app_iff. intros [I|I]; [auto|apply (H x); auto].
  - apply IH; auto.
Qed.
Lemma map_nth_all {A} (d : A) l : map (fun i => nth i l d) (seq 0 (length l)) = l.
Proof.
  apply (nth_ext _ _ d d); [now rewrite map_length, seq_length|]. intros n Hn. rewrite map_length, seq_length in Hn.
  rewrite (nth_indep _ d (nth 0 l d)) by now rewrite map_length, seq_length. rewrite (map_nth (fun i => nth i l d)), seq_nth by auto. reflexivity.
Qed.
Lemma shave_traversable ts keep : manifold ts -> Forall nondegenerate ts -> traversable ts -> NoDup keep -> (forall i, In i keep -> i < length ts) ->
  (forall i, i < length ts -> ~ In i keep -> dangling ts i) -> traversable (faces_at ts keep).
Proof.
  intros M N T K L D v.
  assert (B : boundary_degree (faces_at ts keep) v <= boundary_degree ts v).
  { set (gone := filter (fun i => if in_dec Nat.eq_dec i keep then false else true) (seq 0 (length ts))).
    assert (GI : forall x, In x gone <-> x < length ts /\ ~ In x keep).
    { intros x. unfold gone. rewrite filter_In, in_seq. destruct (in_dec Nat.eq_dec x keep) as [I|I]; split; intros [G1 G2]; try discriminate; try contradiction; split; auto; lia. }
    assert (P : Permutation (seq 0 (length ts)) (keep ++ gone)).
    { apply NoDup_Permutation; [apply seq_NoDup| |].
      - apply nodup_app; auto; [apply NoDup_filter, seq_NoDup|]. intros x I J. apply GI in J. tauto.
      - intros x. rewrite in_app_iff, GI, in_seq. split.
        + intros I. destruct (in_dec Nat.eq_dec x keep); auto. right. split; auto. lia.
        + intros [I|[I _]]; [apply L in I; lia|lia]. }
    apply (shave_degree ts (faces_at ts keep) (faces_at ts gone) v); auto.
    - unfold faces_at. rewrite <- map_app. rewrite <- (Permutation_map _ P). rewrite map_nth_all. reflexivity.
    - intros t I. unfold faces_at in I. apply in_map_iff in I. destruct I as (i & <- & I). apply GI in I. apply D; tauto. }
  assert (M' : manifold (faces_at ts keep)) by (apply faces_at_manifold; auto).
  assert (N' : Forall nondegenerate (faces_at ts keep)) by (apply faces_at_Forall; auto).
  destruct (degree_even _ v M' N') as (k & E). destruct (T v); lia.
Qed.

Section Loop.
  Variable argsort : list nat -> list nat.
  Hypothesis Ha : is_argsort argsort.
  Variable kleb : Z * Z -> Z * Z -> bool.
  Hypothesis Hk : total_order kleb.

  Lemma one_face_loop_keeps fuel : forall count mi p ts p' t', separated ptol_default p -> no_two same_vertices ts -> manifold ts ->
    Forall nondegenerate ts -> traversable ts -> one_face_loop argsort kleb fuel count mi p ts = Ok (p', t') ->
    traversable t' /\ manifold t' /\ Forall nondegenerate t' /\ no_two same_vertices t' /\ separated ptol_default p'.
  Proof.
    induction fuel as [|fuel IH]; intros count mi p ts p' t' Hs Hd Hm Hn Ht H; [discriminate|]. cbn [one_face_loop] in H.
    destruct (match mi with None => true | Some k => count <? k end); [|injection H as <- <-; auto].
    destruct (one_neighbour argsort ts) as [|f del] eqn:E; [injection H as <- <-; auto|].
    rewrite delete_at_faces in H. set (dl := f :: del) in *. unfold fix0 in H.
    destruct (fix_mesh kleb ptol_default p (faces_at ts (kept (length ts) dl)) true) as [[[p1 t1] j]| |] eqn:F; try discriminate. cbn [bind] in H.
    assert (M' : manifold (faces_at ts (kept (length ts) dl))) by (apply faces_at_manifold; auto; [apply kept_NoDup|apply kept_in_lt]).
    assert (N' : Forall nondegenerate (faces_at ts (kept (length ts) dl))) by (apply faces_at_Forall; auto; apply kept_in_lt).
    assert (T' : traversable (faces_at ts (kept (length ts) dl))).
    { apply shave_traversable; auto; [apply kept_NoDup|apply kept_in_lt|]. intros i I J. rewrite kept_In in J.
      destruct (in_dec Nat.eq_dec i dl) as [G|G]; [|exfalso; tauto]. rewrite <- E in G. apply one_neighbour_In in G; tauto. }
    assert (D' : no_two same_vertices (faces_at ts (kept (length ts) dl))).
    { apply faces_at_no_two; auto; [intros x y; apply Permutation_sym|apply kept_NoDup|apply kept_in_lt]. }
    destruct (fix_sub kleb Hk ptol_default _ _ _ _ _ ptol_pos Hs F) as (S1 & _ & _ & M1 & N1).
    apply (IH (S count) mi p1 t1); auto.
    - apply (fix_mesh_wf kleb ptol_default Hk) in F. apply F.
    - apply (fix_keeps_traversable kleb Hk _ _ _ _ _ Hs D' M' N' T' F).
  Qed.

  Lemma one_face_keeps mi p ts p' t' : separated ptol_default p -> no_two same_vertices ts -> manifold ts ->
    Forall nondegenerate ts -> traversable ts -> delete_faces_connected_to_one_face argsort kleb mi p ts = Ok (p', t') -> traversable t'.
  Proof.
    intros Hs Hd Hm Hn Ht H. unfold delete_faces_connected_to_one_face in H.
    destruct mi as [[|k]|]; try discriminate; apply (one_face_loop_keeps _ _ _ _ _ _ _ Hs Hd Hm Hn Ht H).
  Qed.

  (** * fix_mesh renumbers a mesh without duplicates *)
  Lemma fix_renumber p ts p' t' jx : separated ptol_default p -> no_two same_vertices ts ->
    fix_mesh kleb ptol_default p ts true = Ok (p', t', jx) ->
    exists mp ts1, Permutation ts ts1 /\ Forall2 (imaged mp) ts1 t' /\
      forall u v, (exists t, In t ts /\ In u (corners t)) -> (exists t, In t ts /\ In v (corners t)) -> edge_uses (mp u) (mp v) t' = edge_uses u v ts.
  Proof.
    intros Hsep Hnt Hf.
    destruct (fix_separated kleb Hk ptol_default _ _ _ _ _ ptol_pos Hsep Hf) as (_ & mp & ts1 & rest & HP & HF & Hall & _ & Hinj).
    assert (Hin1 : forall t, In t ts1 -> In t ts).
    { intros t Ht. apply (Permutation_in _ (Permutation_sym HP)). apply in_or_app. now left. }
    assert (rest = []).
    { destruct rest as [|t rest]; auto. exfalso.
      assert (Ht : In t ts) by (apply (Permutation_in _ (Permutation_sym HP)); apply in_or_app; right; now left).
      destruct (Hall t Ht) as (s & Hs & Hi). destruct (Forall2_In_r _ _ _ _ HF Hs) as (t1 & Ht1 & Hi1).
      apply (P_MeshClean.no_two_perm _ _ _ (fun x y H => Permutation_sym H) HP) in Hnt.
      apply (no_two_app _ _ _ t1 t Hnt Ht1); [now left|]. unfold same_vertices. apply (perm_map_inj mp).
      - intros x y Hx Hy. apply in_app_iff in Hx, Hy.
        destruct Hx as [Hx|Hx], Hy as [Hy|Hy]; eauto.
      - eapply Permutation_trans; [exact Hi1|]. now apply Permutation_sym. }
    subst rest. rewrite app_nil_r in HP. exists mp, ts1. split; auto. split; auto.
    assert (Hinj' : forall u v, (exists t, In t ts /\ In u (corners t)) -> (exists t, In t ts /\ In v (corners t)) -> mp u = mp v -> u = v).
    { intros u v (t & Ht & Hu) (s & Hs & Hv). eauto. }
    intros u v Hu' Hv'. rewrite (edge_uses_perm u v ts ts1 HP). apply edge_uses_image; auto.
    assert (G : forall x, In x (u :: v :: flat_map corners ts1) -> exists t, In t ts /\ In x (corners t)).
    { intros x [<-|[<-|Hx]]; auto. apply in_flat_map in Hx. destruct Hx as (t & Ht & Hx). eauto. }
    intros x y Hx Hy. apply Hinj'; auto.
  Qed.
  Lemma fix_keeps_undangling p ts p' t' jx : separated ptol_default p -> no_two same_vertices ts ->
    fix_mesh kleb ptol_default p ts true = Ok (p', t', jx) -> (forall i, i < length ts -> ~ dangling ts i) -> forall i, i < length t' -> ~ dangling t' i.
  Proof.
    intros Hs Hd F H i Hi. destruct (fix_renumber _ _ _ _ _ Hs Hd F) as (mp & ts1 & P & HF & U).
    unfold dangling. assert (I : In (nth i t' no_face) t') by now apply nth_In.
    destruct (Forall2_In_r _ _ _ _ HF I) as (t & Ht & G). apply (Permutation_in _ (Permutation_sym P)) in Ht.
    destruct (In_nth _ _ no_face Ht) as (j & Hj & Ej). specialize (H j Hj). unfold dangling in H. rewrite Ej in H.
    destruct t as [[a b] c]. unfold imaged in G. cbn [corners map] in G.
    rewrite (interior_sides_perm t' (nth i t' no_face) (mp a, mp b, mp c)) by (apply Permutation_sym; exact G).
    assert (C : forall x, In x [a; b; c] -> exists t, In t ts /\ In x (corners t)) by (intros x Hx; exists (a, b, c); auto).
    unfold interior_sides in *. rewrite !U by (apply C; cbn; auto). exact H.
  Qed.

  (** * When no face is poor *)
  Variable qual : list point -> tri -> option Q.
  Definition fair (mq : Q) (p : list point) (ts : list tri) : Prop := forall t q, In t ts -> qual p t = Some q -> (mq <= q)%Q.
  Lemma fair_sub mq p ts p' t' : geometric qual -> fair mq p ts -> submesh p ts p' t' -> fair mq p' t'.
  Proof.
    intros Hq F [_ S] s q Is Q. destruct (S s Is) as (t & It & P). destruct (Hq _ _ _ _ P) as [T1 T2]. rewrite Q in T1, T2. cbn in T1, T2.
    destruct (qual p t) as [q'|] eqn:E; [|contradiction]. eapply Qle_trans; [eapply F; eauto|auto].
  Qed.
  Lemma sorted_lt_ext l l' : StronglySorted lt l -> StronglySorted lt l' -> (forall i, In i l <-> In i l') -> l = l'.
  Proof.
    revert l'. induction l as [|x l IH]; intros [|y l'] S1 S2 H; auto.
    - exfalso. apply (proj2 (H y)). now left.
    - exfalso. apply (proj1 (H x)). now left.
    - apply StronglySorted_inv in S1, S2. destruct S1 as [S1 F1], S2 as [S2 F2]. rewrite Forall_forall in F1, F2.
      assert (x = y).
      { destruct (proj1 (H x) (or_introl eq_refl)) as [|Hx]; auto. destruct (proj2 (H y) (or_introl eq_refl)) as [|Hy]; auto.
        specialize (F1 _ Hy). specialize (F2 _ Hx). lia. }
      subst y. f_equal. apply IH; auto. intros i. split; intros I.
      + destruct (proj1 (H i) (or_intror I)) as [<-|]; auto. specialize (F1 _ I). lia.
      + destruct (proj2 (H i) (or_intror I)) as [<-|]; auto. specialize (F2 _ I). lia.
  Qed.
  Lemma seq_sorted a n : StronglySorted lt (seq a n).
  Proof.
    revert a. induction n as [|n IH]; intros a; cbn; constructor; auto. apply Forall_forall. intros x Hx. apply in_seq in Hx. lia.
  Qed.
  Lemma delete_none mq p ts p' t' : all_used (length p) ts -> has_boundary ts -> fair mq p ts ->
    delete_boundary_faces argsort kleb qual p ts mq = Ok (p', t') -> exists j, fix_mesh kleb ptol_default p ts true = Ok (p', t', j).
  Proof.
    intros U B F H. destruct (boundary_faces_ok argsort Ha kleb qual p ts mq U B) as (keep & [K1 K2] & E). rewrite E in H.
    replace keep with (seq 0 (length ts)) in H.
    - rewrite faces_at_all in H. destruct (fix_mesh kleb ptol_default p ts true) as [[[p1 t1] j]| |]; try discriminate. injection H as <- <-. eauto.
    - apply sorted_lt_ext; auto; [apply seq_sorted|]. intros i. rewrite K2, in_seq. split; [|lia]. intros I. split; [lia|].
      intros (_ & q & Eq & L). apply (F (nth i ts no_face) q) in Eq; [|apply nth_In; lia]. apply (Qlt_irrefl q). eapply Qlt_le_trans; eauto.
  Qed.

  Variable m : Q.
  Hypothesis Hm : (0 <= m)%Q.
  Lemma traversable_used fuel draw : (forall c k n, 0 < n -> draw c k n < n) -> forall c p ts p' t', all_used (length p) ts ->
    traversable_loop argsort kleb qual fuel draw c p ts m = Ok (p', t') -> all_used (length p') t'.
  Proof.
    intros Hdraw. induction fuel as [|fuel IH]; intros c p ts p' t' Hu H; [discriminate|]. cbn [traversable_loop] in H.
    pose proof (all_used_range _ _ Hu) as Hr.
    destruct (has_boundary_dec ts) as [Hb|Hb]; [|rewrite external_topology_closed in H by auto; discriminate].
    rewrite external_topology_ok in H by auto. cbn [bind fst snd] in H.
    destruct (Nat.leb_spec (length (get_boundary_edges ts)) (length (bverts ts))) as [Hle|Hgt].
    { injection H as <- <-. auto. }
    destruct (pass argsort Ha kleb Hk qual draw Hdraw m Hm p ts c Hr Hgt) as (keep & Hd & _ & _ & Hp).
    rewrite Hd in H. cbn [bind] in H. destruct keep as [|i keep]; [discriminate|].
    destruct Hp as (p1 & t2 & j1 & F1 & D0 & D1); [discriminate|].
    cbn [faces_at map] in H. change (nth i ts no_face :: map (fun i0 : nat => nth i0 ts no_face) keep) with (faces_at ts (i :: keep)) in H.
    rewrite F1 in H. cbn [bind] in H.
    destruct (has_boundary_dec t2) as [Hb2|Hb2]; [|rewrite (D0 Hb2) in H; discriminate].
    destruct (D1 Hb2) as (del & p2 & t3 & j2 & D & F2 & R & _). rewrite D in H. cbn [bind fst] in H. rewrite F2 in H. cbn [bind] in H.
    apply (IH _ _ _ _ _) in H; auto. unfold fix0 in F2. destruct (fix_match kleb Hk ptol_default _ _ _ _ _ F2) as (m1 & ts1 & rest & _ & _ & Ub & _). exact Ub.
  Qed.

  (** * Removing bow ties, then dangling faces *)
  Lemma trim_spec draw : (forall c k n, 0 < n -> draw c k n < n) -> forall mi p ts p1 t1 p2 t2, Forall (in_range (length p)) ts ->
    separated ptol_default p -> no_two same_vertices ts -> manifold ts -> Forall nondegenerate ts ->
    make_mesh_boundaries_traversable argsort kleb qual draw p ts m = Ok (p1, t1) ->
    delete_faces_connected_to_one_face argsort kleb mi p1 t1 = Ok (p2, t2) ->
    traversable t2 /\ (mi = None -> forall i, i < length t2 -> ~ dangling t2 i).
  Proof.
    intros Hd mi p ts p1 t1 p2 t2 R Hs D M N E1 E2.
    destruct (traversable_result argsort Ha kleb Hk qual draw Hd m Hm _ _ _ _ _ _ R E1) as (_ & X1 & G). destruct (G Hs) as (S1 & Se1 & M1 & N1).
    destruct (traversable_range argsort Ha kleb Hk qual m Hm _ _ Hd _ _ _ _ _ R E1) as [R1 D1].
    split.
    - apply (one_face_keeps mi p1 t1 p2 t2); auto. apply exit_traversable; auto.
    - intros ->. destruct (one_face_spec argsort Ha kleb Hk p1 t1 p2 t2 R1 Se1 (M1 M) E2) as (_ & _ & U). exact U.
  Qed.

  (** * mesh_clean *)
  Lemma mesh_clean_fair draw1 draw2 : (forall c k n, 0 < n -> draw1 c k n < n) -> (forall c k n, 0 < n -> draw2 c k n < n) ->
    geometric qual -> forall stop mq k pfix p ts p' t', all_used (length p) ts -> separated ptol_default p -> no_two same_vertices ts ->
    manifold ts -> Forall nondegenerate ts -> fair mq p ts ->
    mesh_clean argsort kleb qual draw1 draw2 stop mq m k pfix p ts = Ok (p', t') ->
    exists p1 t1 p2 j, submesh p ts p1 t1 /\ traversable t1 /\ (forall i, i < length t1 -> ~ dangling t1 i) /\
      laplacian2 stop k pfix p1 t1 = Ok (p2, t1) /\ fix_mesh kleb ptol_default p2 t1 true = Ok (p', t', j) /\
      (separated ptol_default p2 -> traversable t' /\ forall i, i < length t' -> ~ dangling t' i).
  Proof.
    unfold mesh_clean. intros Hd1 Hd2 Hq stop mq k pfix p ts p' t' Hu Hsep Hdup Hmf Hnd Hfair H. pose proof (all_used_range _ _ Hu) as Hr.
    destruct (make_mesh_boundaries_traversable argsort kleb qual draw1 p ts m) as [[pa ta]| |] eqn:Ea; try discriminate. cbn [bind fst snd] in H.
    destruct (delete_boundary_faces argsort kleb qual pa ta mq) as [[pb tb]| |] eqn:Eb; try discriminate. cbn [bind fst snd] in H.
    destruct (delete_faces_connected_to_one_face argsort kleb None pb tb) as [[pc tc]| |] eqn:Ec; try discriminate. cbn [bind fst snd] in H.
    destruct (laplacian2 stop k pfix pc tc) as [[pd td]| |] eqn:Ed; try discriminate. cbn [bind fst snd] in H.
    destruct (make_mesh_boundaries_traversable argsort kleb qual draw2 pd td m) as [[pe te]| |] eqn:Ee; try discriminate. cbn [bind fst snd] in H.
    unfold fix0 in H. destruct (fix_mesh kleb ptol_default pe te true) as [[[pf tf] j]| |] eqn:Ef; try discriminate. cbn [bind] in H.
    injection H as <- <-.
    destruct (traversable_result argsort Ha kleb Hk qual draw1 Hd1 m Hm _ _ _ _ _ _ Hr Ea) as (Ba & Xa & Ga). specialize (Ga Hsep).
    destruct Ga as (Sa & Sepa & Ma & Na). specialize (Ma Hmf). specialize (Na Hnd).
    destruct (traversable_range argsort Ha kleb Hk qual m Hm _ _ Hd1 _ _ _ _ _ Hr Ea) as [_ Da]. specialize (Da Hdup).
    assert (Ua : all_used (length pa) ta) by exact (traversable_used _ _ Hd1 _ _ _ _ _ Hu Ea).
    destruct (delete_none mq pa ta pb tb Ua Ba (fair_sub _ _ _ _ _ Hq Hfair Sa) Eb) as (jb & Fb).
    destruct (fix_sub kleb Hk ptol_default _ _ _ _ _ ptol_pos Sepa Fb) as (Sepb & Sb & _ & Mb & Nb).
    specialize (Mb Ma). specialize (Nb Na).
    assert (Ta : traversable ta) by (apply exit_traversable; auto).
    assert (Tb : traversable tb) by exact (fix_keeps_traversable kleb Hk _ _ _ _ _ Sepa Da Ma Na Ta Fb).
    destruct (fix_match kleb Hk ptol_default _ _ _ _ _ Fb) as (m1 & ts1 & rest & _ & _ & Ub & _).
    assert (Db : no_two same_vertices tb) by (apply (fix_mesh_wf kleb ptol_default Hk) in Fb; apply Fb).
    pose proof (all_used_range _ _ Ub) as Rb.
    assert (Tc : traversable tc) by (apply (one_face_keeps None pb tb pc tc); auto).
    destruct (one_face_spec argsort Ha kleb Hk pb tb pc tc Rb Sepb Mb Ec) as (Mc & Sc & Uc').
    unfold delete_faces_connected_to_one_face in Ec.
    destruct (one_face_nodup argsort kleb Hk _ _ _ _ _ _ _ Ec Db Ub) as [Dc Uc].
    destruct (one_face_loop_keeps _ _ _ _ _ _ _ Sepb Db Mb Nb Tb Ec) as (_ & _ & Nc & _ & Sepc).
    destruct (laplacian_shape _ _ _ _ _ _ _ Uc Ed) as [-> Ld].
    assert (Rd : Forall (in_range (length pd)) tc) by (rewrite Ld; now apply all_used_range).
    assert (Bc : has_boundary tc).
    { destruct (has_boundary_dec tc); auto. rewrite (mmbt_closed argsort kleb qual draw2 m) in Ee by auto. discriminate. }
    rewrite (mmbt_noop argsort kleb qual draw2 m pd tc Rd Nc Bc Tc) in Ee. injection Ee as <- <-.
    exists pc, tc, pd, j. split.
    { eapply submesh_trans; [exact Sa|]. eapply submesh_trans; [exact Sb|exact Sc]. }
    split; auto. split; auto. split; auto. split; auto. intros Sepd. split.
    - exact (fix_keeps_traversable kleb Hk _ _ _ _ _ Sepd Dc Mc Nc Tc Ef).
    - exact (fix_keeps_undangling _ _ _ _ _ Sepd Dc Ef Uc').
  Qed.
End Loop.

(** * The statements *)
Lemma dangling_keeps argsort : is_argsort argsort -> forall kleb, total_order kleb -> forall mi p ts p' t', plain_mesh ptol_default p ts -> traversable ts ->
  delete_faces_connected_to_one_face argsort kleb mi p ts = Ok (p', t') -> traversable t'.
Proof. intros Ha kleb Hk mi p ts p' t' (_ & S & D & M & N) T H. exact (one_face_keeps argsort Ha kleb Hk mi p ts p' t' S D M N T H). Qed.
Lemma trim_keeps argsort : is_argsort argsort -> forall kleb, total_order kleb -> forall qual m, (0 <= m)%Q ->
  forall draw, (forall c k n, 0 < n -> draw c k n < n) -> forall mi p ts p1 t1 p2 t2, plain_mesh ptol_default p ts ->
  make_mesh_boundaries_traversable argsort kleb qual draw p ts m = Ok (p1, t1) ->
  delete_faces_connected_to_one_face argsort kleb mi p1 t1 = Ok (p2, t2) -> traversable t2 /\ (mi = None -> no_dangling t2).
Proof.
  intros Ha kleb Hk qual m Hm draw Hd mi p ts p1 t1 p2 t2 (U & S & D & M & N).
  exact (trim_spec argsort Ha kleb Hk qual m Hm draw Hd mi p ts p1 t1 p2 t2 (all_used_range _ _ U) S D M N).
Qed.
Lemma clean_no_poor argsort : is_argsort argsort -> forall kleb, total_order kleb -> forall qual, geometric qual -> forall m, (0 <= m)%Q ->
  forall draw1 draw2, (forall c k n, 0 < n -> draw1 c k n < n) -> (forall c k n, 0 < n -> draw2 c k n < n) ->
  forall stop mq k pfix p ts p' t', plain_mesh ptol_default p ts -> no_poor qual mq p ts ->
    mesh_clean argsort kleb qual draw1 draw2 stop mq m k pfix p ts = Ok (p', t') ->
    exists p1 t1 p2 j, submesh p ts p1 t1 /\ traversable t1 /\ no_dangling t1 /\
      laplacian2 stop k pfix p1 t1 = Ok (p2, t1) /\ fix_mesh kleb ptol_default p2 t1 true = Ok (p', t', j) /\
      (separated ptol_default p2 -> traversable t' /\ no_dangling t').
Proof.
  intros Ha kleb Hk qual Hq m Hm d1 d2 H1 H2 stop mq k pfix p ts p' t' (U & S & D & M & N) F H.
  exact (mesh_clean_fair argsort Ha kleb Hk qual m Hm d1 d2 H1 H2 Hq stop mq k pfix p ts p' t' U S D M N F H).
Qed.

(** * Deciding the hypotheses on a given mesh *)
Lemma manifold_check ts : forallb (fun u => forallb (fun v => edge_uses u v ts <=? 2) (seq 0 (vbound ts))) (seq 0 (vbound ts)) = true -> manifold ts.
Proof.
  intros H u v. destruct (le_lt_dec (edge_uses u v ts) 0); [lia|]. destruct (edge_uses_lt ts u v) as [A B]; [lia|].
  rewrite forallb_forall in H. specialize (H u). rewrite forallb_forall in H. apply Nat.leb_le, H; apply in_seq; lia.
Qed.
Lemma traversable_check ts : forallb (fun v => (boundary_degree ts v =? 0) || (boundary_degree ts v =? 2)) (seq 0 (vbound ts)) = true -> traversable ts.
Proof.
  intros H v. destruct (le_lt_dec (vbound ts) v) as [L|L].
  - left. unfold boundary_degree. destruct (filter _ _) as [|u l] eqn:E; auto.
    assert (I : In u (bnbs ts v)) by (unfold bnbs; rewrite E; now left). apply bnbs_In in I. destruct (edge_uses_lt ts u v); lia.
  - rewrite forallb_forall in H. specialize (H v). apply orb_prop in H; [|apply in_seq; lia]. destruct H as [H|H]; apply Nat.eqb_eq in H; auto.
Qed.
Lemma all_used_check n ts : forallb (fun t => forallb (fun v => v <? n) (corners t)) ts = true ->
  forallb (fun v => existsb (fun t => existsb (Nat.eqb v) (corners t)) ts) (seq 0 n) = true -> all_used n ts.
Proof.
  intros H1 H2 v. rewrite forallb_forall in H1, H2. split.
  - intros L. specialize (H2 v). apply existsb_exists in H2; [|apply in_seq; lia]. destruct H2 as (t & It & E).
    apply existsb_exists in E. destruct E as (x & Ix & E). apply Nat.eqb_eq in E. subst x. eauto.
  - intros (t & It & Iv). specialize (H1 t It). rewrite forallb_forall in H1. apply Nat.ltb_lt, H1, Iv.
Qed.
Definition same_verticesb (t s : tri) : bool := forallb (fun v => existsb (Nat.eqb v) (corners s)) (corners t).
Lemma same_vertices_check ts : no_twob same_verticesb ts = true -> no_two same_vertices ts.
Proof.
  apply no_twob_spec. intros t s P. apply forallb_forall. intros v I. apply existsb_exists. exists v. split; [|apply Nat.eqb_refl].
  apply (Permutation_in _ P), I.
Qed.
Lemma nondegenerate_check ts : forallb (fun t => let '(a, b, c) := t in negb (a =? b) && negb (b =? c) && negb (a =? c)) ts = true -> Forall nondegenerate ts.
Proof.
  intros H. rewrite forallb_forall in H. apply Forall_forall. intros [[a b] c] I. specialize (H _ I). cbn beta iota in H.
  apply andb_prop in H. destruct H as [H H3]. apply andb_prop in H. destruct H as [H1 H2].
  apply negb_true_iff in H1, H2, H3. apply Nat.eqb_neq in H1, H2, H3. cbn. auto.
Qed.

(** Two squares with their centres, meeting in vertex 0, and a thinner triangle between them. *)
Definition wing_p : list (Q * Q) := map (fun xy => (inject_Z (fst xy), inject_Z (snd xy)))
  [(0, 0); (-4, 4); (-1, 8); (-9, 8); (-8, 0); (5, 4); (1, 8); (11, 8); (10, 0)]%Z.
Definition wing_t : list (nat * nat * nat) := [(1, 0, 2); (1, 2, 3); (1, 3, 4); (1, 4, 0); (5, 6, 0); (5, 7, 6); (5, 8, 7); (5, 0, 8); (0, 6, 2)].
(** The same with a dangling face. *)
Definition wing1_p : list (Q * Q) := wing_p ++ [(0, inject_Z (-4))]%Q.
Definition wing1_t : list (nat * nat * nat) := (4, 9, 0) :: wing_t.
Ltac plain e := split; [apply all_used_check; vm_compute; reflexivity|]; split; [apply (separated_check _ e); vm_compute; reflexivity|];
  split; [apply same_vertices_check; vm_compute; reflexivity|]; split; [apply manifold_check; vm_compute; reflexivity|apply nondegenerate_check; vm_compute; reflexivity].
Lemma wing_plain : plain_mesh ptol_default wing_p wing_t.
Proof. plain (20 # 1)%Q. Qed.
Lemma wing1_plain : plain_mesh ptol_default wing1_p wing1_t.
Proof. plain (20 # 1)%Q. Qed.
Lemma wing_traversable : traversable wing_t.
Proof. apply traversable_check. vm_compute. reflexivity. Qed.
Lemma wing1_traversable : traversable wing1_t.
Proof. apply traversable_check. vm_compute. reflexivity. Qed.
Lemma wing_no_dangling : no_dangling wing_t.
Proof. intros i Hi. do 9 (destruct i as [|i]; [vm_compute; discriminate|]). cbn in Hi. lia. Qed.
Lemma wing1_fair : no_poor sq_area 100 wing1_p wing1_t.
Proof.
  intros t q I E. injection E as <-. assert (G : forallb (fun t => Qle_bool 100 (area2 wing1_p t * area2 wing1_p t)) wing1_t = true) by (vm_compute; reflexivity).
  rewrite forallb_forall in G. apply Qle_bool_iff, G, I.
Qed.

Lemma boundary_faces_pinch : exists p ts qual mq p' t', plain_mesh ptol_default p ts /\ traversable ts /\ no_dangling ts /\ geometric qual /\
  delete_boundary_faces stable_argsort zedge_leb qual p ts mq = Ok (p', t') /\ plain_mesh ptol_default p' t' /\ ~ traversable t'.
Proof.
  exists wing_p, wing_t, sq_area, 400%Q. eexists. eexists. split; [exact wing_plain|]. split; [exact wing_traversable|]. split; [exact wing_no_dangling|].
  split; [exact sq_area_geometric|]. split; [vm_compute; reflexivity|]. split; [plain (20 # 1)%Q|].
  intros T. specialize (T 4). vm_compute in T. destruct T; discriminate.
Qed.
Lemma clean_dangling : exists p ts qual mq p' t', plain_mesh ptol_default p ts /\ traversable ts /\ no_dangling ts /\ geometric qual /\
  mesh_clean stable_argsort zedge_leb qual (fun _ _ _ => 0) (fun _ _ _ => 0) (fun _ _ => false) mq (1 # 4) 0 None p ts = Ok (p', t') /\
  traversable t' /\ dangling t' 0.
Proof.
  exists wing_p, wing_t, sq_area, 400%Q. eexists. eexists. split; [exact wing_plain|]. split; [exact wing_traversable|]. split; [exact wing_no_dangling|].
  split; [exact sq_area_geometric|]. split; [vm_compute; reflexivity|]. split; [apply traversable_check; vm_compute; reflexivity|]. vm_compute. reflexivity.
Qed.
