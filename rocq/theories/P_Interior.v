(** Proofs about delete_interior_faces and delete_boundary_faces. *)
From Coq Require Import List Arith Bool Lia Relations Permutation Sorted ZArith QArith Lqa.
From Verif Require Import M_Base M_Numpy M_Edges M_FixMesh M_Adjacency M_Clean.
From Verif Require Import S_Edges S_FixMesh S_Adjacency S_Clean Util P_Edges P_FixMesh P_Adjacency P_Search P_Exterior.
Import ListNotations.
Open Scope nat_scope.

Lemma filter_length_le {A} (f : A -> bool) l : length (filter f l) <= length l.
Proof. induction l as [|a l IH]; simpl; auto. destruct (f a); simpl; lia. Qed.

(** * np.delete *)
Definition kept (n : nat) (del : list nat) : list nat := filter (fun i => negb (existsb (Nat.eqb i) del)) (seq 0 n).
Lemma existsb_eqb x l : existsb (Nat.eqb x) l = true <-> In x l.
Proof.
  rewrite existsb_exists. split; [intros (y & Hy & E); apply Nat.eqb_eq in E; now subst|].
  intros H. exists x. split; auto. apply Nat.eqb_refl.
Qed.
Lemma kept_In n del i : In i (kept n del) <-> i < n /\ ~ In i del.
Proof.
  unfold kept. rewrite filter_In, in_seq, negb_true_iff, <- not_true_iff_false, existsb_eqb. intuition lia.
Qed.
Lemma kept_sorted n del : StronglySorted lt (kept n del).
Proof. apply StronglySorted_filter, seq_sorted. Qed.
Lemma delete_at_faces ts del : delete_at ts del = faces_at ts (kept (length ts) del).
Proof.
  unfold delete_at, kept, faces_at.
  enough (H : forall s, map snd (filter (fun p => negb (existsb (Nat.eqb (fst p)) del)) (combine (seq s (length ts)) ts)) =
     map (fun i => nth (i - s) ts no_face) (filter (fun i => negb (existsb (Nat.eqb i) del)) (seq s (length ts)))).
  { rewrite H. apply map_ext. intros. now rewrite Nat.sub_0_r. }
  induction ts as [|t ts IH]; intros s; [reflexivity|]. cbn [length seq combine filter fst].
  assert (Htl : map (fun i => nth (i - s) (t :: ts) no_face) (filter (fun i => negb (existsb (Nat.eqb i) del)) (seq (S s) (length ts)))
              = map (fun i => nth (i - S s) ts no_face) (filter (fun i => negb (existsb (Nat.eqb i) del)) (seq (S s) (length ts)))).
  { apply map_ext_in. intros i Hi. apply filter_In in Hi. destruct Hi as [Hi _]. apply in_seq in Hi.
    replace (i - s) with (S (i - S s)) by lia. reflexivity. }
  destruct (existsb (Nat.eqb s) del); cbn [negb].
  - rewrite IH. symmetry. exact Htl.
  - cbn [map]. f_equal; [now rewrite Nat.sub_diag|]. rewrite IH. symmetry. exact Htl.
Qed.
Lemma kept_lt n del f : In f del -> f < n -> length (kept n del) < n.
Proof.
  intros Hf Hn. unfold kept.
  assert (Hnd : NoDup (f :: kept n del)).
  { constructor; [rewrite kept_In; tauto|]. apply NoDup_filter, seq_NoDup. }
  apply (NoDup_lt_length _ n) in Hnd; [simpl in Hnd; unfold kept in Hnd; lia|].
  intros i [<-|Hi]; auto. now apply kept_In in Hi.
Qed.
Lemma kept_le n del : length (kept n del) <= n.
Proof. unfold kept. rewrite <- (seq_length n 0) at 2. apply filter_length_le. Qed.
Lemma faces_at_length ts l : length (faces_at ts l) = length l.
Proof. apply map_length. Qed.
Lemma faces_at_In ts l t : (forall i, In i l -> i < length ts) -> In t (faces_at ts l) -> In t ts.
Proof. intros Hl H. apply in_map_iff in H. destruct H as (i & <- & Hi). apply nth_In. auto. Qed.

(** * Boundary ends *)
Lemma boundary_ends_In ts v : In v (boundary_ends ts) <-> exists u, edge_uses u v ts = 1.
Proof.
  unfold boundary_ends. rewrite in_flat_map. split.
  - intros ([a b] & He & Hv). apply get_boundary_edges_In in He. destruct He as [_ He].
    simpl in Hv. destruct Hv as [<-|[<-|[]]]; [exists b; now rewrite edge_uses_sym|exists a; auto].
  - intros (u & Hu). destruct (le_ge_dec u v).
    + exists (u, v). split; [now apply get_boundary_edges_In|simpl; auto].
    + exists (v, u). split; [apply get_boundary_edges_In; rewrite edge_uses_sym; auto|simpl; auto].
Qed.
Lemma edge_uses_corner ts u v : edge_uses u v ts >= 1 -> exists t, In t ts /\ In v (corners t).
Proof.
  intros H. apply edge_uses_ge in H. destruct H as (t & Ht & Hs). exists t. split; auto.
  apply side_uses_vertex in Hs. destruct Hs as [_ Hs]. destruct t as [[a b] c]. simpl in *. intuition.
Qed.
Lemma boundary_in_range n ts v : Forall (in_range n) ts -> In v (boundary_ends ts) -> v < n.
Proof.
  intros Hr Hv. apply boundary_ends_In in Hv. destruct Hv as (u & Hu).
  destruct (edge_uses_corner ts u v) as (t & Ht & Hc); [lia|].
  rewrite Forall_forall in Hr. specialize (Hr t Ht). unfold in_range in Hr. rewrite Forall_forall in Hr. auto.
Qed.
Definition bverts (ts : list tri) : list nat := unique Nat.leb Nat.eqb (boundary_ends ts).
Lemma bverts_In ts v : In v (bverts ts) <-> In v (boundary_ends ts).
Proof. apply unique_In. exact Nat.eqb_eq. Qed.
Lemma bverts_NoDup ts : NoDup (bverts ts).
Proof. apply unique_NoDup; [exact Nat.eqb_eq|exact nat_leb_total|exact nat_leb_trans|exact nat_leb_antisym]. Qed.
Lemma has_boundary_edges ts : has_boundary ts <-> get_boundary_edges ts <> [].
Proof.
  split.
  - intros (u & v & H) E. assert (I : In (Nat.min u v, Nat.max u v) (get_boundary_edges ts)).
    { apply get_boundary_edges_In. split; [lia|]. unfold on_boundary in H. destruct (Nat.le_ge_cases u v).
      - rewrite Nat.min_l, Nat.max_r by lia. exact H.
      - rewrite Nat.min_r, Nat.max_l by lia. rewrite edge_uses_sym. exact H. }
    rewrite E in I. destruct I.
  - intros H. destruct (get_boundary_edges ts) as [|[a b] l] eqn:E; [congruence|].
    assert (I : In (a, b) (get_boundary_edges ts)) by (rewrite E; now left). apply get_boundary_edges_In in I. exists a, b. apply I.
Qed.
Lemma has_boundary_dec ts : {has_boundary ts} + {~ has_boundary ts}.
Proof.
  destruct (get_boundary_edges ts) eqn:E; [right|left]; rewrite has_boundary_edges, E; congruence.
Qed.
Lemma external_topology_ok p ts : Forall (in_range (length p)) ts -> has_boundary ts ->
  external_topology p ts = Ok (get_boundary_edges ts, bverts ts).
Proof.
  intros Hr Hb. apply has_boundary_edges in Hb. unfold external_topology, bverts.
  destruct (forallb (fun v => v <? length p) (unique Nat.leb Nat.eqb (boundary_ends ts))) eqn:E.
  { destruct (get_boundary_edges ts); congruence. }
  exfalso. apply not_true_iff_false in E. apply E. apply forallb_forall. intros v Hv. apply Nat.ltb_lt.
  apply unique_In in Hv; [|exact Nat.eqb_eq]. eapply boundary_in_range; eauto.
Qed.
Lemma external_topology_closed p ts : ~ has_boundary ts -> external_topology p ts = Raise IndexError.
Proof.
  intros Hb. unfold external_topology. destruct (get_boundary_edges ts) eqn:E; [reflexivity|].
  exfalso. apply Hb. apply has_boundary_edges. congruence.
Qed.
Lemma external_topology_inv p ts x : external_topology p ts = Ok x -> has_boundary ts.
Proof. intros H. apply has_boundary_edges. intros E. unfold external_topology in H. rewrite E in H. discriminate. Qed.

(** Number of times a vertex is an end of a boundary edge. *)
Definition ends_at (ts : list tri) (v : nat) : nat := count Nat.eqb v (boundary_ends ts).
Lemma ends_at_nondeg ts v : Forall nondegenerate ts -> ends_at ts v = boundary_degree ts v.
Proof.
  intros Hn. rewrite <- boundary_degree_wdeg by auto. unfold ends_at, boundary_ends, wdeg, count.
  assert (Hd : forall e, In e (get_boundary_edges ts) -> fst e <> snd e).
  { intros [a b] He. apply boundary_nondeg in He; auto. }
  induction (get_boundary_edges ts) as [|e l IH]; auto.
  cbn [flat_map]. rewrite filter_app', app_length, IH by (intros; apply Hd; now right).
  specialize (Hd e (or_introl eq_refl)). destruct e as [a b]. simpl in Hd. cbn [filter fst snd].
  unfold touchesb at 2. cbn [fst snd]. rewrite (Nat.eqb_sym v a), (Nat.eqb_sym v b).
  destruct (Nat.eqb_spec a v), (Nat.eqb_spec b v); simpl; auto. congruence.
Qed.
Definition over (ts : list tri) : list nat :=
  map fst (filter (fun c => 2 <? snd c) (unique_counts Nat.leb Nat.eqb (boundary_ends ts))).
Lemma over_In ts v : In v (over ts) <-> 2 < ends_at ts v.
Proof.
  unfold over. rewrite in_map_iff. split.
  - intros ([x n] & <- & H). apply filter_In in H. destruct H as [H1 H2]. apply Nat.ltb_lt in H2. simpl in *.
    apply unique_counts_spec in H1; [|exact Nat.eqb_eq|exact nat_leb_total|exact nat_leb_trans|exact nat_leb_antisym].
    destruct H1 as [_ ->]. exact H2.
  - intros H. exists (v, ends_at ts v). split; auto. apply filter_In. split; [|now apply Nat.ltb_lt].
    apply unique_counts_spec; [exact Nat.eqb_eq|exact nat_leb_total|exact nat_leb_trans|exact nat_leb_antisym|].
    split; auto. apply (count_In Nat.eqb Nat.eqb_eq). unfold ends_at in H. lia.
Qed.

(** * np.argmin *)
(** [worse q r]: q is chosen before r if both are candidates. *)
Notation qle := not_better.
Lemma qle_refl q : qle q q. Proof. destruct q; simpl; auto. apply Qle_refl. Qed.
Lemma qle_trans a b c : qle a b -> qle b c -> qle a c.
Proof. destruct a, b, c; simpl; auto; try contradiction. apply Qle_trans. Qed.
Lemma argmin_from_spec l : forall i best bq, best < i ->
  exists q, ((argmin_from i best bq l = best /\ q = bq) \/
             (i <= argmin_from i best bq l /\ nth_error l (argmin_from i best bq l - i) = Some q)) /\
    qle q bq /\ forall x, In x l -> qle q x.
Proof.
  induction l as [|x l IH]; intros i best bq Hb; cbn [argmin_from].
  - exists bq. split; [left; auto|]. split; [apply qle_refl|]. intros x [].
  - destruct bq as [b|].
    + destruct x as [x|].
      * destruct (Qle_bool b x) eqn:E.
        -- destruct (IH (S i) best (Some b)) as (q & H1 & H2 & H3); [lia|]. exists q. split; [|split].
           ++ destruct H1 as [H1|[H1 H1']]; [left; auto|right]. split; [lia|].
              replace (argmin_from (S i) best (Some b) l - i) with (S (argmin_from (S i) best (Some b) l - S i)) by lia. auto.
           ++ auto.
           ++ intros y [<-|Hy]; auto. eapply qle_trans; [exact H2|]. simpl. now apply Qle_bool_iff.
        -- destruct (IH (S i) i (Some x)) as (q & H1 & H2 & H3); [lia|]. exists q.
           assert (Hlt : (x <= b)%Q).
           { apply Qlt_le_weak, Qnot_le_lt. intros Hle. apply Qle_bool_iff in Hle. congruence. }
           split; [|split].
           ++ right. destruct H1 as [[H1 H1']|[H1 H1']].
              ** rewrite H1. split; auto. rewrite Nat.sub_diag. simpl. congruence.
              ** split; [lia|]. replace (argmin_from (S i) i (Some x) l - i) with (S (argmin_from (S i) i (Some x) l - S i)) by lia. auto.
           ++ eapply qle_trans; [exact H2|]. exact Hlt.
           ++ intros y [<-|Hy]; auto.
      * exists None. split; [right; split; auto; now rewrite Nat.sub_diag|]. simpl. auto.
    + exists None. split; [left; auto|]. simpl. auto.
Qed.
Lemma argmin_spec l : l <> [] -> exists i q, argmin l = Ok i /\ nth_error l i = Some q /\ forall x, In x l -> qle q x.
Proof.
  destruct l as [|x l]; [congruence|]. intros _. unfold argmin.
  destruct (argmin_from_spec l 1 0 x) as (q & H1 & H2 & H3); [lia|].
  exists (argmin_from 1 0 x l), q. split; auto. split.
  - destruct H1 as [[H1 H1']|[H1 H1']]; [rewrite H1; simpl; congruence|].
    replace (argmin_from 1 0 x l) with (S (argmin_from 1 0 x l - 1)) by lia. exact H1'.
  - intros y [<-|Hy]; auto.
Qed.

(** * mapM *)
Lemma mapM_ok {A B} (f : A -> res B) l (R : A -> B -> Prop) : (forall x, In x l -> exists y, f x = Ok y /\ R x y) ->
  exists ys, mapM f l = Ok ys /\ Forall2 R l ys.
Proof.
  induction l as [|x l IH]; intros H; cbn [mapM]; [exists []; split; auto|].
  destruct (H x (or_introl eq_refl)) as (y & Hy & HR). rewrite Hy. cbn [bind].
  destruct IH as (ys & Hys & HF); [intros; apply H; now right|]. rewrite Hys. cbn [bind].
  exists (y :: ys). split; auto.
Qed.
Lemma Forall2_In_l {A B} (R : A -> B -> Prop) l m x : Forall2 R l m -> In x l -> exists y, In y m /\ R x y.
Proof.
  induction 1 as [|a b l m H HF IH]; [intros []|]. intros [<-|Hx]; [exists b; split; simpl; auto|].
  destruct (IH Hx) as (y & Hy & HR). exists y. split; simpl; auto.
Qed.
Lemma Forall2_In_r {A B} (R : A -> B -> Prop) l m y : Forall2 R l m -> In y m -> exists x, In x l /\ R x y.
Proof.
  induction 1 as [|a b l m H HF IH]; [intros []|]. intros [<-|Hx]; [exists a; split; simpl; auto|].
  destruct (IH Hx) as (x & Hy & HR). exists x. split; simpl; auto.
Qed.

(** * delete_interior_faces *)
Section Interior.
  Variable argsort : list nat -> list nat.
  Hypothesis Ha : is_argsort argsort.
  Variable qual : list point -> tri -> option Q.

  (** What is said of the face removed at a vertex v. *)
  Notation chosen := (S_Clean.chosen qual).

  Lemma face_to_delete_ok p ts v conn : conn <> [] ->
    (forall f, In f conn <-> f < length ts /\ In v (corners (nth f ts no_face))) ->
    exists f, face_to_delete qual p ts (boundary_ends ts) conn = Ok f /\ chosen p ts v f.
  Proof.
    intros Hne Hconn. unfold face_to_delete.
    change (0, 0, 0) with no_face.
    set (allb := fun f => forallb (fun v => existsb (Nat.eqb v) (boundary_ends ts)) (tri_vertices (nth f ts no_face))).
    assert (Hallb : forall f, allb f = true <-> forall u, In u (corners (nth f ts no_face)) -> exists w, on_boundary ts w u).
    { intros f. unfold allb. rewrite forallb_forall, tri_vertices_corners.
      split; intros H u Hu; specialize (H u Hu).
      - apply existsb_eqb, boundary_ends_In in H. exact H.
      - apply existsb_eqb, boundary_ends_In. exact H. }
    change (filter _ conn) with (filter allb conn).
    assert (Hpick : forall l, l <> [] -> exists f, (let! i := argmin (map (fun f => qual p (nth f ts no_face)) l) in get l i) = Ok f /\
               In f l /\ forall g, In g l -> qle (qual p (nth f ts no_face)) (qual p (nth g ts no_face))).
    { intros l Hl. destruct (argmin_spec (map (fun f => qual p (nth f ts no_face)) l)) as (i & q & H1 & H2 & H3).
      { intros E. apply map_eq_nil in E. auto. }
      rewrite H1. cbn [bind]. unfold get. rewrite nth_error_map in H2. destruct (nth_error l i) as [f|] eqn:E; [|discriminate].
      injection H2 as <-. exists f. split; auto. split; [eapply nth_error_In; eauto|].
      intros g Hg. apply H3. apply in_map_iff. eauto. }
    destruct (filter allb conn) as [|c0 [|c1 cs]] eqn:Ec.
    - destruct (Hpick conn Hne) as (f & H1 & H2 & H3). exists f. split; auto.
      assert (Hno : forall g, In g conn -> ~ allb g = true).
      { intros g Hg Hb. assert (Hin : In g (filter allb conn)) by (apply filter_In; auto). rewrite Ec in Hin. contradiction. }
      split; [now apply Hconn|]. split.
      + intros (g & Hg & Hgb). exfalso. apply (Hno g); [now apply Hconn|now apply Hallb].
      + intros g Hg _. apply H3. now apply Hconn.
    - assert (Hin : In c0 (filter allb conn)) by (rewrite Ec; now left). apply filter_In in Hin. destruct Hin as [Hin Hb].
      exists c0. split; auto. split; [now apply Hconn|]. split; [intros _; now apply Hallb|].
      intros g Hg Hgb. assert (In g (filter allb conn)) as Hg'.
      { apply filter_In. split; [now apply Hconn|]. apply Hallb. apply Hgb. now apply Hallb. }
      rewrite Ec in Hg'. destruct Hg' as [<-|[]]. apply qle_refl.
    - destruct (Hpick (c0 :: c1 :: cs)) as (f & H1 & H2 & H3); [discriminate|]. exists f. split; auto.
      rewrite <- Ec in H2, H3. apply filter_In in H2. destruct H2 as [Hin Hb].
      split; [now apply Hconn|]. split; [intros _; now apply Hallb|].
      intros g Hg Hgb. apply H3. apply filter_In. split; [now apply Hconn|]. apply Hallb. apply Hgb. now apply Hallb.
  Qed.

  Lemma all_used_range n ts : all_used n ts -> Forall (in_range n) ts.
  Proof.
    intros H. apply Forall_forall. intros t Ht. apply Forall_forall. intros v Hv. apply H. eauto.
  Qed.

  Lemma interior_spec p ts : all_used (length p) ts -> has_boundary ts ->
    exists del, delete_interior_faces argsort qual p ts = Ok (faces_at ts (kept (length ts) del), del) /\
      (forall v, 2 < ends_at ts v -> exists f, In f del /\ chosen p ts v f) /\
      (forall f, In f del -> exists v, 2 < ends_at ts v /\ chosen p ts v f).
  Proof.
    intros Hu Hb. unfold delete_interior_faces.
    rewrite external_topology_ok by (auto; now apply all_used_range). cbn [bind].
    destruct (vertex_to_face argsort ts) as [vtoc nne] eqn:E.
    change (map fst (filter _ _)) with (over ts).
    destruct (mapM_ok (fun ix => let! conn := row_of vtoc nne ix in face_to_delete qual p ts (boundary_ends ts) conn) (over ts)
                (fun v f => chosen p ts v f)) as (del & Hd & HF).
    - intros v Hv. apply over_In in Hv.
      assert (Hvb : In v (boundary_ends ts)). { apply (count_In Nat.eqb Nat.eqb_eq). unfold ends_at in Hv. lia. }
      assert (Hvn : v < length p) by (eapply boundary_in_range; [now apply all_used_range|auto]).
      destruct (vertex_to_face_row_In argsort Ha ts (length p) v Hu Hvn) as (l & Hl & Hin). rewrite E in Hl. simpl in Hl.
      rewrite Hl. cbn [bind]. apply face_to_delete_ok; auto.
      apply boundary_ends_In in Hvb. destruct Hvb as (u & Hub).
      destruct (edge_uses_corner ts u v) as (t & Ht & Hc); [lia|].
      destruct (In_nth _ _ no_face Ht) as (k & Hk & Hnk). intros ->. apply (proj2 (Hin k)). split; auto. now rewrite Hnk.
    - rewrite Hd. cbn [bind]. exists del. rewrite delete_at_faces. split; auto. split.
      + intros v Hv. apply over_In in Hv. destruct (Forall2_In_l _ _ _ _ HF Hv) as (f & Hf & HR). eauto.
      + intros f Hf. destruct (Forall2_In_r _ _ _ _ HF Hf) as (v & Hv & HR). exists v. split; auto. now apply over_In.
  Qed.

  Lemma interior_none p ts : all_used (length p) ts -> has_boundary ts -> (forall v, ends_at ts v <= 2) ->
    delete_interior_faces argsort qual p ts = Ok (ts, []).
  Proof.
    intros Hu Hb Hle. destruct (interior_spec p ts Hu Hb) as (del & H1 & H2 & H3).
    destruct del as [|f del].
    - rewrite H1. repeat f_equal. unfold kept. simpl.
      replace (filter (fun _ : nat => true) (seq 0 (length ts))) with (seq 0 (length ts)); [apply faces_at_all|].
      generalize (seq 0 (length ts)). induction l; simpl; congruence.
    - destruct (H3 f (or_introl eq_refl)) as (v & Hv & _). specialize (Hle v). lia.
  Qed.

  (** * Boundary faces *)
  Lemma boundary_entities_ok p ts : all_used (length p) ts -> has_boundary ts ->
    exists l, get_boundary_entities argsort p ts = Ok l /\ NoDup l /\
      forall f, In f l <-> f < length ts /\ exists v, In v (corners (nth f ts no_face)) /\ In v (boundary_ends ts).
  Proof.
    intros Hu Hb. unfold get_boundary_entities. rewrite external_topology_ok by (auto; now apply all_used_range). cbn [bind].
    destruct (vertex_to_face argsort ts) as [vtoe ptr] eqn:E. cbn [snd].
    destruct (mapM_ok (row_of vtoe ptr) (bverts ts)
        (fun v l => forall f, In f l <-> f < length ts /\ In v (corners (nth f ts no_face)))) as (rows & Hr & HF).
    - intros v Hv. apply bverts_In in Hv.
      assert (Hvn : v < length p) by (eapply boundary_in_range; [now apply all_used_range|auto]).
      destruct (vertex_to_face_row_In argsort Ha ts (length p) v Hu Hvn) as (l & Hl & Hin). rewrite E in Hl. eauto.
    - rewrite Hr. cbn [bind]. exists (unique Nat.leb Nat.eqb (concat rows)). split; auto. split.
      + apply unique_NoDup; [exact Nat.eqb_eq|exact nat_leb_total|exact nat_leb_trans|exact nat_leb_antisym].
      + intros f. rewrite unique_In by exact Nat.eqb_eq. rewrite in_concat. split.
        * intros (l & Hl & Hf). destruct (Forall2_In_r _ _ _ _ HF Hl) as (v & Hv & Hin).
          apply Hin in Hf. destruct Hf as [Hf Hc]. split; auto. exists v. split; auto. now apply bverts_In.
        * intros (Hf & v & Hc & Hv). apply bverts_In in Hv. destruct (Forall2_In_l _ _ _ _ HF Hv) as (l & Hl & Hin).
          exists l. split; auto. apply Hin. auto.
  Qed.
End Interior.

Lemma interior_exact argsort : is_argsort argsort -> forall qual p ts, all_used (length p) ts -> Forall nondegenerate ts -> has_boundary ts ->
  exists del keep, delete_interior_faces argsort qual p ts = Ok (faces_at ts keep, del) /\
    positions (length ts) (fun i => ~ In i del) keep /\
    (forall v, 2 < boundary_degree ts v -> exists f, In f del /\ chosen qual p ts v f) /\
    (forall f, In f del -> exists v, 2 < boundary_degree ts v /\ chosen qual p ts v f).
Proof.
  intros Ha qual p ts Hu Hn Hb. destruct (interior_spec argsort Ha qual p ts Hu Hb) as (del & H1 & H2 & H3).
  exists del, (kept (length ts) del). split; auto. split; [split; [apply kept_sorted|intros i; apply kept_In]|]. split.
  - intros v Hv. apply H2. now rewrite ends_at_nondeg.
  - intros f Hf. destruct (H3 f Hf) as (v & Hv & Hc). exists v. rewrite ends_at_nondeg in Hv by auto. auto.
Qed.
Lemma interior_unchanged argsort : is_argsort argsort -> forall qual p ts, all_used (length p) ts -> Forall nondegenerate ts -> has_boundary ts ->
  (forall v, boundary_degree ts v <= 2) -> delete_interior_faces argsort qual p ts = Ok (ts, []).
Proof. intros Ha qual p ts Hu Hn Hb H. apply interior_none; auto. intros v. now rewrite ends_at_nondeg. Qed.

Section BoundaryFaces.
  Variable argsort : list nat -> list nat.
  Hypothesis Ha : is_argsort argsort.
  Variable kleb : Z * Z -> Z * Z -> bool.
  Variable qual : list point -> tri -> option Q.

  Lemma qual_lt_spec q m : qual_lt q m = true <-> exists x, q = Some x /\ (x < m)%Q.
  Proof.
    destruct q as [x|]; simpl; [|split; [discriminate|intros (x & H & _); discriminate]].
    rewrite negb_true_iff, <- not_true_iff_false, Qle_bool_iff. split.
    - intros H. exists x. split; auto. now apply Qnot_le_lt.
    - intros (y & H & Hy). injection H as <-. intros Hle. apply (Qlt_irrefl x). eapply Qlt_le_trans; eauto.
  Qed.

  Lemma boundary_faces_ok p ts mq : all_used (length p) ts -> has_boundary ts ->
    exists keep, positions (length ts)
        (fun i => ~ ((exists u v, on_boundary ts u v /\ In v (corners (nth i ts no_face))) /\
                     exists q, qual p (nth i ts no_face) = Some q /\ (q < mq)%Q)) keep /\
      delete_boundary_faces argsort kleb qual p ts mq =
      (let! f := fix_mesh kleb ptol_default p (faces_at ts keep) true in Ok (fst (fst f), snd (fst f))).
  Proof.
    intros Hu Hbd. unfold delete_boundary_faces.
    pose proof (all_used_range _ _ Hu) as Hr. apply in_rangeb_spec in Hr. rewrite Hr. cbn [bind].
    destruct (boundary_entities_ok argsort Ha p ts Hu Hbd) as (bele & H1 & H2 & H3). rewrite H1. cbn [bind].
    rewrite delete_at_faces. cbv zeta.
    exists (kept (length ts) (filter (fun f => qual_lt (qual p (nth f ts (0, 0, 0))) mq) bele)). split.
    2:{ unfold fix0.
        destruct (fix_mesh kleb ptol_default p
          (faces_at ts (kept (length ts) (filter (fun f => qual_lt (qual p (nth f ts (0, 0, 0))) mq) bele))) true)
          as [[[p' t'] j]| |]; reflexivity. }
    split; [apply kept_sorted|]. intros i. rewrite kept_In. change (0, 0, 0) with no_face.
    rewrite filter_In, H3, qual_lt_spec. split.
    - intros [Hi Hn]. split; auto. intros ((u & v & Hb & Hc) & Hq). apply Hn. split; auto. split; auto.
      exists v. split; auto. apply boundary_ends_In. eauto.
    - intros [Hi Hn]. split; auto. intros ((_ & v & Hc & Hb) & Hq). apply Hn. split; auto.
      apply boundary_ends_In in Hb. destruct Hb as (u & Hu'). exists u, v. auto.
  Qed.
End BoundaryFaces.

Lemma interior_closed argsort qual p ts : ~ has_boundary ts -> delete_interior_faces argsort qual p ts = Raise IndexError.
Proof. intros Hb. unfold delete_interior_faces. now rewrite external_topology_closed. Qed.
Lemma boundary_faces_closed argsort kleb qual p ts mq : ~ has_boundary ts -> delete_boundary_faces argsort kleb qual p ts mq = Raise IndexError.
Proof.
  intros Hb. unfold delete_boundary_faces. destruct (forallb _ ts); [|reflexivity]. cbn [bind].
  unfold get_boundary_entities. now rewrite external_topology_closed.
Qed.
