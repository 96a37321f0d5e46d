(** Further proofs about clean.py: rounds of deletion, the crash of make_mesh_boundaries_traversable,
    and the composite mesh_clean. *)
From Coq Require Import List Arith Bool Lia Relations Permutation Sorted ZArith QArith Qabs Lqa.
From Verif Require Import M_Base M_Numpy M_Edges M_FixMesh M_Adjacency M_Clean.
From Verif Require Import S_Edges S_FixMesh S_Adjacency S_Clean Util P_Edges P_FixMesh P_Adjacency P_Search P_Exterior P_Interior P_Traversable P_OneFace P_Laplacian.
Import ListNotations.
Open Scope nat_scope.

Section Rounds.
  Variable argsort : list nat -> list nat.
  Hypothesis Ha : is_argsort argsort.
  Variable kleb : Z * Z -> Z * Z -> bool.
  Hypothesis Hk : total_order kleb.

  Lemma loop_shift fuel : forall c k p ts,
    one_face_loop argsort kleb fuel (S c) (Some (S k)) p ts = one_face_loop argsort kleb fuel c (Some k) p ts.
  Proof.
    induction fuel as [|fuel IH]; intros c k p ts; auto. cbn [one_face_loop].
    change (S c <? S k) with (c <? k). destruct (c <? k); auto. destruct (one_neighbour argsort ts); auto.
    destruct (fix0 kleb p (delete_at ts (n :: l))) as [[[p1 t1] j]| |]; auto. cbn [bind]. apply IH.
  Qed.

  Lemma loop_fuel f1 : forall f2 c mi p ts, length ts < f1 -> length ts < f2 ->
    one_face_loop argsort kleb f1 c mi p ts = one_face_loop argsort kleb f2 c mi p ts.
  Proof.
    induction f1 as [|f1 IH]; intros f2 c mi p ts H1 H2; [lia|]. destruct f2 as [|f2]; [lia|]. cbn [one_face_loop].
    destruct (match mi with None => true | Some k => c <? k end); auto.
    destruct (one_neighbour argsort ts) as [|f del] eqn:Ed; auto.
    destruct (fix0 kleb p (delete_at ts (f :: del))) as [[[p1 t1] j]| |] eqn:Ef; auto. cbn [bind].
    assert (Hf : f < length ts) by (apply (one_neighbour_lt argsort Ha); rewrite Ed; now left).
    rewrite delete_at_faces in Ef. destruct (fix_smaller kleb Hk ptol_default _ _ _ _ _ Ef) as [_ Hl]. rewrite faces_at_length in Hl.
    assert (length (kept (length ts) (f :: del)) < length ts) by (apply kept_lt with f; auto; now left).
    apply IH; lia.
  Qed.

  Lemma rounds k p ts : k <> 0 -> delete_faces_connected_to_one_face argsort kleb (Some (S k)) p ts =
    (let! r := delete_faces_connected_to_one_face argsort kleb (Some 1) p ts in
     delete_faces_connected_to_one_face argsort kleb (Some k) (fst r) (snd r)).
  Proof.
    intros Hk0. unfold delete_faces_connected_to_one_face. destruct k as [|k]; [congruence|].
    cbn [one_face_loop Nat.ltb Nat.leb].
    destruct (one_neighbour argsort ts) as [|f del] eqn:Ed.
    - cbn [bind fst snd one_face_loop Nat.ltb Nat.leb]. rewrite Ed. reflexivity.
    - destruct (fix0 kleb p (delete_at ts (f :: del))) as [[[p1 t1] j]| |] eqn:Ef; [|reflexivity|reflexivity]. cbn [bind].
      assert (Hf : f < length ts) by (apply (one_neighbour_lt argsort Ha); rewrite Ed; now left).
      rewrite delete_at_faces in Ef. destruct (fix_smaller kleb Hk ptol_default _ _ _ _ _ Ef) as [_ Hl]. rewrite faces_at_length in Hl.
      assert (length (kept (length ts) (f :: del)) < length ts) by (apply kept_lt with f; auto; now left).
      rewrite loop_shift. destruct (length ts) as [|n] eqn:En; [lia|].
      assert (E1 : one_face_loop argsort kleb (S n) 1 (Some 1) p1 t1 = Ok (p1, t1)) by reflexivity.
      rewrite E1. cbn [bind fst snd]. apply (loop_fuel (S n) (S (length t1)) 0 (Some (S k)) p1 t1); lia.
  Qed.
End Rounds.

Section Crash.
  Variable argsort : list nat -> list nat.
  Hypothesis Ha : is_argsort argsort.
  Variable kleb : Z * Z -> Z * Z -> bool.
  Variable qual : list point -> tri -> option Q.
  Variable draw : nat -> nat -> nat -> nat.
  Hypothesis Hdraw : forall c k n, 0 < n -> draw c k n < n.

  Lemma mmbt_all_small p ts m : Forall (in_range (length p)) ts -> Forall (fun t => (0 <= area2 p t)%Q) ts ->
    (0 < mesh_area p ts)%Q -> (0 <= m)%Q -> (forall i, i < length ts -> ~ large p ts m i) ->
    Forall nondegenerate ts -> manifold ts -> ~ traversable ts ->
    make_mesh_boundaries_traversable argsort kleb qual draw p ts m = Raise IndexError.
  Proof.
    intros Hr Hpos HA Hm Hsmall Hnd Hmf Hnt. unfold make_mesh_boundaries_traversable.
    cbn [traversable_loop].
    destruct (has_boundary_dec ts) as [Hbd|Hbd]; [|now rewrite external_topology_closed].
    rewrite external_topology_ok by auto. cbn [bind fst snd].
    destruct (Nat.leb_spec (length (get_boundary_edges ts)) (length (bverts ts))) as [Hle|Hgt].
    { exfalso. apply Hnt. now apply exit_traversable. }
    destruct (exterior_exact argsort (draw 0) p ts m Ha (Hdraw 0) Hr Hpos HA Hm) as (keep & Hd & _ & Hin).
    rewrite Hd. cbn [bind].
    assert (keep = []) as ->.
    { destruct keep as [|i keep]; auto. exfalso. destruct (proj1 (Hin i) (or_introl eq_refl)) as [Hi Hl]. exact (Hsmall i Hi Hl). }
    reflexivity.
  Qed.
End Crash.

(** Twenty triangles in a row, each touching the next in one vertex. *)
Definition row20_p : list point :=
  flat_map (fun k => [(inject_Z (Z.of_nat k), 0); (inject_Z (Z.of_nat k), 1)]%Q) (seq 0 20) ++ [(20 # 1, 0)]%Q.
Definition row20_t : list tri := map (fun k => (2 * k, 2 * k + 2, 2 * k + 1)) (seq 0 20).

Lemma row20_nth i : i < 20 -> nth i row20_t no_face = (2 * i, 2 * i + 2, 2 * i + 1).
Proof.
  intros Hi. unfold row20_t.
  rewrite nth_indep with (d' := (fun k => (2 * k, 2 * k + 2, 2 * k + 1)) 0) by (rewrite map_length, seq_length; auto).
  rewrite (map_nth (fun k => (2 * k, 2 * k + 2, 2 * k + 1))). rewrite seq_nth by auto. reflexivity.
Qed.
Lemma side_uses_two u v a b c : a <> b -> b <> c -> a <> c -> side_uses u v (a, b, c) >= 1 ->
  u <> v /\ In u [a; b; c] /\ In v [a; b; c].
Proof.
  intros H1 H2 H3. unfold side_uses, same_pair.
  destruct (Nat.eqb_spec u a), (Nat.eqb_spec u b), (Nat.eqb_spec u c), (Nat.eqb_spec v a), (Nat.eqb_spec v b), (Nat.eqb_spec v c);
    subst; simpl; intros; try lia; (split; [lia|]); auto 8.
Qed.
Lemma row20_connected i j : i < 20 -> connected row20_t i j -> i = j.
Proof.
  intros Hi H. assert (G : forall a b, connected row20_t a b -> a = b); [|now apply G].
  intros a b Hc. induction Hc as [a b (Ha & Hb & u & v & Hu & Hv)| |]; [|auto|congruence].
  change (length row20_t) with 20 in *. rewrite row20_nth in Hu, Hv by auto.
  apply side_uses_two in Hu; try lia. apply side_uses_two in Hv; try lia. simpl in Hu, Hv. lia.
Qed.
Lemma forallb_seq (f : nat -> bool) n i : forallb f (seq 0 n) = true -> i < n -> f i = true.
Proof. rewrite forallb_forall. intros H Hi. apply H. apply in_seq. lia. Qed.

Lemma row20_crash :
  Forall (in_range (length row20_p)) row20_t /\ Forall (fun t => (0 < area2 row20_p t)%Q) row20_t /\
  separated ptol_default row20_p /\ manifold row20_t /\ Forall nondegenerate row20_t /\
  (forall argsort kleb qual draw, is_argsort argsort -> (forall c k n, 0 < n -> draw c k n < n) ->
     make_mesh_boundaries_traversable argsort kleb qual draw row20_p row20_t (1 # 20) = Raise IndexError).
Proof.
  assert (H1 : Forall (in_range (length row20_p)) row20_t).
  { apply Forall_forall. intros t Ht. apply in_map_iff in Ht. destruct Ht as (k & <- & Hin). apply in_seq in Hin.
    change (length row20_p) with 41. unfold in_range. cbn [corners]. repeat (apply Forall_cons; [lia|]). apply Forall_nil. }
  assert (H2 : Forall (fun t => (0 < area2 row20_p t)%Q) row20_t).
  { apply Forall_forall. intros t Ht. apply (In_nth _ _ no_face) in Ht. destruct Ht as (i & Hi & <-).
    change (length row20_t) with 20 in Hi.
    assert (E : negb (Qle_bool (area2 row20_p (nth i row20_t no_face)) 0) = true).
    { apply (forallb_seq (fun i => negb (Qle_bool (area2 row20_p (nth i row20_t no_face)) 0)) 20); [vm_compute; reflexivity|exact Hi]. }
    apply negb_true_iff in E. apply Qnot_le_lt. rewrite <- Qle_bool_iff. congruence. }
  assert (H3 : separated ptol_default row20_p).
  { exists (20 # 1)%Q. split.
    - assert (E : forallb (fun a => forallb (fun b => Qle_bool (fst a - fst b) (20 # 1) && Qle_bool (snd a - snd b) (20 # 1)) row20_p) row20_p = true)
        by (vm_compute; reflexivity).
      intros a b Hia Hib. rewrite forallb_forall in E. specialize (E a Hia). rewrite forallb_forall in E. specialize (E b Hib).
      apply andb_true_iff in E. rewrite !Qle_bool_iff in E. exact E.
    - apply no_two_nth with (d := (0, 0)%Q). intros i j Hij Hj [Hn1 Hn2]. change (length row20_p) with 41 in Hj.
      assert (E : forallb (fun j => forallb (fun i => negb ((i <? j) && Qle_bool (Qabs (fst (nth i row20_p (0, 0)%Q) - fst (nth j row20_p (0, 0)%Q))) ((20 # 1) * ptol_default) && Qle_bool (Qabs (snd (nth i row20_p (0, 0)%Q) - snd (nth j row20_p (0, 0)%Q))) ((20 # 1) * ptol_default))) (seq 0 41)) (seq 0 41) = true)
        by (vm_compute; reflexivity).
      apply (forallb_seq _ _ j) in E; auto. apply (forallb_seq _ _ i) in E; [|lia]. cbn beta in E. apply negb_true_iff in E.
      apply Nat.ltb_lt in Hij. rewrite Hij in E. apply Qle_bool_iff in Hn1, Hn2. rewrite Hn1, Hn2 in E. discriminate. }
  assert (H5 : Forall nondegenerate row20_t).
  { apply Forall_forall. intros t Ht. apply in_map_iff in Ht. destruct Ht as (k & <- & _). simpl. lia. }
  assert (H4 : manifold row20_t).
  { intros u v. unfold row20_t.
    assert (G : forall n s, edge_uses u v (map (fun k => (2 * k, 2 * k + 2, 2 * k + 1)) (seq s n)) <= 1 /\
              (edge_uses u v (map (fun k => (2 * k, 2 * k + 2, 2 * k + 1)) (seq s n)) >= 1 -> 2 * s <= u /\ 2 * s <= v /\ u <> v)).
    { induction n as [|n IH]; intros s; [split; [unfold edge_uses; simpl; lia|unfold edge_uses; simpl; lia]|].
      cbn [seq map]. rewrite edge_uses_cons. destruct (IH (S s)) as [I1 I2].
      assert (Hs1 : side_uses u v (2 * s, 2 * s + 2, 2 * s + 1) <= 1).
      { unfold side_uses, same_pair.
        destruct (Nat.eqb_spec u (2 * s)), (Nat.eqb_spec u (2 * s + 2)), (Nat.eqb_spec u (2 * s + 1)),
          (Nat.eqb_spec v (2 * s)), (Nat.eqb_spec v (2 * s + 2)), (Nat.eqb_spec v (2 * s + 1)); simpl; lia. }
      destruct (side_uses u v (2 * s, 2 * s + 2, 2 * s + 1)) as [|k] eqn:E.
      - split; [lia|]. intros H. assert (Hge : 2 * S s <= u /\ 2 * S s <= v /\ u <> v) by (apply I2; lia). lia.
      - assert (Hge : side_uses u v (2 * s, 2 * s + 2, 2 * s + 1) >= 1) by lia.
        apply side_uses_two in Hge; try lia. destruct Hge as (G1 & G2 & G3). simpl in G2, G3.
        destruct (le_lt_dec 1 (edge_uses u v (map (fun k => (2 * k, 2 * k + 2, 2 * k + 1)) (seq (S s) n)))) as [Hc|Hc].
        + specialize (I2 Hc). lia.
        + split; [lia|]. intros _. lia. }
    destruct (G 20 0). lia. }
  split; [exact H1|]. split; [exact H2|]. split; [exact H3|]. split; [exact H4|]. split; [exact H5|].
  intros argsort kleb qual draw Ha Hdraw. apply mmbt_all_small; auto.
  - apply Forall_impl with (2 := H2). intros t Ht. now apply Qlt_le_weak.
  - vm_compute. reflexivity.
  - discriminate.
  - intros i Hi (l & [Hnd Hl] & Hlt). change (length row20_t) with 20 in Hi.
    assert (l = [i]) as ->.
    { assert (Hall : forall j, In j l -> j = i) by (intros j Hj; apply Hl in Hj; symmetry; now apply row20_connected).
      assert (Hin : In i l) by (apply Hl; apply rt_refl).
      destruct l as [|x [|y l]]; [contradiction| |].
      - f_equal. apply Hall. now left.
      - exfalso. inversion Hnd as [|? ? Hx _]; subst. apply Hx. left. rewrite (Hall x), (Hall y); simpl; auto. }
    apply (Qlt_not_le _ _ Hlt). apply Qle_bool_iff.
    apply (forallb_seq (fun i => Qle_bool (faces_area row20_p row20_t [i]) ((1 # 20) * mesh_area row20_p row20_t)) 20); [vm_compute; reflexivity|exact Hi].
  - intros Ht. specialize (Ht 2). vm_compute in Ht. destruct Ht; discriminate.
Qed.
