(** Property theorems C55 and C09 (clean.py): when cleaning leaves something. *)
From Coq Require Import List Arith Bool ZArith QArith Lia.
From Verif Require Import M_Base M_Numpy M_Edges M_FixMesh M_Adjacency M_Clean.
From Verif Require Import S_Edges S_FixMesh S_Adjacency S_Clean S_Survive.
From Verif Require Import P_Edges P_FixMesh P_Adjacency P_CleanMore P_Survive.
Import ListNotations.
Open Scope nat_scope.

(** C55.  A mesh of n positively oriented faces drawn in the plane is cleaned successfully if min_disconnected_area is less
    than 1/n: then one component is large enough in every pass, and delete_interior_faces never removes the last face. The
    sort in _vertex_to_face is stable here; the qualities, the random draws and the byte order are arbitrary. *)
Theorem C55_few_faces_partial : forall kleb, total_order kleb -> forall qual draw, (forall c k n, 0 < n -> draw c k n < n) -> forall m, (0 <= m)%Q ->
  forall p ts, Forall (in_range (length p)) ts -> separated ptol_default p -> Forall (fun t => (0 < area2 p t)%Q) ts ->
  unfolded p ts -> ts <> [] -> below_share m (length ts) ->
  exists r, make_mesh_boundaries_traversable stable_argsort kleb qual draw p ts m = Ok r.
Proof. exact returns_stable. Qed.
Print Assumptions C55_few_faces_partial.
(** With numpy's unstable sort the same holds if no two faces have the same quality. *)
Theorem C55_no_ties_partial : forall kleb, total_order kleb -> forall qual draw, (forall c k n, 0 < n -> draw c k n < n) -> forall m, (0 <= m)%Q ->
  forall argsort, is_argsort argsort -> geometric qual -> forall p ts, Forall (in_range (length p)) ts -> separated ptol_default p ->
  Forall (fun t => (0 < area2 p t)%Q) ts -> unfolded p ts -> ts <> [] -> below_share m (length ts) -> no_ties qual p ts ->
  exists r, make_mesh_boundaries_traversable argsort kleb qual draw p ts m = Ok r.
Proof. exact returns_distinct. Qed.
Print Assumptions C55_no_ties_partial.
(** Three congruent triangles in a ring meet the conditions of the first theorem; one triangle is left.  With other
    heights no two have the same area. *)
Definition ring3_p : list (Q * Q) := [(0, 0); (1, 0); (5 # 1, 0); (0, 1); (1, 1); (0, 3)]%Q.
Example C55_few_faces_case : (Forall (in_range (length ring_p)) ring_t /\ separated ptol_default ring_p /\
  Forall (fun t => (0 < area2 ring_p t)%Q) ring_t /\ unfolded ring_p ring_t) /\ below_share (1 # 20) (length ring_t) /\
  make_mesh_boundaries_traversable stable_argsort zedge_leb sq_area (fun _ _ _ => 0) ring_p ring_t (1 # 20) =
  Ok ([(1, 0); (1, 1); (2, 0)]%Q, [(1, 0, 2)]).
Proof. split; [exact ring_plane|]. split; vm_compute; reflexivity. Qed.
Example C55_no_ties_case : is_argsort odd_argsort /\ geometric sq_area /\ unfolded ring3_p ring_t /\ no_ties sq_area ring3_p ring_t /\
  make_mesh_boundaries_traversable odd_argsort zedge_leb sq_area (fun _ _ _ => 0) ring3_p ring_t (1 # 20) =
  Ok ([(1, 0); (1, 1); (5 # 1, 0)]%Q, [(1, 0, 2)]).
Proof.
  split; [exact odd_is_argsort|]. split; [exact sq_area_geometric|]. split; [apply unfolded_check; vm_compute; reflexivity|].
  split; [|vm_compute; reflexivity].
  repeat constructor; unfold tie, not_better; vm_compute; intros [A B]; auto.
Qed.
(** Without either condition nothing may be left: the three congruent triangles, with a sort that puts the faces at one of
    the common vertices in decreasing order, are all removed in one pass, whatever min_disconnected_area. *)
Theorem C55_ties_refuted : exists argsort p ts, is_argsort argsort /\ Forall (in_range (length p)) ts /\ separated ptol_default p /\
  Forall (fun t => (0 < area2 p t)%Q) ts /\ unfolded p ts /\ length ts = 3 /\
  exists qual kleb draw, geometric qual /\ total_order kleb /\ (forall c k n, 0 < n -> draw c k n < n) /\
    make_mesh_boundaries_traversable argsort kleb qual draw p ts 0 = Raise IndexError.
Proof. exact ring_refuted. Qed.
Print Assumptions C55_ties_refuted.
(** The bound is sharp: twenty faces with the fraction 1/20 fail (C55_always_returns_refuted), and these lie in the plane. *)
Theorem C55_share_sharp : unfolded row20_p row20_t /\ ((1 # 20) * inject_Z (Z.of_nat (length row20_t)) == 1)%Q /\
  forall argsort kleb qual draw, is_argsort argsort -> (forall c k n, 0 < n -> draw c k n < n) ->
    make_mesh_boundaries_traversable argsort kleb qual draw row20_p row20_t (1 # 20) = Raise IndexError.
Proof. exact row20_sharp. Qed.
Print Assumptions C55_share_sharp.

(** C09.  delete_interior_faces with a stable sort leaves a face. *)
Theorem C09_something_left : forall qual p ts, all_used (length p) ts -> Forall nondegenerate ts -> has_boundary ts ->
  exists t' del, delete_interior_faces stable_argsort qual p ts = Ok (t', del) /\ t' <> [].
Proof. exact stable_left. Qed.
Print Assumptions C09_something_left.
Example C09_left_case : all_used (length ring_p) ring_t /\ Forall nondegenerate ring_t /\ has_boundary ring_t /\
  delete_interior_faces stable_argsort sq_area ring_p ring_t = Ok ([(3, 4, 5)], [0; 0; 1]).
Proof.
  split; [|split; [repeat constructor; discriminate|split; [exists 0, 1; reflexivity|vm_compute; reflexivity]]].
  intros v. split.
  - intros H. cbn in H. do 6 (destruct v as [|v]; [first
      [exists (0, 1, 3); split; simpl; auto; fail|exists (1, 2, 4); split; simpl; auto; fail|exists (3, 4, 5); split; simpl; auto; fail]|]). lia.
  - intros (t & [<-|[<-|[<-|[]]]] & H); simpl in *; lia.
Qed.
