(** Theorems about ocean sections on a mesh with one boundary (C62, C63). *)
From Coq Require Import List Arith Bool ZArith QArith.
From Verif Require Import M_Base M_Edges M_Sdf M_Boundary S_Edges S_Boundary S_BoundaryM P_Edges P_Boundary P_BoundaryM.
Import ListNotations.
Open Scope nat_scope.

(** C63.  On a mesh with one boundary the loop that is examined contains every boundary node.  At threshold 2 the sections are exactly the
    stretches of deep nodes of the closed loop, PROVIDED every stretch has at least three nodes (C32 says what happens otherwise) and the
    first and the last node of the loop are not both deep (C63_seam_refuted).  Missing: meshes with more than one boundary loop. *)
Theorem C63_one_loop_partial : forall ts (topo : list num), Forall nondegenerate ts -> (exists u v, on_boundary ts u v) ->
  (forall v, boundary_degree ts v = 0 \/ boundary_degree ts v = 2) -> (forall t v, In t ts -> has_vertex v t -> v < length topo) -> one_boundary ts ->
  exists nodes, nodes <> [] /\ boundary_loop ts nodes /\ (forall u v, on_boundary ts u v -> In u nodes /\ In v nodes) /\
  forall t, (forall u v, hd_error nodes = Some u -> hd_error (rev nodes) = Some v -> ~ (deep_node topo t u /\ deep_node topo t v)) ->
    (forall l, deep_arc topo t nodes l -> 3 <= length l) ->
    exists secs, identify_ocean_boundary_sections ts topo t 2 = Ok secs /\ NoDup secs /\
      forall u v, In (u, v) secs <-> exists l, deep_arc topo t nodes l /\ hd_error l = Some u /\ hd_error (rev l) = Some v.
Proof. exact one_loop. Qed.
Print Assumptions C63_one_loop_partial.
(** The fan with deep nodes 4, 5, 6 and 8, 9, 10. *)
Example C63_case : (Forall nondegenerate fan /\ (exists u v, on_boundary fan u v) /\ (forall v, boundary_degree fan v = 0 \/ boundary_degree fan v = 2) /\
    (forall t v, In t fan -> has_vertex v t -> v < length twice) /\ one_boundary fan) /\
  boundary_nodes fan = Ok (seq 0 12) /\
  (forall u v, hd_error (seq 0 12) = Some u -> hd_error (rev (seq 0 12)) = Some v -> ~ (deep_node twice (-50) u /\ deep_node twice (-50) v)) /\
  (forall l, deep_arc twice (-50) (seq 0 12) l -> 3 <= length l) /\
  identify_ocean_boundary_sections fan twice (-50) 2 = Ok [(4, 6); (8, 10)].
Proof. exact twice_case. Qed.

(** C62.  One stretch of three or more deep nodes is a section for every threshold from 2 on, however many nodes the threshold asks for. *)
Theorem C62_threshold_ignored : forall ts (topo : list num), Forall nondegenerate ts -> (exists u v, on_boundary ts u v) ->
  (forall v, boundary_degree ts v = 0 \/ boundary_degree ts v = 2) -> (forall t v, In t ts -> has_vertex v t -> v < length topo) ->
  exists nodes, nodes <> [] /\ boundary_loop ts nodes /\ forall t a k m, 3 <= k -> (2 <= m)%Z -> deep_positions topo t nodes (seq a k) ->
    identify_ocean_boundary_sections ts topo t m = Ok [(nth a nodes 0, nth (a + k - 1) nodes 0)].
Proof. exact threshold_ignored. Qed.
Print Assumptions C62_threshold_ignored.
Example C62_case : identify_ocean_boundary_sections fan (topo_of 12 [4; 5; 6; 7]) (-50) 2 = Ok [(4, 7)] /\
  identify_ocean_boundary_sections fan (topo_of 12 [4; 5; 6; 7]) (-50) 1000 = Ok [(4, 7)].
Proof. split; vm_compute; reflexivity. Qed.
