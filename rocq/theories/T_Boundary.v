(** Theorems about ocean boundary sections (C32, C62, C63). *)
From Coq Require Import List Arith Bool ZArith QArith.
From Verif Require Import M_Base M_Edges M_Sdf M_Boundary S_Edges S_Boundary P_Edges P_Boundary.
Import ListNotations.
Open Scope nat_scope.

(** C32.  The boundary nodes go round a boundary loop.  Cutting the positions of the deep nodes into maximal runs (gaps smaller than
    min_nodes_threshold), the result is the first and last node of every run of at least three nodes, PROVIDED no run has exactly two
    nodes and the last two runs are not both single nodes. *)
Theorem C32_sections_partial : forall ts topo, Forall nondegenerate ts -> (exists u v, on_boundary ts u v) ->
  (forall v, boundary_degree ts v = 0 \/ boundary_degree ts v = 2) -> (forall t v, In t ts -> has_vertex v t -> v < length topo) ->
  exists nodes, nodes <> [] /\ boundary_loop ts nodes /\
  forall t m rs, max_runs m rs -> deep_positions topo t nodes (concat rs) ->
    Forall (fun r => length r = 1 \/ 3 <= length r) rs -> ~ (exists pre x y, rs = pre ++ [[x]; [y]]) ->
    identify_ocean_boundary_sections ts topo t m =
      Ok (map (fun r => (nth (hd 0 r) nodes 0, nth (last r 0) nodes 0)) (filter (fun r => 3 <=? length r) rs)).
Proof. exact sections_exact. Qed.
Print Assumptions C32_sections_partial.
(** Every list can be cut into maximal runs, so the statement above always applies to some [rs]. *)
Theorem C32_runs_exist : forall m l, exists rs, max_runs m rs /\ concat rs = l.
Proof. exact cut_runs. Qed.
Print Assumptions C32_runs_exist.
(** For any runs: TypeError exactly when a pair with a run behind it comes before any run of three, or when there are two or more
    runs and all are single nodes; else the sections are those of [reported]; and they are the first and last nodes of the runs of
    at least three nodes if and only if no pair has a run behind it and the last two runs are not both single nodes. *)
Theorem C32_sections_all : forall ts topo, Forall nondegenerate ts -> (exists u v, on_boundary ts u v) ->
  (forall v, boundary_degree ts v = 0 \/ boundary_degree ts v = 2) -> (forall t v, In t ts -> has_vertex v t -> v < length topo) ->
  exists nodes, nodes <> [] /\ boundary_loop ts nodes /\
  forall t m rs, max_runs m rs -> deep_positions topo t nodes (concat rs) ->
    (no_end_yet rs \/ all_single rs -> identify_ocean_boundary_sections ts topo t m = Raise TypeError) /\
    (~ (no_end_yet rs \/ all_single rs) -> exists secs, identify_ocean_boundary_sections ts topo t m = Ok secs /\
      Forall2 (fun p s => exists a b, p = (Some a, Some b) /\ nth_error nodes a = Some (fst s) /\ nth_error nodes b = Some (snd s)) (reported None None rs) secs) /\
    (identify_ocean_boundary_sections ts topo t m =
      Ok (map (fun r => (nth (hd 0 r) nodes 0, nth (last r 0) nodes 0)) (filter (fun r => 3 <=? length r) rs)) <->
      ~ pair_inside rs /\ ~ singles_last rs).
Proof. exact sections_all. Qed.
Print Assumptions C32_sections_all.
Example C32_sections_all_case : let rs := [[0; 1; 2]; [4; 5]; [7]; [9]] in
  reported None None rs = [(Some 0, Some 2); (Some 4, Some 2); (Some 5, Some 9)] /\ ~ (no_end_yet rs \/ all_single rs) /\ pair_inside rs /\ singles_last rs /\
  identify_ocean_boundary_sections fan (topo_of 12 [0; 1; 2; 4; 5; 7; 9]) (-50) 2 = Ok [(0, 2); (4, 2); (5, 9)].
Proof. exact all_case. Qed.
(** With exactly two deep nodes the section is lost (close together) or the function raises TypeError (far apart). *)
Theorem C32_two_deep_nodes_refuted : forall ts topo, Forall nondegenerate ts -> (exists u v, on_boundary ts u v) ->
  (forall v, boundary_degree ts v = 0 \/ boundary_degree ts v = 2) -> (forall t v, In t ts -> has_vertex v t -> v < length topo) ->
  exists nodes, nodes <> [] /\ boundary_loop ts nodes /\ forall t m a b, deep_positions topo t nodes [a; b] ->
  (near m a b -> identify_ocean_boundary_sections ts topo t m = Ok []) /\
  (~ near m a b -> identify_ocean_boundary_sections ts topo t m = Raise TypeError).
Proof. exact two_deep_nodes. Qed.
Print Assumptions C32_two_deep_nodes_refuted.
(** A run of two followed by another run: TypeError, or a section that ends before it starts. *)
Theorem C32_pair_crash_refuted : identify_ocean_boundary_sections fan (topo_of 12 [0; 1; 4; 5; 6]) (-50) 2 = Raise TypeError.
Proof. exact pair_crash. Qed.
Print Assumptions C32_pair_crash_refuted.
Theorem C32_stale_end_refuted : identify_ocean_boundary_sections fan (topo_of 12 [0; 1; 2; 4; 5; 7; 8; 9]) (-50) 2 = Ok [(0, 2); (4, 2); (7, 9)].
Proof. exact stale_end. Qed.
Print Assumptions C32_stale_end_refuted.
(** Isolated nodes at the end: TypeError, or a section across shallow nodes. *)
Theorem C32_isolated_crash_refuted : identify_ocean_boundary_sections fan (topo_of 12 [3; 6; 9]) (-50) 2 = Raise TypeError.
Proof. exact single_crash. Qed.
Print Assumptions C32_isolated_crash_refuted.
Theorem C32_isolated_bogus_refuted : identify_ocean_boundary_sections fan (topo_of 12 [0; 1; 2; 5; 9]) (-50) 2 = Ok [(0, 2); (2, 9)].
Proof. exact bogus_last. Qed.
Print Assumptions C32_isolated_bogus_refuted.
(** [fan]: ten triangles around node 0; all twelve nodes are on the boundary. *)
Example C32_case : (Forall nondegenerate fan /\ (exists u v, on_boundary fan u v) /\ (forall v, boundary_degree fan v = 0 \/ boundary_degree fan v = 2) /\
    (forall t v, In t fan -> has_vertex v t -> v < length (topo_of 12 []))) /\
  identify_ocean_boundary_sections fan (topo_of 12 [0; 1; 2; 4; 6; 7; 9; 10]) (-50) 3 = Ok [(0, 10)] /\
  identify_ocean_boundary_sections fan (topo_of 12 [0; 1; 2; 4; 6; 7; 8; 9; 11]) (-50) 2 = Ok [(0, 2); (6, 9)].
Proof. split; [exact fan_ok|]. split; vm_compute; reflexivity. Qed.

(** C62.  min_nodes_threshold is documented as the minimum number of nodes of a section; a section of three nodes is returned with threshold 10. *)
Theorem C62_min_nodes_refuted : identify_ocean_boundary_sections fan (topo_of 12 [4; 5; 6]) (-50) 10 = Ok [(4, 6)].
Proof. exact short_section. Qed.
Print Assumptions C62_min_nodes_refuted.

(** C63.  A run across the starting node of the loop is reported as two sections; other loops are not examined at all. *)
Theorem C63_seam_refuted : identify_ocean_boundary_sections fan (topo_of 12 [0; 1; 2; 9; 10; 11]) (-50) 2 = Ok [(0, 2); (9, 11)] /\ on_boundary fan 11 0.
Proof. exact seam_split. Qed.
Print Assumptions C63_seam_refuted.
Theorem C63_other_loops_refuted : identify_ocean_boundary_sections annulus (topo_of 8 [4; 5; 6; 7]) (-50) 10 = Ok [] /\
  on_boundary annulus 4 5 /\ on_boundary annulus 5 6 /\ on_boundary annulus 6 7 /\ on_boundary annulus 4 7.
Proof. exact annulus_inner. Qed.
Print Assumptions C63_other_loops_refuted.
(** What does hold: sections always lie on one loop, in loop order (C32), and the loop contains every boundary edge linked to it (C04). *)
