(** Theorems about rings of edges and the backends of the point-in-polygon test (C111 to C115). *)
From Coq Require Import String List Arith Bool ZArith QArith Permutation Lqa Lia.
From Verif Require Import M_Base M_Sdf M_Inpoly S_Sdf P_Sdf S_Inpoly P_Inpoly M_Rings S_Rings P_Rings.
Import ListNotations.
Open Scope nat_scope.

(** C111.  _edges_to_rings: when every edge end has two edges the rings run through every edge exactly once and through
    every vertex exactly once, beginning with the first edge's first vertex; otherwise it raises ValueError. *)
Theorem C111_decomposition : forall node E, (forall v, In v (end_list E) -> v < length node) ->
  (forall v, In v (end_list E) -> degree E v = 2) ->
  exists rings, edges_to_rings node E = Ok (map (places node) rings) /\ ring_indices E = Ok rings /\ decomposes E rings /\
    match E with [] => rings = [] | e :: _ => exists r t, rings = (fst e :: r) :: t end.
Proof. exact rings_places. Qed.
Print Assumptions C111_decomposition.
Theorem C111_refused : forall node E, (exists v, In v (end_list E) /\ degree E v <> 2) -> edges_to_rings node E = Raise ValueError.
Proof. exact rings_refused'. Qed.
Print Assumptions C111_refused.
Theorem C111_one_ring : forall node, 3 <= length node -> edges_to_rings node (side_pairs node None) = Ok [node].
Proof. exact ring_one_sides. Qed.
Print Assumptions C111_one_ring.
Example C111_case : ring_indices [(4, 2); (0, 1); (3, 2); (1, 0); (5, 5); (3, 4)] = Ok [[4; 2; 3]; [0; 1]; [5]] /\
  (forall v, In v (end_list [(4, 2); (0, 1); (3, 2); (1, 0); (5, 5); (3, 4)]) -> degree [(4, 2); (0, 1); (3, 2); (1, 0); (5, 5); (3, 4)] v = 2) /\
  ring_indices [(0, 1); (1, 2); (2, 0); (2, 3)] = Raise ValueError.
Proof.
  split; [vm_compute; reflexivity|]. split; [|vm_compute; reflexivity]. intros v I. cbn in I.
  repeat (destruct I as [<-|I]; [reflexivity|]). destruct I.
Qed.

(** C112.  With a geometry engine that is right about well-formed polygons, the Shapely backend says inside exactly for queries off
    the boundary that an odd number of sides are crossed from, and flags every query on the boundary. *)
Theorem C112_shapely_edges : forall P (make : list xy -> list (list xy) -> res P) contains within ftol node edge outer holes vert,
  faithful make contains within -> (0 <= ftol)%Q -> 3 <= length node -> (forall es, edge = Some es -> valid_edges node es) ->
  edges_to_rings node (side_pairs node edge) = Ok (outer :: holes) -> well_formed outer holes ->
  exists s b, inpoly2_with (inpoly_shapely P make contains within) ftol node edge vert = Ok (s, b) /\
    forall i x y, nth_error vert i = Some (Fin x, Fin y) -> exists si bi, nth_error s i = Some si /\ nth_error b i = Some bi /\
      (si = true <-> ~ on_side (sides node edge) (x, y) /\ odd_many (crosses (x, y)) true (sides node edge)) /\
      (on_side (sides node edge) (x, y) -> bi = true).
Proof. exact (@shapely_edges). Qed.
Print Assumptions C112_shapely_edges.
Theorem C112_shapely_ring : forall P (make : list xy -> list (list xy) -> res P) contains within ftol node vert,
  faithful make contains within -> (0 <= ftol)%Q -> simple node ->
  exists s b, inpoly2_with (inpoly_shapely P make contains within) ftol node None vert = Ok (s, b) /\
    forall i x y, nth_error vert i = Some (Fin x, Fin y) -> exists si bi, nth_error s i = Some si /\ nth_error b i = Some bi /\
      (si = true <-> ~ on_side (ring_segments node) (x, y) /\ odd_many (crosses (x, y)) true (ring_segments node)) /\
      (on_side (ring_segments node) (x, y) -> bi = true).
Proof. exact (@shapely_ring). Qed.
Print Assumptions C112_shapely_ring.
Theorem C112_fallback : forall P (make : list xy -> list (list xy) -> res P) contains within cp ftol node E vert, (exists v, In v (end_list E) /\ degree E v <> 2) ->
  inpoly_shapely P make contains within ftol node E vert = raycasting ftol node E vert /\ inpoly_matplotlib cp ftol node E vert = raycasting ftol node E vert.
Proof. exact (@fallback_both). Qed.
Print Assumptions C112_fallback.
Example C112_fallback_case : In 0 (end_list [(0, 1); (1, 2)]) /\ degree [(0, 1); (1, 2)] 0 = 1.
Proof. vm_compute. tauto. Qed.
Example C112_case : faithful ref_make ref_contains ref_within /\ well_formed (rect 0 0 6 6) [rect 2 2 4 4] /\
  edges_to_rings box_nodes (side_pairs box_nodes (Some box_edges)) = Ok [rect 0 0 6 6; rect 2 2 4 4] /\ valid_edges box_nodes box_edges /\
  inpoly2_with (inpoly_shapely _ ref_make ref_contains ref_within) 0 box_nodes (Some box_edges)
    [(Fin 1, Fin 1); (Fin 3, Fin 3); (Fin 2, Fin 3); (NaN, Fin 1)]%Q = Ok ([true; false; false; false], [false; false; true; false]).
Proof.
  split; [exact ref_faithful|]. split; [apply boxes_well_formed; lra|]. split; [exact box_rings|]. split; [exact box_valid|]. vm_compute. reflexivity.
Qed.

(** C113.  The docstring says STAT includes the boundary (BNDS).  So it is for the ray caster and the compiled kernel at any tolerance;
    the other two backends never report a boundary query as inside. *)
Theorem C113_kernels_partial : forall k ftol node edge vert s b i, k = raycasting \/ k = compiled ->
  inpoly2_with k ftol node edge vert = Ok (s, b) -> nth_error b i = Some true -> nth_error s i = Some true.
Proof. exact kernels_bnds_stat. Qed.
Print Assumptions C113_kernels_partial.
Theorem C113_shapely_refuted : forall P (make : list xy -> list (list xy) -> res P) contains within ftol node q,
  faithful make contains within -> (0 <= ftol)%Q -> simple node -> on_ring node q ->
  inpoly2_with (inpoly_shapely P make contains within) ftol node None [(Fin (fst q), Fin (snd q))] = Ok ([false], [true]).
Proof. exact (@shapely_boundary). Qed.
Print Assumptions C113_shapely_refuted.
Theorem C113_matplotlib_never : forall cp ftol node edge vert s b i r rs, (forall es, edge = Some es -> valid_edges node es) -> 2 <= length node ->
  edges_to_rings node (side_pairs node edge) = Ok (r :: rs) ->
  inpoly2_with (inpoly_matplotlib cp) ftol node edge vert = Ok (s, b) -> nth_error b i = Some true -> nth_error s i = Some false.
Proof. exact mpl_never. Qed.
Print Assumptions C113_matplotlib_never.
Theorem C113_matplotlib_refuted : exists cp node q, union_rule cp /\ simple node /\ on_ring node q /\
  inpoly2_with (inpoly_matplotlib cp) (1 # 10) node None [(Fin (fst q), Fin (snd q))] = Ok ([false], [true]).
Proof. exact mpl_boundary_refuted. Qed.
Print Assumptions C113_matplotlib_refuted.
Example C113_case : inpoly2_with raycasting 0 (rect 0 0 6 6) None [(Fin 6, Fin 3)]%Q = Ok ([true], [true]) /\
  inpoly2_with (inpoly_shapely _ ref_make ref_contains ref_within) 0 (rect 0 0 6 6) None [(Fin 6, Fin 3)]%Q = Ok ([false], [true]).
Proof. split; vm_compute; reflexivity. Qed.

(** C114.  A query's answer does not depend on the other queries: so it is when the compiled kernel is there, a backend is named in the
    environment, there are a thousand edges, or neither library is there; otherwise a thousand queries get another backend and another answer. *)
Theorem C114_settled_partial : forall P (make : list xy -> list (list xy) -> res P) contains within cp e ftol node edge,
  settled e (length (side_pairs node edge)) ->
  exists f, (forall p, ~ finite_point p -> f p = (false, false)) /\
  forall vert s b, inpoly2_with (dispatch (inpoly_shapely P make contains within) (inpoly_matplotlib cp) e) ftol node edge vert = Ok (s, b) ->
    s = map (fun p => fst (f p)) vert /\ b = map (fun p => snd (f p)) vert.
Proof. exact (@settled_pointwise). Qed.
Print Assumptions C114_settled_partial.
Theorem C114_count_refuted : forall P (make : list xy -> list (list xy) -> res P) contains within mpl, faithful make contains within ->
  let D := dispatch (inpoly_shapely P make contains within) mpl many in
  inpoly2_with D 0 (rect 0 0 6 6) None [(Fin 6, Fin 3)%Q] = Ok ([true], [true]) /\
  exists s b, inpoly2_with D 0 (rect 0 0 6 6) None (repeat (Fin 6, Fin 3)%Q 1000) = Ok (s, b) /\ nth_error s 0 = Some false /\ nth_error b 0 = Some true.
Proof. exact (@count_matters). Qed.
Print Assumptions C114_count_refuted.
Example C114_case : settled {| have_shapely := true; have_mpl := true; have_compiled := false; method_env := "matplotlib" |} 4 /\ ~ settled many 4.
Proof.
  split; [right; left; right; right; left; reflexivity|]. intros [H|[H|[H|(H & _)]]]; try discriminate; [|lia]. cbn in H. intuition discriminate.
Qed.

(** C115.  The Matplotlib backend counts a query as inside when some ring holds it: right for one ring; a hole is reported as inside. *)
Theorem C115_union : forall cp ftol node edge vert s b i x y rs, union_rule cp -> 2 <= length node -> (forall es, edge = Some es -> valid_edges node es) ->
  edges_to_rings node (side_pairs node edge) = Ok rs -> rs <> [] ->
  inpoly2_with (inpoly_matplotlib cp) ftol node edge vert = Ok (s, b) -> nth_error vert i = Some (Fin x, Fin y) -> ~ on_side (sides node edge) (x, y) ->
  exists si, nth_error s i = Some si /\ (si = true <-> exists r, In r rs /\ in_ring r (x, y)).
Proof. exact mpl_union. Qed.
Print Assumptions C115_union.
Theorem C115_one_ring_partial : forall cp ftol node vert s b i x y, union_rule cp -> 3 <= length node ->
  inpoly2_with (inpoly_matplotlib cp) ftol node None vert = Ok (s, b) -> nth_error vert i = Some (Fin x, Fin y) -> ~ on_side (ring_segments node) (x, y) ->
  exists si, nth_error s i = Some si /\ (si = true <-> odd_many (crosses (x, y)) true (ring_segments node)).
Proof. exact mpl_ring. Qed.
Print Assumptions C115_one_ring_partial.
Theorem C115_hole_refuted : forall cp, union_rule cp ->
  (exists b, inpoly2_with (inpoly_matplotlib cp) 0 box_nodes (Some box_edges) [(Fin 3, Fin 3)%Q] = Ok ([true], b)) /\
  inpoly2_with raycasting 0 box_nodes (Some box_edges) [(Fin 3, Fin 3)%Q] = Ok ([false], [false]).
Proof. exact hole_disagree. Qed.
Print Assumptions C115_hole_refuted.
Example C115_case : union_rule ref_points /\
  inpoly2_with (inpoly_matplotlib ref_points) 0 (rect 0 0 6 6) None [(Fin 3, Fin 3); (Fin 7, Fin 3)]%Q = Ok ([true; false], [false; false]).
Proof. split; [exact ref_union|vm_compute; reflexivity]. Qed.
