(** Theorems about point-in-polygon (C28, C29, C30, C61). *)
From Coq Require Import List Arith Bool ZArith QArith Qabs.
From Verif Require Import M_Base M_Sdf M_Inpoly S_Sdf S_Inpoly P_Inpoly.
Import ListNotations.
Open Scope Q_scope.

Definition tri : list xy := [(0, 0); (4, 0); (0, 3)].

(** C28.  With tolerance zero both kernels give the even-odd answer and agree, for every ring and every closed edge list. *)
Theorem C28_ring_rule : forall k node vert s b i x y, k = inpoly_raycasting \/ k = inpoly_fast -> (3 <= length node)%nat ->
  inpoly2 k 0 node None vert = Ok (s, b) -> nth_error vert i = Some (Fin x, Fin y) ->
  exists si bi, nth_error s i = Some si /\ nth_error b i = Some bi /\ even_odd (ring_segments node) (x, y) si bi.
Proof. exact rule_ring. Qed.
Print Assumptions C28_ring_rule.
Theorem C28_edges_rule : forall k node es vert s b i x y, k = inpoly_raycasting \/ k = inpoly_fast -> (3 <= length node)%nat ->
  valid_edges node es -> closed_curve (edge_segments node es) -> inpoly2 k 0 node (Some es) vert = Ok (s, b) -> nth_error vert i = Some (Fin x, Fin y) ->
  exists si bi, nth_error s i = Some si /\ nth_error b i = Some bi /\ even_odd (edge_segments node es) (x, y) si bi.
Proof. exact rule_edges. Qed.
Print Assumptions C28_edges_rule.
Theorem C28_kernels_agree_ring : forall node vert, (3 <= length node)%nat ->
  inpoly2 inpoly_raycasting 0 node None vert = inpoly2 inpoly_fast 0 node None vert.
Proof. exact agree_ring. Qed.
Print Assumptions C28_kernels_agree_ring.
Theorem C28_kernels_agree_closed_partial : forall node es vert, (3 <= length node)%nat -> valid_edges node es -> closed_curve (edge_segments node es) ->
  inpoly2 inpoly_raycasting 0 node (Some es) vert = inpoly2 inpoly_fast 0 node (Some es) vert.
Proof. exact agree_edges. Qed.
Print Assumptions C28_kernels_agree_closed_partial.
(** The compiled kernel follows the even-odd rule even for open edge lists; the ray caster does not. *)
Theorem C28_fast_rule : forall node es vert s b i x y, node <> [] -> valid_edges node es -> inpoly2 inpoly_fast 0 node (Some es) vert = Ok (s, b) ->
  nth_error vert i = Some (Fin x, Fin y) ->
  exists si bi, nth_error s i = Some si /\ nth_error b i = Some bi /\ even_odd (edge_segments node es) (x, y) si bi.
Proof. exact rule_edges_fk. Qed.
Print Assumptions C28_fast_rule.
Theorem C28_open_edges_refuted : exists node es p, (3 <= length node)%nat /\ valid_edges node es /\
  inpoly2 inpoly_fast 0 node (Some es) [p] = Ok ([true], [false]) /\ inpoly2 inpoly_raycasting 0 node (Some es) [p] = Ok ([false], [false]).
Proof. exact open_disagree. Qed.
Print Assumptions C28_open_edges_refuted.
(** With the default tolerance 5e-14 the kernels differ just outside a corner of the unit square. *)
Theorem C28_default_tolerance_refuted : exists node p, (3 <= length node)%nat /\
  inpoly2 inpoly_fast (5 # 100000000000000) node None [p] = Ok ([false], [false]) /\
  inpoly2 inpoly_raycasting (5 # 100000000000000) node None [p] = Ok ([true], [true]).
Proof. exact tol_disagree. Qed.
Print Assumptions C28_default_tolerance_refuted.
Example C28_case : inpoly2 inpoly_raycasting 0 tri None [(Fin 1, Fin 1); (Fin 2, Fin 0); (Fin 3, Fin 3); (NaN, Fin 0)] =
  Ok ([true; true; false; false], [false; true; false; false]) /\
  valid_edges tri [(1, 0); (2, 1); (0, 2)]%Z /\ closed_curve (edge_segments tri [(1, 0); (2, 1); (0, 2)]%Z).
Proof.
  split; [vm_compute; reflexivity|]. split; [intros e [<-|[<-|[<-|[]]]]; cbn; auto with zarith|].
  intros c. rewrite (om_par (same_place c) (place_eqb c)) by (intros; apply place_eqb_iff).
  change (edge_segments tri [(1, 0); (2, 1); (0, 2)]%Z) with ([((4, 0), (0, 0)); ((0, 3), (4, 0)); ((0, 0), (0, 3))] : list seg).
  cbn [ends flat_map par fold_right app fst snd].
  destruct (place_eqb c (4, 0)), (place_eqb c (0, 0)), (place_eqb c (0, 3)); reflexivity.
Qed.

(** C29.  Edge order and direction do not matter (any tolerance), nor do the other queries; non-finite queries are False/False. *)
Theorem C29_order_direction : forall ftol node es1 es2 vert, valid_edges node es1 -> valid_edges node es2 ->
  same_edges (edge_segments node es1) (edge_segments node es2) ->
  inpoly2 inpoly_raycasting ftol node (Some es1) vert = inpoly2 inpoly_raycasting ftol node (Some es2) vert.
Proof. exact inpoly2_same_rc. Qed.
Print Assumptions C29_order_direction.
Theorem C29_order_direction_fast : forall ftol node es1 es2 vert, valid_edges node es1 -> valid_edges node es2 ->
  same_edges (edge_segments node es1) (edge_segments node es2) ->
  inpoly2 inpoly_fast ftol node (Some es1) vert = inpoly2 inpoly_fast ftol node (Some es2) vert.
Proof. exact inpoly2_same_fk. Qed.
Print Assumptions C29_order_direction_fast.
Theorem C29_pointwise : forall ftol node edge, (forall es, edge = Some es -> valid_edges node es) ->
  exists f, (forall p, ~ finite_point p -> f p = (false, false)) /\
  forall vert, inpoly2 inpoly_raycasting ftol node edge vert = Ok (map (fun p => fst (f p)) vert, map (fun p => snd (f p)) vert).
Proof. exact pointwise_rc. Qed.
Print Assumptions C29_pointwise.
Theorem C29_pointwise_fast : forall ftol node edge, (forall es, edge = Some es -> valid_edges node es) ->
  exists f, (forall p, ~ finite_point p -> f p = (false, false)) /\
  forall vert, inpoly2 inpoly_fast ftol node edge vert = Ok (map (fun p => fst (f p)) vert, map (fun p => snd (f p)) vert).
Proof. exact pointwise_fk. Qed.
Print Assumptions C29_pointwise_fast.
Example C29_case : same_edges (edge_segments tri [(0, 1); (1, 2); (2, 0)]%Z) (edge_segments tri [(2, 1); (0, 1); (2, 0)]%Z).
Proof.
  apply (se_trans _ [((0, 0), (4, 0)); ((0, 3), (4, 0)); ((0, 3), (0, 0))]).
  - apply se_skip, se_flip, se_skip, se_nil.
  - apply se_swap, se_skip, se_nil.
Qed.

(** C30.  Outside the box of a closed curve is outside; rectangles are decided exactly. *)
Theorem C30_outside_ring : forall k node vert s b i x y, k = inpoly_raycasting \/ k = inpoly_fast -> (3 <= length node)%nat ->
  inpoly2 k 0 node None vert = Ok (s, b) -> nth_error vert i = Some (Fin x, Fin y) -> outside_ends (ring_segments node) (x, y) ->
  nth_error s i = Some false /\ nth_error b i = Some false.
Proof. exact outside_ring. Qed.
Print Assumptions C30_outside_ring.
Theorem C30_outside_edges : forall k node es vert s b i x y, k = inpoly_raycasting \/ k = inpoly_fast -> (3 <= length node)%nat ->
  valid_edges node es -> closed_curve (edge_segments node es) ->
  inpoly2 k 0 node (Some es) vert = Ok (s, b) -> nth_error vert i = Some (Fin x, Fin y) -> outside_ends (edge_segments node es) (x, y) ->
  nth_error s i = Some false /\ nth_error b i = Some false.
Proof. exact outside_edges. Qed.
Print Assumptions C30_outside_edges.
Theorem C30_rectangle : forall k a b c d vert s n i x y, k = inpoly_raycasting \/ k = inpoly_fast -> a < c -> b < d ->
  inpoly2 k 0 [(a, b); (c, b); (c, d); (a, d)] None vert = Ok (s, n) -> nth_error vert i = Some (Fin x, Fin y) ->
  exists si ni, nth_error s i = Some si /\ nth_error n i = Some ni /\
   (si = true <-> a <= x <= c /\ b <= y <= d) /\
   (ni = true <-> (a <= x <= c /\ b <= y <= d) /\ (x == a \/ x == c \/ y == b \/ y == d)).
Proof. exact rectangle. Qed.
Print Assumptions C30_rectangle.
Example C30_case : inpoly2 inpoly_raycasting 0 [(0, 0); (2, 0); (2, 1); (0, 1)] None [(Fin 1, Fin (1#2)); (Fin 2, Fin 1); (Fin (5#2), Fin 1)] =
  Ok ([true; true; false], [false; true; false]).
Proof. vm_compute. reflexivity. Qed.

(** C61.  BNDS is True only within ftol of an edge: true of the compiled kernel, false of the ray caster, which compares ftol with a
    dot product and so accepts points 800000 ftol beyond the end of a short edge. *)
Theorem C61_fast_near : forall ftol node edge vert s b i x y, (forall es, edge = Some es -> valid_edges node es) ->
  inpoly2 inpoly_fast ftol node edge vert = Ok (s, b) -> nth_error vert i = Some (Fin x, Fin y) -> nth_error b i = Some true ->
  exists sg p, In sg (match edge with Some es => edge_segments node es | None => ring_segments node end) /\ on_segment p sg /\
    Qabs (x - fst p) + Qabs (y - snd p) <= ftol.
Proof. exact fk_bnds_near. Qed.
Print Assumptions C61_fast_near.
Theorem C61_raycasting_refuted : exists node x y,
  inpoly2 inpoly_raycasting (5 # 100000000000000) node None [(Fin x, Fin y)] = Ok ([true], [true]) /\
  forall s p, In s (ring_segments node) -> on_segment p s -> 4 # 100000000 <= Qabs (x - fst p) + Qabs (y - snd p).
Proof. exact rc_far. Qed.
Print Assumptions C61_raycasting_refuted.
Example C61_case : inpoly2 inpoly_fast (1 # 10) tri None [(Fin 2, Fin (-1 # 20))] = Ok ([true], [true]).
Proof. vm_compute. reflexivity. Qed.
