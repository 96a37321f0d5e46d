(** Property theorems C01-C04 and C31 (edges.py, fast_geometry.cpp). *)
From Coq Require Import List Arith Bool ZArith Lia Sorted.
From Verif Require Import M_Base M_Edges S_Edges P_Edges.
Import ListNotations.

(** C01.  unique_edges: canonical order, no duplicates, exactly the undirected input edges. *)
Theorem C01_unique_edges : forall es : list (Z * Z),
  StronglySorted zlex (unique_edges es) /\
  forall a b, In (a, b) (unique_edges es) <-> (a <= b)%Z /\ (In (a, b) es \/ In (b, a) es).
Proof. intros es; split; [exact (unique_edges_sorted es)|exact (unique_edges_In es)]. Qed.
Print Assumptions C01_unique_edges.
Example C01_case : unique_edges [(3, 1); (1, 3); (2, 2); (0, 5); (5, 0); (1, 3)]%Z = [(0, 5); (1, 3); (2, 2)]%Z.
Proof. reflexivity. Qed.

(** C02.  get_boundary_edges: exactly the edges with one incidence, each once, u <= v. *)
Theorem C02_boundary_edges : forall ts : list (nat * nat * nat),
  NoDup (get_boundary_edges ts) /\
  forall u v, In (u, v) (get_boundary_edges ts) <-> u <= v /\ edge_uses u v ts = 1.
Proof. intros ts; split; [exact (get_boundary_edges_NoDup ts)|exact (get_boundary_edges_In ts)]. Qed.
Print Assumptions C02_boundary_edges.
Example C02_case : get_boundary_edges [(0, 1, 2); (2, 1, 3); (256, 3, 1)]
                   = [(0, 1); (0, 2); (1, 256); (2, 3); (3, 256)].
Proof. reflexivity. Qed.

(** C03.  get_winded_boundary_edges terminates on every input; on meshes of proper triangles it
    returns a walk along distinct boundary edges that cannot be continued at its end, starting on
    an edge at vFirst when there is one. *)
Theorem C03_winding_terminates : forall ts vFirst, get_winded_boundary_edges ts vFirst <> OutOfFuel.
Proof. exact winded_total. Qed.
Print Assumptions C03_winding_terminates.

Theorem C03_winding_is_a_trail : forall ts vFirst,
  Forall nondegenerate ts -> (exists u v, on_boundary ts u v) ->
  exists w s t,
    get_winded_boundary_edges ts vFirst = Ok w /\ w <> [] /\ NoDup w /\ walk s w t /\
    (forall u v, In (u, v) w -> u < v /\ on_boundary ts u v) /\
    (forall u v, u < v -> on_boundary ts u v -> touches (u, v) t -> In (u, v) w) /\
    (forall v, vFirst = Some v -> (exists u, on_boundary ts u v) ->
       exists e w', w = e :: w' /\ touches e v).
Proof. exact winded_spec. Qed.
Print Assumptions C03_winding_is_a_trail.

(** [annulus]: 8 triangles between an outer square 0..3 and an inner square 4..7. *)
Example C03_case : Forall nondegenerate annulus /\ on_boundary annulus 0 1 /\
  get_winded_boundary_edges annulus (Some 6) = Ok [(5, 6); (6, 7); (4, 7); (4, 5)].
Proof. repeat split; try reflexivity; repeat constructor; discriminate. Qed.

(** C04.  Where every boundary vertex has two boundary edges the walk is a closed loop and contains
    every boundary edge linked to it; in particular a connected boundary is covered. *)
Theorem C04_winding_closes : forall ts vFirst,
  Forall nondegenerate ts -> (exists u v, on_boundary ts u v) ->
  (forall v, boundary_degree ts v = 0 \/ boundary_degree ts v = 2) ->
  exists w s,
    get_winded_boundary_edges ts vFirst = Ok w /\ w <> [] /\ NoDup w /\ walk s w s /\
    (forall u v, In (u, v) w -> u < v /\ on_boundary ts u v) /\
    (forall e u v, In e w -> u < v -> on_boundary ts u v -> blinked ts e (u, v) -> In (u, v) w).
Proof. exact winded_component. Qed.
Print Assumptions C04_winding_closes.
Example C04_case : forallb (fun v => (boundary_degree annulus v =? 2)) (seq 0 8) = true.
Proof. reflexivity. Qed.

(** The unrestricted claim (all boundary edges are returned) is false: no choice of vFirst returns
    the whole boundary of the annulus. *)
Theorem C04_winding_covers_boundary_refuted : exists ts,
  Forall nondegenerate ts /\
  (forall v, boundary_degree ts v = 0 \/ boundary_degree ts v = 2) /\
  forall vFirst w, get_winded_boundary_edges ts vFirst = Ok w ->
    exists u v, on_boundary ts u v /\ ~ In (u, v) w /\ ~ In (v, u) w.
Proof. exact winding_incomplete. Qed.
Print Assumptions C04_winding_covers_boundary_refuted.

(** C31.  One part of [m] rows starting at row [off]: the segments close up exactly when the last two
    rows hold the same point; the side joining the last two rows is never produced. *)
Theorem C31_poly_edges_by_part : forall lens extra, lens <> [] ->
  get_poly_edges (nan_column lens ++ repeat false extra) =
  Ok (flat_map (fun p => map (fun k => (fst p + Z.of_nat k, fst p + Z.of_nat k + 1)%Z) (seq 0 (snd p - 2))
                         ++ [(fst p + Z.of_nat (snd p) - 1, fst p)%Z]) (part_offsets 0 lens)).
Proof. exact poly_edges_by_part. Qed.
Print Assumptions C31_poly_edges_by_part.

Theorem C31_ring_closed_iff : forall (P : Type) (coord : Z -> P) (m : nat) (extra : nat) es,
  2 <= m -> get_poly_edges (nan_column [m] ++ repeat false extra) = Ok es ->
  (closed_chain (map (fun e => (coord (fst e), coord (snd e))) es)
   <-> coord (Z.of_nat m - 2)%Z = coord (Z.of_nat m - 1)%Z).
Proof. exact ring_closed_iff. Qed.
Print Assumptions C31_ring_closed_iff.

(** A ring given in the usual way (first point repeated once at the end) is not closed: the side into
    the repeated point is missing.  Witness: the unit square of tests/test_edges.py. *)
Theorem C31_poly_edges_close_ring_refuted : exists (coord : Z -> nat * nat) es,
  coord 0%Z = coord 4%Z /\
  get_poly_edges (nan_column [5]) = Ok es /\
  ~ closed_chain (map (fun e => (coord (fst e), coord (snd e))) es) /\
  ~ In (coord 3%Z, coord 4%Z) (map (fun e => (coord (fst e), coord (snd e))) es).
Proof. exact poly_edges_open_square. Qed.
Print Assumptions C31_poly_edges_close_ring_refuted.
Example C31_case : get_poly_edges (nan_column [6; 4]) =
  Ok [(0, 1); (1, 2); (2, 3); (3, 4); (5, 0); (7, 8); (8, 9); (10, 7)]%Z.
Proof. reflexivity. Qed.
