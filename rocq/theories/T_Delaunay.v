(** Theorems about the triangulation wrapper, for every engine that behaves as documented. *)
From Coq Require Import List Arith ZArith Permutation.
From Verif Require Import M_Base M_Delaunay S_Delaunay P_Delaunay.
Import ListNotations.

(** Such engines exist. *)
Theorem C54_engine : obeys fan_engine.
Proof. exact fan_obeys. Qed.
Print Assumptions C54_engine.

(** ** C54 *)
(** After any history of calls without undefined behaviour, asking for vertices and then cells gives the
    points of the vertices, and rows whose entries are the positions of the points of the corners. *)
Theorem C54_topology : forall (C : Type) (zero : C) (cg : engine C), obeys cg -> forall h d, run zero cg empty h = Ok d ->
  exists d' t, get_topology zero d = Ok (d', map at_ (verts d), t) /\ places d' = places d /\ map corners (faces d') = map corners (faces d) /\ describes d' (map at_ (verts d)) t.
Proof. exact @topology. Qed.
Print Assumptions C54_topology.
(** Cells asked for alone can be out of range after a removal. *)
Theorem C54_stale : exists h d d' t row i, obeys fan_engine /\ run 0 fan_engine empty h = Ok d /\ get_finite_cells d = Ok (d', t) /\ In row t /\ In i (entries row) /\ length (verts d) <= i.
Proof. exact stale. Qed.
Print Assumptions C54_stale.
Example C54_case : exists d, run 0 fan_engine empty [CInsert square; CRemove [1]; CInsert [5; 5]; CMove [0] [7; 7]; CCells] = Ok d /\
  match get_topology 0 d with Ok (_, p, t) => p = [(7, 7); (1, 1); (0, 1); (5, 5)] /\ t = [(0, 1, 2); (0, 2, 3)] | _ => False end.
Proof. eexists. split; [vm_compute; reflexivity|]. vm_compute. auto. Qed.

(** ** C84 *)
(** After insertions only, of points all different, cells asked for alone are positions in the list of all
    inserted points, in the order given ... *)
Theorem C84_fresh : forall (C : Type) (zero : C) (cg : engine C), obeys cg -> forall h ps, inserts h ps -> NoDup ps ->
  exists d d' t, run zero cg empty h = Ok d /\ get_finite_cells d = Ok (d', t) /\ length (verts d) = length ps /\ places d' = places d /\ describes d' ps t.
Proof. exact @fresh_cells. Qed.
Print Assumptions C84_fresh.
(** ... also with repeated points if there is only one insertion ... *)
Theorem C84_single : forall (C : Type) (cg : engine C), obeys cg -> forall p ps, flat p ps ->
  exists d' t, get_finite_cells (insert cg empty p) = Ok (d', t) /\ places d' = places (insert cg empty p) /\ describes d' ps t.
Proof. exact @single_insert_cells. Qed.
Print Assumptions C84_single.
(** ... but not with repeated points and two insertions. *)
Theorem C84_refuted : exists p q d d' t, obeys fan_engine /\ run 0 fan_engine empty [CInsert p; CInsert q] = Ok d /\ get_finite_cells d = Ok (d', t) /\ ~ describes d' (rows2 (p ++ q)) t.
Proof. exact repeated_rows. Qed.
Print Assumptions C84_refuted.
Example C84_case : inserts [CInsert [0; 0; 1; 0]; CInsert [1; 1]] [(0, 0); (1, 0); (1, 1)] /\ NoDup [(0, 0); (1, 0); (1, 1)].
Proof.
  split; [|repeat constructor; cbn; intuition discriminate].
  change (inserts ([] ++ [CInsert [0; 0; 1; 0]] ++ [CInsert [1; 1]]) ([] ++ [(0, 0); (1, 0)] ++ [(1, 1)])). rewrite !app_assoc. repeat constructor.
Qed.

(** ** C85 *)
(** [remove] is free of undefined behaviour exactly when the indices are in range and different, and then
    exactly the vertices at the other positions of the vertex table remain. *)
Theorem C85_remove : forall (C : Type) (zero : C) (cg : engine C), obeys cg -> forall h d idx, run zero cg empty h = Ok d ->
  ((exists d', remove cg d idx = Ok d') <-> NoDup idx /\ forall i, In i idx -> i < length (verts d)) /\
  forall d', remove cg d idx = Ok d' -> exists l, others (places d) idx l /\ Permutation (places d') l.
Proof. exact @remove_exact. Qed.
Print Assumptions C85_remove.
Example C85_case : exists d d', run 0 fan_engine empty [CInsert square] = Ok d /\ remove fan_engine d [2; 0] = Ok d' /\ map at_ (verts d') = [(1, 0); (0, 1)].
Proof. do 2 eexists. split; [vm_compute; reflexivity|]. split; vm_compute; reflexivity. Qed.

(** ** C86 *)
(** [move] puts every vertex named at its new position and leaves the others, if the new positions are
    different and none is the point of a vertex before the call ... *)
Theorem C86_move_partial : forall (C : Type) (zero : C) (cg : engine C), obeys cg -> forall h d idx p qs, run zero cg empty h = Ok d -> flat p qs -> length qs = length idx -> NoDup idx ->
  (forall i, In i idx -> i < length (verts d)) -> NoDup qs -> (forall q, In q qs -> ~ In q (map at_ (verts d))) ->
  exists d' l, move cg d idx p = Ok d' /\ Permutation (places d') l /\ length l = length (places d) /\
    forall k g a, nth_error (places d) k = Some (g, a) ->
      (forall j, nth_error idx j = Some k -> exists q, nth_error qs j = Some q /\ nth_error l k = Some (g, q)) /\ (~ In k idx -> nth_error l k = Some (g, a)).
Proof. exact @move_free_all. Qed.
Print Assumptions C86_move_partial.
(** ... but loses a vertex when a new position is the old one of a vertex moved later, although the positions
    after the call would all be different. *)
Theorem C86_refuted : exists d idx p d', obeys fan_engine /\ run 0 fan_engine empty [CInsert square; CVertices] = Ok d /\ flat p (rows2 p) /\ NoDup (rows2 p) /\ NoDup idx /\
  length (rows2 p) = length idx /\ (forall k x, ~ In k idx -> nth_error (map at_ (verts d)) k = Some x -> ~ In x (rows2 p)) /\ move fan_engine d idx p = Ok d' /\ length (verts d') < length (verts d).
Proof. exact chain_lost. Qed.
Print Assumptions C86_refuted.
Example C86_case : exists d d', run 0 fan_engine empty [CInsert square] = Ok d /\ move fan_engine d [2; 0] [4; 4; 9; 9] = Ok d' /\ map at_ (verts d') = [(9, 9); (1, 0); (4, 4); (0, 1)].
Proof. do 2 eexists. split; [vm_compute; reflexivity|]. split; vm_compute; reflexivity. Qed.

(** ** C87 *)
(** Neighbours asked for after cells are the rows of the neighbouring faces, -1 for the outside ... *)
Theorem C87_neighbours : forall (C : Type) (zero : C) (cg : engine C), obeys cg -> forall h d, run zero cg empty h = Ok d ->
  exists d' c t, get_finite_cells d = Ok (d', c) /\ map fid (faces d') = map fid (faces d) /\ map nbrs (faces d') = map nbrs (faces d) /\ get_finite_face_neighbors d' = Ok t /\ lists_neighbours d' t.
Proof. exact @neighbours_after_cells. Qed.
Print Assumptions C87_neighbours.
(** ... but not without. *)
Theorem C87_stale : exists d t, obeys fan_engine /\ run 0 fan_engine empty [CInsert square; CVertices] = Ok d /\ get_finite_face_neighbors d = Ok t /\ ~ lists_neighbours d t.
Proof. exact stale_neighbours. Qed.
Print Assumptions C87_stale.
Example C87_case : exists d, run 0 fan_engine empty [CInsert square; CVertices; CCells] = Ok d /\ get_finite_face_neighbors d = Ok [((-1)%Z, 1%Z, (-1)%Z); ((-1)%Z, (-1)%Z, 0%Z)].
Proof. eexists. split; vm_compute; reflexivity. Qed.
