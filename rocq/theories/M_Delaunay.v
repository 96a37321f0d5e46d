(** Model of the triangulation wrapper (oceanmesh/cpp/delaunay_class.cpp) and of
    mesh_generator._get_topology.

    CGAL itself is a parameter: [engine] is any implementation of its insert, remove and move. Coordinates
    are values of any type [C] (binary64 numbers in the code). Handles are numbers. Use of a handle that is
    no longer alive, or of an index past the end of a std::vector, is undefined in C++ and becomes
    [Raise RuntimeError] here. Counts are natural numbers (the code's [int] and [unsigned] do not overflow
    below 2^31). *)
From Coq Require Import List Arith ZArith.
From Verif Require Import M_Base.
Import ListNotations.

Section Wrapper.
  Variable C : Type.
  Variable zero : C.
  Notation point := (C * C)%type.

  (** delaunay_class.cpp:29: a vertex is a handle, a point and a number of the wrapper's. *)
  Record vertex : Type := Vertex { hd : nat; at_ : point; vinfo : nat }.
  (** delaunay_class.cpp:30: a face has three corners, the three faces opposite to them ([None] for an
      infinite face) and a number of the wrapper's. *)
  Record face : Type := Face { fid : nat; corners : nat * nat * nat; nbrs : option nat * option nat * option nat; finfo : nat }.
  (** delaunay_class.cpp:31-32: finite vertices and finite faces, in the order of the iterators. *)
  Record dt : Type := DT { verts : list vertex; faces : list face }.

  (** delaunay_class.cpp:93: a new triangulation is empty. *)
  Definition empty : dt := DT [] [].

  (** CGAL's operations: insertion of a range of numbered points, removal and displacement of a vertex. *)
  Record engine : Type := Engine {
    cg_insert : dt -> list (point * nat) -> dt;
    cg_remove : dt -> nat -> dt;
    cg_move : dt -> nat -> point -> dt }.
  Variable cg : engine.

  (** delaunay_class.cpp:97-106: pairs of consecutive numbers, numbered from [start]; an odd last number is dropped. *)
  Fixpoint number_points (p : list C) (start : nat) : list (point * nat) :=
    match p with
    | x :: y :: r => ((x, y), start) :: number_points r (start + 1)
    | _ => []
    end.

  (** delaunay_class.cpp:95-108 *)
  Definition insert (d : dt) (p : list C) : dt := cg_insert cg d (number_points p (length (verts d))).

  (** delaunay_class.cpp:113-117, 127-134: handles in the order of the iterator. *)
  Definition handles (d : dt) : list nat := map hd (verts d).

  (** [handles[i]]: undefined past the end. *)
  Definition handle_at (hs : list nat) (i : nat) : res nat :=
    match nth_error hs i with Some h => Ok h | None => Raise RuntimeError end.

  (** A call of CGAL with a handle: undefined when the vertex is gone. *)
  Definition with_live (d : dt) (h : nat) (f : dt) : res dt :=
    if existsb (Nat.eqb h) (handles d) then Ok f else Raise RuntimeError.

  (** delaunay_class.cpp:118-120 *)
  Fixpoint remove_loop (hs : list nat) (to_remove : list nat) (d : dt) : res dt :=
    match to_remove with
    | [] => Ok d
    | i :: r => let! h := handle_at hs i in
                let! d' := with_live d h (cg_remove cg d h) in
                remove_loop hs r d'
    end.

  (** delaunay_class.cpp:110-122 *)
  Definition remove (d : dt) (to_remove : list nat) : res dt := remove_loop (handles d) to_remove d.

  (** delaunay_class.cpp:136-139: the [i]th new position, undefined past the end of the numbers. *)
  Definition position (new_positions : list C) (i : nat) : res point :=
    match nth_error new_positions (2 * i), nth_error new_positions (2 * i + 1) with
    | Some x, Some y => Ok (x, y)
    | _, _ => Raise RuntimeError
    end.

  (** delaunay_class.cpp:141-143 *)
  Fixpoint move_loop (hs : list nat) (jobs : list (nat * point)) (d : dt) : res dt :=
    match jobs with
    | [] => Ok d
    | (i, q) :: r => let! h := handle_at hs i in
                     let! d' := with_live d h (cg_move cg d h q) in
                     move_loop hs r d'
    end.

  (** delaunay_class.cpp:124-145 *)
  Definition move (d : dt) (to_move : list nat) (new_positions : list C) : res dt :=
    let! new_pos := mapM (position new_positions) (seq 0 (length to_move)) in
    move_loop (handles d) (combine to_move new_pos) d.

  (** delaunay_class.cpp:249-259: the loop that numbers the vertices and fills the table. *)
  Fixpoint vertices_loop (i : nat) (vs : list vertex) (table : list C) : list vertex * list C :=
    match vs with
    | [] => ([], table)
    | v :: r =>
        let table' := upd (upd table (i * 2) (fst (at_ v))) (i * 2 + 1) (snd (at_ v)) in
        let '(r', t') := vertices_loop (i + 1) r table' in
        (Vertex (hd v) (at_ v) i :: r', t')
    end.

  (** delaunay_class.cpp:263-274: the table seen as rows of two. *)
  Fixpoint rows2 (t : list C) : list point :=
    match t with x :: y :: r => (x, y) :: rows2 r | _ => [] end.

  (** delaunay_class.cpp:244-275: the points, and the triangulation with renumbered vertices. *)
  Definition get_finite_vertices (d : dt) : dt * list point :=
    let '(vs, table) := vertices_loop 0 (verts d) (repeat zero (length (verts d) * 2)) in
    (DT vs (faces d), rows2 table).

  (** [face->vertex(k)->info()]; a dead corner would be undefined. *)
  Definition info_of (vs : list vertex) (h : nat) : res nat :=
    match find (fun v => Nat.eqb (hd v) h) vs with Some v => Ok (vinfo v) | None => Raise RuntimeError end.

  (** delaunay_class.cpp:173-184: the loop that numbers the faces and fills the table. *)
  Fixpoint cells_loop (vs : list vertex) (i : nat) (fs : list face) (table : list nat) : res (list face * list nat) :=
    match fs with
    | [] => Ok ([], table)
    | f :: r =>
        let '(a, b, c) := corners f in
        let! x := info_of vs a in
        let! y := info_of vs b in
        let! z := info_of vs c in
        let table' := upd (upd (upd table (i * 3) x) (i * 3 + 1) y) (i * 3 + 2) z in
        let! q := cells_loop vs (i + 1) r table' in
        Ok (Face (fid f) (corners f) (nbrs f) i :: fst q, snd q)
    end.

  (** delaunay_class.cpp:186-199: the table seen as rows of three. *)
  Fixpoint rows3 {A} (t : list A) : list (A * A * A) :=
    match t with x :: y :: z :: r => (x, y, z) :: rows3 r | _ => [] end.

  (** delaunay_class.cpp:165-200: the triangles, and the triangulation with renumbered faces. *)
  Definition get_finite_cells (d : dt) : res (dt * list (nat * nat * nat)) :=
    let! q := cells_loop (verts d) 0 (faces d) (repeat 0 (length (faces d) * 3)) in
    Ok (DT (verts d) (fst q), rows3 (snd q)).

  (** delaunay_class.cpp:216-222: -1 for an infinite neighbour, else its number. *)
  Definition neighbour_number (fs : list face) (n : option nat) : res Z :=
    match n with
    | None => Ok (-1)%Z
    | Some g => match find (fun f => Nat.eqb (fid f) g) fs with
                | Some f => Ok (Z.of_nat (finfo f))
                | None => Raise RuntimeError
                end
    end.

  (** delaunay_class.cpp:209-225 *)
  Fixpoint neighbours_loop (all : list face) (i : nat) (fs : list face) (table : list Z) : res (list Z) :=
    match fs with
    | [] => Ok table
    | f :: r =>
        let '(a, b, c) := nbrs f in
        let! x := neighbour_number all a in
        let! y := neighbour_number all b in
        let! z := neighbour_number all c in
        neighbours_loop all (i + 1) r (upd (upd (upd table (i * 3 + 0) x) (i * 3 + 1) y) (i * 3 + 2) z)
    end.

  (** delaunay_class.cpp:202-241 *)
  Definition get_finite_face_neighbors (d : dt) : res (list (Z * Z * Z)) :=
    let! t := neighbours_loop (faces d) 0 (faces d) (repeat 0%Z (length (faces d) * 3)) in
    Ok (rows3 t).

  (** mesh_generator.py:1129-1131; Python evaluates the vertices first. *)
  Definition get_topology (d : dt) : res (dt * list point * list (nat * nat * nat)) :=
    let '(d1, p) := get_finite_vertices d in
    let! q := get_finite_cells d1 in
    Ok (fst q, p, snd q).

  (** Calls a Python program can make on a triangulation. *)
  Inductive call : Type :=
  | CInsert (p : list C) | CRemove (l : list nat) | CMove (l : list nat) (p : list C)
  | CVertices | CCells | CNeighbours.

  (** One call; only its effect on the triangulation (delaunay_class.cpp:95-275). *)
  Definition step (d : dt) (c : call) : res dt :=
    match c with
    | CInsert p => Ok (insert d p)
    | CRemove l => remove d l
    | CMove l p => move d l p
    | CVertices => Ok (fst (get_finite_vertices d))
    | CCells => let! q := get_finite_cells d in Ok (fst q)
    | CNeighbours => let! _ := get_finite_face_neighbors d in Ok d
    end.

  (** A history of calls. *)
  Fixpoint run (d : dt) (h : list call) : res dt :=
    match h with [] => Ok d | c :: r => let! d' := step d c in run d' r end.
End Wrapper.
Arguments Vertex {C}. Arguments hd {C}. Arguments at_ {C}. Arguments vinfo {C}.
Arguments DT {C}. Arguments verts {C}. Arguments faces {C}. Arguments empty {C}.
Arguments Engine {C}. Arguments cg_insert {C}. Arguments cg_remove {C}. Arguments cg_move {C}.
Arguments number_points {C}. Arguments insert {C}. Arguments handles {C}. Arguments with_live {C}. Arguments remove_loop {C}.
Arguments remove {C}. Arguments position {C}. Arguments move_loop {C}. Arguments move {C}.
Arguments vertices_loop {C}. Arguments rows2 {C}. Arguments get_finite_vertices {C}. Arguments info_of {C}.
Arguments cells_loop {C}. Arguments get_finite_cells {C}. Arguments get_finite_face_neighbors {C}. Arguments get_topology {C}.
Arguments CInsert {C}. Arguments CRemove {C}. Arguments CMove {C}. Arguments CVertices {C}. Arguments CCells {C}. Arguments CNeighbours {C}.
Arguments step {C}. Arguments run {C}.
