(** Model of oceanmesh/edges.py and oceanmesh/cpp/fast_geometry.cpp. *)
From Coq Require Import List Arith Bool ZArith.
From Verif Require Import M_Base M_Numpy.
Import ListNotations.

Notation edge := (nat * nat)%type.
(** One row of the connectivity table of a triangular mesh (dim = 2). *)
Notation tri := (nat * nat * nat)%type.

(** edges.py:75-95 get_edges, branch dim == 2: columns [[0,1],[0,2],[1,2]] of every row, reshaped
    to one edge per row.  The branch dim == 3 (tetrahedra) is not modelled; the package only
    meshes surfaces. *)
Definition get_edges (ts : list tri) : list edge :=
  flat_map (fun t => let '(a, b, c) := t in [(a, b); (a, c); (b, c)]) ts.

(** np.sort(edges, axis=1), edges.py:110. *)
Definition sort_edge (e : edge) : edge := (Nat.min (fst e) (snd e), Nat.max (fst e) (snd e)).

Definition edge_eqb (e f : edge) : bool := (fst e =? fst f) && (snd e =? snd f).
(** Order of the np.void views of rows made by unique_row_view, edges.py:65-72. *)
Definition edge_leb (e f : edge) : bool := row_leb [fst e; snd e] [fst f; snd f].

(** edges.py:98-113 get_boundary_edges with dim = 2: rows occurring [dim-1] = 1 times. *)
Definition get_boundary_edges (ts : list tri) : list edge :=
  map fst (filter (fun p => snd p =? 1)
    (unique_counts edge_leb edge_eqb (map sort_edge (get_edges ts)))).

(** edges.py:141-142: first column of np.where(_bedges == vNext), row-major. *)
Definition rows_with (be : list edge) (v : nat) : list nat :=
  flat_map (fun p => let '(i, (a, b)) := p in
              (if a =? v then [i] else []) ++ (if b =? v then [i] else []))
           (combine (seq 0 (length be)) be).

(** edges.py:140-151, the [while True] loop.  [vis] is isVisited (True = 1). *)
Fixpoint wind_loop (fuel : nat) (be : list edge) (vis : list bool) (ordering : list nat)
    (vnext : nat) : res (list nat) :=
  match fuel with
  | 0 => OutOfFuel
  | S fuel' =>
      match filter (fun r => negb (nth r vis true)) (rows_with be vnext) with
      | [] => Ok ordering
      | choice :: _ =>
          let '(a, b) := nth choice be (0, 0) in
          match filter (fun v => negb (v =? vnext)) [a; b] with
          | [] => Raise IndexError
          | v :: _ => wind_loop fuel' be (upd vis choice true) (ordering ++ [choice]) v
          end
      end
  end.

(** edges.py:131-133: the row to start from. *)
Definition wind_start (be : list edge) (vFirst : option nat) : nat :=
  match vFirst with
  | None => 0
  | Some v =>
      match find (fun p => (fst (snd p) =? v) || (snd (snd p) =? v))
                 (combine (seq 0 (length be)) be) with
      | Some (i, _) => i
      | None => 0
      end
  end.

(** edges.py:116-153 get_winded_boundary_edges.  On a mesh without boundary the assignment
    isVisited[0] = 1 of line 137 raises IndexError. *)
Definition get_winded_boundary_edges (ts : list tri) (vFirst : option nat) : res (list edge) :=
  let be := get_boundary_edges ts in
  let choice := wind_start be vFirst in
  match nth_error be choice with
  | None => Raise IndexError
  | Some (_, vnext) =>
      let! ordering := wind_loop (S (length be)) be
                         (upd (repeat false (length be)) choice true) [choice] vnext in
      Ok (map (fun i => nth i be (0, 0)) ordering)
  end.

(** fast_geometry.cpp:78-81: pairs (min, max).  The C++ [int] is modelled by Z (no overflow). *)
Notation zedge := (Z * Z)%type.
Definition zedge_sort (e : zedge) : zedge := (Z.min (fst e) (snd e), Z.max (fst e) (snd e)).
(** operator< of std::array<int,2> (lexicographic), as a <=. *)
Definition zedge_leb (e f : zedge) : bool :=
  (Z.ltb (fst e) (fst f) || (Z.eqb (fst e) (fst f) && Z.leb (snd e) (snd f)))%bool.
Definition zedge_eqb (e f : zedge) : bool := (Z.eqb (fst e) (fst f) && Z.eqb (snd e) (snd f))%bool.

(** std::unique: keep the first of each run of equal elements (fast_geometry.cpp:55). *)
Fixpoint std_unique {A} (eqb : A -> A -> bool) (l : list A) : list A :=
  match l with
  | [] => []
  | x :: l' =>
      match l' with
      | [] => [x]
      | y :: _ => if eqb x y then std_unique eqb l' else x :: std_unique eqb l'
      end
  end.

(** fast_geometry.cpp:50-97 vectorSortIntArr and unique_edges.  std::sort is unstable, but equal
    pairs are indistinguishable, so its result is the stable one.  The flat buffer of an odd
    number of integers (out-of-bounds read in line 79) is not modelled: input rows are pairs. *)
Definition unique_edges (es : list zedge) : list zedge :=
  std_unique zedge_eqb (isort zedge_leb (map zedge_sort es)).

(** edges.py:8-37 get_poly_edges.  [isnan] is the column np.isnan(poly[:,0]). *)
Fixpoint nan_positions (i : Z) (isnan : list bool) : list Z :=
  match isnan with
  | [] => []
  | b :: r => if b then i :: nan_positions (i + 1) r else nan_positions (i + 1) r
  end.
(** np.arange(lo, hi) for integers. *)
Definition arange (lo hi : Z) : list Z :=
  map (fun k => lo + Z.of_nat k)%Z (seq 0 (Z.to_nat (hi - lo))).
(** edges.py:30-36, one feature between the NaN positions [p] and [q]. *)
Definition feature_edges (p q : Z) : list zedge :=
  let ix_start := (p + 1)%Z in
  let ix_end := (q - 1)%Z in
  combine (arange ix_start (ix_end - 1)) (arange (ix_start + 1) ix_end) ++ [(ix_end, ix_start)].
Fixpoint poly_edges_from (ix : list Z) : list zedge :=
  match ix with
  | p :: ((q :: _) as r) => feature_edges p q ++ poly_edges_from r
  | _ => []
  end.
(** np.concatenate of an empty list raises ValueError (no NaN in the input). *)
Definition get_poly_edges (isnan : list bool) : res (list zedge) :=
  match nan_positions 0 isnan with
  | [] => Raise ValueError
  | ix => Ok (poly_edges_from ((-1)%Z :: ix))
  end.
