(** Model of the connectivity tables of oceanmesh/clean.py. *)
From Coq Require Import List Arith Bool.
From Verif Require Import M_Base M_Numpy M_Edges M_FixMesh.
Import ListNotations.

Section Adjacency.
  (** numpy's default argsort; the order of equal keys is unspecified (see [is_argsort]). *)
  Variable argsort : list nat -> list nat.

  (** clean.py:74-78 _arg_sortrows on a two-column integer array. *)
  Definition arg_sortrows (rows : list (nat * nat)) : list nat :=
    let i := argsort (map snd rows) in
    let j := stable_argsort (map (fun a => fst (nth a rows (0, 0))) i) in
    take 0 i j.

  (** clean.py:106: rows k with e[k] = e[k+1] and the pairs trinum[k], trinum[k+1] of line 107.
      The sorted edge table and trinum are zipped into one list. *)
  Fixpoint adjacent_pairs (l : list (edge * nat)) : list (nat * nat) :=
    match l with
    | (e, i) :: (((f, j) :: _) as r) =>
        (if edge_eqb e f then [(i, j)] else []) ++ adjacent_pairs r
    | _ => []
    end.

  (** np.argwhere(np.diff(a)) + 1 on an integer column (clean.py:119, 150-151). *)
  Fixpoint breaks (i : nat) (l : list nat) : list nat :=
    match l with
    | x :: ((y :: _) as r) => (if x =? y then [] else [S i]) ++ breaks (S i) r
    | _ => []
    end.
  Definition pointers (l : list nat) : list nat := 0 :: breaks 0 l ++ [length l].

  (** clean.py:100-102: sorted rows, their edges in the order of get_edges, and trinum. *)
  Definition tagged_edges (ts : list tri) : list (edge * nat) :=
    combine (get_edges (map sort_tri ts)) (flat_map (fun i => [i; i; i]) (seq 0 (length ts))).

  (** clean.py:81-122 _face_to_face.  Returned: the rows ftof and the pointer array ix. *)
  Definition face_to_face (ts : list tri) : list (nat * nat) * list nat :=
    let nt := length ts in
    let te := tagged_edges ts in
    let j := arg_sortrows (map fst te) in
    let ftof := adjacent_pairs (take ((0, 0), 0) te j) in
    let dmy1 := argsort (map fst ftof) in
    let dmy2 := argsort (map snd ftof) in
    let tmp := take (0, 0) ftof dmy1
               ++ map (fun p => (snd p, fst p)) (take (0, 0) ftof dmy2)
               ++ map (fun i => (i, i)) (seq 0 nt) in
    let ftof2 := take (0, 0) tmp (arg_sortrows tmp) in
    (ftof2, pointers (map fst ftof2)).

  (** ftof[ix[c]:ix[c+1], 1]; indexing ix out of range raises. *)
  Definition row_of (tab : list (nat * nat)) (ix : list nat) (c : nat) : res (list nat) :=
    let! lo := get ix c in
    let! hi := get ix (S c) in
    Ok (map snd (slice tab lo hi)).

  (** clean.py:125-157 _vertex_to_face.  The face numbers and the pointer array; the table is kept
      with its vertex column so that [row_of] applies. *)
  Definition vertex_to_face (ts : list tri) : list (nat * nat) * list nat :=
    let ve := combine (flat_map tri_vertices ts) (flat_map (fun i => [i; i; i]) (seq 0 (length ts))) in
    let ve2 := take (0, 0) ve (argsort (map fst ve)) in
    (ve2, pointers (map fst ve2)).
End Adjacency.
