(** Specification vocabulary for the gradient limiter, independent of the model. *)
From Coq Require Import List Arith ZArith QArith.
Import ListNotations.

(** Position of cell (i, j, k) in an array of dimensions d0, d1 stored first index fastest. *)
Definition cell (d0 d1 i j k : nat) : nat := ((k * d1 + j) * d0 + i)%nat.

(** Number of steps between two indices. *)
Definition gap (i j : nat) : nat := (i - j) + (j - i).

(** The cells are side neighbours, or touch at least in a corner. *)
Definition side_neighbours (i j i' j' : nat) : Prop := (gap i i' + gap j j' = 1)%nat.
Definition touching (i j i' j' : nat) : Prop := (gap i i' <= 1)%nat /\ (gap j j' <= 1)%nat.

(** Smallest entry. *)
Definition smallest (l : list Q) (m : Q) : Prop := (exists x, In x l /\ x == m) /\ forall x, In x l -> m <= x.

(** A walk over cells of one layer that moves to touching cells: a move between side neighbours has
    length s or d, any other move has length d. *)
Inductive grid_walk (d0 d1 : nat) (s d : Q) : nat * nat * nat -> nat * nat * nat -> Q -> Prop :=
| gw_here c : grid_walk d0 d1 s d c c 0
| gw_side c i j k i' j' L : grid_walk d0 d1 s d c (i, j, k) L -> (i' < d0)%nat -> (j' < d1)%nat ->
    side_neighbours i j i' j' -> grid_walk d0 d1 s d c (i', j', k) (L + s)
| gw_touch c i j k i' j' L : grid_walk d0 d1 s d c (i, j, k) L -> (i' < d0)%nat -> (j' < d1)%nat ->
    touching i j i' j' -> grid_walk d0 d1 s d c (i', j', k) (L + d).

(** Field h changes by at most [s] between side neighbours and [d] between touching cells. *)
Definition limited (d0 d1 d2 : nat) (h : list Q) (s d : Q) : Prop :=
  forall i j k i' j', (i < d0)%nat -> (j < d1)%nat -> (k < d2)%nat -> (i' < d0)%nat -> (j' < d1)%nat ->
  (side_neighbours i j i' j' -> nth (cell d0 d1 i j k) h 0 <= nth (cell d0 d1 i' j' k) h 0 + s) /\
  (touching i j i' j' -> nth (cell d0 d1 i j k) h 0 <= nth (cell d0 d1 i' j' k) h 0 + d).

(** Sum of the entries. *)
Definition total_of (l : list Q) : Q := fold_right Qplus 0 l.

(** Arguments the limiter is meant for: a grid with at least one cell and one non-negative size per cell. *)
Record size_grid (d0 d1 d2 : nat) (f : list Q) : Prop := {
  sg_dims : (0 < d0 /\ 0 < d1 /\ 0 < d2)%nat;
  sg_length : length f = (d0 * d1 * d2)%nat;
  sg_nonneg : forall x, In x f -> 0 <= x }.
