(** Specification vocabulary for the gradient limiter on doubles, independent of the model. *)
From Coq Require Import List Arith ZArith Reals SpecFloat.
From Verif Require Import S_Double S_GradLimit.
Import ListNotations.
Open Scope R_scope.

(** A size is a finite non-negative double or nan. *)
Definition size_or_nan (x : spec_float) : Prop := (finite_double x /\ 0 <= val x) \/ x = S754_nan.
(** Arguments the limiter is meant for: at least one cell, one size or nan per cell, a size in the first. *)
Record double_grid (d0 d1 d2 : nat) (f : list spec_float) : Prop := {
  dg_dims : (0 < d0 /\ 0 < d1 /\ 0 < d2)%nat;
  dg_length : length f = (d0 * d1 * d2)%nat;
  dg_sizes : forall x, In x f -> size_or_nan x;
  dg_first : nth 0 f S754_nan <> S754_nan }.
(** The value of cell number i; only used where it is not nan. *)
Definition at_cell (f : list spec_float) (i : nat) : spec_float := nth i f S754_nan.
(** Smallest size. *)
Definition smallest_size (f : list spec_float) (m : R) : Prop :=
  (exists x, In x f /\ finite_double x /\ val x = m) /\ forall x, In x f -> finite_double x -> m <= val x.
(** A non-negative finite double. *)
Definition amount (x : spec_float) : Prop := finite_double x /\ 0 <= val x.
(** The growth over a side and over a diagonal, and the tolerance, each rounded as often as computed. *)
Definition side_growth (elen dfdx : R) : R := rnd (elen * dfdx).
Definition diagonal_growth (elen dfdx : R) : R := rnd (rnd (elen * rnd (sqrt 2)) * dfdx).
Definition tolerance (m : R) : R := rnd (m * rnd (sqrt (rnd (1 / 10 ^ 9)))).
(** g plus growth plus tolerance, rounded twice. *)
Definition reach (g growth tol : R) : R := rnd (rnd (g + growth) + tol).
(** Unit roundoff and half the smallest double. *)
Definition uro : R := / 2 ^ 53.
(** Field h of sizes does not grow by more than [s] between side neighbours and [d] between touching
    cells, up to rounding. *)
Definition limited_f (d0 d1 d2 : nat) (h : list spec_float) (s d : R) : Prop :=
  forall i j k i' j', (i < d0)%nat -> (j < d1)%nat -> (k < d2)%nat -> (i' < d0)%nat -> (j' < d1)%nat ->
  let a := val (at_cell h (cell d0 d1 i j k)) in let b := val (at_cell h (cell d0 d1 i' j' k)) in
  (side_neighbours i j i' j' -> a <= rnd (b + s)) /\ (touching i j i' j' -> a <= rnd (b + d)).
