(** Specification vocabulary for initial points on doubles, independent of the model. *)
From Coq Require Import List Arith ZArith Reals SpecFloat.
From Flocq Require Import Core.
From Verif Require Import S_Double S_Ieee.
Import ListNotations.
Open Scope R_scope.

(** The corners of a box and the step: coordinates of at most M, a step of at least 2^-40 M. *)
Definition good_axis (M : R) (lo hi h : spec_float) : Prop :=
  finite_double lo /\ finite_double hi /\ finite_double h /\ Rabs (val lo) <= M /\ Rabs (val hi) <= M /\ val lo <= val hi /\ / 2 ^ 900 <= val h <= M /\ M <= 2 ^ 40 * val h /\ M <= 2 ^ 400.
(** Bound of the roundings along an axis. *)
Definition axis_error (M : R) : R := 16 * u * M.
(** Numbers drawn from [0, 1). *)
Definition unit_draws (l : list spec_float) : Prop := Forall (fun x => finite_double x /\ 0 <= val x < 1) l.
(** A size between 2^-200 and 2^200. *)
Definition plain_size (x : spec_float) : Prop := finite_double x /\ / 2 ^ 200 <= val x <= 2 ^ 200.
