(** Specification vocabulary for the iterations of generate_mesh on doubles, independent of the model. *)
From Coq Require Import List Arith ZArith Reals SpecFloat.
From Flocq Require Import Core.
From Verif Require Import M_Base S_Double S_Ieee S_LapF.
Import ListNotations.
Open Scope R_scope.

(** A point with the same coordinates as x, up to the signs of zeros, is in the list. *)
Definition present (p : list (spec_float * spec_float)) (x : spec_float * spec_float) : Prop := exists i, (i < length p)%nat /\ same_place x (pt p i).
(** Two fixed points are the same or at least 2^-500 apart. *)
Definition distinguishable (l : list (spec_float * spec_float)) : Prop := forall x y, In x l -> In y l -> same_place x y \/ apart x y.
(** What a triangulation gives back: every point it was given, and coordinates of at most 2^500. *)
Definition keeps_places {A : Type} (tr : nat -> list (spec_float * spec_float) -> res (list (spec_float * spec_float) * A)) : Prop :=
  forall k p p' t, tr k p = Ok (p', t) -> (forall x, present p x -> present p' x) /\ Forall moderate p'.
(** The distance function does not tell signs of zeros apart, as far as being outside is concerned. *)
Definition same_outside (fd : spec_float * spec_float -> spec_float) : Prop :=
  forall x y, finite_point x -> finite_point y -> same_place x y -> SFltb (S754_zero false) (fd x) = SFltb (S754_zero false) (fd y).
(** How far fix_mesh with its tolerance 2e-13 may move a vertex: e bounds the extent of the points, M their coordinates. *)
Definition merge_error (e M : R) : R := 2 / 10 ^ 13 * e * (1 + 10 * u) + 6 * u * M.
