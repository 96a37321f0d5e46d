(** Specification vocabulary for signed distances on doubles, independent of the model. *)
From Coq Require Import List Arith ZArith Reals SpecFloat.
From Flocq Require Import Core.
From Verif Require Import S_Double S_Ieee S_Inpoly S_PipF.
Import ListNotations.
Open Scope R_scope.

(** Rings of points; their rows are the points of each and a row of nan. *)
Definition nan_row : spec_float * spec_float := (S754_nan, S754_nan).
Definition rows_f (rings : list (list (spec_float * spec_float))) : list (spec_float * spec_float) := flat_map (fun l => l ++ [nan_row]) rings.
(** The sides of a ring that is given with its first point twice at the end: from each point to the next. *)
Fixpoint sides_from (a : spec_float * spec_float) (l : list (spec_float * spec_float)) : list ((spec_float * spec_float) * (spec_float * spec_float)) :=
  match l with [] => [] | b :: r => (a, b) :: sides_from b r end.
Definition sides (l : list (spec_float * spec_float)) := match l with [] => [] | a :: r => sides_from a r end.
Definition all_sides (rings : list (list (spec_float * spec_float))) := flat_map sides rings.
(** At least one side, and closed twice: the ring is body ++ [first; first]. *)
Definition shut_f (l : list (spec_float * spec_float)) : Prop := exists a body, l = a :: body ++ [a; a].
(** The ray to the right of q meets an odd number of sides. *)
Definition inside_f (q : spec_float * spec_float) (rings : list (list (spec_float * spec_float))) : Prop := odd_many (crossesR q) true (all_sides rings).
(** All coordinates at most M; q further than the margin from every side, no side too flat. *)
Definition clear_of_all (ftol M : R) (q : spec_float * spec_float) (rings : list (list (spec_float * spec_float))) : Prop :=
  Forall (Forall (atmost M)) rings /\ forall s, In s (all_sides rings) -> not_flat s /\ clear_of (margin ftol M) q s.
