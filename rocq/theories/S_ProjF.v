(** Specification vocabulary for the projection of outside points on doubles, independent of the model. *)
From Coq Require Import List ZArith Reals SpecFloat.
From Verif Require Import S_Double S_Ieee.
Import ListNotations.
Open Scope R_scope.

(** The four sides of a box, how far a point is beyond one, the place of the side on its axis, and the coordinates of a
    point across and along the side. *)
Inductive wall := West | East | South | North.
Definition beyond (w : wall) (x0 xN y0 yN : R) (q : R * R) : R :=
  match w with West => x0 - fst q | East => fst q - xN | South => y0 - snd q | North => snd q - yN end.
Definition place (w : wall) (x0 xN y0 yN : R) : R := match w with West => x0 | East => xN | South => y0 | North => yN end.
Definition across (w : wall) (q : R * R) : R := match w with West | East => fst q | _ => snd q end.
Definition along (w : wall) (q : R * R) : R := match w with West | East => snd q | _ => fst q end.
(** The point is farther beyond this side than beyond any other, by more than the step 2^-26 of the difference quotient. *)
Definition foremost (w : wall) (x0 xN y0 yN : R) (q : R * R) : Prop :=
  forall w', w' <> w -> beyond w' x0 xN y0 yN q + / 2 ^ 24 <= beyond w x0 xN y0 yN q.
Definition size_atmost (k : nat) (x : spec_float) : Prop := finite_double x /\ Rabs (val x) <= 2 ^ k.
Definition spot (q : spec_float * spec_float) : R * R := (val (fst q), val (snd q)).
