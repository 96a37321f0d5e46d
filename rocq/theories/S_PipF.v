(** Specification vocabulary for point-in-polygon on doubles, independent of the model. *)
From Coq Require Import List Arith ZArith Reals SpecFloat.
From Flocq Require Import Core.
From Verif Require Import S_Double S_Ieee S_Inpoly.
Import ListNotations.
Open Scope R_scope.

Definition RX (p : spec_float * spec_float) : R := val (fst p).
Definition RY (p : spec_float * spec_float) : R := val (snd p).
(** The point at parameter t of a segment, exactly. *)
Definition at_x (s : (spec_float * spec_float) * (spec_float * spec_float)) (t : R) : R := RX (fst s) + t * (RX (snd s) - RX (fst s)).
Definition at_y (s : (spec_float * spec_float) * (spec_float * spec_float)) (t : R) : R := RY (fst s) + t * (RY (snd s) - RY (fst s)).
Definition on_segmentR (q : spec_float * spec_float) (s : (spec_float * spec_float) * (spec_float * spec_float)) : Prop :=
  exists t, 0 <= t <= 1 /\ RX q = at_x s t /\ RY q = at_y s t.
(** The ray to the right from q meets the segment; the lower end counts, the upper end does not. *)
Definition crossesR (q : spec_float * spec_float) (s : (spec_float * spec_float) * (spec_float * spec_float)) : Prop :=
  (RY (fst s) <= RY q < RY (snd s) \/ RY (snd s) <= RY q < RY (fst s)) /\
  exists t, RX q < at_x s t /\ RY q = at_y s t.
(** q is further than d from every point of the segment (sum of the two coordinate distances). *)
Definition clear_of (d : R) (q : spec_float * spec_float) (s : (spec_float * spec_float) * (spec_float * spec_float)) : Prop :=
  forall t, 0 <= t <= 1 -> d < Rabs (RX q - at_x s t) + Rabs (RY q - at_y s t).
(** Points of absolute value at most M. *)
Definition atmost (M : R) (p : spec_float * spec_float) : Prop := finite_point p /\ Rabs (RX p) <= M /\ Rabs (RY p) <= M.
(** An edge is level or not too flat; an edge is not too short. *)
Definition not_flat (s : (spec_float * spec_float) * (spec_float * spec_float)) : Prop :=
  RY (fst s) = RY (snd s) \/ bpow radix2 (-500) <= Rabs (RY (snd s) - RY (fst s)).
Definition not_short (s : (spec_float * spec_float) * (spec_float * spec_float)) : Prop :=
  bpow radix2 (-500) <= Rabs (RX (snd s) - RX (fst s)) \/ bpow radix2 (-500) <= Rabs (RY (snd s) - RY (fst s)).
(** The distance at which rounding no longer matters. *)
Definition margin (ftol M : R) : R := ftol + bpow radix2 (-48) * (M + ftol) + bpow radix2 (-1070).
(** The segments of a polygon given by nodes and pairs of node numbers. *)
Definition segments (node : list (spec_float * spec_float)) (edge : list (nat * nat)) : list ((spec_float * spec_float) * (spec_float * spec_float)) :=
  map (fun e => (nth (fst e) node nan2, nth (snd e) node nan2)) edge.
