(** Specification vocabulary for the python ray caster on doubles, independent of the model. *)
From Coq Require Import List Arith ZArith Reals SpecFloat.
From Flocq Require Import Core.
From Verif Require Import S_Double S_Ieee S_Inpoly S_PipF.
Import ListNotations.
Open Scope R_scope.

(** The distance from q to the point at parameter t, and the length of a segment. *)
Definition dist_at (q : spec_float * spec_float) (s : (spec_float * spec_float) * (spec_float * spec_float)) (t : R) : R :=
  sqrt ((RX q - at_x s t) * (RX q - at_x s t) + (RY q - at_y s t) * (RY q - at_y s t)).
Definition length_of (s : (spec_float * spec_float) * (spec_float * spec_float)) : R :=
  sqrt ((RX (snd s) - RX (fst s)) * (RX (snd s) - RX (fst s)) + (RY (snd s) - RY (fst s)) * (RY (snd s) - RY (fst s))).
(** q is further than d from every point of the segment. *)
Definition far_of (d : R) (q : spec_float * spec_float) (s : (spec_float * spec_float) * (spec_float * spec_float)) : Prop :=
  forall t, 0 <= t <= 1 -> d < dist_at q s t.
(** An edge is level, or it rises by more than the tolerance and by at least 2^-100. *)
Definition rises (ftol : R) (s : (spec_float * spec_float) * (spec_float * spec_float)) : Prop :=
  RY (fst s) = RY (snd s) \/ (ftol * (1 + bpow radix2 (-50)) < Rabs (RY (snd s) - RY (fst s)) /\ bpow radix2 (-100) <= Rabs (RY (snd s) - RY (fst s))).
Definition long_edge (s : (spec_float * spec_float) * (spec_float * spec_float)) : Prop := bpow radix2 (-100) <= length_of s.
(** The distance at which neither the tolerance nor rounding matters: the tolerance across the edge, and along the edge
    the tolerance divided by the length. *)
Definition ray_margin (ftol M : R) (s : (spec_float * spec_float) * (spec_float * spec_float)) : R :=
  (1 + bpow radix2 (-46)) * (ftol + ftol / length_of s) + bpow radix2 (-46) * M.
(** Every node number is the end of an even number of edges. *)
Definition closed_edges (edge : list (nat * nat)) : Prop :=
  forall v, odd_many (eq v) false (flat_map (fun e => [fst e; snd e]) edge).
