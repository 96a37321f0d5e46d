(** Specification vocabulary for corner cutting on doubles, independent of the model. *)
From Coq Require Import List Arith ZArith Reals SpecFloat.
From Flocq Require Import Core.
From Verif Require Import S_Double S_Ieee.
Import ListNotations.
Open Scope R_scope.

(** x lies between a and b. *)
Definition between (a b x : R) : Prop := Rmin a b <= x <= Rmax a b.
(** x is three quarters of a and one quarter of b, up to rounding. *)
Definition near_quarter (a b x : R) : Prop :=
  Rabs (x - (3 * a + b) / 4) <= Rmax (Rabs a) (Rabs b) * bpow radix2 (-52) + bpow radix2 (-1073).
(** q is the point a quarter of the way from p to p': finite, in the box of the two points, near the exact one. *)
Definition cut_point (p p' q : spec_float * spec_float) : Prop :=
  finite_point q /\
  between (val (fst p)) (val (fst p')) (val (fst q)) /\ between (val (snd p)) (val (snd p')) (val (snd q)) /\
  near_quarter (val (fst p)) (val (fst p')) (val (fst q)) /\ near_quarter (val (snd p)) (val (snd p')) (val (snd q)).
(** Cutting the corners of an open line once: the ends are kept bit by bit. *)
Definition cut_once (ps qs : list (spec_float * spec_float)) : Prop :=
  length qs = (2 * length ps)%nat /\
  nth_error qs 0 = nth_error ps 0 /\
  nth_error qs (2 * length ps - 1) = nth_error ps (length ps - 1) /\
  (forall i p p', nth_error ps i = Some p -> nth_error ps (S i) = Some p' ->
     (exists q, nth_error qs (2 * i + 1) = Some q /\ cut_point p p' q) /\
     (exists q, nth_error qs (2 * i + 2) = Some q /\ cut_point p' p q)).
Inductive cut_times : nat -> list (spec_float * spec_float) -> list (spec_float * spec_float) -> Prop :=
| times_0 : forall ps, cut_times 0 ps ps
| times_S : forall k ps qs rs, cut_once ps qs -> cut_times k qs rs -> cut_times (S k) ps rs.
