(** Specification vocabulary for the orientation of a path of doubles, independent of the model. *)
From Coq Require Import List Arith ZArith Reals SpecFloat.
From Verif Require Import S_Double S_Ieee.
Import ListNotations.
Open Scope R_scope.

(** What the linear algebra library must guarantee: multipliers of size at most 1 up to four roundings; updates up to three roundings,
    or the smallest double; exp and log up to 2^-30 in relative terms; nan is passed on. *)
Definition ratio_contract (ratio : spec_float -> spec_float -> spec_float) : Prop :=
  (forall q p, finite_double q -> finite_double p -> Rabs (val q) <= Rabs (val p) -> / 2 ^ 900 <= Rabs (val p) <= 2 ^ 900 -> finite_double (ratio q p) /\ Rabs (val (ratio q p) - val q / val p) <= 4 * u) /\
  (forall p, ratio S754_nan p = S754_nan) /\ (forall q, ratio q S754_nan = S754_nan).
Definition elim_contract (elim : spec_float -> spec_float -> spec_float -> spec_float) : Prop :=
  (forall a l b, finite_double a -> finite_double l -> finite_double b -> Rabs (val a) <= 2 ^ 800 -> Rabs (val l) <= 2 -> Rabs (val b) <= 2 ^ 800 ->
     finite_double (elim a l b) /\ Rabs (val (elim a l b) - (val a - val l * val b)) <= 3 * u * (Rabs (val a) + Rabs (val l * val b)) + / 2 ^ 1000) /\
  (forall l b, elim S754_nan l b = S754_nan) /\ (forall a b, elim a S754_nan b = S754_nan) /\ (forall a l, elim a l S754_nan = S754_nan).
Definition magnitude_contract (magnitude : spec_float -> spec_float -> spec_float) : Prop :=
  (forall p q, finite_double p -> finite_double q -> val p <> 0 -> val q <> 0 -> Rabs (val p * val q) <= 2 ^ 900 ->
     finite_double (magnitude p q) /\ Rabs (val (magnitude p q) - Rabs (val p * val q)) <= / 2 ^ 30 * Rabs (val p * val q) + / 2 ^ 900) /\
  (forall p, magnitude S754_nan p = S754_nan) /\ (forall q, magnitude q S754_nan = S754_nan).
Definition det_contract ratio elim magnitude : Prop := ratio_contract ratio /\ elim_contract elim /\ magnitude_contract magnitude.
(** Twice the signed area of a triangle: positive when it turns left. *)
Definition turn (a b c : spec_float * spec_float) : R :=
  (val (fst b) - val (fst a)) * (val (snd c) - val (snd a)) - (val (fst c) - val (fst a)) * (val (snd b) - val (snd a)).
(** The largest difference to the first point in a coordinate. *)
Definition reach (f : spec_float * spec_float -> spec_float) (a b c : spec_float * spec_float) : R := Rmax (Rabs (val (f b) - val (f a))) (Rabs (val (f c) - val (f a))).
Definition turn_error (a b c : spec_float * spec_float) : R := 40 * u * (reach fst a b c * reach snd a b c) + / 2 ^ 400.
(** Coordinates of size at most 2^400. *)
Definition tame (p : spec_float * spec_float) : Prop := finite_point p /\ Rabs (val (fst p)) <= 2 ^ 400 /\ Rabs (val (snd p)) <= 2 ^ 400.
(** Turns that the tolerance 1e-8 and the roundings cannot mistake. *)
Definition clear_turn a b c : Prop := / 10 ^ 8 * (1 + / 2 ^ 20) + (1 + / 2 ^ 20) * turn_error a b c < Rabs (turn a b c).
Definition straight_turn a b c : Prop := (reach fst a b c = 0 \/ / 2 ^ 800 <= reach fst a b c) /\ Rabs (turn a b c) < / 10 ^ 8 * (1 - / 2 ^ 20) - (1 + / 2 ^ 20) * turn_error a b c.
