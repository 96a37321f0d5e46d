(** Specification vocabulary for bar forces on doubles, independent of the model. *)
From Coq Require Import List Arith ZArith Reals SpecFloat.
From Verif Require Import S_Double S_Ieee S_QualF S_Forces.
Import ListNotations.
Open Scope R_scope.

(** Coordinates at most 2^60 in size, those of two points equal or at least 2^-60 apart. *)
Definition ordinary_points (p : list (spec_float * spec_float)) : Prop :=
  (forall a, In a p -> moderate a) /\ (forall a b, In a p -> In b p -> spaced2 a b).
Definition positive_double (x : spec_float) : Prop := finite_double x /\ 0 < val x.
(** A double; between 2^-60 and 2^60 if it is finite and positive. *)
Definition ordinary_size (x : spec_float) : Prop :=
  valid_binary 53 1024 x = true /\ (positive_double x -> / 2 ^ 60 <= val x <= 2 ^ 60).
(** Equal up to [k] units of the relative rounding error. *)
Definition near (k : R) (v e : R) : Prop := Rabs (v - e) <= k * u * Rabs e.
Definition points (p : list (spec_float * spec_float)) : list (R * R) := map at_point p.
(** Half the sum of two points, in the arithmetic of doubles. *)
Definition middle (p : list (spec_float * spec_float)) (e : nat * nat) : spec_float * spec_float :=
  let a := nth (fst e) p (S754_nan, S754_nan) in let b := nth (snd e) p (S754_nan, S754_nan) in
  let two := S754_finite false 4503599627370496 (-51) in
  (SFdiv 53 1024 (SFadd 53 1024 (fst a) (fst b)) two, SFdiv 53 1024 (SFadd 53 1024 (snd a) (snd b)) two).
(** The bars that have point i as an end. *)
Definition at_end (i : nat) (e : nat * nat) : bool := Nat.eqb (fst e) i || Nat.eqb (snd e) i.
Definition bars_at (i : nat) (bars : list (nat * nat)) : nat := length (filter (at_end i) bars).
(** The values of the positive ones. *)
Definition is_positive (x : spec_float) : bool := match x with S754_finite false _ _ => true | _ => false end.
Definition positive_values (l : list spec_float) : list R := map val (filter is_positive l).

(** Coordinates finite and at most M in size. *)
Definition within_size (M : R) (p : spec_float * spec_float) : Prop :=
  finite_double (fst p) /\ finite_double (snd p) /\ Rabs (val (fst p)) <= M /\ Rabs (val (snd p)) <= M.
Definition mean3 (a b c : R) : R := (a + b + c) / 3.
Definition true_centroid (a b c : spec_float * spec_float) : R * R :=
  (mean3 (val (fst a)) (val (fst b)) (val (fst c)), mean3 (val (snd a)) (val (snd b)) (val (snd c))).
(** Signed distance to the border of a box in the greatest-coordinate sense: negative inside. *)
Definition box_depth (x0 xN y0 yN : R) (q : R * R) : R := Rmax (Rmax (Rmax (y0 - snd q) (snd q - yN)) (x0 - fst q)) (fst q - xN).
Definition corner3 (p : list (spec_float * spec_float)) (t : nat * nat * nat) : R * R :=
  let '(i, j, k) := t in true_centroid (nth i p (S754_nan, S754_nan)) (nth j p (S754_nan, S754_nan)) (nth k p (S754_nan, S754_nan)).
(** Bound of the error of a computed centroid. *)
Definition centroid_error (M : R) : R := 3 * u * M + / 2 ^ 1074.
