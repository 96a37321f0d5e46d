(** Specification vocabulary for triangle quality on doubles, independent of the model. *)
From Coq Require Import List ZArith Reals QArith Qreals SpecFloat.
From Verif Require Import S_Double S_Quality.
Import ListNotations.
Open Scope R_scope.

(** A point as a point of the plane. *)
Definition at_point (p : spec_float * spec_float) : R * R := (val (fst p), val (snd p)).
(** Coordinates below 2^60 in size. *)
Definition moderate (p : spec_float * spec_float) : Prop :=
  finite_double (fst p) /\ finite_double (snd p) /\ Rabs (val (fst p)) <= 2 ^ 60 /\ Rabs (val (snd p)) <= 2 ^ 60.
(** Coordinates that are equal or at least 2^-60 apart. *)
Definition spaced (x y : spec_float) : Prop := val x = val y \/ / 2 ^ 60 <= Rabs (val x - val y).
Definition spaced2 (p q : spec_float * spec_float) : Prop := spaced (fst p) (fst q) /\ spaced (snd p) (snd q).
Definition ordinary_triangle (p0 p1 p2 : spec_float * spec_float) : Prop :=
  moderate p0 /\ moderate p1 /\ moderate p2 /\ spaced2 p0 p1 /\ spaced2 p1 p2 /\ spaced2 p2 p0.
(** By how much the triangle inequality holds: no side is longer than the other two less d perimeters. *)
Definition fat (d : R) (p0 p1 p2 : R * R) : Prop :=
  let s := perimeter p0 p1 p2 in
  0 < s /\
  dist2d p0 p1 + d * s <= dist2d p1 p2 + dist2d p2 p0 /\
  dist2d p1 p2 + d * s <= dist2d p2 p0 + dist2d p0 p1 /\
  dist2d p2 p0 + d * s <= dist2d p0 p1 + dist2d p1 p2.
(** The documented radii as functions of the corners. *)
Definition inradius (p0 p1 p2 : R * R) : R := Rabs (area2 p0 p1 p2) / perimeter p0 p1 p2.
Definition circumradius (p0 p1 p2 : R * R) : R := dist2d p0 p1 * dist2d p1 p2 * dist2d p2 p0 / (2 * Rabs (area2 p0 p1 p2)).
(** A rational or missing number that is the value of a double. *)
Definition same_number (q : option Q) (x : spec_float) : Prop :=
  match q with None => x = S754_nan | Some q => finite_double x /\ Q2R q = val x end.
Definition corner_f (pd : list (spec_float * spec_float)) (i : nat) : spec_float * spec_float := nth i pd (S754_nan, S754_nan).
Definition ordinary_face (pd : list (spec_float * spec_float)) (t : nat * nat * nat) : Prop :=
  let '(a, b, c) := t in ordinary_triangle (corner_f pd a) (corner_f pd b) (corner_f pd c).
Definition fat_face (d : R) (pd : list (spec_float * spec_float)) (t : nat * nat * nat) : Prop :=
  let '(a, b, c) := t in fat d (at_point (corner_f pd a)) (at_point (corner_f pd b)) (at_point (corner_f pd c)).
Definition collapsed (pd : list (spec_float * spec_float)) (t : nat * nat * nat) : Prop :=
  let '(a, b, c) := t in let x := at_point (corner_f pd a) in let y := at_point (corner_f pd b) in let z := at_point (corner_f pd c) in x = y \/ y = z \/ z = x.
Definition perimeter_f (pd : list (spec_float * spec_float)) (t : nat * nat * nat) : R :=
  let '(a, b, c) := t in perimeter (at_point (corner_f pd a)) (at_point (corner_f pd b)) (at_point (corner_f pd c)).
(** What the code computes instead of the documented 2 r / R: 2 r times that. *)
Definition code_quality (x y z : R * R) : R := 2 * inradius x y z * (2 * inradius x y z / circumradius x y z).
Definition face_quality_f (pd : list (spec_float * spec_float)) (t : nat * nat * nat) : R :=
  let '(a, b, c) := t in code_quality (at_point (corner_f pd a)) (at_point (corner_f pd b)) (at_point (corner_f pd c)).
