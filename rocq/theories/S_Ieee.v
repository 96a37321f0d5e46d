(** Exact meanings of doubles as rationals, and areas of triangles of doubles. *)
From Coq Require Import List ZArith QArith SpecFloat Reals.
From Flocq Require Import Core.
From Verif Require Import S_Double.
Import ListNotations.

Definition Qval (x : spec_float) : Q :=
  match x with S754_finite s m e => let z := if s then Z.neg m else Z.pos m in match e with Z0 => inject_Z z | Zpos p => inject_Z (z * 2 ^ e) | Zneg p => Qmake z (2 ^ p) end | _ => 0%Q end.
(** Twice the signed area, exactly. *)
Definition Qarea2 (a b c : spec_float * spec_float) : Q :=
  ((Qval (fst b) - Qval (fst a)) * (Qval (snd c) - Qval (snd a)) - (Qval (snd b) - Qval (snd a)) * (Qval (fst c) - Qval (fst a)))%Q.
Open Scope R_scope.
Definition Rarea2 (a b c : spec_float * spec_float) : R :=
  (val (fst b) - val (fst a)) * (val (snd c) - val (snd a)) - (val (snd b) - val (snd a)) * (val (fst c) - val (fst a)).
Definition finite_point (p : spec_float * spec_float) : Prop := finite_double (fst p) /\ finite_double (snd p).
(** Sum of the absolute values of the two products. *)
Definition permanent2 (a b c : spec_float * spec_float) : R :=
  Rabs ((val (fst b) - val (fst a)) * (val (snd c) - val (snd a))) + Rabs ((val (snd b) - val (snd a)) * (val (fst c) - val (fst a))).
(** Unit roundoff. *)
Definition u : R := bpow radix2 (-53).
Notation nan2 := (S754_nan, S754_nan).
(** A finite double in an interval. *)
Definition within (a b : R) (x : spec_float) : Prop := finite_double x /\ a <= val x <= b.
(** Coordinates of moderate size. *)
Definition moderate (p : spec_float * spec_float) : Prop := finite_point p /\ Rabs (val (fst p)) <= bpow radix2 500 /\ Rabs (val (snd p)) <= bpow radix2 500.
(** Integers of absolute value at most 2^25 times a common power of two. *)
Definition on_grid (s : Z) (x : spec_float) : Prop := exists z, (Z.abs z <= 2 ^ 25)%Z /\ val x = IZR z * bpow radix2 s.
(** Size and extent of a list of points. *)
Definition bounded_points (M : R) (p : list (spec_float * spec_float)) : Prop := Forall (fun q => finite_point q /\ Rabs (val (fst q)) <= M /\ Rabs (val (snd q)) <= M) p.
Definition extent_atmost (p : list (spec_float * spec_float)) (e : R) : Prop := forall a b, In a p -> In b p -> val (fst a) - val (fst b) <= e /\ val (snd a) - val (snd b) <= e.
Definition extent_atleast (p : list (spec_float * spec_float)) (e : R) : Prop := exists a b, In a p /\ In b p /\ (e <= val (fst a) - val (fst b) \/ e <= val (snd a) - val (snd b)).
