(** Specification vocabulary for triangle quality. *)
From Coq Require Import List Reals QArith Qreals.
Import ListNotations.
Open Scope R_scope.

Definition dist2d (p q : R * R) : R := sqrt ((fst p - fst q) ^ 2 + (snd p - snd q) ^ 2).
(** Twice the signed area. *)
Definition area2 (p0 p1 p2 : R * R) : R := (fst p1 - fst p0) * (snd p2 - snd p0) - (fst p2 - fst p0) * (snd p1 - snd p0).
(** Radii of the inscribed and circumscribed circle: area = r * (half perimeter), and area = abc / (4 R). *)
Definition inradius_is (p0 p1 p2 : R * R) (r : R) : Prop :=
  Rabs (area2 p0 p1 p2) / 2 = r * ((dist2d p0 p1 + dist2d p1 p2 + dist2d p2 p0) / 2).
Definition circumradius_is (p0 p1 p2 : R * R) (rr : R) : Prop :=
  dist2d p0 p1 * dist2d p1 p2 * dist2d p2 p0 = 4 * rr * (Rabs (area2 p0 p1 p2) / 2).
Definition perimeter (p0 p1 p2 : R * R) : R := dist2d p0 p1 + dist2d p1 p2 + dist2d p2 p0.
Definition equilateral (p0 p1 p2 : R * R) (s : R) : Prop := dist2d p0 p1 = s /\ dist2d p1 p2 = s /\ dist2d p2 p0 = s.
Definition scale (k : R) (p : R * R) : R * R := (k * fst p, k * snd p).

(** The same for a face of a mesh with rational coordinates. *)
Definition corner (p : list (Q * Q)) (i : nat) : R * R := let x := nth i p (0, 0)%Q in (Q2R (fst x), Q2R (snd x)).
Definition face_area (p : list (Q * Q)) (t : nat * nat * nat) : R := let '(a, b, c) := t in area2 (corner p a) (corner p b) (corner p c).
Definition face_perimeter (p : list (Q * Q)) (t : nat * nat * nat) : R := let '(a, b, c) := t in perimeter (corner p a) (corner p b) (corner p c).
