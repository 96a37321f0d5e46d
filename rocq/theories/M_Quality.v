(** Model of simp_qual (oceanmesh/fix_mesh.py) over the real numbers. *)
From Coq Require Import List Reals QArith Qreals.
From Verif Require Import M_Base.
Import ListNotations.
Open Scope R_scope.

Definition rpt : Type := (R * R)%type.
(** fix_mesh.py:17-18 length of p1: square root of the sum of squares. *)
Definition rlength (v : rpt) : R := sqrt (fst v ^ 2 + snd v ^ 2).
Definition rsub (p q : rpt) : rpt := (fst p - fst q, snd p - snd q).
(** fix_mesh.py:20-31 from the three edge lengths.  Division by zero (degenerate triangles, nan in
    the code) is not modelled: statements assume positive factors. *)
Definition qual_of_lengths (a b c : R) : R :=
  let mult1 := (b + c - a) * (c + a - b) * (a + b - c) / (a + b + c) in
  let denom1 := sqrt ((a + b + c) * (b + c - a) * (c + a - b) * (a + b - c)) in
  let r := (1 / 2) * mult1 in
  let RR := a * b * c / denom1 in
  2 * r / RR.
(** fix_mesh.py:6-31 simp_qual, one row of t. *)
Definition tri_qual (p0 p1 p2 : rpt) : R :=
  qual_of_lengths (rlength (rsub p1 p0)) (rlength (rsub p2 p0)) (rlength (rsub p2 p1)).
(** All rows; an index out of range raises IndexError. *)
Definition simp_qual (p : list rpt) (t : list (nat * nat * nat)) : res (list R) :=
  mapM (fun f => let '(i, j, k) := f in
    let! a := get p i in let! b := get p j in let! c := get p k in Ok (tri_qual a b c)) t.

(** fix_mesh.py:20-31 for the face t of a mesh whose coordinates are the rationals p. *)
Definition face_qual (p : list (Q * Q)) (t : nat * nat * nat) : R :=
  let pt i := let x := nth i p (0, 0)%Q in (Q2R (fst x), Q2R (snd x)) in
  let '(a, b, c) := t in tri_qual (pt a) (pt b) (pt c).
