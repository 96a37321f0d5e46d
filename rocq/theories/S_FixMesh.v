(** Specification vocabulary for fix_mesh, independent of the model. *)
From Coq Require Import List Arith ZArith QArith Qabs Permutation.
Import ListNotations.

Notation face := (nat * nat * nat)%type.

Definition corners (t : face) : list nat := let '(a, b, c) := t in [a; b; c].

(** Twice the signed area of a face (positive when counter-clockwise). *)
Definition area2 (p : list (Q * Q)) (t : face) : Q :=
  let '(a, b, c) := t in
  let x i := fst (nth i p (0, 0)) in let y i := snd (nth i p (0, 0)) in
  x a * (y b - y c) + x b * (y c - y a) + x c * (y a - y b).

Definition in_range (n : nat) (t : face) : Prop := Forall (fun v => (v < n)%nat) (corners t).

Definition same_vertices (t s : face) : Prop := Permutation (corners t) (corners s).

(** [e] bounds the difference of any two points in each coordinate. *)
Definition extent_at_most (p : list (Q * Q)) (e : Q) : Prop :=
  forall a b, In a p -> In b p -> fst a - fst b <= e /\ snd a - snd b <= e.

Definition near (d : Q) (a b : Q * Q) : Prop := Qabs (fst a - fst b) <= d /\ Qabs (snd a - snd b) <= d.

Definition same_point (a b : Q * Q) : Prop := fst a == fst b /\ snd a == snd b.

(** No two list positions hold related elements. *)
Definition no_two {A} (R : A -> A -> Prop) (l : list A) : Prop := ForallOrdPairs (fun x y => ~ R x y) l.

(** [leb] is a total order. *)
Definition total_order {A} (leb : A -> A -> bool) : Prop :=
  (forall x y, leb x y = true \/ leb y x = true) /\
  (forall x y z, leb x y = true -> leb y z = true -> leb x z = true) /\
  (forall x y, leb x y = true -> leb y x = true -> x = y).
