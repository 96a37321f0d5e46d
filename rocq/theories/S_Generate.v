(** Specification vocabulary for the mesh generation loop, independent of the model. *)
From Coq Require Import List Arith ZArith QArith Qabs.
From Verif Require Import M_Base S_FixMesh.
Import ListNotations.
Open Scope Q_scope.

(** The array function [fd] computes [f] at every point whenever it returns. *)
Definition pointwise (fd : list (Q * Q) -> res (list Q)) (f : Q * Q -> Q) : Prop :=
  forall l d, fd l = Ok d -> d = map f l.
(** [f] does not distinguish equal coordinates written differently. *)
Definition respects (f : Q * Q -> Q) : Prop := forall a b, same_point a b -> f a == f b.
(** [f] changes by at most [K] times the larger coordinate difference. *)
Definition lipschitz (K : Q) (f : Q * Q -> Q) : Prop :=
  forall d a b, near d a b -> f a <= f b + K * d.

Definition centre (p : list (Q * Q)) (t : face) : Q * Q :=
  let '(a, b, c) := t in
  let x i := fst (nth i p (0, 0)) in let y i := snd (nth i p (0, 0)) in
  ((x a + x b + x c) / 3, (y a + y b + y c) / 3).

(** [x] is one of the points. *)
Definition has (p : list (Q * Q)) (x : Q * Q) : Prop := exists y, In y p /\ same_point y x.

(** A triangulator that keeps every point it is given. *)
Definition keeps_points (tr : nat -> list (Q * Q) -> res (list (Q * Q) * list face)) : Prop :=
  forall k p p' t, tr k p = Ok (p', t) -> forall x, has p x -> has p' x.
