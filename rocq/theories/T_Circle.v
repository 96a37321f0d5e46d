(** Property theorems C78 (geodata.py: create_circle_coords). *)
From Coq Require Import List Arith ZArith QArith Qround Qreals Reals.
From Verif Require Import M_Base M_Circle S_Circle P_Circle.
Import ListNotations.
Open Scope R_scope.

(** ** C78 *)
(** All points are on the circle, the first at angle 0, then one every [arc] degrees, counter-clockwise, up to the
    first one at or beyond 360 degrees. *)
Theorem C78_circle : forall r c arc l, (0 < arc)%Q -> create_circle_coords r c arc = Ok l ->
  (forall p, In p l -> on_circle r c p) /\ first_point l = (fst c + r, snd c) /\
  (forall k, (k < length l)%nat <-> (inject_Z (Z.of_nat k) * arc < 360 + arc)%Q) /\
  (forall k, (arc < 180)%Q -> 0 < r -> (S k < length l)%nat -> turns_left c (nth k l (0, 0)) (nth (S k) l (0, 0))).
Proof. exact circle_shape. Qed.
Print Assumptions C78_circle.

(** The ring is closed exactly if the resolution divides 360. *)
Theorem C78_closed_iff : forall r c arc l, (0 < arc)%Q -> (arc <= 360)%Q -> 0 < r -> create_circle_coords r c arc = Ok l -> first_point l = last_point l <-> divides_360 arc.
Proof. exact circle_closed. Qed.
Print Assumptions C78_closed_iff.

Theorem C78_not_closed : ~ divides_360 7.
Proof. exact seven_not_dividing. Qed.
Print Assumptions C78_not_closed.

Example C78_case : exists l, create_circle_coords 1 (0, 0) 90 = Ok l /\ length l = 5%nat /\ divides_360 90.
Proof. eexists. split; [reflexivity|]. split; [reflexivity|]. exists 4%Z. reflexivity. Qed.

