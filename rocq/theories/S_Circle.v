(** What a circle of points is. *)
From Coq Require Import List Reals QArith Qround ZArith.
Import ListNotations.
Open Scope R_scope.

Definition on_circle (radius : R) (c p : R * R) : Prop := (fst p - fst c) * (fst p - fst c) + (snd p - snd c) * (snd p - snd c) = radius * radius.
Definition divides_360 (arc : Q) : Prop := exists k : Z, (inject_Z k * arc == 360)%Q.
(** Turning from p to q around c is counter-clockwise. *)
Definition turns_left (c p q : R * R) : Prop := 0 < (fst p - fst c) * (snd q - snd c) - (snd p - snd c) * (fst q - fst c).
Definition first_point (l : list (R * R)) : R * R := hd (0, 0) l.
Definition last_point (l : list (R * R)) : R * R := last l (0, 0).
