(** What C71 says about stored values that are not finite. *)
From Coq Require Import List Arith ZArith QArith.
From Verif Require Import M_Base M_Sdf M_Grid S_Grid.
Import ListNotations.
Open Scope Q_scope.

(** The point lies inside the cell with the lower corner (i, j), on none of its sides. *)
Definition inside_cell (g : grid) (i j : nat) (q : Q * Q) : Prop :=
  x_of g i < fst q < x_of g (S i) /\ y_of g j < snd q < y_of g (S j).
(** The values stored at the corners of that cell. *)
Definition corner_values (g : grid) (i j : nat) : list num :=
  [value_at g i j; value_at g i (S j); value_at g (S i) j; value_at g (S i) (S j)].
