(** Specification vocabulary for the arguments of generate_mesh. *)
From Coq Require Import List Arith Bool ZArith QArith.
From Verif Require Import M_Base M_Sdf.
Import ListNotations.
Open Scope Q_scope.

(** A usable minimum; the least positive finite value of a grid. *)
Definition good_minimum (h : option num) (q : Q) : Prop := h = Some (Fin q) /\ 0 < q.
Definition least_positive (vals : list num) (q : Q) : Prop :=
  In (Fin q) vals /\ 0 < q /\ forall r, In (Fin r) vals -> 0 < r -> q <= r.
(** A point in the rectangle of two intervals, widened on the upper sides by a step. *)
Definition in_rectangle (x0 x1 y0 y1 h : Q) (p : Q * Q) : Prop := x0 <= fst p <= x1 + h /\ y0 <= snd p <= y1 + h.
