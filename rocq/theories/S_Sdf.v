(** Specification vocabulary for signed distance functions. *)
From Coq Require Import List Arith QArith.
From Verif Require Import M_Base M_Sdf.
Import ListNotations.
Open Scope Q_scope.

(** The domain evaluates every array of points entry by entry with [g]. *)
Definition evaluates (d : domain) (g : pt -> Q) : Prop := forall xs, d_eval d xs = Ok (map g xs).
Definition covers_by (d : domain) (c : pt -> Q) : Prop := exists f, d_covering d = Some f /\ forall xs, f xs = Ok (map c xs).

(** Closed box (xmin, xmax, ymin, ymax). *)
Definition in_closed_box (b : Q * Q * Q * Q) (x y : Q) : Prop :=
  let '(x0, xN, y0, yN) := b in x0 <= x <= xN /\ y0 <= y <= yN.
Definition in_open_box (b : Q * Q * Q * Q) (x y : Q) : Prop :=
  let '(x0, xN, y0, yN) := b in x0 < x < xN /\ y0 < y < yN.
Definition on_box_side (b : Q * Q * Q * Q) (x y : Q) : Prop :=
  in_closed_box b x y /\ let '(x0, xN, y0, yN) := b in x == x0 \/ x == xN \/ y == y0 \/ y == yN.
(** The interior of the domain lies in its box. *)
Definition bbox_sound (d : domain) (g : pt -> Q) : Prop :=
  forall x y, g (Fin x, Fin y) < 0 -> in_closed_box (d_bbox d) x y.

(** The domain and its covering evaluate entry by entry with the two functions. *)
Definition scale (d : domain) (gc : (pt -> Q) * (pt -> Q)) : Prop := evaluates d (fst gc) /\ covers_by d (snd gc).
(** Both coordinates are finite. *)
Definition finite_point (p : pt) : Prop := exists x y, p = (Fin x, Fin y).
