(** Specification vocabulary for boxes and regions. *)
From Coq Require Import List QArith.
From Verif Require Import M_Sdf M_Region.
Import ListNotations.
Open Scope Q_scope.

(** The point set of the inner box lies in the outer one, coordinate by coordinate. *)
Definition within (outer inner : Q * Q * Q * Q) : Prop :=
  let '(a, b, c, d) := outer in let '(e, f, g, h) := inner in a <= e /\ f <= b /\ c <= g /\ h <= d.
Definition in_box (b : Q * Q * Q * Q) (p : Q * Q) : Prop :=
  let '(x0, x1, y0, y1) := b in x0 <= fst p <= x1 /\ y0 <= snd p <= y1.
(** A box "covering most of the world": at least 300 by 150 degrees, or reaching the antimeridian on both sides / both poles. *)
Definition world_like (b : Q * Q * Q * Q) : Prop :=
  let '(x0, x1, y0, y1) := b in
  (x0 + 300 <= x1 \/ (x0 <= -180 /\ 180 <= x1)) /\ (y0 + 150 <= y1 \/ (y0 <= -89 /\ 89 <= y1)).

(** a <= b for floats, where a NaN passes. *)
Definition not_reversed (a b : num) : Prop :=
  match a, b with
  | Fin x, Fin y => x <= y
  | NaN, _ | _, NaN => True
  | Inf false, _ | _, Inf true => True
  | _, _ => False
  end.
(** A polygon, or a tuple xmin, xmax, ymin, ymax (possibly followed by more values) that is not reversed. *)
Definition ordered (e : extent) : Prop :=
  match e with
  | Box v => exists a b c d r, v = a :: b :: c :: d :: r /\ not_reversed a b /\ not_reversed c d
  | Poly _ => True
  end.
