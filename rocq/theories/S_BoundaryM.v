(** Specification vocabulary for ocean sections on a closed boundary. *)
From Coq Require Import List Arith Bool ZArith QArith.
From Verif Require Import M_Sdf S_Edges S_Boundary.
Import ListNotations.
Open Scope nat_scope.

(** Any two boundary edges are joined by a chain of boundary edges. *)
Definition one_boundary (ts : list (nat * nat * nat)) : Prop :=
  forall u v x y, u < v -> x < y -> on_boundary ts u v -> on_boundary ts x y -> blinked ts (u, v) (x, y).
Definition deep_node (topo : list num) (t : Q) (v : nat) : Prop := exists d, nth_error topo v = Some d /\ deep t d.
(** The same closed loop read from another start. *)
Definition rotation (l r : list nat) : Prop := exists x y, l = x ++ y /\ r = y ++ x.
(** A stretch of the closed loop: deep nodes next to each other, ending on both sides at nodes that are not deep. *)
Definition deep_arc (topo : list num) (t : Q) (loop l : list nat) : Prop := exists z, rotation loop (l ++ z) /\ l <> [] /\ z <> [] /\
  Forall (deep_node topo t) l /\ forall v, hd_error z = Some v \/ hd_error (rev z) = Some v -> ~ deep_node topo t v.
