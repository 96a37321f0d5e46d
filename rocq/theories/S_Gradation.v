(** What enforcing a gradation on a grid of sizes is meant to do. *)
From Coq Require Import List Arith ZArith QArith Qabs.
From Verif Require Import M_Base M_Sdf M_Grid S_GradLimit S_Grid.
Import ListNotations.
Open Scope Q_scope.

(** Size stored at node (i, j). *)
Definition size_at (g : grid) (i j : nat) (a : Q) : Prop := value_at g i j = Fin a.
(** Finite sizes, none negative, on square cells of a box that does not span the globe. *)
Definition size_field (g : grid) (n m : nat) : Prop :=
  proper_grid g n m /\ g_dx g == g_dy g /\ forall i j, (i < n)%nat -> (j < m)%nat -> exists a, size_at g i j a /\ 0 <= a.
(** Same nodes, stored lower bound and treatment of points outside. *)
Definition same_frame (g g' : grid) : Prop :=
  g_bbox g' = g_bbox g /\ g_dx g' == g_dx g /\ g_dy g' == g_dy g /\ g_hmin g' = g_hmin g /\ g_extra g' = g_extra g.
(** Side neighbours differ by at most [L]. *)
Definition graded (g : grid) (n m : nat) (L : Q) : Prop :=
  forall i j i' j' a b, (i < n)%nat -> (j < m)%nat -> (i' < n)%nat -> (j' < m)%nat -> side_neighbours i j i' j' ->
  size_at g i j a -> size_at g i' j' b -> Qabs (a - b) <= L.
(** All eight neighbours: [L] to the sides and [D] across corners. *)
Definition graded8 (g : grid) (n m : nat) (L D : Q) : Prop :=
  forall i j i' j' a b, (i < n)%nat -> (j < m)%nat -> (i' < n)%nat -> (j' < m)%nat -> size_at g i j a -> size_at g i' j' b ->
  (side_neighbours i j i' j' -> Qabs (a - b) <= L) /\ (touching i j i' j' -> Qabs (a - b) <= D).
(** [l] lists the sizes, first index fastest. *)
Definition listed (g : grid) (n m : nat) (l : list Q) : Prop :=
  length l = (n * m)%nat /\ forall i j, (i < n)%nat -> (j < m)%nat -> size_at g i j (nth (cell n m i j 0) l 0).
(** [lo] is the smallest size. *)
Definition smallest_size (g : grid) (n m : nat) (lo : Q) : Prop :=
  (exists i j, (i < n)%nat /\ (j < m)%nat /\ size_at g i j lo) /\ forall i j a, (i < n)%nat -> (j < m)%nat -> size_at g i j a -> lo <= a.
(** The grid, seen as a function of position, changes by at most [r] per unit of distance along the axes. *)
Definition rate_bounded (g : grid) (n m : nat) (r : Q) : Prop :=
  forall q q', covered g n m q -> covered g n m q' ->
  exists a b, eval g q = Ok (Fin a) /\ eval g q' = Ok (Fin b) /\ Qabs (a - b) <= r * (Qabs (fst q - fst q') + Qabs (snd q - snd q')).
(** The size grid gives at a point: what it interpolates, 999999 outside. *)
Definition plain_sizes (g : grid) : Prop := g_fill g = Some (Some (Fin 999999)) /\ g_extra g = false.
(** Column numbers with the first and the last exchanged. *)
Definition opposite (n i : nat) : nat := if (i =? 0)%nat then (n - 1)%nat else if (i =? n - 1)%nat then 0%nat else i.
