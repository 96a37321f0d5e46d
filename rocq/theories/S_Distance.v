(** What the distance and feature sizing functions are meant to give. *)
From Coq Require Import List Arith ZArith QArith Qabs.
From Verif Require Import M_Base M_Sdf M_Grid S_Grid.
Import ListNotations.
Open Scope Q_scope.

Definition sq_dist (p q : Q * Q) : Q := (fst p - fst q) * (fst p - fst q) + (snd p - snd q) * (snd p - snd q).
(** [a] is a node of the grid's n by m nodes that is as close to [q] as any other. *)
Definition nearest_grid_node (g : grid) (n m : nat) (q : Q * Q) (a : nat * nat) : Prop :=
  (fst a < n)%nat /\ (snd a < m)%nat /\
  forall i j, (i < n)%nat -> (j < m)%nat -> sq_dist q (x_of g (fst a), y_of g (snd a)) <= sq_dist q (x_of g i, y_of g j).
(** A search for the nearest node; which one of several is not specified. *)
Definition nearest_search (near : grid -> Q * Q -> nat * nat) : Prop :=
  forall g n m q, proper_grid g n m -> nearest_grid_node g n m q (near g q).
(** The point has no x (it separates lines) or both coordinates are numbers. *)
Definition separator (p : num * num) : Prop := fst p = NaN.
Definition point_at (p : num * num) (q : Q * Q) : Prop := p = (Fin (fst q), Fin (snd q)).
Definition plain_points (l : list (num * num)) : Prop := forall p, In p l -> separator p \/ exists q, point_at p q.

(** Value of an array of numbers. *)
Definition entry (v : list (list Q)) (i j : nat) : Q := nth j (nth i v []) 0.
(** phi marks with -1 the nodes found for the points, all others with 1. *)
Definition marks (phi : list (list Q)) (n m : nat) (found : nat * nat -> Prop) : Prop :=
  length phi = n /\ Forall (fun r => length r = m) phi /\
  forall i j, (i < n)%nat -> (j < m)%nat -> (found (i, j) /\ entry phi i j = -1) \/ (~ found (i, j) /\ entry phi i j = 1).

(** [v] is [x] limited from above by [hi], if given. *)
Definition limited_above (hi : option Q) (x v : Q) : Prop :=
  match hi with None => v = x | Some h => v <= h /\ v <= x /\ (v = x \/ v = h) end.
Definition limited_below (lo : option Q) (x v : Q) : Prop :=
  match lo with None => v = x | Some l => l <= v /\ x <= v /\ (v = x \/ v = l) end.
(** A box with room for two steps of length d each way. *)
Definition roomy (b : Q * Q * Q * Q) (d : Q) : Prop := 0 < d /\ b0 b + d <= b1 b /\ b2 b + d <= b3 b /\ ~ global_box b.
(** Number of whole steps of length d that fit between lo and hi, plus one. *)
Definition node_count (lo hi d : Q) (n : nat) : Prop :=
  (1 <= n)%nat /\ inject_Z (Z.of_nat (n - 1)) * d <= hi - lo /\ hi - lo < inject_Z (Z.of_nat n) * d.
Definition box_nodes (b : Q * Q * Q * Q) (d : Q) (n m : nat) : Prop := node_count (b0 b) (b1 b) d n /\ node_count (b2 b) (b3 b) d m.
(** A square grid over the box that extrapolates, with its lower bound and coordinate system. *)
Definition sizing_frame (g : grid) (b : Q * Q * Q * Q) (d h0 : Q) (crs n m : nat) : Prop :=
  proper_grid g n m /\ box_nodes b d n m /\ g_bbox g = b /\ g_dx g = d /\ g_dy g = d /\ g_hmin g = Some (Fin h0) /\ g_extra g = true /\ g_crs g = crs.
(** Every point has a found node nearest to it, and every found node is nearest to a point. *)
Definition found_for (g : grid) (n m : nat) (points : list (num * num)) (found : nat * nat -> Prop) : Prop :=
  (forall p q, In p points -> point_at p q -> exists a, found a /\ nearest_grid_node g n m q a) /\
  (forall a, found a -> exists p q, In p points /\ point_at p q /\ nearest_grid_node g n m q a).
