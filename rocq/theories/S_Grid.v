(** Specification vocabulary for grids, independent of the model's functions. *)
From Coq Require Import List Arith ZArith QArith Qabs.
From Verif Require Import M_Base M_Sdf M_Grid.
Import ListNotations.
Open Scope Q_scope.

(** n rows of m values. *)
Definition shape (v : list (list num)) (n m : nat) : Prop := length v = n /\ Forall (fun r => length r = m) v.
(** A grid numpy can hold and scipy can interpolate: at least two nodes each way, positive steps. *)
Definition proper_grid (g : grid) (n m : nat) : Prop :=
  shape (g_values g) n m /\ (2 <= n)%nat /\ (2 <= m)%nat /\ 0 < g_dx g /\ 0 < g_dy g.
Definition value_at (g : grid) (i j : nat) : num := nth j (nth i (g_values g) []) NaN.
Definition all_cells (P : num -> Prop) (g : grid) (n m : nat) : Prop :=
  forall i j, (i < n)%nat -> (j < m)%nat -> P (value_at g i j).
Definition finite (a : num) : Prop := exists q, a = Fin q.

(** Node i of the axis that starts at lo with step d. *)
Definition node (lo d : Q) (i : nat) : Q := lo + inject_Z (Z.of_nat i) * d.
(** Number a of the n nodes is as close to x as any other. *)
Definition nearest_node (lo d : Q) (n : nat) (x : Q) (a : nat) : Prop :=
  (a < n)%nat /\ forall b, (b < n)%nat -> Qabs (x - node lo d a) <= Qabs (x - node lo d b).
Definition x_of (g : grid) (i : nat) : Q := node (b0 (g_bbox g)) (g_dx g) i.
Definition y_of (g : grid) (j : nat) : Q := node (b2 (g_bbox g)) (g_dy g) j.
(** Within the nodes' extent. *)
Definition covered (g : grid) (n m : nat) (q : Q * Q) : Prop :=
  x_of g 0 <= fst q <= x_of g (n - 1) /\ y_of g 0 <= snd q <= y_of g (m - 1).

(** Extended-real comparison; nan compares with nothing. *)
Definition nleq (a b : num) : Prop :=
  match a, b with
  | NaN, _ | _, NaN => False
  | Fin x, Fin y => x <= y
  | Inf false, _ => True
  | _, Inf true => True
  | _, _ => False
  end.
Definition same_num (a b : num) : Prop :=
  match a, b with Fin x, Fin y => x == y | Inf s, Inf t => s = t | NaN, NaN => True | _, _ => False end.
(** [m] is the minimum of the floats: nan as soon as one is nan, otherwise a smallest one. *)
Definition is_minimum (m : num) (l : list num) : Prop :=
  (In NaN l /\ m = NaN) \/ (~ In NaN l /\ In m l /\ forall a, In a l -> nleq m a).
(** Elevation z lies in the band of b. *)
Definition in_band (b : Q * Q * Q * Q) (z : num) : Prop :=
  let '(_, _, lo, hi) := b in match z with Fin q => lo < q <= hi | _ => False end.
Definition within_limits (b : Q * Q * Q * Q) (h : num) : Prop :=
  let '(min_h, max_h, _, _) := b in nleq (Fin min_h) h /\ nleq h (Fin max_h).
Definition global_box (b : Q * Q * Q * Q) : Prop := Qabs (b0 b) == 180 /\ Qabs (b1 b) == 180.
(** [v] is the bilinear blend of four neighbouring nodes of g around q; the blend weights are the relative
    position of q between them. *)
Definition bilinear_at (g : grid) (n m : nat) (q : Q * Q) (v : Q) : Prop :=
  exists i j s t a b c d, (S i < n)%nat /\ (S j < m)%nat /\
    fst q == (1 - s) * x_of g i + s * x_of g (S i) /\ snd q == (1 - t) * y_of g j + t * y_of g (S j) /\
    (covered g n m q -> 0 <= s <= 1 /\ 0 <= t <= 1) /\
    value_at g i j = Fin a /\ value_at g i (S j) = Fin b /\ value_at g (S i) j = Fin c /\ value_at g (S i) (S j) = Fin d /\
    v == (1 - s) * (1 - t) * a + (1 - s) * t * b + s * (1 - t) * c + s * t * d.

(** The value grid o gives for node (i, j) of the base grid when both have the same CRS: the value of a
    nearest node of o; the base's own value where o has none (o does not extrapolate and the node is
    outside) or holds the code -999. *)
Definition sample_nearest (base o : grid) (no mo i j : nat) (v : num) : Prop :=
  let q := (x_of base i, y_of base j) in
  (g_extra o = true \/ covered o no mo q ->
     exists a b, nearest_node (b0 (g_bbox o)) (g_dx o) no (fst q) a /\ nearest_node (b2 (g_bbox o)) (g_dy o) mo (snd q) b /\
       v = if g_extra o then value_at o a b else match value_at o a b with Fin w => if Qeq_bool w (-999) then value_at base i j else Fin w | x => x end)
  /\ (g_extra o = false -> ~ covered o no mo q -> v = value_at base i j).

(** The smallest of the positive finite values of the grid. *)
Definition least_positive (g : grid) (n m : nat) (h : Q) : Prop :=
  0 < h /\ (exists i j, (i < n)%nat /\ (j < m)%nat /\ value_at g i j = Fin h) /\
  forall i j w, (i < n)%nat -> (j < m)%nat -> value_at g i j = Fin w -> 0 < w -> h <= w.
Definition none_positive (v : nat -> nat -> num) (n m : nat) : Prop :=
  forall i j w, (i < n)%nat -> (j < m)%nat -> v i j = Fin w -> w <= 0.

(** What one band does to a size: raised to the lower limit, lowered to the upper limit, else kept. *)
Definition clamped (b : Q * Q * Q * Q) (h h' : num) : Prop :=
  let '(min_h, max_h, _, _) := b in
  match h with
  | NaN => h' = NaN
  | _ => (~ nleq (Fin min_h) h /\ h' = Fin min_h) \/ (nleq (Fin max_h) h /\ h' = Fin max_h) \/
         (nleq (Fin min_h) h /\ ~ nleq (Fin max_h) h /\ h' = h)
  end.
(** A band the code accepts. *)
Definition proper_band (b : Q * Q * Q * Q) : Prop := let '(a, c, lo, hi) := b in a < c /\ lo < hi.
Definition elevation (z : list (list num)) (i j : nat) : num := nth j (nth i z []) NaN.
(** The value another grid contributes at node (i, j) of the base; with a different CRS it is what the
    other grid evaluates to at the transformed node. *)
Definition sample (tr : nat -> nat -> Q * Q -> Q * Q) (base o : grid) (i j : nat) (v : num) : Prop :=
  (g_crs o = g_crs base -> forall no mo, proper_grid o no mo -> sample_nearest base o no mo i j v) /\
  (g_crs o <> g_crs base -> eval o (tr (g_crs base) (g_crs o) (x_of base i, y_of base j)) = Ok v).
Definition boxes_meet (a b : Q * Q * Q * Q) : Prop := b0 a < b1 b /\ b0 b < b1 a /\ b2 a < b3 b /\ b2 b < b3 a.
(** compute_minimum can use grid o: same CRS and overlapping boxes, or another CRS and an interpolant. *)
Definition usable (base o : grid) : Prop :=
  (exists no mo, proper_grid o no mo) /\
  (g_crs o = g_crs base -> boxes_meet (g_bbox o) (g_bbox base)) /\ (g_crs o <> g_crs base -> g_fill o <> None).
(** [v] is at each node a minimum of the base's value and one sample from each other grid. *)
Definition node_minima tr (base : grid) (others : list grid) (n m : nat) (v : nat -> nat -> num) : Prop :=
  forall i j, (i < n)%nat -> (j < m)%nat ->
    exists l, Forall2 (fun o a => sample tr base o i j a) others l /\ is_minimum (v i j) (value_at base i j :: l).
(** The size grid g gives at q: bilinear where q is covered or the grid may extrapolate, else 999999. *)
Definition size_of (extrapolates : bool) (g : grid) (q : Q * Q) (a : num) : Prop :=
  forall n m, proper_grid g n m ->
    (extrapolates = true \/ covered g n m q -> exists v, a = Fin v /\ bilinear_at g n m q v) /\
    (extrapolates = false -> ~ covered g n m q -> a = Fin 999999).
(** A grid with finite sizes whose box does not span the globe. *)
Definition regional (g : grid) : Prop := (exists n m, proper_grid g n m /\ all_cells finite g n m) /\ ~ global_box (g_bbox g).
