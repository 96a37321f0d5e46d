(** Model of oceanmesh/grid.py, oceanmesh/idw.py and of the grid parts of oceanmesh/edgefx.py. *)
From Coq Require Import List Arith Bool ZArith QArith Qabs Qround.
From Verif Require Import M_Base M_Sdf.
Import ListNotations.
Open Scope Q_scope.

(** * Floats that may not be finite: comparison, minimum, sum and product as numpy computes them.
    Finite results are exact (no rounding, no overflow). *)
Definition nlt (a b : num) : bool :=
  match a, b with
  | NaN, _ | _, NaN => false
  | Fin x, Fin y => negb (Qle_bool y x)
  | Inf s, Inf t => negb s && t
  | Inf s, Fin _ => negb s
  | Fin _, Inf t => t
  end.
Definition neq_bool (a b : num) : bool :=
  match a, b with Fin x, Fin y => Qeq_bool x y | Inf s, Inf t => Bool.eqb s t | _, _ => false end.
Definition nle (a b : num) : bool := nlt a b || neq_bool a b.
Definition is_nan (a : num) : bool := match a with NaN => true | _ => false end.
(** np.minimum: nan wins. *)
Definition nmin (a b : num) : num := if is_nan a || is_nan b then NaN else if nlt b a then b else a.
Definition nadd (a b : num) : num :=
  match a, b with
  | NaN, _ | _, NaN => NaN
  | Fin x, Fin y => Fin (x + y)
  | Inf s, Inf t => if Bool.eqb s t then Inf s else NaN
  | Inf s, Fin _ => Inf s
  | Fin _, Inf t => Inf t
  end.
(** A finite number times a float; 0 * inf is nan. *)
Definition nscale (w : Q) (a : num) : num :=
  match a with
  | NaN => NaN
  | Fin x => Fin (w * x)
  | Inf s => if Qeq_bool w 0 then NaN else Inf (if Qle_bool 0 w then s else negb s)
  end.

(** * The grid (grid.py:91-181).  [g_values] holds nx rows of ny values, all of the same length (numpy
    arrays are rectangular).  [g_fill] is the fill value of the interpolant made by build_interpolant:
    None = never built (eval is None), Some None = extrapolate.  The interpolant keeps a reference to the
    array, so it always sees the current values.  CRS objects are abstract and coded by numbers. *)
Record grid : Type := {
  g_bbox : Q * Q * Q * Q;
  g_dx : Q; g_dy : Q;
  g_values : list (list num);
  g_hmin : option num;
  g_extra : bool;
  g_crs : nat;
  g_fill : option (option num) }.
Definition set_values (g : grid) (v : list (list num)) : grid :=
  {| g_bbox := g_bbox g; g_dx := g_dx g; g_dy := g_dy g; g_values := v; g_hmin := g_hmin g; g_extra := g_extra g; g_crs := g_crs g; g_fill := g_fill g |}.
Definition set_fill (g : grid) (f : option (option num)) : grid :=
  {| g_bbox := g_bbox g; g_dx := g_dx g; g_dy := g_dy g; g_values := g_values g; g_hmin := g_hmin g; g_extra := g_extra g; g_crs := g_crs g; g_fill := f |}.
Definition set_extra (g : grid) (b : bool) : grid :=
  {| g_bbox := g_bbox g; g_dx := g_dx g; g_dy := g_dy g; g_values := g_values g; g_hmin := g_hmin g; g_extra := b; g_crs := g_crs g; g_fill := g_fill g |}.
Definition set_hmin (g : grid) (h : option num) : grid :=
  {| g_bbox := g_bbox g; g_dx := g_dx g; g_dy := g_dy g; g_values := g_values g; g_hmin := h; g_extra := g_extra g; g_crs := g_crs g; g_fill := g_fill g |}.
(** grid.py:126-148 __init__ with an array of values (dx, dy setters 150-168: ValueError when <= 0). *)
Definition make_grid (b : Q * Q * Q * Q) (dx dy : Q) (v : list (list num)) (h : option num) (e : bool) (crs : nat) : res grid :=
  if Qle_bool dx 0 || Qle_bool dy 0 then Raise ValueError
  else Ok {| g_bbox := b; g_dx := dx; g_dy := dy; g_values := v; g_hmin := h; g_extra := e; g_crs := crs; g_fill := None |}.
(** grid.py:174-181: a scalar is tiled over int(width // dx) + 1 by |int(height // dy) + 1| cells. *)
Definition tile_values (b : Q * Q * Q * Q) (dx dy : Q) (a : num) : list (list num) :=
  repeat (repeat a (Z.to_nat (Z.abs (Qfloor ((b3 b - b2 b) / dy) + 1)))) (Z.to_nat (Qfloor ((b1 b - b0 b) / dx) + 1)).

Definition nx (g : grid) : nat := length (g_values g).
Definition ny (g : grid) : nat := match g_values g with [] => 0 | r :: _ => length r end.
Definition cell (v : list (list num)) (i j : nat) : num := nth j (nth i v []) NaN.
(** grid.py:190-208 create_vectors, one entry. *)
Definition node_x (g : grid) (i : nat) : Q := b0 (g_bbox g) + inject_Z (Z.of_nat i) * g_dx g.
Definition node_y (g : grid) (j : nat) : Q := b2 (g_bbox g) + inject_Z (Z.of_nat j) * Qabs (g_dy g).

(** * scipy's RegularGridInterpolator on the uniform axis lo, lo + d, ..., lo + (n - 1) d, n >= 2 *)

(** Interval number, kept within 0 .. n - 2, and the relative position in it. *)
Definition locate (lo d : Q) (n : nat) (x : Q) : nat * Q :=
  let f := Qfloor ((x - lo) / d) in
  let i := Z.to_nat (Z.max 0 (Z.min f (Z.of_nat n - 2))) in
  (i, (x - (lo + inject_Z (Z.of_nat i) * d)) / d).
Definition outside (lo d : Q) (n : nat) (x : Q) : bool :=
  negb (Qle_bool lo x) || negb (Qle_bool x (lo + inject_Z (Z.of_nat n - 1) * d)).
(** method="linear" *)
Definition lin_value (g : grid) (x y : Q) : num :=
  let '(i, s) := locate (b0 (g_bbox g)) (g_dx g) (nx g) x in
  let '(j, t) := locate (b2 (g_bbox g)) (Qabs (g_dy g)) (ny g) y in
  let v := g_values g in
  nadd (nadd (nscale ((1 - s) * (1 - t)) (cell v i j)) (nscale ((1 - s) * t) (cell v i (S j))))
       (nadd (nscale (s * (1 - t)) (cell v (S i) j)) (nscale (s * t) (cell v (S i) (S j)))).
(** method="nearest": the lower node when the relative position is at most 1/2. *)
Definition near_index (lo d : Q) (n : nat) (x : Q) : nat :=
  let '(i, s) := locate lo d n x in if Qle_bool s (1 # 2) then i else S i.
Definition near_value (g : grid) (x y : Q) : num :=
  cell (g_values g) (near_index (b0 (g_bbox g)) (g_dx g) (nx g) x) (near_index (b2 (g_bbox g)) (Qabs (g_dy g)) (ny g) y).
Definition out_of_grid (g : grid) (x y : Q) : bool :=
  outside (b0 (g_bbox g)) (g_dx g) (nx g) x || outside (b2 (g_bbox g)) (Qabs (g_dy g)) (ny g) y.
Definition with_fill (fill : option num) (g : grid) (x y : Q) (v : num) : num :=
  match fill with Some f => if out_of_grid g x y then f else v | None => v end.

(** * build_interpolant (grid.py:494-526) and the eval it stores *)
Definition swap_ends {A} (l : list A) : list A :=
  match l with
  | [] => []
  | x :: r => match rev r with [] => [x] | z :: m => z :: rev m ++ [x] end
  end.
Definition is_global (g : grid) : bool := Qeq_bool (Qabs (b0 (g_bbox g))) 180 && Qeq_bool (Qabs (b1 (g_bbox g))) 180.
Definition build_interpolant (g : grid) : grid :=
  let fill := if g_extra g then None else Some (Fin 999999) in
  set_fill (if is_global g then set_values g (swap_ends (g_values g)) else g) (Some fill).
(** eval at one point; TypeError when there is no interpolant. *)
Definition eval (g : grid) (q : Q * Q) : res num :=
  match g_fill g with
  | None => Raise TypeError
  | Some fill => Ok (with_fill fill g (fst q) (snd q) (lin_value g (fst q) (snd q)))
  end.

(** * interpolate_to (grid.py:263-314) *)
Definition boxes_overlap (a b : Q * Q * Q * Q) : bool :=
  negb (Qle_bool (b1 b) (b0 a)) && negb (Qle_bool (b1 a) (b0 b)) && negb (Qle_bool (b3 b) (b2 a)) && negb (Qle_bool (b3 a) (b2 b)).
(** All cells, row by row. *)
Definition tabulate (n m : nat) (f : nat -> nat -> num) : list (list num) :=
  map (fun i => map (fun j => f i j) (seq 0 m)) (seq 0 n).
Definition interpolate_cell (g g2 : grid) (i j : nat) : num :=
  let fill := if g_extra g then None else Some (Fin (-999)) in
  let v := with_fill fill g (node_x g2 i) (node_y g2 j) (near_value g (node_x g2 i) (node_y g2 j)) in
  match fill with Some f => if neq_bool v f then cell (g_values g2) i j else v | None => v end.
Definition interpolate_to (g g2 : grid) : res grid :=
  if boxes_overlap (g_bbox g) (g_bbox g2) then
    make_grid (g_bbox g2) (g_dx g2) (g_dy g2) (tabulate (nx g2) (ny g2) (interpolate_cell g g2)) (g_hmin g2) false (g_crs g2)
  else Raise AssertionError.

(** * compute_minimum (grid.py:15-88); [tr] is pyproj's transformation from one CRS to another. *)
Section ComputeMinimum.
  Variable tr : nat -> nat -> Q * Q -> Q * Q.
  (** grid.py:36-59, one other grid. *)
  Definition aligned (base other : grid) : res (list (list num)) :=
    if (g_crs other =? g_crs base)%nat then let! g := interpolate_to other base in Ok (g_values g)
    else
      let! rows := mapM (fun i => mapM (fun j => eval other (tr (g_crs base) (g_crs other) (node_x base i, node_y base j))) (seq 0 (ny base))) (seq 0 (nx base)) in
      let! g := make_grid (g_bbox base) (g_dx base) (g_dy base) rows (g_hmin other) true (g_crs base) in
      Ok (g_values (build_interpolant g)).
  (** grid.py:61-65. *)
  Definition min_values (n m : nat) (vs : list (list (list num))) (v0 : list (list num)) : list (list num) :=
    tabulate n m (fun i j => fold_left nmin (map (fun v => cell v i j) vs) (cell v0 i j)).
  (** grid.py:67-77: positive finite values and the smallest of them. *)
  Definition positive_finite (v : list (list num)) : list Q :=
    flat_map (fun a => match a with Fin q => if negb (Qle_bool q 0) then [q] else [] | _ => [] end) (List.concat v).
  Definition compute_minimum (gs : list grid) : res grid :=
    match gs with
    | [] => Raise IndexError
    | base :: others =>
        let! vs := mapM (aligned base) others in
        let mv := min_values (nx base) (ny base) vs (g_values base) in
        let! h := py_min (positive_finite mv) in
        let! g := make_grid (g_bbox base) (g_dx base) (g_dy base) mv (Some (Fin h)) true (g_crs base) in
        Ok (build_interpolant g)
    end.
End ComputeMinimum.

(** * enforce_mesh_size_bounds_elevation (edgefx.py:36-88) *)
Definition bound : Type := (Q * Q * Q * Q)%type. (* min size, max size, min elevation, max elevation *)
(** edgefx.py:75-84, one cell. *)
Definition clamp_cell (b : bound) (z h : num) : num :=
  let '(min_h, max_h, min_z, max_z) := b in
  let inside := nlt (Fin min_z) z && nle z (Fin max_z) in
  let up := inside && nle (Fin max_h) h in
  let low := inside && nlt h (Fin min_h) in
  if low then Fin min_h else if up then Fin max_h else h.
(** The values after the loop, or the exception together with the values already changed in place. *)
Fixpoint apply_bounds (bs : list bound) (z v : list (list num)) : list (list num) * bool :=
  match bs with
  | [] => (v, true)
  | b :: r =>
      let '(min_h, max_h, min_z, max_z) := b in
      if Qle_bool max_h min_h || Qle_bool max_z min_z then (v, false)
      else apply_bounds r z (map (fun p => map (fun q => clamp_cell b (fst q) (snd q)) (combine (fst p) (snd p))) (combine z v))
  end.
(** Returns the grid (which is the argument, changed) or AssertionError; the second part is the state of
    the argument afterwards.  [z] are the elevations dem.eval gives at the nodes. *)
Definition enforce_bounds (g : grid) (z : list (list num)) (bs : list bound) : res grid * grid :=
  let '(v, ok) := apply_bounds bs z (g_values g) in
  if ok then let g' := build_interpolant (set_values g v) in (Ok g', g') else (Raise AssertionError, set_values g v).

(** * multiscale_sizing_function, the function it returns (edgefx.py:1012-1027): calling it changes the grids *)
Fixpoint msf_eval (first : bool) (gs : list grid) (q : Q * Q) : res num * list grid :=
  match gs with
  | [] => (Ok (Fin 999999), [])
  | g :: r =>
      let g' := build_interpolant (set_extra g first) in
      let '(v, r') := msf_eval false r q in
      ((let! a := eval g' q in let! b := v in Ok (nmin a b)), g' :: r')
  end.

(** * _earth_gradient (edgefx.py:1032-1052); F has n rows of m values, n and m at least 2 *)
Definition fcell (f : list (list Q)) (i j : nat) : Q := nth j (nth i f []) 0.
Definition diff_axis (n : nat) (d : Q) (f : nat -> Q) (k : nat) : Q :=
  if (k =? 0)%nat then (f 1%nat - f 0%nat) / d
  else if (k =? n - 1)%nat then (f (n - 1)%nat - f (n - 2)%nat) / d
  else (f (k + 1)%nat - f (k - 1)%nat) / (2 * d).
(** Lines 1043-1046 index row or column 1: IndexError with fewer than two. *)
Definition earth_gradient (f : list (list Q)) (dx dy : Q) : res (list (list Q) * list (list Q)) :=
  let n := length f in
  let m := match f with [] => 0%nat | r :: _ => length r end in
  if (n <? 2)%nat || (m <? 2)%nat then Raise IndexError
  else
    let tab g := map (fun i => map (fun j => g i j) (seq 0 m)) (seq 0 n) in
    Ok (tab (fun i j => diff_axis n dy (fun k => fcell f k j) i), tab (fun i j => diff_axis m dx (fun k => fcell f i k) j)).
