(** Model of the distance and feature sizing functions (oceanmesh/edgefx.py:183-426, 752-863) and of
    Grid.find_indices (oceanmesh/grid.py:229-261). *)
From Coq Require Import List Arith Bool ZArith QArith Qabs Qround.
From Verif Require Import M_Base M_Sdf M_Grid.
Import ListNotations.
Open Scope Q_scope.

(** * _resample_line (edgefx.py:183-193).  [len] is line.length; the result are the distances along the
    line at which it is sampled (line.interpolate is shapely's).  LineString refuses a single point
    (ValueError); the loop is run with fuel. *)
Fixpoint resample_loop (fuel : nat) (len step d : Q) : res (list Q) :=
  match fuel with
  | O => OutOfFuel
  | S k => if negb (Qle_bool len d) then let! r := resample_loop k len step (d + step) in Ok (d :: r) else Ok []
  end.
Definition resample_line (fuel : nat) (len min_edge : Q) : res (list Q) :=
  let! l := resample_loop fuel len (min_edge * (1 # 2)) 0 in
  match l with [_] => Raise ValueError | _ => Ok l end.

(** * find_indices (grid.py:229-261, k = 1): points whose x is nan are dropped; the tree refuses any other
    value that is not finite (ValueError, and then TypeError from the fallback call at line 260).  [near] is
    the tree's query followed by unravel_index. *)
Definition keep_point (p : num * num) : bool := negb (is_nan (fst p)).
Definition finite_point (p : num * num) : res (Q * Q) :=
  match p with (Fin x, Fin y) => Ok (x, y) | _ => Raise TypeError end.
Definition find_indices (near : Q * Q -> nat * nat) (points : list (num * num)) : res (list (nat * nat)) :=
  let! ps := mapM finite_point (filter keep_point points) in
  Ok (map near ps).

(** Arrays of finite numbers. *)
Definition qtab (n m : nat) (f : nat -> nat -> Q) : list (list Q) := map (fun i => map (fun j => f i j) (seq 0 m)) (seq 0 n).
Definition qcell (v : list (list Q)) (i j : nat) : Q := nth j (nth i v []) 0.
(** phi: -1 at the indices found, 1 elsewhere (edgefx.py:262-266, 338-342, 393, 414-415). *)
Definition same_index (a b : nat * nat) : bool := ((fst a =? fst b) && (snd a =? snd b))%nat.
Definition mark (n m : nat) (idx : list (nat * nat)) : list (list Q) :=
  qtab n m (fun i j => if existsb (same_index (i, j)) idx then -1 else 1).
(** a[a > hi] = hi and a[a < lo] = lo for an optional limit. *)
Definition cap (hi : option Q) (x : Q) : Q := match hi with Some h => if negb (Qle_bool x h) then h else x | None => x end.
Definition floor_at (lo : option Q) (x : Q) : Q := match lo with Some l => if negb (Qle_bool l x) then l else x | None => x end.

Section Distance.
  (** skfmm.distance: array, spacings; ValueError when there is no zero contour. *)
  Variable fmm : list (list Q) -> Q -> Q -> res (list (list Q)).
  (** Nearest node of the grid. *)
  Variable near : grid -> Q * Q -> nat * nat.

  (** edgefx.py:267-271, 343-347, 416-420: the distance, or 999 everywhere when skfmm raises ValueError. *)
  Definition distance_or_999 (n m : nat) (phi : list (list Q)) (dx dy : Q) : res (list (list Q)) :=
    match fmm phi dx dy with
    | Ok d => Ok (qtab n m (fun i j => Qabs (qcell d i j)))
    | Raise ValueError => Ok (qtab n m (fun _ _ => 999))
    | r => r
    end.
  (** edgefx.py:253-277 (lines), 329-353 (points): [points] are the sample points. *)
  Definition distance_grid (b : Q * Q * Q * Q) (h0 coarsen : Q) (crs : nat) : res grid :=
    make_grid b (h0 * coarsen) (h0 * coarsen) (tile_values b (h0 * coarsen) (h0 * coarsen) (Fin 0)) (Some (Fin h0)) true crs.
  Definition distance_values (g : grid) (points : list (num * num)) (h0 rate : Q) (hi : option Q) : res grid :=
    let! idx := find_indices (near g) points in
    let! d := distance_or_999 (nx g) (ny g) (mark (nx g) (ny g) idx) (g_dx g) (g_dy g) in
    Ok (build_interpolant (set_values g (tabulate (nx g) (ny g) (fun i j => Fin (cap hi (h0 + qcell d i j * rate)))))).
  Definition distance_sizing_points (points : list (num * num)) (b : Q * Q * Q * Q) (h0 rate : Q) (hi : option Q) (coarsen : Q) (crs : nat) : res grid :=
    let! g := distance_grid b h0 coarsen crs in distance_values g points h0 rate hi.

  (** * distance_sizing_function (edgefx.py:356-426).  [inside] stands for inpoly2 on the shoreline's
      boubox; the second result is the mask of the values (true = masked).  The try block at 401-411 is not
      assumed to fail: inpoly2 and the tree do not raise on finite nodes. *)
  Variable inside : num * num -> bool.
  Definition distance_sizing (points : list (num * num)) (b : Q * Q * Q * Q) (h0 rate : Q) (hi : option Q) (coarsen : Q) (crs : nat)
    : res (grid * list (list bool)) :=
    let! g := distance_grid b h0 coarsen crs in
    let kept := filter inside points in
    let node i j := (Fin (node_x g i), Fin (node_y g j)) in
    let nodes := filter inside (flat_map (fun i => map (fun j => node i j) (seq 0 (ny g))) (seq 0 (nx g))) in
    let! midx := match points with [] => Ok [] | _ => find_indices (near g) nodes end in
    let mask := map (fun i => map (fun j => negb (existsb (same_index (i, j)) midx)) (seq 0 (ny g))) (seq 0 (nx g)) in
    let! r := distance_values g kept h0 rate hi in
    Ok (r, mask).

  (** * feature_sizing_function (edgefx.py:752-863).  [medial phi g] are the distances of the nodes of g to
      the medial axis (medial_axis and a tree query, 815-846), [sdf_le] whether the signed distance at a node
      is at most 0. *)
  Variable medial : list (list Q) -> grid -> res (list (list Q)).
  Variable sdf_le : Q * Q -> bool.
  Definition feature_sizing (points : list (num * num)) (b : Q * Q * Q * Q) (h0 r : Q) (lo hi : option Q) (crs : nat) : res grid :=
    if Qle_bool r 0 then Raise AssertionError
    else
      let half := h0 * (1 # 2) in
      let! gc := make_grid b half half (tile_values b half half (Fin 0)) (Some (Fin h0)) true crs in
      let! gr := make_grid b h0 h0 (tile_values b h0 h0 (Fin 0)) (Some (Fin h0)) true crs in
      let phi := qtab (nx gc) (ny gc) (fun i j => if sdf_le (node_x gc i, node_y gc j) then 1 else 0) in
      let! idx := find_indices (near gc) points in
      let! dis := fmm (mark (nx gc) (ny gc) idx) (g_dx gc) (g_dy gc) in
      let! dma := medial phi gc in
      let w := tabulate (nx gc) (ny gc) (fun i j => Fin (2 * (qcell dma i j + Qabs (qcell dis i j)) / r)) in
      let gc' := build_interpolant (set_values gc w) in
      let! g := interpolate_to gc' gr in
      (* all values are finite here *)
      let clip a := match a with Fin q => Fin (cap hi (floor_at lo q)) | x => x end in
      Ok (build_interpolant (set_extra (set_hmin (set_values g (map (map clip) (g_values g))) (Some (Fin h0))) true)).
End Distance.
