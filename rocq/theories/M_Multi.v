(** Model of multiscale_sizing_function up to the function it returns (oceanmesh/edgefx.py:947-1010; for the latter see msf_eval in M_Grid.v),
    of Grid.reproject_to and of Grid.get_border (oceanmesh/grid.py:183-188, 316-349). *)
From Coq Require Import List Arith Bool ZArith QArith Qabs Qround.
From Verif Require Import M_Base M_Sdf M_Grid M_Blend.
Import ListNotations.
Open Scope Q_scope.

Section Multi.
  (** Invdisttree with the p and nnear given. *)
  Variable idw : list ((Q * Q) * num) -> list (Q * Q) -> res (list num).
  (** Does the dictionary of a CRS have an entry "units"? *)
  Variable has_units : nat -> bool.
  (** edgefx.py:991-997: the blending zone in cells of the finer grid. *)
  Definition blend_cells (blend_width : Q) (finer : grid) : Z :=
    Qfloor (blend_width / (if has_units (g_crs finer) then g_dx finer else g_dx finer * 111000)).
  (** edgefx.py:999-1001.  np.pad refuses a negative width, which is reached only when the grids are nested. *)
  Definition blend (blend_width : Q) (finer coarse : grid) : res grid :=
    let w := blend_cells blend_width finer in
    if strictly_inside finer coarse && (w <? 0)%Z then Raise ValueError else blend_into idw finer coarse (Z.to_nat w).
  (** edgefx.py:986-1003 for one coarse grid and the list of finer ones.  [alias]: new_coarse still is the grid of the caller's list, whose
      state is [own]; blend_into returns its argument when the grids are not nested.  Result: the caller's grid, the new grid, the finer grids. *)
  Fixpoint blend_all (blend_width : Q) (alias : bool) (own coarse : grid) (finers : list grid) : res (grid * grid * list grid) :=
    match finers with
    | [] => Ok (own, coarse, [])
    | f :: r =>
        let f' := set_extra f false in
        let! c := blend blend_width f' coarse in
        let c' := build_interpolant (set_extra c true) in
        let alias' := alias && negb (strictly_inside f' coarse) in
        let! t := blend_all blend_width alias' (if alias' then c' else own) c' r in
        let '(o, n, r') := t in Ok (o, n, f' :: r')
    end.
  (** edgefx.py:981-1010: the new grids, and the caller's grids afterwards.  The last of both is one object. *)
  Fixpoint blend_list (blend_width : Q) (fuel : nat) (gs : list grid) : res (list grid * list grid) :=
    match fuel with
    | O => OutOfFuel
    | S fuel' =>
        match gs with
        | [] => Raise IndexError
        | [g] => Ok ([set_extra g true], [set_extra g true])
        | g :: r =>
            let! t := blend_all blend_width true g g r in
            let '(o, n, r') := t in
            let! u := blend_list blend_width fuel' r' in
            Ok (n :: fst u, o :: snd u)
        end
    end.
  (** edgefx.py:977-979. *)
  Fixpoint descending (gs : list grid) : bool :=
    match gs with a :: (b :: _) as r => Qle_bool (g_dx b) (g_dx a) && descending r | _ => true end.
  Definition multiscale_sizing (blend_width : Q) (gs : list grid) : res (list grid * list grid) :=
    if descending gs then blend_list blend_width (S (length gs)) gs else Raise AssertionError.
End Multi.

(** grid.py:316-349 reproject_to; [tr] as in compute_minimum. *)
Definition reproject_to (tr : nat -> nat -> Q * Q -> Q * Q) (g target : grid) : res grid :=
  if (g_crs g =? g_crs target)%nat then interpolate_to g target
  else
    let! rows := mapM (fun i => mapM (fun j => eval g (tr (g_crs target) (g_crs g) (node_x target i, node_y target j))) (seq 0 (ny target))) (seq 0 (nx target)) in
    let! out := make_grid (g_bbox target) (g_dx target) (g_dy target) rows (g_hmin g) true (g_crs target) in
    Ok (build_interpolant out).

(** grid.py:183-188 get_border of an array of rows, at least one each way. *)
Definition get_border {A} (arr : list (list A)) : list A :=
  let column (f : list A -> list A) rows := flat_map f rows in
  let first r := firstn 1 r in
  let final r := skipn (length r - 1) r in
  let top := match arr with [] => [] | r :: _ => r end in
  let bottom := match rev arr with [] => [] | r :: _ => r end in
  removelast top ++ column final (removelast arr) ++ rev bottom ++ column first (rev (removelast (tl arr))).
