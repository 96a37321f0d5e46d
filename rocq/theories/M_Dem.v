(** Model of how oceanmesh/geodata.py reads elevation rasters.  Files, GDAL windows and pyproj are parameters;
    CRS objects are coded by numbers; finite arithmetic is exact. *)
From Coq Require Import List Arith Bool ZArith QArith Qabs Qminmax.
From Verif Require Import M_Base M_Sdf M_Grid.
Import ListNotations.
Open Scope Q_scope.

Definition box := (Q * Q * Q * Q)%type.
Definition Qltb (a b : Q) : bool := negb (Qle_bool b a).
Definition pmax (a b : Q) : Q := if Qltb a b then b else a.   (* Python's max(a, b) *)
Definition pmin (a b : Q) : Q := if Qltb b a then b else a.   (* Python's min(a, b) *)

(** geodata.py:32-38; [bounds] as (left, right, bottom, top). *)
Definition bbox_overlaps_bounds (bb bounds : box) : bool :=
  let ixmin := pmax (b0 bb) (b0 bounds) in
  let ixmax := pmin (b1 bb) (b1 bounds) in
  let iymin := pmax (b2 bb) (b2 bounds) in
  let iymax := pmin (b3 bb) (b3 bounds) in
  Qltb ixmin ixmax && Qltb iymin iymax.

Section Read.
  (** Transformer.from_crs(dst, src).transform at one point; may raise. *)
  Variable tr : nat -> nat -> Q * Q -> res (Q * Q).
  (** geodata.py:41-50: only the two corners (xmin, ymin) and (xmax, ymax) are transformed. *)
  Definition transform_bbox_to_src (bb : box) (src_crs dst_crs : option nat) : res box :=
    match src_crs, dst_crs with
    | Some s, Some d =>
        if (s =? d)%nat then Ok bb
        else
          let! p := tr d s (b0 bb, b2 bb) in
          let! q := tr d s (b1 bb, b3 bb) in
          Ok (pmin (fst p) (fst q), pmax (fst p) (fst q), pmin (snd p) (snd q), pmax (snd p) (snd q))
    | _, _ => Ok bb
    end.

  (** A NetCDF sub-dataset as rasterio opens it; [s_opens] is false when opening raises. *)
  Record sds : Type := { s_name : nat; s_opens : bool; s_width : nat; s_height : nat; s_bounds : num * num * num * num; s_crs : option nat }.
  Definition fin_box (b : num * num * num * num) : option box :=
    match b with (Fin l, Fin r, Fin bo, Fin t) => Some (l, r, bo, t) | _ => None end.
  (** One turn of the loop geodata.py:105-134; the state is (best, best_area). *)
  Definition pick_step (desired : option (box * nat)) (st : option nat * Q) (sd : sds) : option nat * Q :=
    if negb (s_opens sd) then st
    else if (s_width sd <=? 1)%nat || (s_height sd <=? 1)%nat then st
    else match fin_box (s_bounds sd) with
         | None => st
         | Some b =>
             let area := (b1 b - b0 b) * (b3 b - b2 b) in
             let better := if Qltb (snd st) area then (Some (s_name sd), area) else st in
             match desired with
             | Some (bb, dcrs) =>
                 let bbox_in_sd :=
                   match s_crs sd with
                   | Some c => if (c =? dcrs)%nat then Some bb
                               else match transform_bbox_to_src bb (Some c) (Some dcrs) with Ok x => Some x | _ => None end
                   | None => Some bb
                   end in
                 match bbox_in_sd with
                 | Some x => if bbox_overlaps_bounds x b then better else better
                 | None => better
                 end
             | None => better
             end
         end.
  (** geodata.py:74-136 for a NetCDF file with these sub-datasets; [None] is the container itself. *)
  Definition pick_target (sd : list sds) (desired : option (box * nat)) : option nat :=
    fst (fold_left (pick_step desired) sd (None, -1)).

  (** np.transpose of a rectangular array with at least one row. *)
  Definition transpose_gen {A} (d : A) (m : list (list A)) : list (list A) :=
    match m with [] => [] | r :: _ => map (fun j => map (fun row => nth j row d) m) (seq 0 (length r)) end.
  Definition transpose : list (list num) -> list (list num) := transpose_gen NaN.
  (** np.fliplr. *)
  Definition fliplr {A} (m : list (list A)) : list (list A) := map (@rev A) m.

  (** geodata.py:173-185: both branches test lo <= axis <= hi. *)
  Definition in_range_idx (axis : list Q) (lo hi : Q) : list nat :=
    filter (fun i => Qle_bool lo (nth i axis 0) && Qle_bool (nth i axis 0) hi) (seq 0 (length axis)).
  Definition find_overlap_index_range (axis : list Q) (lo hi : Q) : option (nat * nat) :=
    match in_range_idx axis lo hi with [] => None | i :: r => Some (fold_left Nat.min r i, fold_left Nat.max r i) end.
  (** geodata.py:188-192; None is nan. *)
  Fixpoint insertQ (x : Q) (l : list Q) : list Q := match l with [] => [x] | y :: r => if Qle_bool x y then x :: l else y :: insertQ x r end.
  Definition sortQ (l : list Q) : list Q := fold_right insertQ [] l.
  Fixpoint diffs (l : list Q) : list Q := match l with a :: ((b :: _) as t) => Qabs (b - a) :: diffs t | _ => [] end.
  Definition median_spacing (axis : list Q) : option Q :=
    if (length axis <=? 1)%nat then None
    else let s := sortQ (diffs axis) in let n := length s in
         Some ((nth ((n - 1) / 2) s 0 + nth (n / 2) s 0) * (1 # 2)).
  Definition min_list (l : list Q) (d : Q) : Q := fold_left pmin l d.
  Definition max_list (l : list Q) (d : Q) : Q := fold_left pmax l d.
  (** geodata.py:195-215; [xfirst]: the dimensions of the array are (x, y). *)
  Definition subset_to_outputs (x_sub y_sub : list Q) (xfirst : bool) (values : list (list num)) : option (box * Q * Q * list (list num)) :=
    let arr := if xfirst then transpose values else values in
    let xy := transpose arr in
    match median_spacing x_sub, median_spacing y_sub, x_sub, y_sub with
    | Some dx, Some dy, x0 :: xr, y0 :: yr =>
        if Qltb 0 dx && Qltb 0 dy
        then Some ((min_list xr x0, max_list xr x0, min_list yr y0, max_list yr y0), dx, dy, xy)
        else None
    | _, _, _, _ => None
    end.
  (** The data array _try_subset_netcdf_with_xarray has found (geodata.py:232-248 choose the variable and the
      coordinate names, see M_Xr.v). *)
  Record xarr : Type := { xa_x : list Q; xa_y : list Q; xa_xfirst : bool; xa_values : list (list num) }.
  (** geodata.py:250-267; np.nanmin of an empty axis raises ValueError. *)
  Definition subset_netcdf (a : xarr) (bb : box) : res (option (box * Q * Q * list (list num))) :=
    match xa_x a, xa_y a with
    | x0 :: xr, y0 :: yr =>
        if Qltb (pmax (b0 bb) (min_list xr x0)) (pmin (b1 bb) (max_list xr x0)) && Qltb (pmax (b2 bb) (min_list yr y0)) (pmin (b3 bb) (max_list yr y0)) then
          match find_overlap_index_range (xa_x a) (b0 bb) (b1 bb), find_overlap_index_range (xa_y a) (b2 bb) (b3 bb) with
          | Some (i0, i1), Some (j0, j1) =>
              let sub := if xa_xfirst a then map (fun r => slice r j0 (j1 + 1)) (slice (xa_values a) i0 (i1 + 1))
                         else map (fun r => slice r i0 (i1 + 1)) (slice (xa_values a) j0 (j1 + 1)) in
              Ok (subset_to_outputs (slice (xa_x a) i0 (i1 + 1)) (slice (xa_y a) j0 (j1 + 1)) (xa_xfirst a) sub)
          | _, _ => Ok None
          end
        else Ok None
    | _, _ => Raise ValueError
    end.

  (** An open raster: bounds (left, right, bottom, top), pixel width and (negative) pixel height of the transform,
      whether the transform is the identity, band 1 row by row from the top. *)
  Record raster : Type := { r_bounds : box; r_px : Q; r_py : Q; r_ident : bool; r_crs : option nat; r_nodata : option num; r_data : list (list num) }.
  (** src.read(1, window=from_bounds(...), masked=True) (geodata.py:347-354, rasterio; may raise): a masked array, each
      entry with its number and whether it is masked. *)
  Variable read_window : raster -> box -> res (list (list (num * bool))).
  (** The array of a band: src.read(1), or the masked array of a window. *)
  Inductive band : Type := Plain (m : list (list num)) | Masked (m : list (list (num * bool))).
  (** What _try_subset_netcdf_with_xarray opens for this file, if it can. *)
  Variable xr_open : option xarr.
  (** Which kind of path: suffix .nc or .nc4. *)
  Variable is_nc : bool.

  (** geodata.py:270-373.  [region] is the box of the Region with its CRS (DEM passes the same CRS as [crs]);
      the result is (bbox, crs, transform[0], transform[4], array).  Lines 318-319 divide by one less than the number
      of columns and of rows: ZeroDivisionError for one of them is RuntimeError here. *)
  Definition read_dem_array_and_meta (src : raster) (region : option (box * nat)) (crs : nat) : res (box * nat * Q * Q * band) :=
    let crs_out := match r_crs src with
                   | Some c => if negb (c =? crs)%nat && negb (r_ident src) then c else crs
                   | None => crs end in
    match region with
    | None => Ok (r_bounds src, crs_out, r_px src, r_py src, Plain (transpose (r_data src)))
    | Some (rb, rcrs) =>
        let! rs := transform_bbox_to_src rb (r_crs src) (Some rcrs) in
        let xmin := pmax (b0 rs) (b0 (r_bounds src)) in
        let xmax := pmin (b1 rs) (b1 (r_bounds src)) in
        let ymin := pmax (b2 rs) (b2 (r_bounds src)) in
        let ymax := pmin (b3 rs) (b3 (r_bounds src)) in
        if negb (Qltb xmin xmax && Qltb ymin ymax) then
          if (match r_crs src with None => true | _ => false end) || r_ident src then
            let nyr := length (r_data src) in
            let nxr := match r_data src with [] => 0%nat | r :: _ => length r end in
            if ((nxr =? 1) || (nyr =? 1))%nat then Raise RuntimeError else
            let dx := (b1 rb - b0 rb) / inject_Z (Z.of_nat nxr - 1) in
            let dy := (b3 rb - b2 rb) / inject_Z (Z.of_nat nyr - 1) in
            Ok (rb, crs_out, dx, - dy, Plain (transpose (r_data src)))
          else if is_nc then
            match xr_open with
            | None => Raise ValueError
            | Some a => let! fb := subset_netcdf a rs in
                        match fb with
                        | Some (bb, dx, dy, xy) => Ok (bb, crs_out, dx, - dy, Plain xy)
                        | None => Raise ValueError
                        end
            end
          else Raise ValueError
        else
          let! d := read_window src (xmin, xmax, ymin, ymax) in
          Ok ((xmin, xmax, ymin, ymax), crs_out, r_px src, r_py src, Masked (transpose_gen (NaN, false) d))
    end.
  (** topobathy[topobathy == nodata_value] = np.nan (geodata.py:1242); None and nan equal nothing. *)
  Definition drop_value (nodata : option num) (v : num) : num :=
    match nodata with Some c => if neq_bool v c then NaN else v | None => v end.
  Definition drop_nodata (nodata : option num) (m : list (list num)) : list (list num) := map (map (drop_value nodata)) m.
  (** The same line on a masked array: the comparison is false at masked entries, which keep their number. *)
  Definition drop_masked (nodata : option num) (m : list (list (num * bool))) : list (list num) :=
    map (map (fun c : num * bool => if snd c then fst c else drop_value nodata (fst c))) m.
  Definition drop_band (nodata : option num) (b : band) : list (list num) :=
    match b with Plain m => drop_nodata nodata m | Masked m => drop_masked nodata m end.
  (** The mask that stays with the array; [None]: no masked array. *)
  Definition band_mask (b : band) : option (list (list bool)) :=
    match b with Plain _ => None | Masked m => Some (map (map snd) m) end.
  (** geodata.py:1204-1256.  The values are the numbers of the array whether masked or not: the interpolant of line 1256
      (grid.py:514-520, scipy) works with them. *)
  Definition dem (src : raster) (region : option (box * nat)) (crs : nat) (extrapolate : bool) : res grid :=
    let crs' := match region with Some (_, c) => c | None => crs end in
    let! r := read_dem_array_and_meta src region crs' in
    let '(bb, c, px, py, m) := r in
    let! g := make_grid bb px (Qabs py) (fliplr (drop_band (r_nodata src) m)) None extrapolate c in
    Ok (build_interpolant g).
  (** The mask of dem.values (np.fliplr and the exchange of the outer rows, grid.py:510-512, act on it as on the
      values). *)
  Definition dem_mask (src : raster) (region : option (box * nat)) (crs : nat) : res (option (list (list bool))) :=
    let crs' := match region with Some (_, c) => c | None => crs end in
    let! r := read_dem_array_and_meta src region crs' in
    let '(bb, c, px, py, m) := r in
    Ok (match band_mask m with
        | None => None
        | Some k => let k := fliplr k in
                    Some (if Qeq_bool (Qabs (b0 bb)) 180 && Qeq_bool (Qabs (b1 bb)) 180 then swap_ends k else k)
        end).
End Read.

(** geodata.py:376-419 for a box of four numbers. *)
Definition infer_crs_from_coordinates (b : box) : bool :=
  let vs := [b0 b; b1 b; b2 b; b3 b] in
  if existsb (fun v => Qltb 360 (Qabs v)) vs then false
  else if forallb (fun v => Qle_bool (-180) v && Qle_bool v 180) [b0 b; b1 b] && forallb (fun v => Qle_bool (-90) v && Qle_bool v 90) [b2 b; b3 b] then true
  else if existsb (fun v => Qltb 180 (Qabs v) && Qle_bool (Qabs v) 360) vs then false
  else true.

(** Unary minus on floats. *)
Definition nneg (a : num) : num := match a with Fin q => Fin (- q) | Inf s => Inf (negb s) | NaN => NaN end.
(** geodata.py:1258-1262 DEM.flip. *)
Definition flip (g : grid) : grid := build_interpolant (set_values g (map (map nneg) (g_values g))).
