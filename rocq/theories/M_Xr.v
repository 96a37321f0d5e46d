(** Model of the NetCDF fallback of DEM reading through xarray (oceanmesh/geodata.py:139-170, 218-267).  A labelled array is a function of an
    assignment of indices to dimension names; coordinates are finite numbers. *)
From Coq Require Import String List Arith Bool ZArith QArith.
From Verif Require Import M_Base M_Sdf M_Dem.
Import ListNotations.
Open Scope string_scope.
Open Scope list_scope.

Definition index := string -> nat.
Definition at_dim (e : index) (d : string) (i : nat) : index := fun s => if String.eqb s d then i else e s.
(** A variable: its dimensions in order and its value at each index. *)
Record arr (A : Type) : Type := { a_dims : list string; a_at : index -> A }.
Arguments a_dims {A}.
Arguments a_at {A}.
(** A data array: the variable and the coordinates it carries. *)
Record data_array : Type := { da_var : arr num; da_coords : list (string * arr Q) }.
(** A dataset: sizes of its dimensions, data variables and coordinates, each in order. *)
Record dataset : Type := { ds_size : string -> nat; ds_vars : list (string * arr num); ds_coords : list (string * arr Q) }.
Definition mem_str (s : string) (l : list string) : bool := existsb (String.eqb s) l.
Definition lookup {A} (s : string) (l : list (string * A)) : option A :=
  match find (fun p => String.eqb s (fst p)) l with Some p => Some (snd p) | None => None end.
(** ds[name] (xarray): a data variable with the coordinates of the dataset whose dimensions are all among its own. *)
Definition with_coords (ds : dataset) (v : arr num) : data_array :=
  {| da_var := v; da_coords := filter (fun p => forallb (fun d => mem_str d (a_dims v)) (a_dims (snd p))) (ds_coords ds) |}.
(** geodata.py:151-155. *)
Definition pick_first_raster (ds : dataset) : option data_array :=
  match find (fun p => (2 <=? List.length (a_dims (snd p)))%nat) (ds_vars ds) with Some p => Some (with_coords ds (snd p)) | None => None end.
(** da.isel of one dimension at index 0 (xarray): also in the coordinates. *)
Definition drop {A} (d : string) (v : arr A) : arr A :=
  {| a_dims := filter (fun s => negb (String.eqb s d)) (a_dims v); a_at := fun e => a_at v (at_dim e d 0) |}.
Definition isel0 (d : string) (da : data_array) : data_array :=
  {| da_var := drop d (da_var da); da_coords := map (fun p => (fst p, drop d (snd p))) (da_coords da) |}.
(** geodata.py:158-161; dimension names are distinct, so each turn removes one (the fuel is their number). *)
Fixpoint reduce_loop (fuel : nat) (da : data_array) : res data_array :=
  match a_dims (da_var da) with
  | d :: _ :: _ :: _ => match fuel with O => OutOfFuel | S f => reduce_loop f (isel0 d da) end
  | _ => Ok da
  end.
Definition reduce_to_2d (da : data_array) : res data_array := reduce_loop (List.length (a_dims (da_var da))) da.
(** geodata.py:164-170. *)
Definition pick_coord_name (ds : dataset) (da : data_array) (candidates : list string) : option string :=
  find (fun c => mem_str c (map fst (da_coords da)) || mem_str c (map fst (ds_coords ds))) candidates.
(** geodata.py:237-238. *)
Definition candidates_x : list string := ["x"; "lon"; "longitude"; "Long"; "LONGITUDE"].
Definition candidates_y : list string := ["y"; "lat"; "latitude"; "Lat"; "LATITUDE"].
(** The values of a one-dimensional coordinate. *)
Definition axis (ds : dataset) (c : arr Q) : option (string * list Q) :=
  match a_dims c with [d] => Some (d, map (fun i => a_at c (at_dim (fun _ => 0%nat) d i)) (seq 0 (ds_size ds d))) | _ => None end.
(** The values of a two-dimensional array row by row. *)
Definition table (ds : dataset) (v : arr num) : list (list num) :=
  match a_dims v with
  | [d; e] => map (fun i => map (fun j => a_at v (at_dim (at_dim (fun _ => 0%nat) d i) e j)) (seq 0 (ds_size ds e))) (seq 0 (ds_size ds d))
  | _ => []
  end.
(** The tests of lines 250-262 on the axes; np.nanmin of an empty axis raises ValueError. *)
Definition meets_axes (x y : list Q) (bb : box) : res bool :=
  match x, y with
  | x0 :: xr, y0 :: yr =>
      Ok (Qltb (pmax (b0 bb) (min_list xr x0)) (pmin (b1 bb) (max_list xr x0)) && Qltb (pmax (b2 bb) (min_list yr y0)) (pmin (b3 bb) (max_list yr y0)) &&
          (match find_overlap_index_range x (b0 bb) (b1 bb), find_overlap_index_range y (b2 bb) (b3 bb) with Some _, Some _ => true | _, _ => false end))
  | _, _ => Raise ValueError
  end.
(** geodata.py:225-267 for a NetCDF file; [opened] is what _xr_open_dataset returns (lines 139-148).  da.coords of an unknown name raises KeyError, da.isel of a
    name that is no dimension raises ValueError. *)
Definition try_subset (opened : option dataset) (bb : box) : res (option (box * Q * Q * list (list num))) :=
  match opened with
  | None => Ok None
  | Some ds =>
      match pick_first_raster ds with
      | None => Ok None
      | Some da0 =>
          let! da := reduce_to_2d da0 in
          match pick_coord_name ds da candidates_x, pick_coord_name ds da candidates_y with
          | Some xn, Some yn =>
              match lookup xn (da_coords da) with
              | None => Raise KeyError
              | Some cx =>
                  match lookup yn (da_coords da) with
                  | None => Raise KeyError
                  | Some cy =>
                      match axis ds cx, axis ds cy with
                      | Some (dx, x), Some (dy, y) =>
                          if String.eqb dx xn && String.eqb dy yn then
                            let xfirst := match a_dims (da_var da) with d :: _ => String.eqb d xn | [] => false end in
                            subset_netcdf {| xa_x := x; xa_y := y; xa_xfirst := xfirst; xa_values := table ds (da_var da) |} bb
                          else let! m := meets_axes x y bb in if m then Raise ValueError else Ok None
                      | _, _ => Ok None
                      end
                  end
              end
          | _, _ => Ok None
          end
      end
  end.
