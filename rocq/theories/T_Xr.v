(** Theorems about the NetCDF fallback of DEM reading (geodata.py:139-170, 218-267). *)
From Coq Require Import String List Arith Bool ZArith QArith Lia.
From Verif Require Import M_Base M_Sdf M_Dem S_Dem M_Xr S_Xr P_Xr P_Xr2.
Import ListNotations.
Open Scope string_scope.
Open Scope list_scope.

(** ** C140 *)
(** If the first variable of two or more dimensions has the two coordinates named first in the lists as its last dimensions, in either order, then what is cut
    to the box is this variable at index 0 of all leading dimensions, with these coordinates. *)
Theorem C140_values : forall ds v lead xn yn cx cy bb, well_formed ds -> first_raster ds v -> (a_dims v = lead ++ [yn; xn] \/ a_dims v = lead ++ [xn; yn]) ->
  first_name candidates_x ds xn -> first_name candidates_y ds yn -> In (xn, cx) (ds_coords ds) -> In (yn, cy) (ds_coords ds) -> a_dims cx = [xn] -> a_dims cy = [yn] ->
  exists a, try_subset (Some ds) bb = subset_netcdf a bb /\ xr_shape a (ds_size ds xn) (ds_size ds yn) /\
    List.length (xa_x a) = ds_size ds xn /\ List.length (xa_y a) = ds_size ds yn /\
    (forall i e, (i < ds_size ds xn)%nat -> only xn i e -> nth i (xa_x a) 0%Q = a_at cx e) /\ (forall j e, (j < ds_size ds yn)%nat -> only yn j e -> nth j (xa_y a) 0%Q = a_at cy e) /\
    (forall i j e, (i < ds_size ds xn)%nat -> (j < ds_size ds yn)%nat -> only2 xn yn i j e -> xr_value a i j = a_at v e).
Proof. exact subset_found. Qed.
Print Assumptions C140_values.
(** Nothing without such a variable or without a known name. *)
Theorem C140_nothing : forall ds bb, well_formed ds -> ((forall v, ~ first_raster ds v) \/ (forall n, ~ first_name candidates_x ds n) \/ (forall n, ~ first_name candidates_y ds n)) ->
  try_subset (Some ds) bb = Ok None.
Proof. exact nothing_found. Qed.
Print Assumptions C140_nothing.
(** The reduction to two dimensions ends. *)
Theorem C140_ends : forall ds bb, well_formed ds -> try_subset (Some ds) bb <> OutOfFuel.
Proof. exact never_stuck. Qed.
Print Assumptions C140_ends.

Example C140_case : well_formed plain_file /\ first_raster plain_file (sum_of ["time"; "lat"; "lon"]) /\ first_name candidates_x plain_file "lon" /\ first_name candidates_y plain_file "lat" /\
  In ("lon", along "lon") (ds_coords plain_file) /\ In ("lat", along "lat") (ds_coords plain_file) /\
  try_subset (Some plain_file) (1, 3, 0, 2)%Q = Ok (Some ((1, 2, 0, 2)%Q, (2 # 2)%Q, (2 # 2)%Q, [[Fin 10; Fin 20; Fin 30]; [Fin 20; Fin 30; Fin 40]])).
Proof.
  split; [exact plain_wf|]. split; [exact plain_raster|]. split; [exact (lon_first _)|]. split; [exact (lat_first _ [] (fun H => H))|].
  split; [right; left; reflexivity|]. split; [left; reflexivity|]. vm_compute; reflexivity.
Qed.
Example C140_nothing_case : forall n, ~ first_name candidates_x {| ds_size := fun _ => 3%nat; ds_vars := [("z", sum_of ["Lat"; "Longitude"])]; ds_coords := [("Lat", along "Lat"); ("Longitude", along "Longitude")] |} n.
Proof. intros n (b & a & E & I & _). cbn in I. destruct I as [<-|[<-|[]]]; repeat (destruct b as [|? b]; [discriminate E|injection E as _ E]); destruct b; discriminate. Qed.

(** ** C141 *)
(** Where both names are found: KeyError exactly when one of them names a coordinate the variable does not have. *)
Theorem C141_key_error : forall ds v xn yn bb, well_formed ds -> first_raster ds v -> first_name candidates_x ds xn -> first_name candidates_y ds yn ->
  (try_subset (Some ds) bb = Raise KeyError <-> ~ (carried ds v xn /\ carried ds v yn)).
Proof. exact key_error. Qed.
Print Assumptions C141_key_error.
(** The claim is false: a file that has the bounds of its cells before the elevation, and one with a second grid, are refused with KeyError. *)
Theorem C141_bounds_refuted : well_formed bounds_file /\ In ("elevation", sum_of ["time"; "lat"; "lon"]) (ds_vars bounds_file) /\
  (forall bb, try_subset (Some bounds_file) bb = Raise KeyError) /\ exists bb r, try_subset (Some plain_file) bb = Ok (Some r).
Proof. exact bounds_refused. Qed.
Print Assumptions C141_bounds_refuted.
Theorem C141_other_grid_refuted : well_formed other_grid_file /\ In ("elevation", sum_of ["lat"; "lon"]) (ds_vars other_grid_file) /\ (forall bb, try_subset (Some other_grid_file) bb = Raise KeyError).
Proof. exact other_refused. Qed.
Print Assumptions C141_other_grid_refuted.
(** Coordinates that do not bear the name of their dimension: a range that meets the data is refused with ValueError. *)
Theorem C141_unnamed_refuted : forall ds v lead d e xn yn cx cy dx dy bb, well_formed ds -> first_raster ds v -> a_dims v = lead ++ [d; e] ->
  first_name candidates_x ds xn -> first_name candidates_y ds yn -> In (xn, cx) (ds_coords ds) -> In (yn, cy) (ds_coords ds) ->
  a_dims cx = [dx] -> a_dims cy = [dy] -> In dx [d; e] -> In dy [d; e] -> (dx <> xn \/ dy <> yn) -> (1 <= ds_size ds dx)%nat -> (1 <= ds_size ds dy)%nat ->
  (crosses ds dx cx (b0 bb) (b1 bb) /\ crosses ds dy cy (b2 bb) (b3 bb) -> try_subset (Some ds) bb = Raise ValueError) /\
  (~ (crosses ds dx cx (b0 bb) (b1 bb) /\ crosses ds dy cy (b2 bb) (b3 bb)) -> try_subset (Some ds) bb = Ok None).
Proof. exact unnamed_axis. Qed.
Print Assumptions C141_unnamed_refuted.
Example C141_unnamed_case : (well_formed model_file /\ first_raster model_file (sum_of ["ny"; "nx"]) /\ try_subset (Some model_file) (0, 2, 0, 2)%Q = Raise ValueError) /\
  crosses model_file "nx" (along "nx") 0 2 /\ crosses model_file "ny" (along "ny") 0 2.
Proof. exact (conj model_refused (conj (model_crosses "nx") (model_crosses "ny"))). Qed.

Example C141_case : first_raster bounds_file (sum_of ["lat"; "nv"]) /\ first_name candidates_x bounds_file "lon" /\ first_name candidates_y bounds_file "lat" /\
  carried plain_file (sum_of ["time"; "lat"; "lon"]) "lon".
Proof.
  split; [exact bounds_raster|]. split; [exact (lon_first _)|]. split; [exact (lat_first _ [] (fun H => H))|].
  intros c [I|[I|[]]]; [discriminate I|injection I as <-]. intros d [<-|[]]. cbn. auto.
Qed.

(** ** C142 *)
(** The claim is false: with time as the last dimension nothing is found ... *)
Theorem C142_refuted : well_formed time_last_file /\ (forall bb, try_subset (Some time_last_file) bb = Ok None) /\ exists bb r, try_subset (Some plain_file) bb = Ok (Some r).
Proof. exact time_last_refused. Qed.
Print Assumptions C142_refuted.
(** ... and so it is whenever one of the two coordinates belongs to a leading dimension. *)
Theorem C142_leading_axis : forall ds v lead d e xn yn cx cy bb, well_formed ds -> first_raster ds v -> a_dims v = lead ++ [d; e] ->
  first_name candidates_x ds xn -> first_name candidates_y ds yn -> In (xn, cx) (ds_coords ds) -> In (yn, cy) (ds_coords ds) ->
  a_dims cx = [xn] -> a_dims cy = [yn] -> In xn (a_dims v) -> In yn (a_dims v) -> (In xn lead \/ In yn lead) -> try_subset (Some ds) bb = Ok None.
Proof. exact leading_axis. Qed.
Print Assumptions C142_leading_axis.

Example C142_case : first_raster time_last_file (sum_of ["lat"; "lon"; "time"]) /\ first_name candidates_x time_last_file "lon" /\ first_name candidates_y time_last_file "lat".
Proof. split; [exact time_last_raster|]. split; [exact (lon_first _)|exact (lat_first _ [] (fun H => H))]. Qed.
