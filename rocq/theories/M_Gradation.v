(** Model of enforce_mesh_gradation (oceanmesh/edgefx.py:91-175). *)
From Coq Require Import List Arith Bool NArith ZArith QArith Qabs Qround.
From Verif Require Import M_Base M_GradLimit M_Sdf M_Grid.
Import ListNotations.
Open Scope Q_scope.

(** edgefx.py:123, 144 flatten("F"): first index fastest.  The limiter is modelled for finite sizes only; a
    size that is not finite gives RuntimeError here (simplification: the C++ code goes on with it). *)
Definition finite_value (a : num) : res Q := match a with Fin q => Ok q | _ => Raise RuntimeError end.
Definition flatten_F (n m : nat) (v : list (list num)) : res (list Q) :=
  mapM (fun p => finite_value (cell v (p mod n) (p / n))) (seq 0 (n * m)).
(** edgefx.py:125 np.reshape(tmp, (sz[0], sz[1]), "F"). *)
Definition reshape_F (n m : nat) (l : list Q) : list (list num) :=
  tabulate n m (fun i j => Fin (nth (j * n + i) l 0)).

Section Gradation.
  (** Square roots of 2 and of the tolerance as computed by the limiter; pi as a double. *)
  Variables s2 se pi_d : Q.
  (** to_lat_lon and to_stereo of oceanmesh/region.py:122-161 (see M_Stereo), one point each. *)
  Variables to_ll to_st : Q * Q -> Q * Q.

  (** edgefx.py:120-125 and 162-164: 10000 passes at most. *)
  Definition limit_array (n m : nat) (elen gradation : Q) (v : list (list num)) : res (list (list num)) :=
    let! f := flatten_F n m v in
    let! l := gradient_limit s2 se n m 1 elen gradation (N.to_nat 10000) f in
    Ok (reshape_F n m l).

  (** edgefx.py:129: dx * 1 / 180 * pi / 2. *)
  Definition stereo_step (g : grid) : Q := g_dx g / 180 * pi_d / 2.
  (** edgefx.py:134-136 np.arange(-1, 1, d): number of entries and one entry. *)
  Definition arange_len (d : Q) : nat := Z.to_nat (Qceiling (2 / d)).
  Definition arange_at (d : Q) (i : nat) : Q := -1 + inject_Z (Z.of_nat i) * d.
  (** edgefx.py:137-155: sizes on the plane of the stereographic projection, limited with gradation 10. *)
  Definition stereo_grid (g : grid) (crs : nat) : res grid :=
    let d := stereo_step g in
    let k := arange_len d in
    let! u := mapM (fun i => mapM (fun j => eval g (to_ll (arange_at d i, arange_at d j))) (seq 0 k)) (seq 0 k) in
    let! v := limit_array k k d 10 u in
    let! s := make_grid (-1, 1, -1, 1) d d v (g_hmin g) (g_extra g) crs in
    Ok (build_interpolant s).
  (** edgefx.py:157-158: cells north of the equator take the value of the stereographic grid. *)
  Definition reinject (g s : grid) (v : list (list num)) : res (list (list num)) :=
    mapM (fun i => mapM (fun j =>
      if negb (Qle_bool (node_y g j) 0) then eval s (to_st (node_x g i, node_y g j)) else Ok (cell v i j)) (seq 0 (ny g))) (seq 0 (nx g)).

  (** edgefx.py:91-175. *)
  Definition enforce_gradation (g : grid) (gradation : Q) (crs : nat) (stereo : bool) : res grid :=
    if negb (Qle_bool 0 gradation) then Raise ValueError
    else if negb (Qeq_bool (g_dx g) (g_dy g)) then Raise AssertionError
    else
      let! tmp := limit_array (nx g) (ny g) (g_dx g) gradation (g_values g) in
      let! tmp := if stereo then
                    let! s := stereo_grid g crs in
                    let! t := reinject g s tmp in
                    limit_array (nx g) (ny g) (g_dx g) gradation t
                  else Ok tmp in
      let! r := make_grid (g_bbox g) (g_dx g) (g_dx g) tmp (g_hmin g) (g_extra g) crs in
      Ok (build_interpolant r).
End Gradation.
(** The default of the argument crs, "EPSG:4326" (edgefx.py:91); CRS objects are coded by numbers. *)
Definition default_crs : nat := 1.
