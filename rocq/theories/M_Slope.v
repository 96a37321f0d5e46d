(** Model of filt2 (oceanmesh/filterfx.py:15-74) and of the slope, Rossby and wavelength sizing functions
    (oceanmesh/edgefx.py:429-749, 866-944, 1032-1052).  Lattices (box, steps, counts) are rational, values are
    real numbers; rounding and values that are not finite are not modelled. *)
From Coq Require Import List Arith Bool ZArith QArith Qminmax Qabs Qround Qreals Reals String Ascii.
From Verif Require Import M_Base M_Sdf M_Grid.
Import ListNotations.
Open Scope R_scope.

(** Arrays of real numbers: rows of equal length. *)
Definition rcell (v : list (list R)) (i j : nat) : R := nth j (nth i v []) 0.
Definition rtab (n m : nat) (f : nat -> nat -> R) : list (list R) := map (fun i => map (fun j => f i j) (seq 0 m)) (seq 0 n).
Definition rrows (v : list (list R)) : nat := List.length v.
Definition rcols (v : list (list R)) : nat := match v with [] => 0%nat | r :: _ => List.length r end.
(** a[a < lo] = lo and a[a > hi] = hi. *)
Definition raise_to (lo x : R) : R := if Rlt_dec x lo then lo else x.
Definition lower_to (hi : option R) (x : R) : R := match hi with Some h => if Rlt_dec h x then h else x | None => x end.

(** * filt2 (filterfx.py:15-74) *)
(** str.lower on ASCII text (filterfx.py:16). *)
Definition lower_ascii (c : ascii) : ascii :=
  let k := nat_of_ascii c in if ((65 <=? k) && (k <=? 90))%nat%bool then ascii_of_nat (k + 32) else c.
Fixpoint lower (s : string) : string := match s with EmptyString => EmptyString | String c r => String (lower_ascii c) (lower r) end.
(** The argument wl: a number, or something with a length (a string is not modelled). *)
Inductive wavelengths : Type := Scalar (w : R) | Array (l : list R).
Section Filter.
  (** gaussfilter (filterfx.py:77-80): scipy's gaussian_filter of the array with the given sigma. *)
  Variable gauss : list (list R) -> R -> list (list R).
  (** filterfx.py:58-66 with the sigma of line 58. *)
  Definition lowpass (z : list (list R)) (d w : R) : list (list R) := gauss z (w / d / (2 * PI)).
  Definition minus (a b : list (list R)) : list (list R) := rtab (rrows a) (rcols a) (fun i j => rcell a i j - rcell b i j).
  Definition highpass (z : list (list R)) (d w : R) : list (list R) := minus z (lowpass z d w).
  (** The array has two dimensions and res is a scalar by typing (filterfx.py:17-21); the warning of lines
      32-36 is not modelled. *)
  Definition filt2 (z : list (list R)) (d : R) (wl : wavelengths) (kind : string) : res (list (list R)) :=
    let kind := lower kind in
    if (kind =? "bandpass")%string || (kind =? "bandstop")%string then
      match wl with
      | Array [u; v] =>
          if (kind =? "bandpass")%string then Ok (lowpass (highpass z d (Rmax u v)) d (Rmin u v))
          else Ok (minus (lowpass z d (Rmax u v)) (highpass z d (Rmin u v)))
      | _ => Raise TypeError
      end
    else if (kind =? "lowpass")%string || (kind =? "highpass")%string then
      match wl with
      | Scalar w => Ok (if (kind =? "lowpass")%string then lowpass z d w else highpass z d w)
      | Array _ => Raise TypeError
      end
    else Raise TypeError.
End Filter.

(** * _earth_gradient (edgefx.py:1032-1052) over the reals *)
Definition rdiff (n : nat) (d : R) (f : nat -> R) (k : nat) : R :=
  if (k =? 0)%nat then (f 1%nat - f 0%nat) / d
  else if (k =? n - 1)%nat then (f (n - 1)%nat - f (n - 2)%nat) / d
  else (f (k + 1)%nat - f (k - 1)%nat) / (2 * d).
Definition rgradient (f : list (list R)) (dx dy : R) : res (list (list R) * list (list R)) :=
  let n := rrows f in
  let m := rcols f in
  if (n <? 2)%nat || (m <? 2)%nat then Raise IndexError
  else Ok (rtab n m (fun i j => rdiff n dy (fun k => rcell f k j) i), rtab n m (fun i j => rdiff m dx (fun k => rcell f i k) j)).
(** edgefx.py:526-527, 531-532, 737-740: note the call with dy first. *)
Definition slopes (f : list (list R)) (dx dy : R) : res (list (list R)) :=
  let! g := rgradient f dy dx in
  Ok (rtab (rrows f) (rcols f) (fun i j => sqrt (rcell (snd g) i j * rcell (snd g) i j + rcell (fst g) i j * rcell (fst g) i j))).

(** * The DEM as these functions see it.  [d_z] are the elevations that dem.eval gives at the nodes;
    [d_geo] is crs.is_geographic. *)
Record dem : Type := { d_box : Q * Q * Q * Q; d_dx : Q; d_dy : Q; d_z : list (list R); d_crs : nat; d_geo : bool }.
(** The returned Grid (values after build_interpolant). *)
Record rgrid : Type := { r_box : Q * Q * Q * Q; r_dx : Q; r_dy : Q; r_values : list (list R); r_hmin : R; r_extra : bool; r_crs : nat }.
(** build_interpolant's effect on the values (grid.py:494-526). *)
Definition built_values (b : Q * Q * Q * Q) (v : list (list R)) : list (list R) :=
  if (Qeq_bool (Qabs (b0 b)) 180 && Qeq_bool (Qabs (b1 b)) 180)%bool then swap_ends v else v.

(** Metres per degree (edgefx.py:494-501, 544-549; the argument is an angle in radians). *)
Definition metres_lat (a : R) : R := 11113292 / 100 - 55982 / 100 * cos (2 * a) + 1175 / 1000 * cos (4 * a) - 23 / 10000 * cos (6 * a).
Definition metres_lon (a : R) : R := 111320 * cos a.
Definition radians (x : R) : R := x * PI / 180.
Definition mean_lat (b : Q * Q * Q * Q) : R := (Q2R (b2 b) + Q2R (b3 b)) / 2.

(** * rossby_radius_filter (edgefx.py:607-749) *)
Definition earth_rate : R := 729 / 10000000.
(** edgefx.py:664-672. *)
Definition wave_speed (barot : bool) (z : R) : R :=
  let h := Rmax 1 (- z) in if barot then sqrt (9807 / 1000 * h) else 25 / 10000 * h / PI.
(** edgefx.py:663, 674-681: c / 0 is infinite and so becomes 1e7. *)
Definition rossby_radius (lat c : R) : R :=
  if Rlt_dec (Rabs lat) 5 then Rmin (sqrt (c / (4 * earth_rate * cos (lat * PI / 180) / 6371000))) 10000000
  else let f := 2 * earth_rate * Rabs (sin (lat * PI / 180)) in
       if Req_EM_T f 0 then 10000000 else Rmin (c / f) 10000000.
(** edgefx.py:684. *)
Definition length_class (dy quotient r : R) : Z := Z.min 10 (Z.max 0 (Int_part (ln (r / dy / quotient) / ln 2))).
(** Columns lo .. hi - 1. *)
Definition columns (z : list (list R)) (lo hi : nat) : list (list R) := map (fun r => slice r lo hi) z.
Definition beside (a b : list (list R)) : list (list R) := map (fun p => fst p ++ snd p) (combine a b).
Section Rossby.
  Variable gauss : list (list R) -> R -> list (list R).
  Variable d : dem.
  (** The spacings handed over in grid_details (metres when the DEM is geographic). *)
  Variables sx sy quotient : R.
  Variable barot : bool.
  (** tmpz, which is not the DEM's own array. *)
  Variable z : list (list R).
  Definition rows : nat := rrows z.
  Definition cols : nat := rcols z.
  (** edgefx.py:649 (a box of positive height). *)
  Definition block_width : nat :=
    Z.to_nat (Qceiling (Qmin (10000000 / inject_Z (Z.of_nat rows)) (10 * inject_Z (Z.of_nat cols) / (b3 (d_box d) - b2 (d_box d))))).
  Definition lat_of (j : nat) : R := Q2R (b2 (d_box d) + inject_Z (Z.of_nat j) * Qabs (d_dy d)).
  Definition class_of (i j : nat) : Z := length_class sy quotient (rossby_radius (lat_of j) (wave_speed barot (rcell z i j))).
  (** edgefx.py:691-692. *)
  Definition wraps_around : bool :=
    let lo := b0 (d_box d) in
    let hi := (lo + inject_Z (Z.of_nat (rows - 1)) * d_dx d)%Q in
    (negb (Qle_bool hi 179) && negb (Qle_bool (-179) lo)) || (negb (Qle_bool hi 359) && negb (Qle_bool 1 lo)).
  (** edgefx.py:707-708; half is mult / 2. *)
  Definition at_pole (n2e half : nat) : bool :=
    negb (Qle_bool (b2 (d_box d) + inject_Z (Z.of_nat (cols - 1)) * Qabs (d_dy d)) 89) && (cols <=? n2e + half)%nat.
  (** The field whose gradient is taken for class k of the block (edgefx.py:687-735).  np.concatenate refuses
      to turn the float index arrays into int (694-703, 709-716): TypeError.  With fewer than two nodes in
      xg[n2s:n2e, 0] the mean at line 662 is nan, and gaussian_filter with a nan sigma copies its input; here the
      step is that of the lattice in every case (simplification: the filtered array is not used).  The
      filtered array is cleared at its margins (728-731) and then overwritten by the unfiltered one (732). *)
  Definition class_field (n2s n2e : nat) (k : Z) : res (list (list R)) :=
    if (0 <? k)%Z then
      let half := Z.to_nat (2 ^ (k - 1)) in
      if wraps_around then Raise TypeError
      else if at_pole n2e half then Raise TypeError
      else
        let padded := columns z (n2s - half - 1) (Nat.min cols (n2e + half)) in
        let w := if (k =? 1)%Z then 201 / 100 else IZR (2 ^ k) in
        let! ft := filt2 gauss padded (Rmin (Q2R (d_dx d)) sy) (Scalar (sy * w)) "lowpass" in
        let ft := columns z n2s n2e in
        Ok ft
    else Ok (columns z n2s n2e).
  Definition present (n2s n2e : nat) (k : Z) : bool :=
    existsb (fun i => existsb (fun j => Z.eqb (class_of i j) k) (seq n2s (n2e - n2s))) (seq 0 rows).
  Definition classes (n2s n2e : nat) : list Z := filter (present n2s n2e) [0; 1; 2; 3; 4; 5; 6; 7; 8; 9; 10]%Z.
  (** edgefx.py:686-742. *)
  Fixpoint class_loop (n2s n2e : nat) (ks : list Z) (bst : list (list R)) : res (list (list R)) :=
    match ks with
    | [] => Ok bst
    | k :: r =>
        let! f := class_field n2s n2e k in
        let! s := slopes f sx sy in
        class_loop n2s n2e r (rtab rows (n2e - n2s) (fun i j => if Z.eqb (class_of i (n2s + j)) k then rcell s i j else rcell bst i j))
    end.
  (** edgefx.py:655-745: the blocks of columns, each written after the previous one. *)
  Fixpoint block_loop (count n2s : nat) (bs : list (list R)) : res (list (list R)) :=
    match count with
    | O => Ok bs
    | S c =>
        let n2e := Nat.min cols (n2s + block_width) in
        let! bst := class_loop n2s n2e (classes n2s n2e) (rtab rows (n2e - n2s) (fun _ _ => 0)) in
        block_loop c n2e (beside bs bst)
    end.
  Definition number_of_blocks : nat := Z.to_nat (Qceiling (inject_Z (Z.of_nat cols) / inject_Z (Z.of_nat block_width))).
  Definition rossby_filter : res (list (list R)) := block_loop number_of_blocks 0 (repeat [] rows).
End Rossby.

(** * bathymetric_gradient_sizing_function (edgefx.py:429-604) *)
Fixpoint contains (pat s : string) : bool :=
  String.prefix pat s || match s with EmptyString => false | String _ r => contains pat r end.
Section Slope.
  Variable gauss : list (list R) -> R -> list (list R).
  (** edgefx.py:486. *)
  Definition cut_off (c : R) (z : list (list R)) : list (list R) :=
    rtab (rrows z) (rcols z) (fun i j => if Rle_dec c (rcell z i j) then c else rcell z i j).
  (** edgefx.py:488-504. *)
  Definition spacing (d : dem) : R * R :=
    if d_geo d then (Q2R (d_dx d) * metres_lon (radians (mean_lat (d_box d))), Q2R (d_dy d) * metres_lat (radians (mean_lat (d_box d))))
    else (Q2R (d_dx d), Q2R (d_dy d)).
  (** edgefx.py:506-532; `assert ValueError(...)` at 508 and 517 asserts an object, which is true. *)
  Definition filtered_slopes (d : dem) (kind : string) (quotient : R) (cutoffs : wavelengths) (z : list (list R)) : res (list (list R)) :=
    let '(sx, sy) := spacing d in
    if (kind =? "barotropic")%string && (if Rlt_dec 0 quotient then true else false) then rossby_filter gauss d sx sy quotient true z
    else if (kind =? "baroclinic")%string && (if Rlt_dec 0 quotient then true else false) then rossby_filter gauss d sx sy quotient false z
    else if contains "pass" kind then let! f := filt2 gauss z sy cutoffs kind in slopes f sx sy
    else slopes z sx sy.
  (** edgefx.py:535-552. *)
  Definition slope_size (d : dem) (param z s : R) : R :=
    let v := 2 * PI / param * Rabs (if Rlt_dec (-1) z then -1 else z) / (s + 1 / 10000000000) in
    if d_geo d then v / metres_lat (radians (mean_lat (d_box d))) else v.
  (** edgefx.py:555-556. *)
  Definition smallest (d : dem) (lo : option R) : R :=
    match lo with Some l => l | None => Rmax (Q2R (d_dx d)) (Q2R (d_dy d)) end.
  (** One node of the coarser lattice takes the value of a nearest node (grid.py:263-314, the values are
      held by a grid that extrapolates). *)
  Definition coarse_cell (d : dem) (c : Q) (v : list (list R)) (i j : nat) : R :=
    let x := (b0 (d_box d) + inject_Z (Z.of_nat i) * (d_dx d * c))%Q in
    let y := (b2 (d_box d) + inject_Z (Z.of_nat j) * Qabs (d_dy d * c))%Q in
    rcell v (near_index (b0 (d_box d)) (d_dx d) (rrows v) x) (near_index (b2 (d_box d)) (Qabs (d_dy d)) (rcols v) y).
  Definition slope_sizing (d : dem) (param quotient : R) (lo hi : option R) (cutoff : R) (kind : string) (cutoffs : wavelengths)
    (coarsen : Q) : res rgrid :=
    if (negb (Qle_bool 1 coarsen) || negb (Qeq_bool (inject_Z (Qfloor coarsen)) coarsen))%bool then Raise ValueError
    else
      let z := cut_off cutoff (d_z d) in
      let! bs := filtered_slopes d kind quotient cutoffs z in
      let h := smallest d lo in
      let v := rtab (rrows z) (rcols z) (fun i j => lower_to hi (raise_to h (slope_size d param (rcell z i j) (rcell bs i j)))) in
      if Qeq_bool coarsen 1 then
        Ok {| r_box := d_box d; r_dx := d_dx d; r_dy := d_dy d; r_values := built_values (d_box d) v; r_hmin := h; r_extra := true; r_crs := d_crs d |}
      else if boxes_overlap (d_box d) (d_box d) then
        let v' := built_values (d_box d) v in
        let n := Z.to_nat (Qfloor ((b1 (d_box d) - b0 (d_box d)) / (d_dx d * coarsen)) + 1) in
        let m := Z.to_nat (Z.abs (Qfloor ((b3 (d_box d) - b2 (d_box d)) / (d_dy d * coarsen)) + 1)) in
        let w := rtab n m (fun i j => lower_to hi (raise_to h (coarse_cell d coarsen v' i j))) in
        Ok {| r_box := d_box d; r_dx := d_dx d * coarsen; r_dy := d_dy d * coarsen; r_values := built_values (d_box d) w; r_hmin := h;
              r_extra := false; r_crs := d_crs d |}
      else Raise AssertionError.
End Slope.

(** * wavelength_sizing_function (edgefx.py:866-944) *)
(** Code of EPSG:4326, the default of the crs argument. *)
Definition epsg4326 : nat := 1.
Definition ramin (v : list (list R)) : res R :=
  match List.concat v with [] => Raise ValueError | x :: l => Ok (fold_left Rmin l x) end.
(** edgefx.py:911-918, 924-929: elevations nearer to 0 than 1 become 1; lat is used as if it were in radians. *)
Definition wave_size (geographic : bool) (b : Q * Q * Q * Q) (wl period gravity z : R) : R :=
  let z := if Rlt_dec (Rabs z) 1 then 1 else z in
  let v := period * sqrt (gravity * Rabs z) / wl in
  if geographic then v / metres_lat (mean_lat b) else v.
Definition wavelength_sizing (d : dem) (wl : R) (lo hi : option R) (period gravity : R) (crs : nat) : res rgrid :=
  let v := rtab (rrows (d_z d)) (rcols (d_z d)) (fun i j => wave_size (crs =? epsg4326)%nat (d_box d) wl period gravity (rcell (d_z d) i j)) in
  let! h := match lo with None => ramin v | Some l => Ok l end in
  let v := match lo with None => v | Some l => map (map (raise_to l)) v end in
  let v := map (map (lower_to hi)) v in
  Ok {| r_box := d_box d; r_dx := d_dx d; r_dy := d_dy d; r_values := built_values (d_box d) v; r_hmin := h; r_extra := true; r_crs := crs |}.
