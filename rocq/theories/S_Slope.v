(** What the filters and the slope, Rossby and wavelength sizing functions are meant to give. *)
From Coq Require Import List Arith ZArith QArith Qminmax Qabs Qreals Reals String Ascii.
From Verif Require Import M_Base M_Sdf M_Grid S_Grid M_Slope.
Import ListNotations.
Open Scope R_scope.

(** n rows of m real numbers, and one of them. *)
Definition array (v : list (list R)) (n m : nat) : Prop := List.length v = n /\ Forall (fun r => List.length r = m) v.
Definition at_ (v : list (list R)) (i j : nat) : R := nth j (nth i v []) 0.
(** A smoothing that keeps the shape of every array. *)
Definition keeps_shape (g : list (list R) -> R -> list (list R)) : Prop := forall z s n m, array z n m -> array (g z s) n m.
(** A DEM with n by m nodes, at least two each way, over a box that does not span the globe. *)
Definition proper_dem (d : dem) (n m : nat) : Prop :=
  array (d_z d) n m /\ (2 <= n)%nat /\ (2 <= m)%nat /\ (0 < d_dx d)%Q /\ (0 < d_dy d)%Q /\ ~ global_box (d_box d).

(** The text s reads t when capitals are not distinguished (t has none). *)
Fixpoint reads (s t : string) : Prop :=
  match s, t with
  | EmptyString, EmptyString => True
  | String a s', String b t' => (a = b \/ ((65 <= nat_of_ascii a <= 90)%nat /\ nat_of_ascii b = (nat_of_ascii a + 32)%nat)) /\ reads s' t'
  | _, _ => False
  end.
Definition mentions (pat s : string) : Prop := exists a b, s = (a ++ pat ++ b)%string.
(** Smoothing over the wavelength w of data with resolution d: scale w / (2 pi d). *)
Definition scale (d w : R) : R := w / (2 * PI * d).
(** [v] at each node is the difference of [a] and [b]. *)
Definition difference (v a b : list (list R)) (n m : nat) : Prop :=
  array v n m /\ forall i j, (i < n)%nat -> (j < m)%nat -> at_ v i j = at_ a i j - at_ b i j.
Definition sum (v a b : list (list R)) (n m : nat) : Prop :=
  array v n m /\ forall i j, (i < n)%nat -> (j < m)%nat -> at_ v i j = at_ a i j + at_ b i j.
(** A smoothing whose results are, node by node, weighted means of the array's values. *)
Definition total (n m : nat) (w : nat -> nat -> R) : R :=
  fold_right Rplus 0 (map (fun i => fold_right Rplus 0 (map (fun j => w i j) (seq 0 m))) (seq 0 n)).
Definition averages (g : list (list R) -> R -> list (list R)) : Prop :=
  forall n m s, (1 <= n)%nat -> (1 <= m)%nat -> exists w : nat -> nat -> nat -> nat -> R,
    (forall i j k l, 0 <= w i j k l) /\ (forall i j, (i < n)%nat -> (j < m)%nat -> total n m (w i j) = 1) /\
    forall z, array z n m -> forall i j, (i < n)%nat -> (j < m)%nat -> at_ (g z s) i j = total n m (fun k l => w i j k l * at_ z k l).

(** [v] is the difference quotient at node k of the n nodes with spacing d: central inside, one-sided at the ends. *)
Definition quotient_at (n : nat) (d : R) (f : nat -> R) (k : nat) (v : R) : Prop :=
  (k = 0%nat -> v * d = f 1%nat - f 0%nat) /\
  ((0 < k)%nat -> k = (n - 1)%nat -> v * d = f k - f (k - 1)%nat) /\
  ((0 < k)%nat -> (k < n - 1)%nat -> v * (2 * d) = f (k + 1)%nat - f (k - 1)%nat).
(** [s] is the length of the gradient of f at node (i, j). *)
Definition gradient_length (n m : nat) (dx dy : R) (f : nat -> nat -> R) (i j : nat) (s : R) : Prop :=
  exists gx gy, quotient_at n dx (fun k => f k j) i gx /\ quotient_at m dy (fun k => f i k) j gy /\ 0 <= s /\ s * s = gx * gx + gy * gy.
(** No filter is asked for. *)
Definition unfiltered (kind : string) (quotient : R) : Prop :=
  ~ mentions "pass" kind /\ ((kind <> "barotropic" /\ kind <> "baroclinic")%string \/ quotient <= 0).
(** Metres per degree of latitude and longitude at latitude a (radians), as commonly approximated. *)
Definition lat_metres (a : R) : R := 111132.92 - 559.82 * cos (2 * a) + 1.175 * cos (4 * a) - 0.0023 * cos (6 * a).
Definition lon_metres (a : R) : R := 111320 * cos a.
Definition middle (b : Q * Q * Q * Q) : R := (Q2R (b2 b) + Q2R (b3 b)) / 2 * (PI / 180).
(** Metres per unit of the DEM's coordinates. *)
Definition x_unit (d : dem) : R := if d_geo d then lon_metres (middle (d_box d)) else 1.
Definition y_unit (d : dem) : R := if d_geo d then lat_metres (middle (d_box d)) else 1.
Definition x_step (d : dem) : R := Q2R (d_dx d) * x_unit d.
Definition y_step (d : dem) : R := Q2R (d_dy d) * y_unit d.
(** Limited from below, then from above. *)
Definition limited (lo : R) (hi : option R) (x : R) : R := match hi with None => Rmax lo x | Some h => Rmin h (Rmax lo x) end.
Definition lowest (d : dem) (lo : option R) (h : R) : Prop :=
  match lo with Some l => h = l | None => Q2R (d_dx d) <= h /\ Q2R (d_dy d) <= h /\ (h = Q2R (d_dx d) \/ h = Q2R (d_dy d)) end.
(** Elevation as used: not above the cut-off. *)
Definition used_depth (d : dem) (cutoff : R) (i j : nat) : R := Rmin cutoff (at_ (d_z d) i j).
Definition used_depths (d : dem) (cutoff : R) (n m : nat) (z : list (list R)) : Prop :=
  array z n m /\ forall i j, (i < n)%nat -> (j < m)%nat -> at_ z i j = used_depth d cutoff i j.
(** The slope size in the DEM's units: depth (at least 1) over slope, times 2 pi / param. *)
Definition slope_target (d : dem) (param depth s : R) : R := 2 * PI / param * Rmax 1 (- depth) / (s + 1 / 10 ^ 10) / y_unit d.
(** A result on the DEM's own lattice. *)
Definition same_lattice (d : dem) (g : rgrid) (n m : nat) (h : R) : Prop :=
  r_box g = d_box d /\ r_dx g = d_dx d /\ r_dy g = d_dy d /\ array (r_values g) n m /\ r_hmin g = h /\ r_crs g = d_crs d.
(** Whole number of steps that fit, plus one. *)
Definition steps_in (lo hi d : Q) (n : nat) : Prop :=
  (1 <= n)%nat /\ (inject_Z (Z.of_nat (n - 1)) * d <= hi - lo)%Q /\ (hi - lo < inject_Z (Z.of_nat n) * d)%Q.
(** The blocks of columns of the Rossby filter: node j of m belongs to columns s .. e - 1, blocks have w columns. *)
Definition block_of (w m j s e : nat) : Prop := (exists k, s = (k * w)%nat) /\ (s <= j < e)%nat /\ e = Nat.min m (s + w).
(** Width of the blocks: 1e7 / n or ten degrees' worth of columns, whichever is less, rounded up. *)
Definition block_size (n m : nat) (height : Q) (w : nat) : Prop :=
  let q := Qmin (10000000 / inject_Z (Z.of_nat n)) (10 * inject_Z (Z.of_nat m) / height) in
  (inject_Z (Z.of_nat w) - 1 < q <= inject_Z (Z.of_nat w))%Q.
(** Shallow-water wavelength of the given period in water of depth |z|, at least 1. *)
Definition wave_length (period gravity z : R) : R := period * sqrt (gravity * Rmax 1 (Rabs z)).
(** The slopes come from f: the elevations used, or those filtered. *)
Definition slope_source gauss d cutoff n m kind quotient cutoffs f : Prop :=
  (unfiltered kind quotient /\ used_depths d cutoff n m f) \/
  (mentions "pass" kind /\ exists z, used_depths d cutoff n m z /\ filt2 gauss z (y_step d) cutoffs kind = Ok f).
(** The value obeys the limits: never above the upper one, and not below the lower one unless the upper one is lower still. *)
Definition in_limits (h : R) (hi : option R) (v : R) : Prop := match hi with None => h <= v | Some u => v <= u /\ (h <= u -> h <= v) end.
(** The two Rossby radius filters. *)
Definition rossby_kind (k : string) : Prop := k = "barotropic"%string \/ k = "baroclinic"%string.
(** [h] is the smallest of the values. *)
Definition least (h : R) (v : nat -> nat -> R) (n m : nat) : Prop :=
  (exists i j, (i < n)%nat /\ (j < m)%nat /\ h = v i j) /\ forall i j, (i < n)%nat -> (j < m)%nat -> h <= v i j.
(** Speed of a long wave (barotropic), or of the first mode at a buoyancy frequency of 25/10000 per second, in water of depth at least 1. *)
Definition wave_of (barot : bool) (z v : R) : Prop :=
  let h := Rmax 1 (- z) in if barot then 0 <= v /\ v * v = 9807 / 1000 * h else v * PI = 25 / 10000 * h.
(** Rossby radius of deformation at a latitude in degrees, at most 1e7; the equatorial one within five degrees. *)
Definition rossby_of (lat v r : R) : Prop :=
  let a := lat * PI / 180 in let spin := 729 / 10000000 in
  (Rabs lat < 5 -> exists x, 0 <= x /\ x * x * (4 * spin * cos a) = v * 6371000 /\ r = Rmin x 10000000) /\
  (5 <= Rabs lat -> (sin a = 0 -> r = 10000000) /\ (sin a <> 0 -> exists x, x * (2 * spin * Rabs (sin a)) = v /\ r = Rmin x 10000000)).
(** Some node's radius is at least 2 ^ c (c from 1 to 10) times [unit], and half that many columns after the node's block reach the end of the lattice. *)
Definition past_the_end (south step : Q) (m w : nat) (unit : R) (barot : bool) (z : nat -> nat -> R) (n : nat) : Prop :=
  exists i j s e c v r, (i < n)%nat /\ (j < m)%nat /\ block_of w m j s e /\ (1 <= c <= 10)%nat /\
    wave_of barot (z i j) v /\ rossby_of (Q2R (south + inject_Z (Z.of_nat j) * step)) v r /\ 2 ^ c * unit <= r /\ (m <= e + 2 ^ (c - 1))%nat.
