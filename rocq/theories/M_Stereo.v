(** Model of the stereographic projection helpers of oceanmesh/region.py over the real numbers. *)
From Coq Require Import List Reals.
From Verif Require Import M_Base.
Import ListNotations.
Open Scope R_scope.

(** numpy's arctan2 (signed zeros, which only matter on the negative x axis and at the origin, are not modelled). *)
Definition arctan2 (y x : R) : R :=
  if Rlt_dec 0 x then atan (y / x)
  else if Rlt_dec x 0 then (if Rle_dec 0 y then atan (y / x) + PI else atan (y / x) - PI)
  else if Rlt_dec 0 y then PI / 2 else if Rlt_dec y 0 then - (PI / 2) else 0.

(** region.py:107-119 stereo_to_3d, one point. *)
Definition stereo_to_3d (RR u v : R) : R * R * R :=
  let rp2 := u ^ 2 + v ^ 2 in
  (- 2 * RR * u / (1 + rp2), - 2 * RR * v / (1 + rp2), RR * (1 - rp2) / (1 + rp2)).

(** region.py:127-130: the norms, a zero norm replaced by the largest one; max of an empty array raises ValueError. *)
Definition norm3 (p : R * R * R) : R := let '(x, y, z) := p in sqrt (x ^ 2 + y ^ 2 + z ^ 2).
Fixpoint rmax_list (m : R) (l : list R) : R := match l with [] => m | x :: r => rmax_list (Rmax m x) r end.
Definition fix_zero (m r : R) : R := if Req_EM_T r 0 then m else r.

(** region.py:132-138, one point with its (repaired) norm. *)
Definition lat_lon_of (p : R * R * R) (rad : R) : R * R :=
  let '(x, y, z) := p in (arctan2 y x * 180 / PI, asin (z / rad) * 180 / PI).
(** region.py:122-138 to_lat_lon with z given.  A division by a norm of 0 (all points at the origin) gives nan in the code; the model stops there with RuntimeError. *)
Definition to_lat_lon_3d (ps : list (R * R * R)) : res (list (R * R)) :=
  match map norm3 ps with
  | [] => Raise ValueError
  | r :: rs => let m := rmax_list r rs in mapM (fun p => let rad := fix_zero m (norm3 p) in if Req_EM_T rad 0 then Raise RuntimeError else Ok (lat_lon_of p rad)) ps
  end.
(** region.py:122-124 to_lat_lon without z. *)
Definition to_lat_lon (RR : R) (ps : list (R * R)) : res (list (R * R)) :=
  to_lat_lon_3d (map (fun p => stereo_to_3d RR (fst p) (snd p)) ps).

(** region.py:141-149 to_3d, one point. *)
Definition to_3d (RR lon lat : R) : R * R * R :=
  (cos (lat / 180 * PI) * cos (lon / 180 * PI) * RR, cos (lat / 180 * PI) * sin (lon / 180 * PI) * RR, sin (lat / 180 * PI) * RR).
(** region.py:152-161 to_stereo, one point.  At the south pole the code divides by zero (inf or nan); statements assume lat > -90. *)
Definition to_stereo (RR : R) (p : R * R) : R * R :=
  let '(kx, ky, kz) := to_3d RR (fst p) (snd p) in (- kx / (RR + kz), - ky / (RR + kz)).
