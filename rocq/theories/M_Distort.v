(** Model of the stereographic scale factors and starting points (oceanmesh/mesh_generator.py:1063-1110) over the real numbers. *)
From Coq Require Import List Arith Bool ZArith Reals.
From Verif Require Import M_Base M_Numpy M_Edges M_Stereo M_Generate M_Forces.
Import ListNotations.
Open Scope R_scope.

(** mesh_generator.py:1063-1071 _stereo_distortion.  At latitudes where the sine is -1 the code gives inf; not reached from the lattice for steps below 91. *)
Definition stereo_distortion (lat : R) : R := 2 / (1 + sin ((lat + 90) / 180 * PI)).

(** np.mgrid of one slice (lo, hi + h, h): ceil((hi + h - lo) / h) values lo + k h. *)
Definition rceil (x : R) : Z := (1 - up (- x))%Z.
Definition axis (lo hi h : R) : list R := map (fun k => lo + INR k * h) (seq 0 (Z.to_nat (rceil ((hi + h - lo) / h)))).
(** mesh_generator.py:1083-1087, 1095: the lattice over all longitudes and the latitudes from -89 to 89; the box given is not used. *)
Definition globe_lattice (h : R) : list (R * R) := flat_map (fun x => map (fun y => (x, y)) (axis (-89) 89 h)) (axis (-180) 180 h).
(** np.min; an empty array raises ValueError. *)
Definition rmin_array (l : list R) : res R := match l with [] => Raise ValueError | x :: r => Ok (fold_left Rmin r x) end.
Definition rltb (a b : R) : bool := if Rlt_dec a b then true else false.
(** mesh_generator.py:1103: rand < r0m**2 / r0**2; for r0 = 0 numpy divides to +inf. *)
Definition raccepted (r0m rand r : R) : bool := if Req_EM_T r 0 then true else rltb rand (r0m ^ 2 / r ^ 2).

Section Start.
  (** The sizing function, of longitudes and latitudes, and the distance function, in the plane; both on arrays.  The code hands the
      sizing function the pair of coordinate arrays, which the interpolator of a Grid reads as points.  Values are finite. *)
  Variables fh fd : list (R * R) -> res (list R).
  (** np.random.rand. *)
  Variable rand : list R.
  (** mesh_generator.py:1081-1110 _generate_initial_points with stereo=True; the sphere has radius 1. *)
  Definition stereo_initial_points (h geps : R) (pfix : list (R * R)) : res (list (R * R)) :=
    let p0 := globe_lattice h in
    let p := map (to_stereo 1) p0 in
    let! ll := to_lat_lon 1 p in
    let! s := fh ll in
    if (length s =? length p0)%nat then
      let r0 := map (fun q => fst q * stereo_distortion (snd (snd q))) (combine s p0) in
      let! r0m := rmin_array (filter (fun r => rleb h r) r0) in
      if (length rand =? length r0)%nat then
        let! p1 := bool_index p (map (fun q => raccepted r0m (fst q) (snd q)) (combine rand r0)) in
        let! d := fd p1 in
        let! p2 := bool_index p1 (map (fun v => rltb v geps) d) in
        Ok (pfix ++ p2)
      else Raise ValueError
    else Raise ValueError.
End Start.
