(** Model of the initial points of generate_mesh (oceanmesh/mesh_generator.py:1081-1110 _generate_initial_points, stereo=False) on
    IEEE doubles.  M_Generate has the same function on exact rationals. *)
From Coq Require Import List Arith Bool ZArith SpecFloat.
From Verif Require Import M_Base M_Numpy M_FixMesh M_Generate M_QualF M_Ieee M_ForceF.
Import ListNotations.

(** math.ceil of a double; an infinity is an OverflowError. *)
Definition f_ceil (x : spec_float) : res Z :=
  match x with
  | S754_nan => Raise ValueError
  | S754_infinity _ => Raise RuntimeError
  | S754_zero _ => Ok 0%Z
  | S754_finite s m e => let z := if s then Z.neg m else Z.pos m in Ok (if (0 <=? e)%Z then z * 2 ^ e else - (- z / 2 ^ (- e)))%Z
  end.
(** mesh_generator.py:1085-1087, np.mgrid of the slice (lo, hi + h, h): math.ceil((stop - start) / step) values k * step + start;
    numpy.indices refuses negative sizes. *)
Definition mgrid1_f (lo hi h : spec_float) : res (list spec_float) :=
  let! n := f_ceil (fdiv (fsub (fadd hi h) lo) h) in
  if (n <? 0)%Z then Raise ValueError else Ok (map (fun k => fadd (fmul (of_nat_f k) h) lo) (seq 0 (Z.to_nat n))).
(** mesh_generator.py:1100 p.reshape(2, -1).T: x varies slowest. *)
Definition lattice_f (xs ys : list spec_float) : list fpt := flat_map (fun x => map (fun y => (x, y)) ys) xs.
(** mesh_generator.py:1102 np.min(r0[r0 >= min_edge_length]); the nan are gone after the comparison. *)
Definition smallest_f (h : spec_float) (r0 : list spec_float) : res spec_float :=
  match filter (SFleb h) r0 with [] => Raise ValueError | x :: r => Ok (fold_left fmin r x) end.
(** mesh_generator.py:1103 np.random.rand(..) < r0m**2 / r0**2; numpy squares by a multiplication. *)
Definition accepted_f (r0m : spec_float) (q : spec_float * spec_float) : bool := SFltb (fst q) (fdiv (fmul r0m r0m) (fmul (snd q) (snd q))).
(** mesh_generator.py:1081-1110.  [rand] are the numbers drawn, [fd] the distance function at one point. *)
Definition generate_initial_points_f (h geps x0 x1 y0 y1 : spec_float) (fh : list fpt -> res (list spec_float)) (fd : fpt -> spec_float) (pfix : list fpt) (rand : list spec_float)
  : res (list fpt) :=
  let! xs := mgrid1_f x0 x1 h in
  let! ys := mgrid1_f y0 y1 h in
  let p := lattice_f xs ys in
  let! r0 := fh p in
  let! r0m := smallest_f h r0 in
  if negb (length rand =? length r0)%nat then Raise ValueError else
  let! p1 := bool_index p (map (accepted_f r0m) (combine rand r0)) in
  Ok (pfix ++ filter (fun q => SFltb (fd q) geps) p1).
