(** Model of signed_distance_function (oceanmesh/signed_distance_function.py:207-270) on IEEE doubles at one query point, with the polygon
    edges and the compiled point-in-polygon kernel; M_Signed has the arrays, in exact arithmetic. *)
From Coq Require Import List Arith Bool ZArith SpecFloat.
From Verif Require Import M_Base M_FixMesh M_CutF M_LapF M_QualF M_Edges M_PipF.
Import ListNotations.

(** np.nan_to_num of a number (lines 215, 235): nan becomes zero, infinities the largest finite doubles. *)
Definition f_max : spec_float := S754_finite false 9007199254740991 971.
Definition nan_to_num_f (x : spec_float) : spec_float :=
  match x with S754_nan => S754_zero false | S754_infinity false => f_max | S754_infinity true => SFopp f_max | _ => x end.
Definition clean_row (p : fpt) : fpt := (nan_to_num_f (fst p), nan_to_num_f (snd p)).
Definition is_nan_f (x : spec_float) : bool := match x with S754_nan => true | _ => false end.
(** np.isnan(poly[:, 0]) (line 211; edges.py:25). *)
Definition nan_column (rows : list fpt) : list bool := map (fun p => is_nan_f (fst p)) rows.
(** point_in_polygon.py:106-129 and 144-155: the check of the edges, then the compiled kernel (not the other backends); no nodes: outside. *)
Definition inpoly2_f (ftol : spec_float) (node : list fpt) (es : list (Z * Z)) (q : fpt) : res bool :=
  match node with
  | [] => Ok false
  | _ =>
      let m := Z.of_nat (length node) in
      if forallb (fun e => (0 <=? fst e)%Z && (0 <=? snd e)%Z && (fst e <? m)%Z && (snd e <? m)%Z) es
      then match inpoly_fast_f ftol node (map (fun e => (Z.to_nat (fst e), Z.to_nat (snd e))) es) [q] with [r] => Ok (fst r) | _ => Raise RuntimeError end
      else Raise ValueError
  end.
(** 1.0e12 (lines 225, 259), 1.0 and -1.0. *)
Definition f_far : spec_float := S754_finite false 8192000000000000 (-13).
Definition f_plus1 : spec_float := S754_finite false 4503599627370496 (-52).
Definition f_minus1 : spec_float := S754_finite true 4503599627370496 (-52).
(** ((-1) ** cond) * d (lines 243, 269): the integer power is converted to a double. *)
Definition signed_f (cond : bool) (d : spec_float) : spec_float := fmul (if cond then f_minus1 else f_plus1) d.
Section Signed.
(** cKDTree(rows).query(x, k=1) (lines 210-212, 238, 249-251, 266): the distance to the nearest row, as a double. *)
Variable near : list fpt -> fpt -> spec_float.
Variable ftol : spec_float.
(** poly[~np.isnan(poly[:, 0]), :] (line 211). *)
Definition proper (rows : list fpt) : list fpt := filter (fun p => negb (is_nan_f (fst p))) rows.
(** Lines 209-246; [poly] is inner ++ boubox. *)
Definition value_f (inner boubox : list fpt) (invert : bool) (q : fpt) : res spec_float :=
  let poly := inner ++ boubox in
  let! e := get_poly_edges (nan_column poly) in
  let! e_box := get_poly_edges (nan_column boubox) in
  let! v :=
    (if isfinite_f (fst q) && isfinite_f (snd q) then
       let! inb := inpoly2_f ftol (map clean_row boubox) e_box q in
       let! ins := inpoly2_f ftol (map clean_row poly) e q in
       Ok (signed_f (ins && inb) (near (proper poly) q))
     else Ok (signed_f false f_far)) in
  Ok (if invert then fmul v f_minus1 else v).
(** Lines 215-216, 248-270. *)
Definition covering_f (boubox : list fpt) (q : fpt) : res spec_float :=
  let! e_box := get_poly_edges (nan_column boubox) in
  if isfinite_f (fst q) && isfinite_f (snd q) then
    let! inb := inpoly2_f ftol (map clean_row boubox) e_box q in
    Ok (signed_f inb (near (proper boubox) q))
  else Ok (signed_f false f_far).
End Signed.
