(** Model of _is_path_ccw (oceanmesh/geodata.py:845-862) on IEEE doubles.  M_Shore has the same function on exact rationals.

    np.linalg.det factorises the matrix with LAPACK's getrf (partial pivoting) and answers sign * exp(sum of log |diagonal|).  The
    first column of O3 is 1, so the first step subtracts the first row exactly as fsub does.  Three parts are left to the library and
    are parameters: [ratio q p], the multiplier q/p (by a division or by a reciprocal); [elim a l b], the update a - l*b (fused or
    not); [magnitude p q], the number exp(log 1 + log |p| + log |q|). *)
From Coq Require Import List Arith Bool ZArith SpecFloat.
From Verif Require Import M_Base M_FixMesh M_QualF M_ForceF.
Import ListNotations.

(** The default atol of np.isclose, 1e-8. *)
Definition f_1e8 : spec_float := S754_finite false 6044629098073146 (-79).
(** np.isclose(x, 0.0) (geodata.py:853, 859): |x - 0| <= atol + rtol * 0; false for nan and infinities. *)
Definition isclose0_f (x : spec_float) : bool :=
  match x with S754_nan | S754_infinity _ => false | _ => SFleb (SFabs x) f_1e8 end.
Definition is_zero_f (x : spec_float) : bool := match x with S754_zero _ => true | _ => false end.
Definition is_neg_f (x : spec_float) : bool := SFltb x f_0.
Section Det.
Variable ratio : spec_float -> spec_float -> spec_float.
Variable elim : spec_float -> spec_float -> spec_float -> spec_float.
Variable magnitude : spec_float -> spec_float -> spec_float.
(** np.linalg.det of the rows (1, x, y) of three points (geodata.py:855-856).  A zero on the diagonal makes getrf report a singular
    matrix, for which numpy answers 0. *)
Definition det3_f (a b c : fpt) : spec_float :=
  let x1 := fsub (fst b) (fst a) in let y1 := fsub (snd b) (snd a) in
  let x2 := fsub (fst c) (fst a) in let y2 := fsub (snd c) (snd a) in
  let swap := SFltb (SFabs x1) (SFabs x2) in
  let '(px, py, qx, qy) := if swap then (x2, y2, x1, y1) else (x1, y1, x2, y2) in
  if is_zero_f px then f_0
  else
    let u33 := elim qy (ratio qx px) py in
    if is_zero_f u33 then f_0
    else
      let m := magnitude px u33 in
      if xorb swap (xorb (is_neg_f px) (is_neg_f u33)) then SFopp m else m.
(** The loop geodata.py:852-857 on the rows from [i] on; [detO] is the last determinant. *)
Fixpoint orient_f (p : list fpt) (detO : spec_float) : spec_float :=
  if isclose0_f detO then
    match p with
    | a :: ((b :: c :: _ :: _) as t) => orient_f t (det3_f a b c)
    | _ => detO
    end
  else detO.
(** geodata.py:845-862. *)
Definition is_path_ccw_f (p : list fpt) : res bool :=
  let detO := orient_f p f_0 in
  if isclose0_f detO then Raise RuntimeError else Ok (SFltb f_0 detO).
End Det.
