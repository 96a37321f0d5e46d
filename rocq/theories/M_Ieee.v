(** Models on IEEE binary64 (SpecFloat) of functions whose results depend on rounding. *)
From Coq Require Import List ZArith SpecFloat.
From Verif Require Import M_Base M_FixMesh.
Import ListNotations.

(** np.minimum; the order of a tie (zeros of either sign) is numpy's. *)
Definition is_nan (x : spec_float) : bool := match x with S754_nan => true | _ => false end.
Definition np_minimum (a b : spec_float) : spec_float := if is_nan a then a else if is_nan b then b else if SFltb a b then a else b.
(** signed_distance_function.py:50-58 create_bbox's func at one point. *)
Definition bbox_f (x0 xN y0 yN px py : spec_float) : spec_float :=
  SFopp (np_minimum (np_minimum (np_minimum (fadd (SFopp y0) py) (fsub yN py)) (fadd (SFopp x0) px)) (fsub xN px)).

(** grid.py:205-206 create_vectors: x0 + np.arange(0, nx) * dx; the integers are converted to doubles. *)
Definition of_nat_f (k : nat) : spec_float := binary_normalize fprec femax (Z.of_nat k) 0 false.
Definition vector_f (x0 dx : spec_float) (n : nat) : list spec_float := map (fun k => fadd x0 (fmul (of_nat_f k) dx)) (seq 0 n).

(** signed_distance_function.py:28-40 create_circle.  [cosf] and [sinf] are math.cos and math.sin; fuel for the while loop. *)
Definition f_tenth : spec_float := S754_finite false 7205759403792794 (-56).
Definition f_two_pi : spec_float := S754_finite false 7074237752028440 (-50).
Section Circle.
  Variables cosf sinf : spec_float -> spec_float.
  Fixpoint circle_loop (fuel : nat) (cx cy radius t : spec_float) : res (list (spec_float * spec_float)) :=
    match fuel with
    | O => OutOfFuel
    | S k => if SFltb t f_two_pi
        then let! rest := circle_loop k cx cy radius (fadd t f_tenth) in
             Ok ((fadd (fmul radius (cosf t)) cx, fadd (fmul radius (sinf t)) cy) :: rest)
        else Ok []
    end.
  Definition create_circle (cx cy radius : spec_float) : res (list (spec_float * spec_float)) := circle_loop 100 cx cy radius (S754_zero false).
End Circle.

(** idw.py:96-101 with p = 1 and no weights: np.sum of fewer than eight numbers and np.dot add from left to right; fused multiply-add is not modelled. *)
Definition f_one : spec_float := S754_finite false 4503599627370496 (-52).
Definition sum_f (l : list spec_float) : spec_float := match l with [] => S754_zero false | x :: r => fold_left fadd r x end.
Definition idw_f (zs ds : list spec_float) : spec_float :=
  let w := map (fdiv f_one) ds in
  let s := sum_f w in
  let w := map (fun x => fdiv x s) w in
  sum_f (map (fun a => fmul (fst a) (snd a)) (combine w zs)).
