(** Specification vocabulary for areas of rings of doubles, independent of the model. *)
From Coq Require Import List Arith ZArith Reals SpecFloat Permutation.
From Verif Require Import S_Double S_Ieee.
Import ListNotations.
Open Scope R_scope.

(** What a library may answer for a sum of products: products rounded and added in any order and grouping, with zeros added, or
    multiplied and added with a single rounding. *)
Inductive summed : list (spec_float * spec_float) -> spec_float -> Prop :=
  | sum_one x y : summed [(x, y)] (SFmul 53 1024 x y)
  | sum_app l m v w : summed l v -> summed m w -> summed (l ++ m) (SFadd 53 1024 v w)
  | sum_fused x y l v r : summed l v -> finite_double x -> finite_double y -> finite_double v -> finite_double r ->
      Rabs (val r - (val x * val y + val v)) <= u * Rabs (val x * val y + val v) + / 2 ^ 1075 -> summed ((x, y) :: l) r
  | sum_zero l v : summed l v -> summed l (SFadd 53 1024 v (S754_zero false))
  | sum_order l m v : summed l v -> Permutation l m -> summed m v.
Definition dot_contract (dot : list spec_float -> list spec_float -> spec_float) : Prop :=
  forall x y, length x = length y -> x <> [] -> summed (combine x y) (dot x y).
(** Around a ring: the sum of x_i y_(i-1) - y_i x_(i-1), and of the sizes of the products. *)
Fixpoint around (f : spec_float * spec_float -> spec_float * spec_float -> R) (before : spec_float * spec_float) (l : list (spec_float * spec_float)) : R :=
  match l with [] => 0 | p :: r => f p before + around f p r end.
Definition ring_sum f (l : list (spec_float * spec_float)) : R := around f (last l (S754_zero false, S754_zero false)) l.
Definition ring_area (l : list (spec_float * spec_float)) : R := Rabs (ring_sum (fun p q => val (fst p) * val (snd q) - val (snd p) * val (fst q)) l) / 2.
Definition ring_size (l : list (spec_float * spec_float)) : R := ring_sum (fun p q => Rabs (val (fst p) * val (snd q)) + Rabs (val (snd p) * val (fst q))) l.
(** Rounding of an area. *)
Definition area_error (l : list (spec_float * spec_float)) : R := (INR (length l) + 2) * u * ring_size l + / 2 ^ 1000.
Definition moderate_point (p : spec_float * spec_float) : Prop := finite_point p /\ Rabs (val (fst p)) <= 2 ^ 400 /\ Rabs (val (snd p)) <= 2 ^ 400.
