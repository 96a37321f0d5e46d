(** Specification vocabulary for lengths of rings of doubles, independent of the model. *)
From Coq Require Import List Arith ZArith Reals SpecFloat Permutation.
From Verif Require Import S_Double S_Ieee S_AreaF.
Import ListNotations.
Open Scope R_scope.

(** What np.sum may answer: the numbers added in any order and grouping, with zeros added. *)
Inductive added : list spec_float -> spec_float -> Prop :=
  | add_one x : added [x] x
  | add_app l m v w : added l v -> added m w -> added (l ++ m) (SFadd 53 1024 v w)
  | add_zero l v : added l v -> added l (SFadd 53 1024 v (S754_zero false))
  | add_order l m v : added l v -> Permutation l m -> added m v.
Definition sum_contract (sum : list spec_float -> spec_float) : Prop := sum [] = S754_zero false /\ forall l, l <> [] -> added l (sum l).
(** Distance, and the length of the closed line through the points. *)
Definition distance (p q : spec_float * spec_float) : R := sqrt ((val (fst p) - val (fst q)) ^ 2 + (val (snd p) - val (snd q)) ^ 2).
Definition perimeter (l : list (spec_float * spec_float)) : R := ring_sum distance l.
(** The edge from the last point to the first. *)
Definition closing (l : list (spec_float * spec_float)) : R := match l with [] => 0 | a :: _ => distance a (last l a) end.
Definition length_error (l : list (spec_float * spec_float)) : R := (2 * INR (length l) + 10) * u * perimeter l + (INR (length l) + 1) * / 2 ^ 500.
(** Whether two numbers pass as equal: at most 1e-8 and 1e-5 of the second apart, exactly or up to the roundings. *)
Definition apart (a b : spec_float) : Prop := / 10 ^ 8 * (1 + / 2 ^ 20) + / 10 ^ 5 * (1 + / 2 ^ 20) * Rabs (val b) < Rabs (val a - val b).
