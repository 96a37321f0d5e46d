(** Model of _poly_length (oceanmesh/geodata.py:558-565) on IEEE doubles; the package never calls it. *)
From Coq Require Import List Arith Bool ZArith SpecFloat.
From Verif Require Import M_Base M_FixMesh M_QualF M_LimitF M_OrientF.
Import ListNotations.

(** The default rtol of np.isclose, 1e-5. *)
Definition f_1e5 : spec_float := S754_finite false 5902958103587057 (-69).
Definition finite_f (x : spec_float) : bool := match x with S754_zero _ | S754_finite _ _ _ => true | _ => false end.
(** np.isclose(a, b): |a - b| <= atol + rtol |b| with b finite, or a = b; false for nan. *)
Definition isclose_f (a b : spec_float) : bool :=
  finite_f b && SFleb (SFabs (fsub a b)) (fadd f_1e8 (fmul f_1e5 (SFabs b))) || SFeqb a b.
(** np.diff(c, axis=0), the squares, their sum and its root, row by row (geodata.py:565); M_QualF.length_f is the root. *)
Fixpoint steps_f (c : list fpt) : list spec_float :=
  match c with
  | a :: ((b :: _) as t) => length_f (fsub (fst b) (fst a), fsub (snd b) (snd a)) :: steps_f t
  | _ => []
  end.
Section Sum.
(** np.sum adds in blocks, so its order is a parameter. *)
Variable sum_f : list spec_float -> spec_float.
(** geodata.py:558-565. *)
Definition poly_length_f (coords : list fpt) : res spec_float :=
  match coords with
  | [] => Raise IndexError
  | a :: _ =>
      let z := last coords a in
      let c := if isclose_f (fst a) (fst z) && isclose_f (snd a) (snd z) then coords else coords ++ [a] in
      Ok (sum_f (steps_f c))
  end.
End Sum.
(** np.sum from left to right. *)
Definition sum_seq (l : list spec_float) : spec_float := match l with [] => S754_zero false | x :: r => fold_left fadd r x end.
