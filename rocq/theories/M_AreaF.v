(** Model of _poly_area (oceanmesh/geodata.py:553-555) on IEEE doubles and of the test of small islands in stereographic regions
    (geodata.py:605-610).  M_Shore has the same functions on exact rationals. *)
From Coq Require Import List Arith Bool ZArith SpecFloat.
From Verif Require Import M_Base M_FixMesh M_QualF M_ForceF M_Shore.
Import ListNotations.

(** np.dot from left to right; BLAS may add in another order, so [dot] is a parameter below. *)
Definition dot_seq (x y : list spec_float) : spec_float :=
  match combine x y with
  | [] => f_0
  | (a, b) :: r => fold_left (fun s ab => fadd s (fmul (fst ab) (snd ab))) r (fmul a b)
  end.
Section Dot.
Variable dot_f : list spec_float -> list spec_float -> spec_float.
(** geodata.py:553-555. *)
Definition poly_area_f (x y : list spec_float) : spec_float :=
  fmul f_half (SFabs (fsub (dot_f x (roll1 y)) (dot_f y (roll1 x)))).
(** geodata.py:606-609: whether an island is kept. *)
Definition large_enough_f (areamin : spec_float) (ring : list (spec_float * spec_float)) : bool :=
  SFleb areamin (poly_area_f (map fst ring) (map snd ring)).
End Dot.
