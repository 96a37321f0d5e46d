(** Model of simp_qual (oceanmesh/fix_mesh.py) on IEEE doubles, with its rounding, infinities and nan. *)
From Coq Require Import List Arith ZArith SpecFloat.
From Verif Require Import M_Base M_FixMesh M_LimitF.
Import ListNotations.

Notation fpt := (spec_float * spec_float)%type.

(** fix_mesh.py:17-18 length of one row with two columns: p1**2 is np.square, sum(1) adds the two columns. *)
Definition length_f (v : fpt) : spec_float := fsqrt (fadd (fmul (fst v) (fst v)) (fmul (snd v) (snd v))).
(** fix_mesh.py:20-22: the difference of two rows of p. *)
Definition rsub_f (p q : fpt) : fpt := (fsub (fst p) (fst q), fsub (snd p) (snd q)).
(** The literal 0.5 of fix_mesh.py:29. *)
Definition f_half : spec_float := S754_finite false 4503599627370496 (-53).
(** fix_mesh.py:27 mult1, operations from left to right. *)
Definition mult1_f (a b c : spec_float) : spec_float :=
  fdiv (fmul (fmul (fsub (fadd b c) a) (fsub (fadd c a) b)) (fsub (fadd a b) c)) (fadd (fadd a b) c).
(** fix_mesh.py:28 denom1. *)
Definition denom1_f (a b c : spec_float) : spec_float :=
  fsqrt (fmul (fmul (fmul (fadd (fadd a b) c) (fsub (fadd b c) a)) (fsub (fadd c a) b)) (fsub (fadd a b) c)).
(** fix_mesh.py:27-31 from the three edge lengths. *)
Definition qual_of_lengths_f (a b c : spec_float) : spec_float :=
  let r := fmul f_half (mult1_f a b c) in
  let rr := fdiv (fmul (fmul a b) c) (denom1_f a b c) in
  fdiv (fmul ftwo r) rr.
(** fix_mesh.py:6-31 simp_qual, one row of t. *)
Definition tri_qual_f (p0 p1 p2 : fpt) : spec_float :=
  qual_of_lengths_f (length_f (rsub_f p1 p0)) (length_f (rsub_f p2 p0)) (length_f (rsub_f p2 p1)).
(** fix_mesh.py:6-31 all rows; an index out of range raises IndexError. *)
Definition simp_qual_f (p : list fpt) (t : list (nat * nat * nat)) : res (list spec_float) :=
  mapM (fun f => let '(i, j, k) := f in
    let! a := get p i in let! b := get p j in let! c := get p k in Ok (tri_qual_f a b c)) t.
