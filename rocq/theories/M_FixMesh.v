(** Model of oceanmesh/fix_mesh.py (dim = 2). *)
From Coq Require Import List Arith Bool ZArith QArith Qround Qminmax Qabs.
From Verif Require Import M_Base M_Numpy M_Edges.
Import ListNotations.

(** One row of the vertex array.  Coordinates are exact rationals: rounding errors of doubles are
    not modelled in this file. *)
Notation point := (Q * Q)%type.

(** np.round to zero decimals: nearest integer, ties to even (used in fix_mesh.py:55). *)
Definition round_half_even (q : Q) : Z :=
  let f := Qfloor q in
  match Qcompare (q - inject_Z f) (1 # 2) with
  | Lt => f
  | Gt => (f + 1)%Z
  | Eq => if Z.even f then f else (f + 1)%Z
  end.

(** p.max(0), p.min(0) on one column; callers pass a non-empty column. *)
Definition col_max (l : list Q) : Q := match l with [] => 0 | x :: r => fold_left Qmax r x end.
Definition col_min (l : list Q) : Q := match l with [] => 0 | x :: r => fold_left Qmin r x end.

(** fix_mesh.py:54: (p.max(0) - p.min(0)).max() * ptol. *)
Definition snap_size (p : list point) (ptol : Q) : Q :=
  Qmax (col_max (map fst p) - col_min (map fst p)) (col_max (map snd p) - col_min (map snd p)) * ptol.

(** fix_mesh.py:55: the row np.round(p / snap) * snap.  For snap <> 0 multiplication by snap is
    injective, so the row is represented by the two integers before it.  For snap = 0 the division
    gives inf or nan and the product nan in every entry; all rows then have the same bytes, here
    the constant row. *)
Definition snap_key (snap : Q) (x : point) : Z * Z :=
  if Qeq_bool snap 0 then (0%Z, 0%Z)
  else (round_half_even (fst x / snap), round_half_even (snd x / snap)).
Definition key_eqb (k l : Z * Z) : bool := (Z.eqb (fst k) (fst l) && Z.eqb (snd k) (snd l))%bool.

(** np.sort(t, axis=1) on one row, fix_mesh.py:61. *)
Definition sort_tri (t : tri) : tri :=
  let '(a, b, c) := t in
  match isort Nat.leb [a; b; c] with
  | [x; y; z] => (x, y, z)
  | _ => t
  end.
Definition tri_eqb (t s : tri) : bool :=
  let '(a, b, c) := t in let '(x, y, z) := s in (a =? x) && (b =? y) && (c =? z).
(** Order of the byte views of integer rows, unique_rows (fix_mesh.py:100). *)
Definition tri_leb (t s : tri) : bool :=
  let '(a, b, c) := t in let '(x, y, z) := s in row_leb [a; b; c] [x; y; z].

Definition tri_vertices (t : tri) : list nat := let '(a, b, c) := t in [a; b; c].
Definition map_tri (f : nat -> nat) (t : tri) : tri := let '(a, b, c) := t in (f a, f b, f c).

(** fix_mesh.py:119-143 simp_vol, branch dim == 2. *)
Definition simp_vol1 (p : list point) (t : tri) : Q :=
  let '(a, b, c) := t in
  let '(xa, ya) := nth a p (0, 0) in
  let '(xb, yb) := nth b p (0, 0) in
  let '(xc, yc) := nth c p (0, 0) in
  ((xb - xa) * (yc - ya) - (yb - ya) * (xc - xa)) / 2.
Definition simp_vol (p : list point) (ts : list tri) : list Q := map (simp_vol1 p) ts.

(** fix_mesh.py:71-72: swap the first two columns where the signed area is negative. *)
Definition flip_tri (neg : bool) (t : tri) : tri := if neg then let '(a, b, c) := t in (b, a, c) else t.

(** fix_mesh.py:34-74 fix_mesh, for any number type: [snap_row p x] is the rounded row of line 55 for
    the row [x] of [p], [kleb]/[keqb] the order and equality of the bytes of such rows, [neg p t] is
    simp_vol(p, t) < 0.  p.max(0) raises on an empty array; indexing out of range raises.
    Returned: points, connectivity and the third value [jx]. *)
Definition fix_mesh_gen {P K : Type} (dp : P) (snap_row : list P -> P -> K)
    (kleb keqb : K -> K -> bool) (neg : list P -> tri -> bool)
    (p : list P) (ts : list tri) (delete_unused : bool) : res (list P * list tri * list nat) :=
  match p with
  | [] => Raise ValueError
  | _ =>
      let '(_, ix, jx) := unique_full kleb keqb (map (snap_row p) p) in
      let p1 := take dp p ix in
      if forallb (fun t => forallb (fun v => v <? length jx) (tri_vertices t)) ts then
        let t1 := map (map_tri (fun v => nth v jx 0%nat)) ts in
        let t2 := unique tri_leb tri_eqb (map sort_tri t1) in
        let '(p2, t3, jx2) :=
          if delete_unused then
            let flat := flat_map tri_vertices t2 in
            let '(pix, _, inv) := unique_full Nat.leb Nat.eqb flat in
            (take dp p1 pix, map (map_tri (fun v => index_of Nat.eqb v pix)) t2, inv)
          else (p1, t2, jx) in
        Ok (p2, map (fun t => flip_tri (neg p2 t) t) t3, jx2)
      else Raise IndexError
  end.

(** fix_mesh.py:34-74 in exact arithmetic; [kleb] is the byte order of the rounded coordinate rows
    (the theorems hold for any total order). *)
Definition fix_mesh (kleb : Z * Z -> Z * Z -> bool) (ptol : Q) (p : list point) (ts : list tri)
    (delete_unused : bool) : res (list point * list tri * list nat) :=
  fix_mesh_gen (0, 0) (fun p => snap_key (snap_size p ptol)) kleb key_eqb
    (fun p t => negb (Qle_bool 0 (simp_vol1 p t))) p ts delete_unused.

(** * The same function on IEEE binary64 (Coq's executable specification SpecFloat).  Inputs are
    finite numbers; the handling of nan by np.max is not modelled. *)
From Coq Require Import SpecFloat.
Notation fpoint := (spec_float * spec_float)%type.
Definition fprec : Z := 53.
Definition femax : Z := 1024.
Definition fadd := SFadd fprec femax.
Definition fsub := SFsub fprec femax.
Definition fmul := SFmul fprec femax.
Definition fdiv := SFdiv fprec femax.
Definition fmax (a b : spec_float) : spec_float := if SFltb a b then b else a.
Definition fmin (a b : spec_float) : spec_float := if SFltb b a then b else a.
Definition fcol (op : spec_float -> spec_float -> spec_float) (l : list spec_float) : spec_float :=
  match l with [] => S754_nan | x :: r => fold_left op r x end.

(** np.round of a double (C rint): ties to even, the sign of a zero result is the sign of the
    argument. *)
Definition f_rint (x : spec_float) : spec_float :=
  match x with
  | S754_finite s m e =>
      if Z.leb 0 e then x
      else
        let d := (2 ^ (- e))%Z in
        let q := (Z.pos m / d)%Z in
        let r := (Z.pos m mod d)%Z in
        let z := match Z.compare (2 * r) d with
                 | Lt => q
                 | Gt => (q + 1)%Z
                 | Eq => if Z.even q then q else (q + 1)%Z
                 end in
        if Z.eqb z 0 then S754_zero s else binary_normalize fprec femax (cond_Zopp s z) 0 s
  | _ => x
  end.

(** The 64 bits of a double as an integer (numpy's byte view, unique_rows, fix_mesh.py:96-100). *)
Definition bits64 (x : spec_float) : Z :=
  let sg (s : bool) := (if s then 2 ^ 63 else 0)%Z in
  match x with
  | S754_zero s => sg s
  | S754_infinity s => (sg s + 2047 * 2 ^ 52)%Z
  | S754_nan => (2 ^ 63 + 2047 * 2 ^ 52 + 2 ^ 51)%Z
  | S754_finite s m e =>
      if Z.ltb (Z.pos m) (2 ^ 52) then (sg s + Z.pos m)%Z
      else (sg s + (e + 1075) * 2 ^ 52 + (Z.pos m - 2 ^ 52))%Z
  end.

(** fix_mesh.py:54-55 in doubles. *)
Definition fsnap_size (p : list fpoint) (ptol : spec_float) : spec_float :=
  fmul (fmax (fsub (fcol fmax (map fst p)) (fcol fmin (map fst p)))
             (fsub (fcol fmax (map snd p)) (fcol fmin (map snd p)))) ptol.
Definition fsnap_row (ptol : spec_float) (p : list fpoint) (x : fpoint) : Z * Z :=
  let snap := fsnap_size p ptol in
  (bits64 (fmul (f_rint (fdiv (fst x) snap)) snap), bits64 (fmul (f_rint (fdiv (snd x) snap)) snap)).

(** fix_mesh.py:71 with simp_vol (fix_mesh.py:133-135) in doubles. *)
Definition ftwo : spec_float := S754_finite false 4503599627370496 (-51).
Definition fneg_vol (p : list fpoint) (t : tri) : bool :=
  let '(a, b, c) := t in
  let pt i := nth i p (S754_nan, S754_nan) in
  let d x y := (fsub (fst x) (fst y), fsub (snd x) (snd y)) in
  let d01 := d (pt b) (pt a) in
  let d02 := d (pt c) (pt a) in
  SFltb (fdiv (fsub (fmul (fst d01) (snd d02)) (fmul (snd d01) (fst d02))) ftwo) (S754_zero false).

Definition fix_mesh_f (kleb : Z * Z -> Z * Z -> bool) (ptol : spec_float) (p : list fpoint)
    (ts : list tri) (delete_unused : bool) : res (list fpoint * list tri * list nat) :=
  fix_mesh_gen (S754_nan, S754_nan) (fsnap_row ptol) kleb key_eqb fneg_vol p ts delete_unused.
