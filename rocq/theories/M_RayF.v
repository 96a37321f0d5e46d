(** Model of the python ray caster (oceanmesh/geometry/point_in_polygon.py:213-320 _inpoly_raycasting) on IEEE doubles.
    M_Inpoly has the same function on exact rationals, M_PipF the compiled kernel on doubles. *)
From Coq Require Import List Arith Bool ZArith SpecFloat.
From Verif Require Import M_Base M_FixMesh M_CutF M_LapF M_PipF M_SizeF.
Import ListNotations.

(** numpy's minimum and maximum, in which a nan wins (point_in_polygon.py:265-266; also the step of x1.min(), line 244). *)
Definition np_min_f (a b : spec_float) : spec_float := if is_nan_f a || SFltb a b then a else b.
Definition np_max_f (a b : spec_float) : spec_float := if is_nan_f a || SFltb b a then a else b.
(** x1.min() and x1.max() (lines 244-247); an empty list is excluded by line 231. *)
Definition amin_f (l : list spec_float) : spec_float := match l with [] => f_zero | x :: r => fold_left np_min_f r x end.
Definition amax_l (l : list spec_float) : spec_float := match l with [] => f_zero | x :: r => fold_left np_max_f r x end.
(** The builtin min and max of two values (lines 244-247): the second one only if it is strictly beyond the first. *)
Definition py_min_f (a b : spec_float) : spec_float := if SFltb b a then b else a.
Definition py_max_f (a b : spec_float) : spec_float := if SFltb a b then b else a.
(** Lines 237-247: the box of all edge ends. *)
Definition box_low (c : fpoint -> spec_float) (segs : list fseg) : spec_float :=
  py_min_f (amin_f (map (fun s => c (fst s)) segs)) (amin_f (map (fun s => c (snd s)) segs)).
Definition box_high (c : fpoint -> spec_float) (segs : list fseg) : spec_float :=
  py_max_f (amax_l (map (fun s => c (fst s)) segs)) (amax_l (map (fun s => c (snd s)) segs)).
(** Lines 250-255: the quick reject; px >= b is SFleb b px. *)
Definition in_bbox_f (ftol : spec_float) (segs : list fseg) (q : fpoint) : bool :=
  SFleb (fsub (box_low fst segs) ftol) (fst q) && SFleb (fst q) (fadd (box_high fst segs) ftol) &&
  SFleb (fsub (box_low snd segs) ftol) (snd q) && SFleb (snd q) (fadd (box_high snd segs) ftol).
(** Lines 265-266 and 274-279: the vertical range of an edge and the quick reject. *)
Definition rf_skip (ftol : spec_float) (q : fpoint) (s : fseg) : bool :=
  let '((x1, y1), (x2, y2)) := s in
  SFltb (snd q) (fsub (np_min_f y1 y2) ftol) || SFltb (fadd (np_max_f y1 y2) ftol) (snd q).
(** Lines 287-301: is the query on the edge within the tolerance? *)
Definition rf_boundary (ftol : spec_float) (q : fpoint) (s : fseg) : bool :=
  let '((x1, y1), (x2, y2)) := s in
  let vx := fsub x2 x1 in let vy := fsub y2 y1 in
  let wx := fsub (fst q) x1 in let wy := fsub (snd q) y1 in
  let seg_len2 := fadd (fmul vx vx) (fmul vy vy) in
  if SFltb f_zero seg_len2 then
    let cross := fsub (fmul vx wy) (fmul vy wx) in
    let dist2 := fdiv (fmul cross cross) seg_len2 in
    if SFleb dist2 (fmul ftol ftol) then
      let dot := fadd (fmul vx wx) (fmul vy wy) in
      SFleb (SFopp ftol) dot && SFleb dot (fadd seg_len2 ftol)
    else false
  else false.
(** Lines 306-313: does the edge count as crossed?  The division is by a number of absolute value above ftol. *)
Definition rf_crossing (ftol : spec_float) (q : fpoint) (s : fseg) : bool :=
  let '((x1, y1), (x2, y2)) := s in
  if SFleb (SFabs (fsub y2 y1)) ftol then false
  else if xorb (SFltb (snd q) y1) (SFltb (snd q) y2) then
    SFltb (fst q) (fadd x1 (fdiv (fmul (fsub (snd q) y1) (fsub x2 x1)) (fsub y2 y1)))
  else false.
(** Lines 269-313: the loop over the edges; [None]: left by the break with on_boundary set. *)
Fixpoint rf_loop (ftol : spec_float) (q : fpoint) (segs : list fseg) (crossings : nat) : option nat :=
  match segs with
  | [] => Some crossings
  | s :: r =>
      if rf_skip ftol q s then rf_loop ftol q r crossings
      else if rf_boundary ftol q s then None
      else rf_loop ftol q r (if rf_crossing ftol q s then S crossings else crossings)
  end.
(** Lines 315-319: (inside, bnds) of a candidate; the others keep (False, False) (lines 228-229). *)
Definition rf_point (ftol : spec_float) (segs : list fseg) (q : fpoint) : bool * bool :=
  if in_bbox_f ftol segs q then
    match rf_loop ftol q segs 0 with
    | None => (true, true)
    | Some c => (Nat.eqb (Nat.modulo c 2) 1, false)
    end
  else (false, false).
(** Lines 213-321; the caller has checked the indices (lines 125-129). *)
Definition inpoly_ray_f (ftol : spec_float) (node : list fpoint) (edge : list (nat * nat)) (vert : list fpoint) : list (bool * bool) :=
  if (match edge with [] => true | _ => false end) || Nat.ltb (length node) 3 || (match vert with [] => true | _ => false end)
  then map (fun _ => (false, false)) vert
  else map (rf_point ftol (map (pf_lookup node) edge)) vert.
