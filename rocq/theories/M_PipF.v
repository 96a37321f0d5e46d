(** Model of the compiled point-in-polygon kernel (oceanmesh/geometry/point_in_polygon_.pyx:16-138) on IEEE doubles.
    M_Inpoly has the same kernel on exact rationals.  A C compiler that fuses multiplications and additions would
    round differently; no fusing is assumed. *)
From Coq Require Import List Arith Bool ZArith SpecFloat.
From Verif Require Import M_Base M_FixMesh M_CutF M_LapF.
Import ListNotations.

(** One polygon edge with its end points looked up (pyx:101-106): n[e[j, 0]], n[e[j, 1]]. *)
Notation fseg := (fpoint * fpoint)%type.
(** The constant of pyx:126. *)
Definition f_1em16 : spec_float := S754_finite false 8112963841460668 (-106).
(** pyx:66-76 and 97: the vertical range and the quick check. *)
Definition pf_skip (ftol : spec_float) (q : fpoint) (s : fseg) : bool :=
  let '((x0, y0), (x1, y1)) := s in
  let eymin := if SFltb y0 y1 then y0 else y1 in
  let eymax := if SFltb y0 y1 then y1 else y0 in
  SFltb (snd q) (fsub eymin ftol) || SFltb (fadd eymax ftol) (snd q).
(** pyx:108-121: the boundary check. *)
Definition pf_param (q : fpoint) (s : fseg) : spec_float :=
  let '((x0, y0), (x1, y1)) := s in
  let dx := fsub x1 x0 in let dy := fsub y1 y0 in
  fdiv (fadd (fmul (fsub (fst q) x0) dx) (fmul (fsub (snd q) y0) dy)) (fadd (fmul dx dx) (fmul dy dy)).
Definition pf_boundary (ftol : spec_float) (q : fpoint) (s : fseg) : bool :=
  let '((x0, y0), (x1, y1)) := s in
  let dx := fsub x1 x0 in let dy := fsub y1 y0 in
  if negb (SFeqb dx f_zero) || negb (SFeqb dy f_zero) then
    let t := pf_param q s in
    if SFleb f_zero t && SFleb t f_one then
      let projx := fadd x0 (fmul t dx) in
      let projy := fadd y0 (fmul t dy) in
      SFleb (fadd (SFabs (fsub (fst q) projx)) (SFabs (fsub (snd q) projy))) ftol
    else false
  else false.
(** pyx:123-128: the crossing. *)
Definition pf_xints (q : fpoint) (s : fseg) : spec_float :=
  let '((x0, y0), (x1, y1)) := s in
  let dx := fsub x1 x0 in let dy := fsub y1 y0 in
  fadd x0 (fmul (fsub (snd q) y0) (fdiv dx (if SFeqb dy f_zero then f_1em16 else dy))).
Definition pf_crossing (q : fpoint) (s : fseg) : bool :=
  let '((x0, y0), (x1, y1)) := s in
  if (SFleb y0 (snd q) && SFltb (snd q) y1) || (SFleb y1 (snd q) && SFltb (snd q) y0) then SFltb (fst q) (pf_xints q s) else false.
(** pyx:95-128: the loop over the edges; [None]: left by the break with on_bnd set. *)
Fixpoint pf_loop (ftol : spec_float) (q : fpoint) (segs : list fseg) (inside : bool) : option bool :=
  match segs with
  | [] => Some inside
  | s :: r =>
      if pf_skip ftol q s then pf_loop ftol q r inside
      else if pf_boundary ftol q s then None
      else pf_loop ftol q r (if pf_crossing q s then negb inside else inside)
  end.
(** isfinite of the C library (pyx:11). *)
Definition isfinite_f (x : spec_float) : bool := match x with S754_zero _ | S754_finite _ _ _ => true | _ => false end.
(** pyx:84-134: one query; (stat, bnds).  Queries that are not finite stay (False, False). *)
Definition pf_point (ftol : spec_float) (segs : list fseg) (q : fpoint) : bool * bool :=
  if isfinite_f (fst q) && isfinite_f (snd q) then
    match pf_loop ftol q segs false with None => (true, true) | Some i => (i, false) end
  else (false, false).
(** pyx:16-138.  The caller has checked the indices (point_in_polygon.py:125-129). *)
Definition pf_lookup (node : list fpoint) (e : nat * nat) : fseg := (row_f node (fst e), row_f node (snd e)).
Definition inpoly_fast_f (ftol : spec_float) (node : list fpoint) (edge : list (nat * nat)) (vert : list fpoint) : list (bool * bool) :=
  map (pf_point ftol (map (pf_lookup node) edge)) vert.
