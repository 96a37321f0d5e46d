(** Model of oceanmesh/geometry/point_in_polygon.py and point_in_polygon_.pyx over exact rationals. *)
From Coq Require Import List Arith Bool ZArith QArith Qabs.
From Verif Require Import M_Base M_Sdf.
Import ListNotations.
Open Scope Q_scope.

Definition xy : Type := (Q * Q)%type.
(** One polygon edge with its end points looked up: node[edge[k,0]], node[edge[k,1]]. *)
Definition seg : Type := (xy * xy)%type.

Definition Qltb (a b : Q) : bool := negb (Qle_bool b a).

(** point_in_polygon.py:275-312, the body of the loop over edges: does edge k put the query on the
    boundary, and does it add a crossing (when the loop is not left before)? *)
Definition rc_skip (ftol : Q) (q : xy) (s : seg) : bool :=
  let '((x1, y1), (x2, y2)) := s in
  Qltb (snd q) (npmin y1 y2 - ftol) || Qltb (npmax y1 y2 + ftol) (snd q).
Definition rc_boundary (ftol : Q) (q : xy) (s : seg) : bool :=
  let '((x1, y1), (x2, y2)) := s in
  let vx := x2 - x1 in let vy := y2 - y1 in
  let wx := fst q - x1 in let wy := snd q - y1 in
  let seg_len2 := vx * vx + vy * vy in
  if Qltb 0 seg_len2 then
    let cross := vx * wy - vy * wx in
    let dist2 := (cross * cross) / seg_len2 in
    if Qle_bool dist2 (ftol * ftol) then
      let dot := vx * wx + vy * wy in
      Qle_bool (- ftol) dot && Qle_bool dot (seg_len2 + ftol)
    else false
  else false.
Definition rc_crossing (ftol : Q) (q : xy) (s : seg) : bool :=
  let '((x1, y1), (x2, y2)) := s in
  if Qle_bool (Qabs (y2 - y1)) ftol then false
  else if xorb (Qltb (snd q) y1) (Qltb (snd q) y2) then
    let x_int := x1 + (snd q - y1) * (x2 - x1) / (y2 - y1) in
    Qltb (fst q) x_int
  else false.
(** Lines 268-312: the loop; [None] means it was left by the break with on_boundary set. *)
Fixpoint rc_loop (ftol : Q) (q : xy) (segs : list seg) (crossings : nat) : option nat :=
  match segs with
  | [] => Some crossings
  | s :: r =>
      if rc_skip ftol q s then rc_loop ftol q r crossings
      else if rc_boundary ftol q s then None
      else rc_loop ftol q r (if rc_crossing ftol q s then S crossings else crossings)
  end.
(** Lines 314-318: (inside, bnds) of one candidate. *)
Definition rc_point (ftol : Q) (segs : list seg) (q : xy) : bool * bool :=
  match rc_loop ftol q segs 0 with
  | None => (true, true)
  | Some c => (Nat.eqb (Nat.modulo c 2) 1, false)
  end.

(** Lines 243-257: global bounding box of the edge end points and the quick reject. *)
Definition seg_xs (segs : list seg) : list Q := flat_map (fun s => [fst (fst s); fst (snd s)]) segs.
Definition seg_ys (segs : list seg) : list Q := flat_map (fun s => [snd (fst s); snd (snd s)]) segs.
Definition lmin (l : list Q) : Q := match l with [] => 0 | x :: r => fold_left npmin r x end.
Definition lmax (l : list Q) : Q := match l with [] => 0 | x :: r => fold_left npmax r x end.
Definition in_bbox (ftol : Q) (segs : list seg) (q : xy) : bool :=
  Qle_bool (lmin (seg_xs segs) - ftol) (fst q) && Qle_bool (fst q) (lmax (seg_xs segs) + ftol) &&
  Qle_bool (lmin (seg_ys segs) - ftol) (snd q) && Qle_bool (snd q) (lmax (seg_ys segs) + ftol).

(** Edge end points; the indices were checked by the caller (lines 125-129). *)
Definition lookup (node : list xy) (e : nat * nat) : seg := (nth (fst e) node (0, 0), nth (snd e) node (0, 0)).

(** point_in_polygon.py:213-320 _inpoly_raycasting. *)
Definition inpoly_raycasting (ftol : Q) (node : list xy) (edge : list (nat * nat)) (vert : list xy) : list (bool * bool) :=
  let segs := map (lookup node) edge in
  if (match edge with [] => true | _ => false end) || Nat.ltb (length node) 3 || (match vert with [] => true | _ => false end)
  then map (fun _ => (false, false)) vert
  else map (fun q => if in_bbox ftol segs q then rc_point ftol segs q else (false, false)) vert.

(** point_in_polygon_.pyx:69-134 the compiled kernel: boundary test and crossing of one edge. *)
Definition fk_skip (ftol : Q) (q : xy) (s : seg) : bool :=
  let '((x0, y0), (x1, y1)) := s in
  let eymin := if Qltb y0 y1 then y0 else y1 in
  let eymax := if Qltb y0 y1 then y1 else y0 in
  Qltb (snd q) (eymin - ftol) || Qltb (eymax + ftol) (snd q).
Definition fk_boundary (ftol : Q) (q : xy) (s : seg) : bool :=
  let '((x0, y0), (x1, y1)) := s in
  let dx := x1 - x0 in let dy := y1 - y0 in
  if negb (Qeq_bool dx 0) || negb (Qeq_bool dy 0) then
    let t := ((fst q - x0) * dx + (snd q - y0) * dy) / (dx * dx + dy * dy) in
    if Qle_bool 0 t && Qle_bool t 1 then
      let projx := x0 + t * dx in
      let projy := y0 + t * dy in
      Qle_bool (Qabs (fst q - projx) + Qabs (snd q - projy)) ftol
    else false
  else false.
Definition fk_crossing (q : xy) (s : seg) : bool :=
  let '((x0, y0), (x1, y1)) := s in
  let dx := x1 - x0 in let dy := y1 - y0 in
  if (Qle_bool y0 (snd q) && Qltb (snd q) y1) || (Qle_bool y1 (snd q) && Qltb (snd q) y0) then
    let xints := x0 + (snd q - y0) * (dx / (if Qeq_bool dy 0 then 1 # 10000000000000000 else dy)) in
    Qltb (fst q) xints
  else false.
Fixpoint fk_loop (ftol : Q) (q : xy) (segs : list seg) (inside : bool) : option bool :=
  match segs with
  | [] => Some inside
  | s :: r =>
      if fk_skip ftol q s then fk_loop ftol q r inside
      else if fk_boundary ftol q s then None
      else fk_loop ftol q r (if fk_crossing q s then negb inside else inside)
  end.
Definition fk_point (ftol : Q) (segs : list seg) (q : xy) : bool * bool :=
  match fk_loop ftol q segs false with None => (true, true) | Some i => (i, false) end.
(** point_in_polygon_.pyx:16-138 inpoly2_fast on finite queries. *)
Definition inpoly_fast (ftol : Q) (node : list xy) (edge : list (nat * nat)) (vert : list xy) : list (bool * bool) :=
  map (fk_point ftol (map (lookup node) edge)) vert.

(** point_in_polygon.py:114-119: consecutive nodes and the closing edge. *)
Definition ring_edges (m : nat) : list (nat * nat) := combine (seq 0 m) (seq 1 (m - 1) ++ [0%nat]).

(** point_in_polygon.py:75-181 inpoly2, with the chosen kernel as argument (the compiled kernel, or the
    ray caster; the Shapely and Matplotlib backends are in M_Rings).  Queries may be non-finite; nodes
    are finite.  Edge indices are integers and are checked. *)
Definition to_xy (p : pt) : xy := match p with (Fin x, Fin y) => (x, y) | _ => (0, 0) end.
Definition inpoly2 (kernel : Q -> list xy -> list (nat * nat) -> list xy -> list (bool * bool))
    (ftol : Q) (node : list xy) (edge : option (list (Z * Z))) (vert : list pt) : res (list bool * list bool) :=
  let zeros := repeat false (length vert) in
  match node with
  | [] => Ok (zeros, zeros)
  | _ =>
      let m := length node in
      let run (edges : list (nat * nat)) :=
        let mask := finite_mask vert in
        if existsb (fun b => b) mask then
          let r := kernel ftol node edges (map to_xy (mask_select mask vert)) in
          let! s := mask_assign zeros mask (map fst r) in
          let! b := mask_assign zeros mask (map snd r) in
          Ok (s, b)
        else Ok (zeros, zeros) in
      match edge with
      | None => if Nat.ltb m 2 then Ok (zeros, zeros) else run (ring_edges m)
      | Some es =>
          if forallb (fun e => (0 <=? fst e)%Z && (0 <=? snd e)%Z && (fst e <? Z.of_nat m)%Z && (snd e <? Z.of_nat m)%Z) es
          then run (map (fun e => (Z.to_nat (fst e), Z.to_nat (snd e))) es)
          else Raise ValueError
      end
  end.
