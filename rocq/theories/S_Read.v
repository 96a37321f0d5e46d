(** What reading a shoreline file is meant to do, stated without the model's functions. *)
From Coq Require Import List Arith Bool ZArith QArith.
From Verif Require Import S_Clip M_Read.
Import ListNotations.
Open Scope Q_scope.

(** The members with a property, in order. *)
Inductive picked {A} (P : A -> Prop) : list A -> list A -> Prop :=
| pk_end : picked P [] []
| pk_yes x l l' : P x -> picked P l l' -> picked P (x :: l) (x :: l')
| pk_no x l l' : ~ P x -> picked P l l' -> picked P (x :: l) l'.
Definition proper (b : Q * Q * Q * Q) : Prop := let '(x0, x1, y0, y1) := b in x0 < x1 /\ y0 < y1.
Definition box_in (b c : Q * Q * Q * Q) : Prop := forall p, in_box b p -> in_box c p.
(** The rectangle around the points [ps] meets the inside of the box. *)
Definition extent_meets (b : Q * Q * Q * Q) (ps : list (Q * Q)) : Prop :=
  exists e p, box_around ps e /\ strictly_in_box b p /\ in_box e p.
(** Outer outlines of lines, polygons and multi-part geometries of these. *)
Definition line_or_polygon (g : geom) (ps : list (Q * Q)) : Prop :=
  match g with GLine _ l => ps = l | GPoly _ e _ => ps = e | _ => False end.
Inductive outlines : list geom -> list (list (Q * Q)) -> Prop :=
| ol_end : outlines [] []
| ol_one g gs ps out : line_or_polygon g ps -> outlines gs out -> outlines (g :: gs) (ps :: out)
| ol_multi l gs pss out : Forall2 line_or_polygon l pss -> outlines gs out -> outlines (GColl l :: gs) (pss ++ out).
(** The parts of a file: those of a multi-part geometry each. *)
Inductive parts : list geom -> list geom -> Prop :=
| pa_end : parts [] []
| pa_one g gs out : (forall l, g <> GColl l) -> parts gs out -> parts (g :: gs) (g :: out)
| pa_multi l gs out : parts gs out -> parts (GColl l :: gs) (l ++ out).
(** Every point a geometry has, outside of interior rings. *)
Inductive has_vertex : geom -> Q * Q -> Prop :=
| hv_point p : has_vertex (GPoint p) p
| hv_line z l p : In p l -> has_vertex (GLine z l) p
| hv_poly z e h p : In p e -> has_vertex (GPoly z e h) p
| hv_coll l g p : In g l -> has_vertex g p -> has_vertex (GColl l) p.
Definition meets (b : Q * Q * Q * Q) (g : geom) : Prop := exists ps, (forall p, In p ps <-> has_vertex g p) /\ extent_meets b ps.
(** Lines without a third coordinate, and polygons. *)
Definition supported (g : geom) : Prop := match g with GLine false _ | GPoly _ _ _ => True | _ => False end.
Definition no_third (g : geom) : Prop :=
  match g with GLine z _ => z = false | GColl l => Forall (fun h => match h with GLine z _ => z = false | _ => True end) l | _ => True end.
(** The same geometry with other interior rings. *)
Inductive same_outside : geom -> geom -> Prop :=
| so_point p : same_outside (GPoint p) (GPoint p)
| so_line z l : same_outside (GLine z l) (GLine z l)
| so_poly z e h h' : same_outside (GPoly z e h) (GPoly z e h')
| so_coll l l' : Forall2 same_outside l l' -> same_outside (GColl l) (GColl l').
