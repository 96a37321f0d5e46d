(** Model of Shoreline._read and Shoreline.transform_to (oceanmesh/geodata.py:1055-1131).  Files, geopandas' reprojection and pyproj's
    comparison are parameters. *)
From Coq Require Import List Arith Bool ZArith QArith.
From Verif Require Import M_Base M_Shore M_Clip.
Import ListNotations.
Open Scope Q_scope.

(** Geometries of a vector file.  [z]: the vertices have a third coordinate, which plays no part but for its presence.  A multi-part geometry is a
    collection.  Null geometries are dropped by explode and left out here. *)
Inductive geom : Type :=
| GPoint (p : point)
| GLine (z : bool) (l : list point)
| GPoly (z : bool) (exterior : list point) (holes : list (list point))
| GColl (l : list geom).
(** g.bounds as (minx, maxx, miny, maxy) (lines 1096, 1100); nan for an empty geometry, here None.  GEOS takes the exterior of a polygon. *)
Fixpoint vertices (g : geom) : list point :=
  match g with GPoint p => [p] | GLine _ l => l | GPoly _ e _ => e | GColl l => flat_map vertices l end.
Definition bounds (g : geom) : option (Q * Q * Q * Q) :=
  match vertices g with [] => None | ps => Some (minQ (map fst ps), maxQ (map fst ps), minQ (map snd ps), maxQ (map snd ps)) end.
(** geopandas explode (line 1090): one level. *)
Definition explode (gs : list geom) : list geom := flat_map (fun g => match g with GColl l => l | _ => [g] end) gs.
(** Comparisons with nan are False. *)
Definition overlaps_box (b : Q * Q * Q * Q) (g : geom) : bool := match bounds g with Some c => is_overlapping b c | None => false end.
(** Lines 1102-1110: the rows of one part.  np.vstack of three and of two columns raises ValueError. *)
Definition read_part (g : geom) : res (list row) :=
  match g with
  | GLine z l => let! p := remove_dup l in if z then Raise ValueError else Ok (map Some p ++ [None])
  | GPoly _ e _ => let! p := remove_dup e in Ok (map Some p ++ [None])
  | _ => Raise ValueError
  end.
Section Read.
  (** CRS objects, their comparison, and gdf.to_crs (may raise). *)
  Variable crs : Type.
  Variable equals : crs -> crs -> bool.
  Variable to_crs : crs -> crs -> list geom -> res (list geom).
  (** Lines 1055-1064; a file without CRS has gdf.crs None, which has no method equals. *)
  Definition transform_to (native : option crs) (gs : list geom) (dst : crs) : res (list geom) :=
    match native with
    | None => Raise AttributeError
    | Some c => if equals c dst then Ok gs else to_crs c dst gs
    end.
  (** Lines 1066-1131 for a box of four numbers (the constructor stores a tuple always). *)
  Definition read (native : option crs) (gs : list geom) (dst : crs) (bbox : Q * Q * Q * Q) : res (list row) :=
    let! s := transform_to native gs dst in
    let! polys := mapM read_part (filter (overlaps_box bbox) (explode s)) in
    match polys with [] => Raise ValueError | _ => convert_to_array polys end.
End Read.
Arguments transform_to {crs}.
Arguments read {crs}.
