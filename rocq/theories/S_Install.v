(** Specification vocabulary for setup.py. *)
From Coq Require Import List Ascii String Bool.
Import ListNotations.
Open Scope string_scope.

(** What the sources define: file, name of the module, and functions or classes in it
    (HamiltonJacobi.cpp:201-210, delaunay_class.cpp:71-91, fast_geometry.cpp:99-101, point_in_polygon_.pyx:16). *)
Definition defined_in : list (string * string * list string) :=
  [("oceanmesh/cpp/HamiltonJacobi.cpp", "_HamiltonJacobi", ["gradient_limit"]);
   ("oceanmesh/cpp/delaunay_class.cpp", "_delaunay_class", ["Point"; "VertexHandle"; "DelaunayTriangulation"; "Vertex"; "Face"]);
   ("oceanmesh/cpp/fast_geometry.cpp", "_fast_geometry", ["unique_edges"])].
(** What the package imports from compiled modules, unconditionally (edgefx.py:10, mesh_generator.py:10-11). *)
Definition needed : list (string * string) :=
  [("_HamiltonJacobi", "gradient_limit"); ("_delaunay_class", "DelaunayTriangulation"); ("_fast_geometry", "unique_edges")].

(** Words of a text: non-empty, without white space, separated by white space.  White space is given as a test. *)
Inductive spells (space : ascii -> bool) : list ascii -> list (list ascii) -> Prop :=
| spells_nil : spells space [] []
| spells_space : forall c s ws, space c = true -> spells space s ws -> spells space (c :: s) ws
| spells_word : forall w s ws, w <> [] -> Forall (fun c => space c = false) w ->
    match s with [] => True | c :: _ => space c = true end -> spells space s ws -> spells space (w ++ s) (w :: ws).

(** The prefix a builder asks for: OCEANMESH_PREFIX, or CONDA_PREFIX when that is not set; an empty value counts as not set. *)
Definition given (v : option string) (p : string) : Prop := v = Some p /\ p <> "".
Definition not_given (v : option string) : Prop := v = None \/ v = Some "".
Definition asked (ocean conda : option string) (p : string) : Prop := given ocean p \/ (not_given ocean /\ given conda p).
Definition nothing_asked (ocean conda : option string) : Prop := not_given ocean /\ not_given conda.

(** Top-level packages imported by oceanmesh that are not in the standard library, and the distributions that hold them. *)
Definition imported : list (string * string) :=
  [("numpy", "numpy"); ("scipy", "scipy"); ("matplotlib", "matplotlib"); ("shapely", "shapely"); ("geopandas", "geopandas"); ("fiona", "fiona");
   ("pyproj", "pyproj"); ("rasterio", "rasterio"); ("affine", "affine"); ("xarray", "xarray"); ("skfmm", "scikit-fmm"); ("skimage", "scikit-image")].
(** The distribution a requirement names: what comes before a version. *)
Fixpoint dist_of (r : list ascii) : list ascii :=
  match r with [] => [] | c :: r' => if Ascii.eqb c ">" || Ascii.eqb c "<" || Ascii.eqb c "=" then [] else c :: dist_of r' end.

(** The path of an entry below a directory: a separator goes between, unless the directory's text ends in one. *)
Definition separates (win : bool) (c : ascii) : Prop := c = "/"%char \/ (win = true /\ (c = "\"%char \/ c = ":"%char)).
Definition below (win : bool) (dir entry path : string) : Prop :=
  (exists r c, dir = r ++ String c "" /\ separates win c /\ path = dir ++ entry) \/
  (exists r c, dir = r ++ String c "" /\ ~ separates win c /\ path = dir ++ (if win then "\" else "/") ++ entry).
(** The same text with slashes for backslashes. *)
Definition with_slashes (s t : string) : Prop := String.length t = String.length s /\ forall i, String.get i t = match String.get i s with Some c => Some (if Ascii.ascii_dec c "\" then "/"%char else c) | None => None end.
