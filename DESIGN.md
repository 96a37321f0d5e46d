# Formal model of oceanmesh: design

Subject: the Python/C++ package in `/repo/oceanmesh` at the pinned commit, read as text only.
Prover: Rocq/Coq 8.16.1.  Sources in `rocq/theories`, logical name `Verif`.

## 1. Shape of the development

For each area there are up to four files.

* `M_<Area>.v`  the model: total, executable Gallina functions that mirror the code branch by
  branch.  Every definition has a comment with the file and lines it models, and says where
  it simplifies.  No proofs.
* `S_<Area>.v`  the specification: the few predicates the theorems are stated with, written
  without using the model's helper functions.
* `P_<Area>.v`  lemmas and proofs.
* `T_<Area>.v`  the property theorems only.  Each is closed by `exact`, followed by
  `Print Assumptions`, and by an `Example` showing that a concrete non-trivial input meets
  the hypotheses.

`Util.v` holds facts on lists that Coq's library lacks.  `M_Numpy.v` models the numpy
primitives in use (`unique`, `argsort`, `diff`, `delete`, fancy indexing).

## 2. Modelling decisions

* **Arrays** are lists; integer arrays are `list nat` or `list Z`; a mesh is a list of points and
  a list of triples.  Mutation is functional update; where the code mutates an argument the
  caller still holds, the model returns the new value of that argument as part of the result.
* **Numbers.**  Coordinates and sizes are exact: `Q` where the function only needs field
  operations and comparisons, `R` where it needs square roots or trigonometry.  Rounding
  errors of IEEE doubles are not modelled unless a property is about them.  C14, C145-C150, C156-C162, C168-C174, C182-C184, C197-C199, C202-C209 and C213-C216
  are, and use the `SpecFloat` binary64 of the standard library; `P_Double.v` ties its operations to real numbers rounded
  to nearest-even with Flocq (theorems only; Flocq adds no axiom).  NaN and infinities are modelled by explicit
  constructors in the functions whose behaviour on them is a property (C27, C29, C39).
* **Exceptions** are values (`option` or a result type with an error constructor).
* **Unspecified order** (numpy's unstable sort, hash order) and **random draws** are parameters
  of the model: the function takes the permutation or the list of draws, and the theorems hold
  for all of them.
* **External libraries** are parameters with the properties the theorem needs as explicit
  hypotheses of the theorem, never axioms: CGAL's triangulation (any face list), pyproj (any
  partial function), scipy's KD-tree (any function returning the k nearest), gaussian filter,
  RegularGridInterpolator, the user-supplied distance and sizing functions.
* **Loops** that are `while` loops in the code take fuel.  The theorem either shows that the
  fuel given suffices (termination) or says explicitly `= Some r`.

## 3. Trusted base

* Coq's kernel (and the `vm_compute` machine for witnesses).
* The correspondence between the model and the code, argued by the comments in `M_*.v`, with the
  parts listed in section 5.
* What `Print Assumptions` prints for each theorem.  `ASSUMPTIONS.md` lists it theorem by theorem
  (made by `tools/mkassume.py` from the compiler's output).  Everything outside the files that use real
  numbers is `Closed under the global context`.  Files on `R` use the standard library's axioms
  `ClassicalDedekindReals.sig_forall_dec`, `ClassicalDedekindReals.sig_not_dec`,
  `FunctionalExtensionality.functional_extensionality_dep` and, in some files,
  `Classical_Prop.classic`.  No other axiom is used.

## 4. Plan per property

| id | modelled | proof |
|----|----------|-------|
| C01 | `unique_edges`: pair ordering, sort, erase-duplicates | sort gives permutation, sortedness; set equality |
| C02 | `get_edges`, `get_boundary_edges` with row sort and counted unique | counting lemma on grouped lists |
| C03 | `get_winded_boundary_edges` as fuelled loop over a visited mask | measure on unvisited edges; invariant on the walk |
| C04 | same | in a 2-regular graph the walk cannot stop before closing; refutation with two loops |
| C05 | `_arg_sortrows`, `_face_to_face` with arbitrary sort permutation | adjacent-equal rows in a sorted list; multiplicity at most two |
| C06 | `_vertex_to_face` | pointer lemma for contiguous keys; refutation with a hanging node |
| C07 | `_depth_first_search` | invariant visited set is closed and reachable |
| C08 | `delete_exterior_faces` with a list of draws | loop invariant: kept = big components seen, rest = union of components |
| C09 | `delete_interior_faces` with quality as parameter | per-vertex case split |
| C10 | `make_mesh_boundaries_traversable` | parity of boundary degree, handshake sum, face count decreases |
| C11 | `delete_faces_connected_to_one_face` | measure on face count |
| C12, C13, C15 | `fix_mesh` over `Q` | lemmas on `unique` with index and inverse |
| C14 | snapping key in binary64 | computed witness |
| C16 | `simp_qual` over `R` | algebra; refutation; scaling law |
| C17 | `get_boundary_entities`, `delete_boundary_faces` | from C02, C06 |
| C18 | `laplacian2` over `Q`, stop decision a parameter | induction on sweeps, convex combination |
| C19-C23 | `c_gradient_limit` | invariant of the active-set loop; witness for C21 |
| C24-C27 | signed distance operations | max/min of lists |
| C28-C30 | `_inpoly_raycasting`, `inpoly2_fast` over `Q` | per-edge equivalence, parity of crossings |
| C31 | `get_poly_edges` | chain lemma; witness |
| C32 | `identify_ocean_boundary_sections` | loop characterisation; witnesses |
| C33, C34 | writers to strings, decimal printing | parser round trip; witness |
| C35, C36 | `_compute_forces`, `generate_mesh` loop | sum exchange; loop invariant |
| C37, C38, C52 | `Grid` | witness; convex combination |
| C39 | `enforce_mesh_size_bounds_elevation` | induction on bounds |
| C40, C42 | `region.py` | case analysis |
| C41 | projection over `R` | trigonometry |
| C43-C49 | `geodata.py` helpers | list induction |
| C50, C51 | validation and keyword flow | case analysis; `T_Validate2`: which messages appear for which domains, against a specification of the defects that does not use the model's loops |
| C53 | `_earth_gradient` | field arithmetic |
| C54 | wrapper as a state machine over vertex handles | invariant |
| C55 | `make_mesh_boundaries_traversable` with draws | witness of a mesh with small components only; characterisation of failure; success for plane meshes of n faces and fractions below 1/n: signed area of the directed sides gives a boundary, the largest face gives a large component, the last face in the order of removal survives |
| C56 | `mesh_clean` as the composition of its steps | the steps' theorems composed; with smoothing only what smoothing keeps; a mesh that smoothing folds |
| C57 | `c_gradient_limit` | the limiter never goes below any admissible field: invariant |
| C58-C60 | `signed_distance_function`, domain combinations, `multiscale_...` | sign case analysis; box inclusion; witness of an AttributeError |
| C61 | ray casting and fast kernel | distance of the projection; witness beyond the end of a short edge |
| C62, C63 | `identify_ocean_boundary_sections` | loop characterisation; deep stretches of the closed loop = blocks of consecutive positions = maximal runs at threshold 2 (`P_BoundaryM`); witnesses |
| C64 | `Region.transform_to` | monotone transformations proved, rotation as witness |
| C65 | `write_to_t3s` | parser round trip |
| C66-C69 | `generate_mesh`, `_generate_initial_points`, `_project_points_back` | loop invariants; witnesses; affine distances are projected exactly |
| C70 | `_compute_forces` | algebra of the scale factor |
| C71, C72 | `Grid.eval`, multiscale `func` | convex combinations; minimum of a list |
| C73 | `blend_into` | per cell case analysis over masks; witnesses |
| C74, C75 | `_poly_area`, selection of parts in `_read` | translation and orientation laws of the shoelace sum; interval logic |
| C76, C77, C79, C80 | DEM reading | interval arithmetic on pixel indices; witnesses |
| C78 | `create_circle_coords` | trigonometry |
| C81-C83 | multiscale checks and sanitising | case analysis; witnesses |
| C84-C87 | `delaunay_class.cpp` as a machine over vertex handles, for any engine meeting the contract of section 5 | invariants over operation sequences |
| C88-C92 | `enforce_mesh_gradation` | limiter theorems lifted through padding and cropping; witnesses |
| C93-C98 | distance and feature sizing | nearest points, induction on clamping; witnesses |
| C99, C100 | `filt2` | case analysis on names; witness with the mean as smoothing |
| C101-C104 | slope sizing | difference quotients, case analysis, nearest node of a coarser lattice |
| C105, C106 | Rossby filter | invariant of the block loop: smoothing writes are overwritten; witnesses; `T_Slope2`: a window past the end at the pole raises |
| C107 | dispatch on filter names | case analysis |
| C108-C110 | wavelength sizing | algebra; bound on the cosine; witnesses |
| C111 | `_edges_to_rings` | invariant of the walk: visited vertices have all their edges in the pairs run through |
| C112, C115 | Shapely and Matplotlib backends, engines as parameters | parity of the rings against parity of all sides; witness with a hole |
| C113, C114 | boundary flags and choice of backend | case analysis; witnesses for every engine meeting the contract |
| C116 | `_nth_simplify` | relation between input and output of the loop, by induction on what is left |
| C117, C118 | `_clip_polys_2`, `_clip_polys` | induction over the points with the corners left as measure; induction over the parts |
| C119, C120 | `_classify_shoreline`, construction of a Shoreline | the fold keeps: region = box minus shore parts so far; witnesses with an exact engine of unit cells |
| C121, C122, C123 | CRS, ring and box of a Shoreline, choice of reader | case analysis; minimum and maximum of scaled lists |
| C124, C125, C126 | `M_Setup`: unpacking of domain, sizing, box and fixed points in front of the meshing loop | least element by fold invariant; the general `mgrid` of two axes is the lattice; case analysis |
| C127, C128 | `M_Distort`: scale factors and starting points of global meshes | partial derivatives by chain and quotient rules; membership in the lattice via the ceiling |
| C129-C132 | `M_Multi`: the blending loop of `multiscale_sizing_function` | induction over the list of grids on top of C73; witnesses |
| C133, C134 | `M_Multi`: `reproject_to`, `get_border` | reduction to `compute_minimum`; explicit round trip of index pairs |
| C135-C139 | `M_Read`: `transform_to`, `_read` of Shoreline | list induction over the parts of the file; C46 and C75 for one part; witnesses |
| C140-C142 | `M_Xr`: the xarray fallback up to the data array that `M_Dem` cuts | induction over leading dimensions and candidate names; witnesses |
| C143-C144 | `M_IdwStat`: weights and statistics of `Invdisttree`; a number that is not finite is None | sums over the neighbours; induction over the query points; witnesses |
| C145-C147 | `M_Ieee`: box distance, coordinate vectors, the loop of `create_circle`, on binary64 | rounding is monotone and keeps the sign of a difference; computation of the 63 angles, which do not depend on the arguments |
| C148 | `M_Ieee`: inverse-distance weighting on binary64, p = 1 | relative error of each operation, induction over the sums; witnesses |
| C149, C150 | `M_FixMesh.fix_mesh_f`: `fix_mesh` on binary64 | error analysis of the determinant and of the snapping; the generic lemma on `fix_mesh_gen`; a witness for every order |
| C151-C154 | `M_Domains` over `M_Sdf`, `M_Region`, `M_Grid`: metadata, samples, plots, total bounds, coordinate arrays | induction over the domains and nests; folds of minimum and maximum; witnesses |
| C155 | `M_Dem`: masked arrays of clipped reads | entries of transposed and flipped arrays; location of a point between nodes; witness |
| C156, C157 | `M_LimitF`: the gradient limiter on binary64 with nan and overflow | lowering events; a lowered entry is a smaller multiple of 2^-1074; rounding is monotone; witness |
| C158 | `M_CutF`: corner cutting on binary64 | three quarters and one quarter of a double, each rounded, add up to it; rounding is monotone and odd; induction over the passes |
| C159, C160 | `M_LapF`: laplacian2 on binary64 with its stopping decision | rounding errors of a running sum by induction; weights are exact integers; box after k sweeps by induction; argmin and amax by induction; witnesses |
| C161, C162 | `M_PipF`: the compiled point-in-polygon kernel on binary64, without fused multiplications and additions | relative errors of differences, products and quotients; comparisons of ordinates are exact; the computed parameter stays in [0, 1] because rounding is monotone; induction over the edges; witnesses |
| C163, C164, C165 | `M_Version`: the version lookup at import, texts as ASCII lists, the answers of git as parameters | cutting texts at the last or first occurrence of a character; uniqueness of decimal notation; an ordered set by insertion; the PEP 440 grammar as inductive predicates; witnesses |
| C166, C167 | `M_Signed` with `M_Edges`, `M_Inpoly`, `M_Sdf`, `M_Read`, `M_Clip`, `M_Generate`: from the file over the edges, the kernel and the tree to the elements | parity of crossings of the rings as an exclusive sum; closedness of rings kept by reading, smoothing, densifying, clipping and classifying; composition with C30, C45 and C12; witnesses |
| C168, C169, C170, C171 | `M_SizeF`: the sizing formulas and the resampling loop on `spec_float`, overflow included | the order of non-negative doubles with infinity is kept by each rounded operation; relative errors as powers of 1 + u; fuel bound from the least step; a fixed point of adding 1/2 at 2^53 |
| C172, C173, C174 | `M_RayF`: the python ray caster on `spec_float` with its box, quick reject, boundary test by cross and dot product, and crossing | error of cross and dot product at most 19u M len; distance to the clamped foot point by Lagrange's identity; parity of crossings left of the box from closedness; witnesses on literals |
| C175-C181 | `M_Plot`: drawing functions as sequences of matplotlib calls; `S_Plot` gives the state of figures, windows and files after such a sequence (trusted reading of pyplot: savefig writes the current figure, a waiting show on a screen forgets the figures) | calls split into new figure, calls on the axes and tail; induction on the calls on the axes; strided slices entry by entry |
| C182-C184 | `M_QualF`: simp_qual with lengths, products and quotient in IEEE doubles | relative-error calculus over the five operations: every length, sum and difference is carried with a bound on its relative error and its magnitude; slack d bounds the cancellation in b + c - a |
| C185-C187 | `M_Wheel`: tools/verify_manylinux_wheels.py on ASCII texts; a wheel is its name, members and auditwheel output | induction on the scan: a match holds no G beyond its first letter, so matches cannot overlap and none is missed |
| C188-C191 | `M_Init`: the import statement as a machine on `sys.modules`; the binding statements of every file of the package | fuel: number of files not yet imported (all packages); the package itself by evaluation for each state of the two switches |
| C192-C195 | `M_Install`: setup.py on any environment; pybind11, Cython (a parameter) and setuptools are not modelled beyond what each definition says | case analysis on the environment; induction on the text of install_requires |
| C196 | `M_Clean` (as C10, C57): each round deletes all faces with one interior side; mesh_clean as modelled there | boundary neighbours of a vertex after a round inject into those before it; loop induction; renumbering by fix_mesh keeps edge multiplicities |
| C197 | `M_ForceF`: every operation on IEEE doubles in the order of the code; nanmedian by sorting; coo_todense adds bar by bar; stereo branch not modelled on doubles; a size array of another length raises | relative error calculus of `P_QualF`; sorting commutes with values; accumulated error of the scatter |
| C198 | `M_ForceF`: p[t].sum(1)/3 from left to right, distance of `M_Ieee.bbox_f` | error of two sums and a quotient; the box distance rounds its exact value, comparison with -geps exact |
| C199 | `M_ProjF`: every operation on IEEE doubles in the order of the code, deps = 2^-26 from fsqrt, box distance of `M_Ieee.bbox_f`; fd is a function of one point that does not raise, so the ValueError fallback is not modelled on doubles | error bounds of the quotient and the move over the reals, then transferred to doubles; rounding is constant near large numbers |
| C216 | `M_SignF`: `value_f`, `covering_f`, `inpoly2_f` on rows with nan | edges of the rows are the sides of the rings, even-odd rule of C161, multiplication by one is exact |
| C215 | `M_SetF`: `eval_f` on trees of domains, `nests_f`, `multiscale_f`, `py_min_f`, `py_max_f` | doubles with infinities placed on the line; minima and maxima over lists; induction on the tree with both signs of the value |
| C214 | `M_LengthF`: `poly_length_f` with np.sum as a parameter, `isclose_f` | norm of a perturbed difference, root of a rounded sum, induction on the way of adding, walk around the ring with or without the closing edge; np.isclose bounded from below; witness computed |
| C213 | `M_AreaF`: `poly_area_f` with np.dot as a parameter, `large_enough_f` | induction on the way of adding: 2 n u times the sum of sizes; adjacent points by walking around the ring; witnesses computed |
| C210 | `M_Installer`: `do_setup` on the five files, `new_init`, `new_manifest`, `new_attributes` | after one run each part finds what it looks for; the new lines put no copy of the old ones across the seam: line breaks are counted and all splits of the old lines compared |
| C211 | the same; `module_of`, `replace_all` | lines and words of a text by splitting; replacing keeps the pieces between copies, by induction on the length |
| C212 | `M_Installer`: `scan_setup_py`, `setup_fails` | a phrase without a line break is in a line exactly when it is in the text |
| C209 | `M_OrientF`: `det3_f` (elimination with pivoting, sign times exp of the sum of logarithms), `orient_f`, `is_path_ccw_f`; multiplier, update and magnitude are parameters | error of the eliminated entry from the relative error of the differences, the multiplier (at most 1 in size) and the update; sign of the determinant from it; induction along the outline; witness computed for both ways of dividing |
| C208 | `M_DensifyF`: `create_range_f`, `count_of`, `densify_f` with arrays written by position | the rows written are the concatenation of those of the segments, as for C44; error of the count by that of the quotient, of the points by the relative error of each of five operations; infinite and too large counts raise |
| C206, C207 | `M_StartF`: math.ceil of a double, np.mgrid along an axis, the acceptance test, `generate_initial_points_f` | error of the quotient (hi + h - lo) / h and of k h + lo by the relative error of each operation; monotony of rounding for the smallest size; C205 is extended to the default start, which has the fixed points first |
| C204, C205 | `M_GenF`: `generate_mesh_f`, the assertions, the loop of C202 and `fix_mesh_f` with ptol = 2e-13 | the last iteration gives the triangulation, the placing of the fixed points and the removal; C198 for the centroids, C150 for merging and orientation; a permutation of corners keeps the centroid; witness for the refutation is a Delaunay triangulation of 7 points |
| C202, C203 | `M_GenF`: the loop up to fix_mesh on IEEE doubles, with `closest_node_f`, `compute_forces_f`, `remove_triangles_outside_f`, `project_points_back_f`; the triangulation is a parameter that keeps points and returns coordinates up to 2^500 (CGAL keeps doubles), lock_boundary gives any further fixed indices; fd at one point | a squared distance below 2^-1000 means the places are not 2^-500 apart, so a fixed point only replaces a point that is no other fixed point; adding 0.2 * 0 keeps the value; induction on the iterations |
| C200, C201 | `M_BuildVersion`: json.dumps and json.loads on dictionaries of texts, booleans and None; the template SHORT_VERSION_PY character by character; the searches of versions_from_file and git_get_keywords; the Python literal at import with its escapes; texts of characters with codes below 256. Code after the literal that is not the template is RuntimeError (Python would run it). setuptools, which may refuse a version that is not PEP 440, is not modelled | encoders and readers are inverse character by character (256 cases by computation) and then by induction; lines of the written file do not start with a keyword name |

## 5. What is modelled and what is not

Modelled, function by function (file: functions):

* `clean.py`: all functions but `_sparse`
  (read as accumulation of entries).  `np.array([])` is a float array and cannot be an index: a mesh without boundary edges
  and an empty list of pinned points end in an IndexError, as in the code.  A pinned vertex number i is broadcast to (i, i).
* `edges.py`: `get_poly_edges`, `unique_row_view` (as row uniqueness), `get_edges`, `get_boundary_edges`,
  `get_winded_boundary_edges`.  Not `draw_edges`.
* `fix_mesh.py`: all.
* `boundary.py`: all but plotting.
* `region.py`: all; CRS comparison as a parameter; `warp_coordinates` as a parameter.
* `signed_distance_function.py`: boxes, circle-free domains, union, intersection, difference, shoreline domains with the
  KD-tree distance as a parameter; `create_circle` (on doubles); sampling and the points of `_plot` in two dimensions, not the drawing.
* `geometry/point_in_polygon.py` and the compiled kernel `point_in_polygon_.pyx`: the wrapper, ray casting,
  the kernel, the split into rings, the Shapely and Matplotlib backends and the choice among them; the two libraries are parameters.
* `grid.py`: construction, `eval`, `interpolate_to`, `find_indices`, `blend_into`, `compute_minimum`, `reproject_to`, `get_border`.
  Not `plot`.
* `idw.py`: `Invdisttree.__call__`, with weights and statistics on scalar data.
* `filterfx.py`: `filt2`; `gaussfilter` is a parameter.
* `edgefx.py`: all sizing functions, `enforce_*` and the multiscale loop; `skfmm`, `medial_axis`, the KD-tree and shapely's
  `interpolate` are parameters.
* `geodata.py`: the helpers, clipping, simplification, classification, the construction of a Shoreline from what `_read` returns, `_read` itself from the geometries of the file,
  and DEM reading; file access, Shapely, `contains_points`, windows of rasterio, xarray's file reading and pyproj are parameters.
  A clipped read is a masked array: masked entries keep their numbers (C155).
  Not the file format and the reprojection by geopandas, `_poly_length` (unused), plotting.
* `mesh_generator.py`: writers, checks, options, `generate_mesh`, forces, projection, initial points, multiscale steps.
  Not plotting and logging.
* `cpp/fast_geometry.cpp`, `cpp/HamiltonJacobi.cpp`, `cpp/delaunay_class.cpp`: all; CGAL itself is a parameter.
* `_version.py` (generated by versioneer): modelled (C163-C165) but for git_get_keywords, printing and the start of git processes; `tools/verify_manylinux_wheels.py`: modelled (C185-C187) but for argparse, zip and directory reading; `versioneer.py`: get_versions, git_get_keywords, versions_from_file, write_to_version_file, build_py and build_ext modelled (C200, C201), its copies of the functions of _version.py are word for word the same; the installer (do_setup, do_vcs_install, scan_setup_py) modelled (C210-C212) but for configparser (a parameter: what it makes of a text), the text of the version file (a parameter), printing, unreadable files and the start of git add; tests are not modelled; `setup.py`: C192-C195.

Not modelled anywhere: rounding of doubles (but for C14, C145-C150, C156-C162, C168-C174, C182-C184, C197-C199, C202-C209, C213-C216 and C27, C29, C39 as said in section 2), overflow of machine integers
(but where an index is reinterpreted), masked arrays (but the clipped DEM reads of C155), broadcasting of arrays of length one, logging, plotting.

Contracts on parameters, always visible as hypotheses of the theorems that need them:

* triangulation: for `generate_mesh` any function from points to points and faces; where said, one that keeps the points; for
  the wrapper `delaunay_class.cpp`, any engine whose insertions, removals and moves affect the handles named only;
* distance solver (`skfmm`), medial axis, smoothing: any function; where said, one that keeps the shape or averages;
* nearest neighbours: any function returning a nearest point;
* projections: any partial function; where said, monotone in each coordinate.
* Shapely: polygons of well-formed rings are built, `contains` is strict, boundary points have distance zero (`faithful`);
* Shapely when classifying: polygons behave like sets of points off the boundaries (`set_like`); when clipping: any engine;
* `np.linalg.det` (C209): Gaussian elimination of the matrix itself with partial pivoting, sign times exp of the sum of logarithms, as
  numpy and LAPACK document it; accuracy of multiplier, update and exp/log as in `det_contract`, nan passed on;
* np.dot (C213): rounds each product and each sum, in any order and grouping, or a product and a sum at once, as in `dot_contract`;
* np.sum (C214): zero for no numbers, otherwise the numbers added in any order and grouping, as in `sum_contract`;
* np.minimum, np.maximum (C215): nan for a nan, otherwise one of the two that bounds both; the sign of a zero is open;
* Matplotlib: a query off the boundary is in a path when some closed part holds it (`union_rule`), as its source has it.
