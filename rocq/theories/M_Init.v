(** Model of importing the package (oceanmesh/__init__.py and the import statements of the modules). *)
From Coq Require Import List String Ascii Bool Arith.
Import ListNotations.
Open Scope string_scope.
Open Scope list_scope.

(** A module is named by the names below [oceanmesh]; the package itself is the empty list. *)
Definition path := list string.
(** What a name can stand for: a module, an object made by a statement of a module, something of another library, a truth value. *)
Inductive value := VModule (p : path) | VObject (p : path) (n : string) | VLib | VBool (b : bool).
(** The statements that bind names at the top of a file: import from another library, from a module of the package, definition or
    assignment, and assignment of a truth value. *)
Inductive stmt := Lib (ns : list string) | From (p : path) (ns : list string) | Let (ns : list string) | Flag (n : string) (b : bool).

(** * The files *)
(** oceanmesh/boundary.py:1-106: what the statements of the file bind when it is imported. *)
Definition m_boundary : list stmt :=
  [Lib ["plt"; "np"];
   From ["edges"] ["get_winded_boundary_edges"];
   Let ["__all__"; "identify_ocean_boundary_sections"]].
(** oceanmesh/clean.py:1-536: what the statements of the file bind when it is imported. *)
Definition m_clean : list stmt :=
  [Lib ["copy"; "logging"; "np"; "spsparse"];
   From [] ["edges"];
   From ["fix_mesh"] ["fix_mesh"; "simp_qual"; "simp_vol"];
   Let ["logger"; "__all__"; "mesh_clean"; "_arg_sortrows"; "_face_to_face"; "_vertex_to_face"; "make_mesh_boundaries_traversable"; "_external_topology"; "delete_exterior_faces"; "delete_interior_faces"; "_depth_first_search"; "delete_faces_connected_to_one_face"; "_sparse"; "laplacian2"; "get_boundary_entities"; "delete_boundary_faces"]].
(** oceanmesh/edgefx.py:1-1052: what the statements of the file bind when it is imported. *)
Definition m_edgefx : list stmt :=
  [Lib ["logging"; "math"; "time"; "gpd"; "plt"; "np"; "scipy"; "skfmm"; "gradient_limit"];
   From ["geometry"] ["inpoly2"];
   Lib ["LineString"; "medial_axis"];
   From ["filterfx"] ["filt2"];
   From [] ["edges"];
   From ["grid"] ["Grid"];
   From ["region"] ["to_lat_lon"; "to_stereo"];
   Let ["logger"; "__all__"; "enforce_mesh_size_bounds_elevation"; "enforce_mesh_gradation"; "_line_to_points_array"; "_resample_line"; "distance_sizing_from_line_function"; "distance_sizing_from_point_function"; "distance_sizing_function"; "bathymetric_gradient_sizing_function"; "rossby_radius_filter"; "feature_sizing_function"; "wavelength_sizing_function"; "multiscale_sizing_function"; "_earth_gradient"]].
(** oceanmesh/edges.py:1-153: what the statements of the file bind when it is imported. *)
Definition m_edges : list stmt :=
  [Lib ["plt"; "np"; "mc"];
   Let ["nan"; "get_poly_edges"; "draw_edges"; "unique_row_view"; "get_edges"; "get_boundary_edges"; "get_winded_boundary_edges"]].
(** oceanmesh/filterfx.py:1-130: what the statements of the file bind when it is imported. *)
Definition m_filterfx : list stmt :=
  [Lib ["np"];
   Let ["__all__"; "filt2"; "gaussfilter"]].
(** oceanmesh/geodata.py:1-1279: what the statements of the file bind when it is imported. *)
Definition m_geodata : list stmt :=
  [Lib ["errno"; "logging"; "os"; "Path"; "fiona"; "gpd"; "mpltPath"; "plt"; "np"; "numpy"; "rasterio"; "Affine"; "shapely"; "CRS"; "from_bounds"];
   From ["grid"] ["Grid"];
   From ["region"] ["Region"; "to_lat_lon"];
   Let ["nan"; "fiona_version"; "logger"; "__all__"; "_bbox_overlaps_bounds"; "_transform_bbox_to_src"; "_prepare_region_bbox_and_crs"; "_pick_netcdf_open_target"; "_xr_open_dataset"; "_xr_pick_first_raster_data_array"; "_xr_reduce_to_2d"; "_xr_pick_coord_name"; "_xr_find_overlap_index_range"; "_xr_median_spacing"; "_xr_subset_to_outputs"; "_try_subset_netcdf_with_xarray"; "_read_dem_array_and_meta"; "_infer_crs_from_coordinates"; "create_circle_coords"; "get_polygon_coordinates"; "_convert_to_array"; "_convert_to_list"; "_create_boubox"; "_create_ranges"; "_densify"; "_poly_area"; "_poly_length"; "_classify_shoreline"; "_chaikins_corner_cutting"; "_smooth_shoreline"; "_clip_polys_2"; "_clip_polys"; "_nth_simplify"; "_is_path_ccw"; "_is_overlapping"; "remove_dup"; "Shoreline"; "DEM"]].
(** oceanmesh/grid.py:1-526: what the statements of the file bind when it is imported. *)
Definition m_grid : list stmt :=
  [Lib ["logging"; "plt"; "np"; "scipy"; "RegularGridInterpolator"; "CRS"; "Transformer"];
   From ["idw"] ["Invdisttree"];
   From ["region"] ["Region"; "to_stereo"];
   Let ["logger"; "compute_minimum"; "Grid"]].
(** oceanmesh/region.py:1-219: what the statements of the file bind when it is imported. *)
Definition m_region : list stmt :=
  [Lib ["np"; "CRS"; "Transformer"];
   Let ["__all__"; "get_crs_string"; "is_global_bbox"; "bbox_contains"; "validate_crs_compatible"; "warp_coordinates"; "stereo_to_3d"; "to_lat_lon"; "to_3d"; "to_stereo"; "Region"]].
(** oceanmesh/signed_distance_function.py:1-328: what the statements of the file bind when it is imported. *)
Definition m_signed_distance_function : list stmt :=
  [Lib ["logging"; "math"; "random"; "plt"; "np"; "scipy"];
   From ["geometry"] ["inpoly2"];
   From [] ["Shoreline"; "edges"];
   Let ["logger"; "__all__"; "nan"; "create_circle"; "create_bbox"; "_generate_samples"; "_plot"; "Domain"; "_compute_bbox"; "Union"; "Intersection"; "Difference"; "signed_distance_function"; "_create_boubox"; "multiscale_signed_distance_function"]].
(** oceanmesh/fix_mesh.py:1-143: what the statements of the file bind when it is imported. *)
Definition m_fix_mesh : list stmt :=
  [Lib ["warnings"; "np"];
   Let ["simp_qual"; "fix_mesh"; "unique_rows"; "simp_vol"]].
(** oceanmesh/mesh_generator.py:1-1138: what the statements of the file bind when it is imported. *)
Definition m_mesh_generator : list stmt :=
  [Lib ["datetime"; "logging"; "os"; "time"; "plt"; "tri"; "np"; "spsparse"; "DT"; "unique_edges"; "CRS"];
   From ["clean"] ["_external_topology"];
   From ["edgefx"] ["multiscale_sizing_function"];
   From ["fix_mesh"] ["fix_mesh"];
   From ["grid"] ["Grid"];
   From ["region"] ["to_lat_lon"; "to_stereo"; "bbox_contains"; "validate_crs_compatible"; "get_crs_string"; "is_global_bbox"];
   From ["signed_distance_function"] ["Domain"; "multiscale_signed_distance_function"];
   Let ["logger"; "__all__"; "write_to_fort14"; "write_to_t3s"; "plot_mesh_connectivity"; "plot_mesh_bathy"; "_parse_kwargs"; "_check_bbox"; "_find_global_domain"; "_detect_implicit_global_domain"; "_has_any_crs_metadata"; "_validate_crs_presence"; "_validate_global_domain_and_regions"; "_validate_implicit_global_mixing"; "_validate_edge_length_crs"; "_validate_multiscale_domains"; "_sanitize_smoothed_sizing_grids"; "_sanitize_smoothed_sizing_grid"; "generate_multiscale_mesh"; "generate_mesh"; "_unpack_sizing"; "_unpack_domain"; "_get_bars"; "_compute_forces"; "_dense"; "_remove_triangles_outside"; "_project_points_back"; "_stereo_distortion"; "_stereo_distortion_dist"; "_generate_initial_points"; "_dist"; "_unpack_pfix"; "_get_topology"; "_closest_node"]].
(** oceanmesh/idw.py:1-159: what the statements of the file bind when it is imported. *)
Definition m_idw : list stmt :=
  [Lib ["division"; "np"; "KDTree"];
   Let ["__date__"; "Invdisttree"]].
(** oceanmesh/_version.py:1-677: what the statements of the file bind when it is imported. *)
Definition m_version : list stmt :=
  [Lib ["errno"; "os"; "re"; "subprocess"; "sys"; "Callable"; "Dict"];
   Let ["get_keywords"; "VersioneerConfig"; "get_config"; "NotThisMethod"; "LONG_VERSION_PY"; "HANDLERS"; "register_vcs_handler"; "run_command"; "versions_from_parentdir"; "git_get_keywords"; "git_versions_from_keywords"; "git_pieces_from_vcs"; "plus_or_dot"; "render_pep440"; "render_pep440_branch"; "pep440_split_post"; "render_pep440_pre"; "render_pep440_post"; "render_pep440_post_branch"; "render_pep440_old"; "render_git_describe"; "render_git_describe_long"; "render"; "get_versions"]].
(** oceanmesh/geometry/__init__.py:1-10: what the statements of the file bind when it is imported. *)
Definition m_geometry : list stmt :=
  [From ["geometry"; "point_in_polygon"] ["inpoly2"];
   Let ["__all__"]].
(** oceanmesh/geometry/point_in_polygon.py:1-472.  Simplified: shapely and matplotlib are taken as installed (other files of the package need them),
    and the traceback of line 67 is left out. *)
Definition m_point_in_polygon (kernel : bool) : list stmt :=
  [Lib ["annotations"; "logging"; "os"; "Literal"; "Tuple"; "np"; "_shapely_geom"; "_shapely_prep"];
   Flag "_HAVE_SHAPELY" true; Lib ["_MplPath"]; Flag "_HAVE_MPL" true; Let ["logger"];
   Flag "_COMPILED_KERNEL_AVAILABLE" false; Lib ["_ACCEL_ENV"]] ++
  (if kernel then [From ["geometry"; "point_in_polygon_"] ["inpoly2_fast"]; Flag "_COMPILED_KERNEL_AVAILABLE" true] else []) ++
  [Let ["MethodName"; "inpoly2"; "_as_points_array"; "_select_method"; "_inpoly_raycasting"; "_inpoly_shapely"; "_inpoly_matplotlib"; "_edges_to_rings"]].
(** oceanmesh/geometry/point_in_polygon_.pyx:7-131 *)
Definition m_kernel : list stmt := [Lib ["np"]; Let ["inpoly2_fast"]].
(** oceanmesh/__init__.py:11-131. *)
Definition m_init : list stmt :=
  [Lib ["os"];
   From ["boundary"] ["identify_ocean_boundary_sections"];
   From ["clean"] ["delete_boundary_faces"; "delete_exterior_faces"; "delete_faces_connected_to_one_face"; "delete_interior_faces"; "laplacian2"; "make_mesh_boundaries_traversable"; "mesh_clean"];
   From ["edgefx"] ["bathymetric_gradient_sizing_function"; "distance_sizing_from_line_function"; "distance_sizing_from_point_function"; "distance_sizing_function"; "enforce_mesh_gradation"; "enforce_mesh_size_bounds_elevation"; "feature_sizing_function"; "multiscale_sizing_function"; "wavelength_sizing_function"];
   From ["edges"] ["draw_edges"; "get_poly_edges"];
   From ["filterfx"] ["filt2"];
   From ["geodata"] ["DEM"; "Shoreline"; "create_circle_coords"; "get_polygon_coordinates"];
   From ["grid"] ["Grid"; "compute_minimum"];
   From ["region"] ["Region"; "stereo_to_3d"; "to_3d"; "to_lat_lon"; "to_stereo"; "warp_coordinates"];
   From ["signed_distance_function"] ["Difference"; "Domain"; "Intersection"; "Union"; "create_bbox"; "create_circle"; "multiscale_signed_distance_function"; "signed_distance_function"];
   From ["fix_mesh"] ["fix_mesh"; "simp_vol"; "simp_qual"];
   From ["mesh_generator"] ["generate_mesh"; "generate_multiscale_mesh"; "plot_mesh_bathy"; "plot_mesh_connectivity"; "write_to_fort14"; "write_to_t3s"];
   Let ["__all__"];
   From [] ["_version"];
   Let ["__version__"];
   From [] ["_version"];
   Let ["__version__"]].
(** oceanmesh/boundary.py: the list [__all__]. *)
Definition all_boundary : list string := ["identify_ocean_boundary_sections"].
(** oceanmesh/clean.py: the list [__all__]. *)
Definition all_clean : list string := ["make_mesh_boundaries_traversable"; "delete_interior_faces"; "delete_exterior_faces"; "delete_faces_connected_to_one_face"; "delete_boundary_faces"; "laplacian2"; "mesh_clean"].
(** oceanmesh/edgefx.py: the list [__all__]. *)
Definition all_edgefx : list string := ["enforce_mesh_gradation"; "enforce_mesh_size_bounds_elevation"; "distance_sizing_function"; "distance_sizing_from_point_function"; "distance_sizing_from_line_function"; "wavelength_sizing_function"; "multiscale_sizing_function"; "feature_sizing_function"; "bathymetric_gradient_sizing_function"].
(** oceanmesh/filterfx.py: the list [__all__]. *)
Definition all_filterfx : list string := ["filt2"; "gaussfilter"].
(** oceanmesh/geodata.py: the list [__all__]. *)
Definition all_geodata : list string := ["Shoreline"; "DEM"; "get_polygon_coordinates"; "create_circle_coords"].
(** oceanmesh/region.py: the list [__all__]. *)
Definition all_region : list string := ["Region"; "warp_coordinates"].
(** oceanmesh/signed_distance_function.py: the list [__all__]. *)
Definition all_signed_distance_function : list string := ["multiscale_signed_distance_function"; "signed_distance_function"; "Domain"; "Union"; "Difference"; "Intersection"; "create_circle"; "create_bbox"].
(** oceanmesh/mesh_generator.py: the list [__all__]. *)
Definition all_mesh_generator : list string := ["generate_mesh"; "generate_multiscale_mesh"; "plot_mesh_connectivity"; "plot_mesh_bathy"; "write_to_fort14"; "write_to_t3s"].
(** oceanmesh/geometry/__init__.py: the list [__all__]. *)
Definition all_geometry : list string := ["inpoly2"].
(** oceanmesh/__init__.py: the list [__all__]. *)
Definition all_init : list string := ["create_bbox"; "Region"; "stereo_to_3d"; "to_lat_lon"; "to_3d"; "to_stereo"; "compute_minimum"; "create_circle_coords"; "bathymetric_gradient_sizing_function"; "multiscale_sizing_function"; "delete_boundary_faces"; "delete_faces_connected_to_one_face"; "distance_sizing_from_point_function"; "distance_sizing_from_line_function"; "plot_mesh_connectivity"; "plot_mesh_bathy"; "make_mesh_boundaries_traversable"; "enforce_mesh_size_bounds_elevation"; "laplacian2"; "delete_interior_faces"; "delete_exterior_faces"; "mesh_clean"; "SizeFunction"; "Grid"; "DEM"; "Domain"; "create_circle"; "crate_bbox"; "Union"; "Difference"; "Intersection"; "identify_ocean_boundary_sections"; "Shoreline"; "generate_multiscale_mesh"; "get_polygon_coordinates"; "distance_sizing_function"; "feature_sizing_function"; "enforce_mesh_gradation"; "wavelength_sizing_function"; "slope_sizing_function"; "multiscale_signed_distance_function"; "signed_distance_function"; "filt2"; "get_poly_edges"; "draw_edges"; "generate_mesh"; "fix_mesh"; "simp_vol"; "simp_qual"; "warp_coordinates"; "write_to_fort14"; "write_to_t3s"].

(** * The import statement (Python language reference, section 5; CPython's import machinery) *)
Definition path_eqb (p q : path) : bool := if list_eq_dec string_dec p q then true else false.
Definition names := list (string * value).
(** The modules in [sys.modules] with what they have bound so far, newest first. *)
Definition state := list (path * names).
Inductive out := Done (st : state) | ImportFails (p : path) (n : string) | NotFound (p : path) | AssertFails | Deep.
Definition spaces_of (st : state) (p : path) : option names := option_map snd (find (fun e => path_eqb (fst e) p) st).
Definition value_of (st : state) (p : path) (n : string) : option value :=
  match spaces_of st p with None => None | Some ns => option_map snd (find (fun e => String.eqb (fst e) n) ns) end.
Definition bind_name (p : path) (n : string) (v : value) (st : state) : state :=
  map (fun e => if path_eqb (fst e) p then (fst e, (n, v) :: snd e) else e) st.
(** The packages to import before [p], and [p] itself. *)
Definition prefixes (p : path) : list path := map (fun k => firstn k p) (seq 1 (List.length p)).
Fixpoint in_turn {A} (f : state -> A -> out) (l : list A) (st : state) : out :=
  match l with [] => Done st | a :: r => match f st a with Done st' => in_turn f r st' | o => o end end.
(** [from p import n]: the attribute, else the submodule. *)
Definition take (files : list (path * list stmt)) (load : state -> path -> out) (self p : path) (st : state) (n : string) : out :=
  match value_of st p n with
  | Some v => Done (bind_name self n v st)
  | None =>
    if existsb (fun f => path_eqb (fst f) (p ++ [n])) files then
      match load st (p ++ [n]) with
      | Done st' => Done (bind_name self n (VModule (p ++ [n])) st')
      | o => o
      end
    else ImportFails p n
  end.
Definition exec (files : list (path * list stmt)) (load : state -> path -> out) (self : path) (st : state) (s : stmt) : out :=
  match s with
  | Lib ns => Done (fold_left (fun st n => bind_name self n VLib st) ns st)
  | Let ns => Done (fold_left (fun st n => bind_name self n (VObject self n) st) ns st)
  | Flag n b => Done (bind_name self n (VBool b) st)
  | From p ns => match in_turn load (prefixes p) st with Done st' => in_turn (take files load self p) ns st' | o => o end
  end.
(** Importing a module: nothing when it is in [sys.modules]; else it is put there empty, its statements run, and its parent gets its name.
    [fuel] bounds the depth of nested imports. *)
Fixpoint load (files : list (path * list stmt)) (fuel : nat) (st : state) (p : path) : out :=
  match spaces_of st p with
  | Some _ => Done st
  | None =>
    match fuel, find (fun f => path_eqb (fst f) p) files with
    | _, None => NotFound p
    | 0, _ => Deep
    | S k, Some (_, ss) =>
      match in_turn (exec files (load files k) p) ss ((p, []) :: st) with
      | Done st' => Done (match p with [] => st' | _ => bind_name (removelast p) (last p "") (VModule p) st' end)
      | o => o
      end
    end
  end.

(** * The package *)
(** The compiled kernel is a file of the package only when it has been built. *)
Definition files (built kernel : bool) : list (path * list stmt) :=
  [([], m_init); (["boundary"], m_boundary); (["clean"], m_clean); (["edgefx"], m_edgefx); (["edges"], m_edges); (["filterfx"], m_filterfx);
   (["geodata"], m_geodata); (["grid"], m_grid); (["region"], m_region); (["signed_distance_function"], m_signed_distance_function);
   (["fix_mesh"], m_fix_mesh); (["mesh_generator"], m_mesh_generator); (["idw"], m_idw); (["_version"], m_version);
   (["geometry"], m_geometry); (["geometry"; "point_in_polygon"], m_point_in_polygon kernel)] ++
  (if built then [(["geometry"; "point_in_polygon_"], m_kernel)] else []).
(** The surroundings: Windows or not, CGAL_BIN, OCEANMESH_INPOLY_ACCEL, and whether the kernel can be imported. *)
Record env := { os_nt : bool; cgal_bin : option string; accel : option string; built : bool }.
(** str.lower() on ASCII letters (no other character becomes a letter of the four words below). *)
Definition lower (c : ascii) : ascii := let k := nat_of_ascii c in if (65 <=? k)%nat && (k <=? 90)%nat then ascii_of_nat (k + 32) else c.
Fixpoint lower_all (s : string) : string := match s with EmptyString => EmptyString | String c r => String (lower c) (lower_all r) end.
(** geometry/point_in_polygon.py:53-69 *)
Definition wants_kernel (e : env) : bool :=
  negb (existsb (String.eqb (lower_all (match accel e with Some s => s | None => "1" end))) ["0"; "false"; "no"; "off"]).
(** oceanmesh/__init__.py:1-131; [os.add_dll_directory] (line 9) is taken to accept the directory.  Calling [get_versions] (lines 127 and 131)
    is left to the model of _version.py. *)
Definition init (e : env) : out :=
  if os_nt e && negb (match cgal_bin e with Some s => negb (String.eqb s "") | None => false end) then AssertFails
  else load (files (built e) (wants_kernel e && built e)) 20 [] [].
(** [from m import *] with the list [__all__] (CPython's import_all_from): every name is looked up; the first one missing raises AttributeError. *)
Definition star (st : state) (p : path) (all : list string) : option string :=
  find (fun n => match value_of st p n with Some _ => false | None => true end) all.
