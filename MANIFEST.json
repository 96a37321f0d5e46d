{
 "claims": [
  {
   "property": "C01",
   "status": "proved",
   "theorems": [
    "C01_unique_edges"
   ],
   "note": "unique_edges on int64 edges; std::sort and std::unique modelled by their specification on pairs"
  },
  {
   "property": "C02",
   "status": "proved",
   "theorems": [
    "C02_boundary_edges"
   ],
   "note": "for every triangle list, degenerate or non-manifold triangles included"
  },
  {
   "property": "C03",
   "status": "proved",
   "theorems": [
    "C03_winding_terminates",
    "C03_winding_is_a_trail"
   ],
   "note": "termination for every input; trail properties for meshes of proper triangles"
  },
  {
   "property": "C04",
   "status": "partial",
   "theorems": [
    "C04_winding_closes",
    "C04_winding_covers_boundary_refuted"
   ],
   "note": "closed loop and coverage of the linked boundary proved; coverage of the whole boundary is refuted (annulus)"
  },
  {
   "property": "C05",
   "status": "proved",
   "theorems": [
    "C05_face_table_exact",
    "C05_face_table_row_length",
    "C05_face_table_sound",
    "C05_face_table_symmetric",
    "C05_face_table_connectivity"
   ],
   "note": "every tie-breaking of the unstable argsort; exact table for edge-manifold meshes, soundness, symmetry and connectivity for all"
  },
  {
   "property": "C06",
   "status": "proved",
   "theorems": [
    "C06_vertex_table_exact",
    "C06_unused_vertex_refuted"
   ],
   "note": "exact when every vertex is used; the misalignment with an unused vertex is shown"
  },
  {
   "property": "C07",
   "status": "proved",
   "theorems": [
    "C07_flood_fill_exact"
   ],
   "note": "every start face and tie-breaking; termination included"
  },
  {
   "property": "C08",
   "status": "proved",
   "theorems": [
    "C08_large_components_kept",
    "C08_whole_components"
   ],
   "note": "exact arithmetic; also: whole components only for arbitrary orientations"
  },
  {
   "property": "C09",
   "status": "proved",
   "theorems": [
    "C09_interior_faces_exact",
    "C09_nothing_to_delete",
    "C09_no_boundary",
    "C09_something_left"
   ],
   "note": "for meshes of proper triangles with all vertices used; the choice rule at each vertex is characterised too"
  },
  {
   "property": "C10",
   "status": "proved",
   "theorems": [
    "C10_terminates",
    "C10_traversable_exit",
    "C10_traversable",
    "C10_traversable_unchanged",
    "C10_keeps_boundary",
    "C10_no_boundary"
   ],
   "note": "termination for every in-range mesh (returning or IndexError, see C55); traversability for edge-manifold meshes with points further apart than the merging tolerance, and for any result that is edge-manifold"
  },
  {
   "property": "C11",
   "status": "proved",
   "theorems": [
    "C11_returns",
    "C11_no_dangling_face",
    "C11_one_round",
    "C11_rounds"
   ],
   "note": "edge-manifold meshes; rounds characterised one by one"
  },
  {
   "property": "C12",
   "status": "proved",
   "theorems": [
    "C12_fix_mesh_returns",
    "C12_fix_mesh_well_formed"
   ],
   "note": "exact arithmetic; also characterises exactly when fix_mesh returns"
  },
  {
   "property": "C13",
   "status": "proved",
   "theorems": [
    "C13_fix_mesh_geometry",
    "C13_zero_tolerance_refuted",
    "C13_index_map_refuted"
   ],
   "note": "for positive ptol; ptol=0 collapses the mesh and the third return value is not an index map with delete_unused=True (both shown)"
  },
  {
   "property": "C14",
   "status": "partial",
   "theorems": [
    "C14_equal_points_merged_partial",
    "C14_equal_points_merged_refuted"
   ],
   "note": "proved in exact arithmetic; refuted on IEEE doubles (0.0 and -0.0)"
  },
  {
   "property": "C15",
   "status": "partial",
   "theorems": [
    "C15_no_degenerate_triangle_refuted",
    "C15_no_degenerate_triangle_partial"
   ],
   "note": "refuted in general; proved when triangle corners are further apart than the tolerance"
  },
  {
   "property": "C16",
   "status": "partial",
   "theorems": [
    "C16_value_partial",
    "C16_rows",
    "C16_index",
    "C16_documented_quality",
    "C16_radii_exist",
    "C16_scale_free_refuted",
    "C16_equilateral_refuted",
    "C16_at_most_one_refuted",
    "C16_bounded_by_size",
    "C16_signed_refuted",
    "C16_small_meshes_lose_boundary_refuted"
   ],
   "note": "intended statement refuted (value is the documented one times the inscribed diameter); exact characterisation and consequences proved"
  },
  {
   "property": "C17",
   "status": "proved",
   "theorems": [
    "C17_boundary_faces_exact",
    "C17_no_boundary"
   ],
   "note": "quality function arbitrary"
  },
  {
   "property": "C18",
   "status": "partial",
   "theorems": [
    "C18_smoothing",
    "C18_unused_vertex",
    "C18_no_boundary",
    "C18_empty_pins_refuted",
    "C18_indices_refuted",
    "C18_scalar_pins"
   ],
   "note": "proved for meshes with a boundary and at least one pinned point, or none given, in exact arithmetic with an arbitrary stopping decision; refuted for an empty list of pinned points, which raises, and for pinned vertices given by number, which the code reads as coordinates"
  },
  {
   "property": "C19",
   "status": "proved",
   "theorems": [
    "C19_limiter_range"
   ],
   "note": "exact rationals; any value of the computed square root >= 1"
  },
  {
   "property": "C20",
   "status": "proved",
   "theorems": [
    "C20_limiter_gradation"
   ],
   "note": "exact rationals; the flag is the convergence the code does not report"
  },
  {
   "property": "C21",
   "status": "partial",
   "theorems": [
    "C21_antidiagonal_refuted",
    "C21_eight_neighbours_partial"
   ],
   "note": "refuted on the anti-diagonal with a 3x3 grid; twice the side bound holds"
  },
  {
   "property": "C22",
   "status": "proved",
   "theorems": [
    "C22_limiter_passes",
    "C22_limiter_converges"
   ],
   "note": "explicit bound on the number of passes"
  },
  {
   "property": "C23",
   "status": "proved",
   "theorems": [
    "C23_limiter_walk",
    "C23_limited_unchanged"
   ],
   "note": ""
  },
  {
   "property": "C24",
   "status": "proved",
   "theorems": [
    "C24_union",
    "C24_intersection",
    "C24_difference"
   ],
   "note": "operands evaluate point by point"
  },
  {
   "property": "C25",
   "status": "proved",
   "theorems": [
    "C25_multiscale"
   ],
   "note": ""
  },
  {
   "property": "C26",
   "status": "proved",
   "theorems": [
    "C26_ring",
    "C26_rectangle",
    "C26_rectangle_batch"
   ],
   "note": "exact rationals"
  },
  {
   "property": "C27",
   "status": "partial",
   "theorems": [
    "C27_nonfinite",
    "C27_inverted_refuted"
   ],
   "note": "refuted for inverted domains; exact value for both settings"
  },
  {
   "property": "C28",
   "status": "partial",
   "theorems": [
    "C28_ring_rule",
    "C28_edges_rule",
    "C28_kernels_agree_ring",
    "C28_kernels_agree_closed_partial",
    "C28_fast_rule",
    "C28_open_edges_refuted",
    "C28_default_tolerance_refuted"
   ],
   "note": "both kernels follow the even-odd rule and agree at tolerance zero for rings and closed edge lists; refuted for open edge lists and for the default tolerance"
  },
  {
   "property": "C29",
   "status": "proved",
   "theorems": [
    "C29_order_direction",
    "C29_order_direction_fast",
    "C29_pointwise",
    "C29_pointwise_fast"
   ],
   "note": "both kernels, any tolerance, exact rationals"
  },
  {
   "property": "C30",
   "status": "proved",
   "theorems": [
    "C30_outside_ring",
    "C30_outside_edges",
    "C30_rectangle"
   ],
   "note": "both kernels"
  },
  {
   "property": "C31",
   "status": "partial",
   "theorems": [
    "C31_poly_edges_by_part",
    "C31_ring_closed_iff",
    "C31_poly_edges_close_ring_refuted"
   ],
   "note": "exact segment list proved for every part list; ring closes iff its last two rows coincide; the intended closure of an ordinary ring is refuted"
  },
  {
   "property": "C32",
   "status": "partial",
   "theorems": [
    "C32_sections_partial",
    "C32_runs_exist",
    "C32_sections_all",
    "C32_two_deep_nodes_refuted",
    "C32_pair_crash_refuted",
    "C32_stale_end_refuted",
    "C32_isolated_crash_refuted",
    "C32_isolated_bogus_refuted"
   ],
   "note": "refuted; result described exactly for all inputs (C32_sections_all): when it raises, what it reports, and that it is right iff no pair of nodes has a run behind it and the last two runs are not both single nodes; node order proved to be a boundary loop"
  },
  {
   "property": "C33",
   "status": "proved",
   "theorems": [
    "C33_fort14_read_back",
    "C33_wrong_length"
   ],
   "note": "finite coordinates, vertex numbers below 2^53"
  },
  {
   "property": "C34",
   "status": "partial",
   "theorems": [
    "C34_t3s_unchanged",
    "C34_fort14_refuted",
    "C34_shift_refuted"
   ],
   "note": "proved for write_to_t3s; refuted for write_to_fort14 (exact effect proved)"
  },
  {
   "property": "C35",
   "status": "proved",
   "theorems": [
    "C35_forces_repulsive",
    "C35_forces_balance",
    "C35_forces_returns"
   ],
   "note": "exact real arithmetic; sizes may be nan or infinite"
  },
  {
   "property": "C36",
   "status": "proved",
   "theorems": [
    "C36_generate_mesh_result",
    "C36_returned_centroids_inside",
    "C36_calls_made",
    "C36_no_other_calls"
   ],
   "note": "for a signed distance that is a function of the point; Delaunay answers and forces arbitrary"
  },
  {
   "property": "C37",
   "status": "partial",
   "theorems": [
    "C37_rebuild_partial",
    "C37_global_alternates",
    "C37_build_twice_refuted",
    "C37_global_nodes",
    "C37_multiscale_repeats_partial",
    "C37_multiscale_refuted"
   ],
   "note": "holds for boxes that do not span the globe; refuted for global boxes"
  },
  {
   "property": "C38",
   "status": "proved",
   "theorems": [
    "C38_values",
    "C38_range",
    "C38_neighbour_range",
    "C38_data_points",
    "C38_too_few_points",
    "C38_rejects",
    "C38_scale_free"
   ],
   "note": "exact real arithmetic, natural exponent, no user weights; any correct neighbour search"
  },
  {
   "property": "C39",
   "status": "partial",
   "theorems": [
    "C39_bands_partial",
    "C39_nan_refuted",
    "C39_global_refuted",
    "C39_refused_band",
    "C39_atomic_refuted"
   ],
   "note": "holds for regional boxes and sizes that are not nan; refuted for nan sizes, global boxes and refused bands (not atomic)"
  },
  {
   "property": "C40",
   "status": "proved",
   "theorems": [
    "C40_reflexive",
    "C40_transitive",
    "C40_geometric",
    "C40_exact",
    "C40_world_like_refuted"
   ],
   "note": "world-like exception recorded as in the statement"
  },
  {
   "property": "C41",
   "status": "proved",
   "theorems": [
    "C41_there_and_back",
    "C41_back_and_there",
    "C41_on_sphere",
    "C41_wraps",
    "C41_north_pole",
    "C41_empty",
    "C41_origin",
    "C41_only_origins"
   ],
   "note": "over the reals; signed zeros of arctan2 not modelled"
  },
  {
   "property": "C42",
   "status": "partial",
   "theorems": [
    "C42_ordered",
    "C42_atomic",
    "C42_setter_atomic",
    "C42_nan_refuted"
   ],
   "note": "proved for all values other than NaN; a NaN passes the checks (witness)"
  },
  {
   "property": "C43",
   "status": "proved",
   "theorems": [
    "C43_parts_array_parts",
    "C43_array_parts_array",
    "C43_any_array",
    "C43_no_points"
   ],
   "note": ""
  },
  {
   "property": "C44",
   "status": "proved",
   "theorems": [
    "C44_densify"
   ],
   "note": "exact rational arithmetic; the mask of contains_points is arbitrary"
  },
  {
   "property": "C45",
   "status": "proved",
   "theorems": [
    "C45_corners",
    "C45_facts",
    "C45_box",
    "C45_shoreline",
    "C45_empty"
   ],
   "note": "exact rational arithmetic"
  },
  {
   "property": "C46",
   "status": "partial",
   "theorems": [
    "C46_refuted",
    "C46_actual",
    "C46_ring_kept",
    "C46_one_dimensional"
   ],
   "note": "refuted for (n,2) arrays, exact behaviour proved; holds for one-dimensional arrays"
  },
  {
   "property": "C47",
   "status": "partial",
   "theorems": [
    "C47_decides",
    "C47_raises",
    "C47_convex_partial",
    "C47_refuted",
    "C47_open_triangle",
    "C47_box"
   ],
   "note": "refuted for simple polygons; proved for points in convex position; exact decision rule proved"
  },
  {
   "property": "C48",
   "status": "partial",
   "theorems": [
    "C48_raster_index",
    "C48_fallback_descending_y",
    "C48_fallback_ascending_y",
    "C48_fallback_refuted"
   ],
   "note": "proved for the rasterio path; refuted for the xarray fallback with ascending latitude, exact behaviour proved"
  },
  {
   "property": "C49",
   "status": "partial",
   "theorems": [
    "C49_refuted",
    "C49_region_ignored",
    "C49_largest_wins",
    "C49_container_iff",
    "C49_prefers_overlap_partial",
    "C49_overlap_test"
   ],
   "note": "refuted; exact choice proved, intended choice under a size condition"
  },
  {
   "property": "C50",
   "status": "partial",
   "theorems": [
    "C50_exact",
    "C50_metadata_only",
    "C50_containment_refuted",
    "C50_messages",
    "C50_length_message"
   ],
   "note": "exact characterisation of the verdict and of every message proved; containment of the whole region refuted (only corners are projected)"
  },
  {
   "property": "C51",
   "status": "partial",
   "theorems": [
    "C51_refuted",
    "C51_colliding_options",
    "C51_unknown_options",
    "C51_usable_partial"
   ],
   "note": "refuted for six accepted options; proved for all others"
  },
  {
   "property": "C52",
   "status": "partial",
   "theorems": [
    "C52_empty",
    "C52_compute_minimum_partial",
    "C52_disjoint",
    "C52_global_refuted"
   ],
   "note": "proved for a base grid that does not span the globe; refuted for a global base"
  },
  {
   "property": "C53",
   "status": "proved",
   "theorems": [
    "C53_planes",
    "C53_too_small"
   ],
   "note": "exact rational arithmetic"
  },
  {
   "property": "C54",
   "status": "proved",
   "theorems": [
    "C54_engine",
    "C54_topology",
    "C54_stale"
   ],
   "note": "CGAL enters as any engine meeting the stated contract"
  },
  {
   "property": "C55",
   "status": "partial",
   "theorems": [
    "C55_always_returns_refuted",
    "C55_all_small_fails",
    "C55_few_faces_partial",
    "C55_no_ties_partial",
    "C55_ties_refuted",
    "C55_share_sharp"
   ],
   "note": "refuted with a row of twenty triangles and the fraction 1/20; proved for plane meshes of n faces and fractions below 1/n (C55_few_faces_partial, C55_no_ties_partial), which is sharp (C55_share_sharp); with an unstable sort and equal qualities everything may be deleted (C55_ties_refuted); failure characterised for meshes without a large component"
  },
  {
   "property": "C56",
   "status": "partial",
   "theorems": [
    "C56_mesh_clean_well_formed",
    "C56_mesh_clean_traversable_partial",
    "C56_traversable_refuted",
    "C56_mesh_clean_without_smoothing"
   ],
   "note": "well-formedness unconditional; traversability under the condition that smoothing keeps points further apart than the tolerance, unconditional without smoothing. False in general: smoothing can move two vertices of a good mesh to one point, and the result has a boundary vertex with three boundary sides (C56_traversable_refuted)"
  },
  {
   "property": "C57",
   "status": "proved",
   "theorems": [
    "C57_limiter_maximal"
   ],
   "note": ""
  },
  {
   "property": "C58",
   "status": "partial",
   "theorems": [
    "C58_shoreline_sign",
    "C58_inside_covering",
    "C58_inverted_nests_refuted"
   ],
   "note": "sign and covering proved; covering part refuted for inverted domains"
  },
  {
   "property": "C59",
   "status": "proved",
   "theorems": [
    "C59_union_box",
    "C59_intersection_box",
    "C59_difference_box"
   ],
   "note": ""
  },
  {
   "property": "C60",
   "status": "partial",
   "theorems": [
    "C60_covering_required_refuted",
    "C60_no_covering_fails"
   ],
   "note": "refuted; failure characterised"
  },
  {
   "property": "C61",
   "status": "partial",
   "theorems": [
    "C61_fast_near",
    "C61_raycasting_refuted"
   ],
   "note": "proved for the compiled kernel, refuted for the ray caster"
  },
  {
   "property": "C62",
   "status": "partial",
   "theorems": [
    "C62_min_nodes_refuted",
    "C62_threshold_ignored"
   ],
   "note": "refuted; for all meshes a single stretch of three or more deep nodes is reported whatever the threshold (C62_threshold_ignored)"
  },
  {
   "property": "C63",
   "status": "partial",
   "theorems": [
    "C63_seam_refuted",
    "C63_other_loops_refuted",
    "C63_one_loop_partial"
   ],
   "note": "refuted; on a mesh with one boundary the sections at threshold 2 are exactly the deep stretches of the closed loop unless a stretch crosses the start or has fewer than three nodes (C63_one_loop_partial)"
  },
  {
   "property": "C64",
   "status": "partial",
   "theorems": [
    "C64_separable_partial",
    "C64_refuted"
   ],
   "note": "proved for separable increasing transformations, refuted in general"
  },
  {
   "property": "C65",
   "status": "proved",
   "theorems": [
    "C65_t3s_read_back"
   ],
   "note": "finite coordinates"
  },
  {
   "property": "C66",
   "status": "partial",
   "theorems": [
    "C66_fixed_points_partial",
    "C66_fixed_points_default_start",
    "C66_placing_fixed_points",
    "C66_fixed_points_refuted"
   ],
   "note": "proved for fixed points among the initial points and not outside; refuted in general"
  },
  {
   "property": "C67",
   "status": "partial",
   "theorems": [
    "C67_locked_boundary_partial",
    "C67_unlocked_moves",
    "C67_locked_boundary_refuted"
   ],
   "note": "proved for vertices that are not outside; refuted for the others"
  },
  {
   "property": "C68",
   "status": "partial",
   "theorems": [
    "C68_projection_keeps_inside",
    "C68_projection_affine",
    "C68_projection_flat_refuted"
   ],
   "note": "proved for affine distances with squared gradient at least deps; refuted below"
  },
  {
   "property": "C69",
   "status": "proved",
   "theorems": [
    "C69_initial_points"
   ],
   "note": "stereo=False; finite sizes"
  },
  {
   "property": "C70",
   "status": "proved",
   "theorems": [
    "C70_forces_scale_free"
   ],
   "note": "exact real arithmetic"
  },
  {
   "property": "C71",
   "status": "partial",
   "theorems": [
    "C71_eval",
    "C71_unbuilt",
    "C71_nodes",
    "C71_range",
    "C71_extrapolation_refuted",
    "C71_not_finite",
    "C71_beside_infinite"
   ],
   "note": "evaluation and range proved for regional grids with finite sizes; extrapolation to negative sizes refuted"
  },
  {
   "property": "C72",
   "status": "proved",
   "theorems": [
    "C72_multiscale_minimum",
    "C72_multiscale_range"
   ],
   "note": "regional grids with finite sizes; the function multiscale_sizing_function returns, not the blending before it"
  },
  {
   "property": "C73",
   "status": "partial",
   "theorems": [
    "C73_blend",
    "C73_range",
    "C73_hmin_refuted",
    "C73_not_inside",
    "C73_extrapolating_nest"
   ],
   "note": "values and range proved for nests that do not extrapolate; hmin as a lower bound refuted"
  },
  {
   "property": "C74",
   "status": "proved",
   "theorems": [
    "C74_poly_area",
    "C74_closed",
    "C74_rotate",
    "C74_reverse",
    "C74_box"
   ],
   "note": "exact rational arithmetic"
  },
  {
   "property": "C75",
   "status": "proved",
   "theorems": [
    "C75_overlap"
   ],
   "note": ""
  },
  {
   "property": "C76",
   "status": "partial",
   "theorems": [
    "C76_nodes_at_pixel_corners",
    "C76_last_pixels_undefined",
    "C76_synthetic",
    "C76_crs",
    "C76_window_extent",
    "C76_refuted"
   ],
   "note": "refuted (half-pixel shift), exact positions, CRS and extents proved"
  },
  {
   "property": "C77",
   "status": "proved",
   "theorems": [
    "C77_geographic_iff"
   ],
   "note": ""
  },
  {
   "property": "C78",
   "status": "proved",
   "theorems": [
    "C78_circle",
    "C78_closed_iff",
    "C78_not_closed"
   ],
   "note": "real arithmetic instead of floats"
  },
  {
   "property": "C79",
   "status": "partial",
   "theorems": [
    "C79_axis_aligned_partial",
    "C79_same_crs",
    "C79_ordered",
    "C79_refuted"
   ],
   "note": "refuted; proved for axis-aligned monotone transformations"
  },
  {
   "property": "C80",
   "status": "proved",
   "theorems": [
    "C80_flip"
   ],
   "note": ""
  },
  {
   "property": "C81",
   "status": "partial",
   "theorems": [
    "C81_regional_crs_refuted",
    "C81_missing_crs_refuted",
    "C81_sizing_crs_refuted",
    "C81_global_partial"
   ],
   "note": "refuted; what is enforced is proved exactly"
  },
  {
   "property": "C82",
   "status": "partial",
   "theorems": [
    "C82_limit",
    "C82_least_partial",
    "C82_refuted"
   ],
   "note": "refuted when all sizes exceed 9999; exact limit proved"
  },
  {
   "property": "C83",
   "status": "proved",
   "theorems": [
    "C83_hmin_repaired"
   ],
   "note": ""
  },
  {
   "property": "C84",
   "status": "partial",
   "theorems": [
    "C84_fresh",
    "C84_single",
    "C84_refuted"
   ],
   "note": "refuted for repeated points over two insertions; proved otherwise"
  },
  {
   "property": "C85",
   "status": "proved",
   "theorems": [
    "C85_remove"
   ],
   "note": "CGAL enters as any engine meeting the stated contract"
  },
  {
   "property": "C86",
   "status": "partial",
   "theorems": [
    "C86_move_partial",
    "C86_refuted"
   ],
   "note": "refuted for chains; proved when new positions avoid old points"
  },
  {
   "property": "C87",
   "status": "proved",
   "theorems": [
    "C87_neighbours",
    "C87_stale"
   ],
   "note": "holds after get_finite_cells; numbers are stale before"
  },
  {
   "property": "C88",
   "status": "proved",
   "theorems": [
    "C88_gradation_lowers",
    "C88_gradation_refusals"
   ],
   "note": "stereo=False; exact arithmetic; finite sizes; box that does not span the globe"
  },
  {
   "property": "C89",
   "status": "proved",
   "theorems": [
    "C89_gradation_obeyed",
    "C89_graded_kept"
   ],
   "note": "given that the limiter stops within 10000 passes (see C22 for when it does)"
  },
  {
   "property": "C90",
   "status": "partial",
   "theorems": [
    "C90_global_gradation_refuted",
    "C90_global_gradation_partial"
   ],
   "note": "refuted with a witness; exact effect on global boxes proved"
  },
  {
   "property": "C91",
   "status": "partial",
   "theorems": [
    "C91_crs_kept_refuted",
    "C91_crs_given_partial"
   ],
   "note": "refuted; the result has the CRS argument"
  },
  {
   "property": "C92",
   "status": "proved",
   "theorems": [
    "C92_stereographic_pass"
   ],
   "note": "projections are arbitrary functions; sizes do not extrapolate"
  },
  {
   "property": "C93",
   "status": "proved",
   "theorems": [
    "C93_distance_sizes"
   ],
   "note": "for every distance solver and nearest-node search; masked-array wrapper of the values not modelled"
  },
  {
   "property": "C94",
   "status": "proved",
   "theorems": [
    "C94_distance_bounds"
   ],
   "note": ""
  },
  {
   "property": "C95",
   "status": "partial",
   "theorems": [
    "C95_resampling_partial",
    "C95_short_line_refuted",
    "C95_resampling_endless"
   ],
   "note": "short lines refused (refuted); proved for the others; non-positive edge lengths never end"
  },
  {
   "property": "C96",
   "status": "partial",
   "theorems": [
    "C96_shoreline_mask_partial",
    "C96_shoreline_mask_refuted"
   ],
   "note": "proved when there are shoreline points; refuted otherwise"
  },
  {
   "property": "C97",
   "status": "proved",
   "theorems": [
    "C97_feature_sizes",
    "C97_feature_refusal"
   ],
   "note": "for every distance solver and medial axis; finite distances"
  },
  {
   "property": "C98",
   "status": "partial",
   "theorems": [
    "C98_feature_minimum_refuted",
    "C98_feature_minimum_partial"
   ],
   "note": "refuted; proved when a minimum of at least h0 is given"
  },
  {
   "property": "C99",
   "status": "proved",
   "theorems": [
    "C99_lowpass",
    "C99_highpass",
    "C99_bandpass",
    "C99_refused"
   ],
   "note": "for every smoothing (gaussian_filter is a parameter)"
  },
  {
   "property": "C100",
   "status": "partial",
   "theorems": [
    "C100_bandstop_refuted",
    "C100_bandstop_exact",
    "C100_bandstop_partial"
   ],
   "note": "refuted: the short waves change sign; exact result and constants proved"
  },
  {
   "property": "C101",
   "status": "proved",
   "theorems": [
    "C101_slope_sizes"
   ],
   "note": "for every smoothing that keeps the shape"
  },
  {
   "property": "C102",
   "status": "proved",
   "theorems": [
    "C102_plane"
   ],
   "note": ""
  },
  {
   "property": "C103",
   "status": "proved",
   "theorems": [
    "C103_limits"
   ],
   "note": ""
  },
  {
   "property": "C104",
   "status": "partial",
   "theorems": [
    "C104_coarser",
    "C104_extrapolates_refuted",
    "C104_refused"
   ],
   "note": "values, lattice, hmin and refusals proved; extrapolation refuted"
  },
  {
   "property": "C105",
   "status": "partial",
   "theorems": [
    "C105_smoothing_refuted",
    "C105_sizes_refuted",
    "C105_exact",
    "C105_returns"
   ],
   "note": "refuted; exact result proved"
  },
  {
   "property": "C106",
   "status": "partial",
   "theorems": [
    "C106_not_refused_refuted",
    "C106_projected_refuted",
    "C106_narrow_refuted",
    "C106_wraps_refuted",
    "C106_global_refuted",
    "C106_pole_refuted"
   ],
   "note": "refuted: accepted, and failing on projected, global, polar and narrow lattices"
  },
  {
   "property": "C107",
   "status": "partial",
   "theorems": [
    "C107_bandstop_refuted",
    "C107_exact"
   ],
   "note": "refuted for bandstop; the names without effect are characterised"
  },
  {
   "property": "C108",
   "status": "proved",
   "theorems": [
    "C108_wavelengths"
   ],
   "note": ""
  },
  {
   "property": "C109",
   "status": "partial",
   "theorems": [
    "C109_latitude_refuted",
    "C109_projected_refuted",
    "C109_geographic_refuted",
    "C109_degrees_partial"
   ],
   "note": "refuted; for EPSG:4326 the error is at most 1.02 percent"
  },
  {
   "property": "C110",
   "status": "partial",
   "theorems": [
    "C110_hmin_refuted",
    "C110_hmin_partial"
   ],
   "note": "refuted; proved when hmin does not exceed the maximum"
  },
  {
   "property": "C111",
   "status": "proved",
   "theorems": [
    "C111_decomposition",
    "C111_refused",
    "C111_one_ring"
   ],
   "note": ""
  },
  {
   "property": "C112",
   "status": "proved",
   "theorems": [
    "C112_shapely_edges",
    "C112_shapely_ring",
    "C112_fallback"
   ],
   "note": "the geometry engine is a parameter with the contract faithful"
  },
  {
   "property": "C113",
   "status": "partial",
   "theorems": [
    "C113_kernels_partial",
    "C113_shapely_refuted",
    "C113_matplotlib_never",
    "C113_matplotlib_refuted"
   ],
   "note": "proved for the ray caster and the compiled kernel; refuted for Shapely and Matplotlib"
  },
  {
   "property": "C114",
   "status": "partial",
   "theorems": [
    "C114_settled_partial",
    "C114_count_refuted"
   ],
   "note": "refuted; proved for settings in which the backend is fixed"
  },
  {
   "property": "C115",
   "status": "partial",
   "theorems": [
    "C115_union",
    "C115_one_ring_partial",
    "C115_hole_refuted"
   ],
   "note": "refuted for holes; proved for one ring; contract: union of parts"
  },
  {
   "property": "C116",
   "status": "partial",
   "theorems": [
    "C116_simplified_partial",
    "C116_closed_refuted",
    "C116_distinct_refuted"
   ],
   "note": "refuted for closure and repetition; the rest proved"
  },
  {
   "property": "C117",
   "status": "partial",
   "theorems": [
    "C117_part_partial",
    "C117_refused",
    "C117_closed_refuted"
   ],
   "note": "refuted for exact closure; the rest proved"
  },
  {
   "property": "C118",
   "status": "partial",
   "theorems": [
    "C118_rings_partial",
    "C118_read_back",
    "C118_touching_refuted",
    "C118_twice_refuted"
   ],
   "note": "proved for valid polygons with areal intersections; refuted otherwise; the geometry engine is a parameter"
  },
  {
   "property": "C119",
   "status": "partial",
   "theorems": [
    "C119_kinds_partial",
    "C119_islands",
    "C119_landlocked_refuted",
    "C119_outline",
    "C119_outline_box"
   ],
   "note": "kinds, region and islands proved; refuted when land covers the box; contract set_like"
  },
  {
   "property": "C120",
   "status": "partial",
   "theorems": [
    "C120_threshold_partial",
    "C120_refused",
    "C120_documented_refuted",
    "C120_linear_refuted"
   ],
   "note": "refuted; the exact threshold is proved"
  },
  {
   "property": "C121",
   "status": "partial",
   "theorems": [
    "C121_used_partial",
    "C121_region",
    "C121_given_refuted",
    "C121_array_box"
   ],
   "note": "refuted for an explicit default CRS; the rest proved"
  },
  {
   "property": "C122",
   "status": "partial",
   "theorems": [
    "C122_scaled",
    "C122_inside_partial",
    "C122_inside_refuted"
   ],
   "note": "refuted; proved for coordinates of both signs"
  },
  {
   "property": "C123",
   "status": "proved",
   "theorems": [
    "C123_reader"
   ],
   "note": "readers are parameters; the failure is an unbound local variable"
  },
  {
   "property": "C124",
   "status": "proved",
   "theorems": [
    "C124_grid",
    "C124_call",
    "C124_function"
   ],
   "note": "masked arrays not modelled"
  },
  {
   "property": "C125",
   "status": "partial",
   "theorems": [
    "C125_four_partial",
    "C125_accepted",
    "C125_dimension_refuted",
    "C125_missing"
   ],
   "note": "refuted: the dimension is not checked; four entries proved right"
  },
  {
   "property": "C126",
   "status": "partial",
   "theorems": [
    "C126_call_partial",
    "C126_defaults",
    "C126_no_options",
    "C126_float_refuted",
    "C126_empty_refuted",
    "C126_count",
    "C126_kinds"
   ],
   "note": "refuted for a float count and an empty list; the rest proved"
  },
  {
   "property": "C127",
   "status": "partial",
   "theorems": [
    "C127_forces_partial",
    "C127_scale_unique",
    "C127_start_refuted",
    "C127_start_even",
    "C127_start_agrees"
   ],
   "note": "proved for the forces factor; refuted for the starting points factor"
  },
  {
   "property": "C128",
   "status": "partial",
   "theorems": [
    "C128_sound",
    "C128_complete_partial",
    "C128_distinct_refuted"
   ],
   "note": "places and completeness proved; distinctness refuted"
  },
  {
   "property": "C129",
   "status": "proved",
   "theorems": [
    "C129_frames",
    "C129_refused",
    "C129_ends"
   ],
   "note": "the interpolator is a parameter"
  },
  {
   "property": "C130",
   "status": "proved",
   "theorems": [
    "C130_grids",
    "C130_function"
   ],
   "note": "global grids excluded; the interpolator is range-preserving"
  },
  {
   "property": "C131",
   "status": "partial",
   "theorems": [
    "C131_sizes_partial",
    "C131_sizes_refuted",
    "C131_flag_refuted"
   ],
   "note": "refuted for global grids and for flags; sizes of regional grids proved unchanged"
  },
  {
   "property": "C132",
   "status": "partial",
   "theorems": [
    "C132_width_partial",
    "C132_feet_refuted"
   ],
   "note": "proved in metres and degrees; refuted for feet"
  },
  {
   "property": "C133",
   "status": "partial",
   "theorems": [
    "C133_frame",
    "C133_values_partial",
    "C133_minimum",
    "C133_least_refuted"
   ],
   "note": "frame and values proved; the least size is refuted for a shared CRS"
  },
  {
   "property": "C134",
   "status": "partial",
   "theorems": [
    "C134_round",
    "C134_row_refuted"
   ],
   "note": "proved from two rows and columns up; refuted for one row"
  },
  {
   "property": "C135",
   "status": "proved",
   "theorems": [
    "C135_selection",
    "C135_vertex_inside",
    "C135_beside",
    "C135_larger_box",
    "C135_multi"
   ],
   "note": "for files of lines and polygons, in exact coordinates"
  },
  {
   "property": "C136",
   "status": "partial",
   "theorems": [
    "C136_refuted",
    "C136_unchanged_partial"
   ],
   "note": "refuted for vertices with equal coordinates; proved otherwise"
  },
  {
   "property": "C137",
   "status": "partial",
   "theorems": [
    "C137_refuted",
    "C137_ignored"
   ],
   "note": "refuted: interior rings make no difference at all"
  },
  {
   "property": "C138",
   "status": "partial",
   "theorems": [
    "C138_crs_used",
    "C138_no_crs_refuted"
   ],
   "note": "proved for files with a CRS; refuted for files without"
  },
  {
   "property": "C139",
   "status": "partial",
   "theorems": [
    "C139_total",
    "C139_third_refuted"
   ],
   "note": "exact conditions proved; refuted for lines with a third coordinate"
  },
  {
   "property": "C140",
   "status": "proved",
   "theorems": [
    "C140_values",
    "C140_nothing",
    "C140_ends"
   ],
   "note": "xarray is modelled by functions of labelled indices"
  },
  {
   "property": "C141",
   "status": "partial",
   "theorems": [
    "C141_key_error",
    "C141_bounds_refuted",
    "C141_other_grid_refuted",
    "C141_unnamed_refuted"
   ],
   "note": "refuted by three files; the KeyError and the ValueError for unnamed dimensions are characterised exactly"
  },
  {
   "property": "C142",
   "status": "partial",
   "theorems": [
    "C142_refuted",
    "C142_leading_axis"
   ],
   "note": "refuted; proved for the last two dimensions in either order (C140), the others characterised"
  },
  {
   "property": "C143",
   "status": "partial",
   "theorems": [
    "C143_mean",
    "C143_range",
    "C143_scale",
    "C143_equal",
    "C143_none",
    "C143_all_zero_refuted",
    "C143_documented_shape_refuted"
   ],
   "note": "mean, range, scaling proved; refuted for weights shaped as documented and for neighbours of weight 0 only"
  },
  {
   "property": "C144",
   "status": "partial",
   "theorems": [
    "C144_sums",
    "C144_nearest_first",
    "C144_off",
    "C144_other_neighbours_refuted",
    "C144_other_neighbours",
    "C144_poisoned"
   ],
   "note": "sums and order proved; refuted for calls with different numbers of neighbours"
  },
  {
   "property": "C145",
   "status": "proved",
   "theorems": [
    "C145_box_sign",
    "C145_box_value"
   ],
   "note": ""
  },
  {
   "property": "C146",
   "status": "partial",
   "theorems": [
    "C146_first",
    "C146_sorted",
    "C146_strict_partial",
    "C146_strict_refuted"
   ],
   "note": "sorted and first entry proved; strictly increasing refuted in general, proved for cells not too small"
  },
  {
   "property": "C147",
   "status": "proved",
   "theorems": [
    "C147_circle"
   ],
   "note": ""
  },
  {
   "property": "C148",
   "status": "partial",
   "theorems": [
    "C148_constant_refuted",
    "C148_range_partial"
   ],
   "note": "refuted; proved up to a relative rounding error"
  },
  {
   "property": "C149",
   "status": "proved",
   "theorems": [
    "C149_rint",
    "C149_filter",
    "C149_exact_on_grid"
   ],
   "note": ""
  },
  {
   "property": "C150",
   "status": "partial",
   "theorems": [
    "C150_returns",
    "C150_near",
    "C150_oriented_on_grid",
    "C150_oriented_partial",
    "C150_oriented_refuted"
   ],
   "note": "result and distances proved; orientation refuted in general, proved on grids and up to rounding"
  },
  {
   "property": "C151",
   "status": "proved",
   "theorems": [
    "C151_metadata",
    "C151_returns",
    "C151_multiscale",
    "C151_box",
    "C151_boxes",
    "C151_shorelines"
   ],
   "note": ""
  },
  {
   "property": "C152",
   "status": "partial",
   "theorems": [
    "C152_count",
    "C152_margin",
    "C152_any",
    "C152_points",
    "C152_file_refuted"
   ],
   "note": "points shown proved; saving to a file refuted for the method plot"
  },
  {
   "property": "C153",
   "status": "partial",
   "theorems": [
    "C153_polygon",
    "C153_nan",
    "C153_empty",
    "C153_tuple",
    "C153_four_refuted"
   ],
   "note": "proved for polygons and tuples; four numbers refuted"
  },
  {
   "property": "C154",
   "status": "proved",
   "theorems": [
    "C154_shape",
    "C154_entries",
    "C154_increasing"
   ],
   "note": ""
  },
  {
   "property": "C155",
   "status": "partial",
   "theorems": [
    "C155_whole_file",
    "C155_clipped_values",
    "C155_clipped_keeps_numbers",
    "C155_refuted",
    "C155_mask"
   ],
   "note": "refuted for clipped reads: masked pixels keep the nodata number, which is interpolated; proved for whole files; exact values and mask of clipped reads proved"
  },
  {
   "property": "C156",
   "status": "proved",
   "theorems": [
    "C156_range",
    "C156_gradation",
    "C156_relative",
    "C156_converges",
    "C156_maximal",
    "C156_unchanged"
   ],
   "note": ""
  },
  {
   "property": "C157",
   "status": "partial",
   "theorems": [
    "C157_first_nan",
    "C157_refuted"
   ],
   "note": "refuted when the first cell is nan: std::min_element answers nan, so does the tolerance, and every cell is returned as it was (proved for all such fields); with a number in the first cell it holds (C156)"
  },
  {
   "property": "C158",
   "status": "proved",
   "theorems": [
    "C158_corners",
    "C158_facts",
    "C158_box",
    "C158_closed",
    "C158_same_code"
   ],
   "note": ""
  },
  {
   "property": "C159",
   "status": "partial",
   "theorems": [
    "C159_kept",
    "C159_pinned",
    "C159_sweeps",
    "C159_box_partial",
    "C159_box_refuted",
    "C159_unused",
    "C159_closed",
    "C159_no_pins"
   ],
   "note": "the box is refuted: a hub whose neighbours have abscissas 0.1 or the double below goes to the double above 0.1; proved that the box grows by at most drift (rounding errors of the sweeps)"
  },
  {
   "property": "C160",
   "status": "partial",
   "theorems": [
    "C160_growth_partial",
    "C160_refuted"
   ],
   "note": "refuted: line 481 takes the largest growth instead of the largest absolute change, so the loop stops at the default tolerance though an edge lost more than a quarter of its length; proved that no edge grew by the tolerance"
  },
  {
   "property": "C161",
   "status": "partial",
   "theorems": [
    "C161_even_odd_partial",
    "C161_even_odd_refuted",
    "C161_length",
    "C161_nonfinite"
   ],
   "note": "Refuted as stated by edges that rise by less than about 2^-1024 of their width: the slope overflows to infinity, 0 times it is nan, the crossing is lost and a point outside is reported inside (C161_even_odd_refuted). Proved when every edge is level or rises by at least 2^-500 (C161_even_odd_partial)."
  },
  {
   "property": "C162",
   "status": "partial",
   "theorems": [
    "C162_on_edge_partial",
    "C162_on_edge_refuted",
    "C162_near"
   ],
   "note": "Second half proved (C162_near). First half refuted at the default tolerance 5e-14 in degrees: a point exactly on an edge is reported outside and not on the boundary (C162_on_edge_refuted); proved for tolerances of at least 2^-46 times the coordinate size and edges not shorter than 2^-500 (C162_on_edge_partial)."
  },
  {
   "property": "C163",
   "status": "partial",
   "theorems": [
    "C163_tagged",
    "C163_untagged",
    "C163_no_git",
    "C163_parent",
    "C163_foreign",
    "C163_describe_long",
    "C163_branch",
    "C163_detached",
    "C163_styles",
    "C163_unknown_style",
    "C163_formats",
    "C163_formats_untagged",
    "C163_pre",
    "C163_pre_plain",
    "C163_signed",
    "C163_import_refuted",
    "C163_bare_tag_refuted"
   ],
   "note": "Proved for tagged (C163_tagged, C163_describe_long), untagged (C163_untagged), foreign (C163_foreign) and missing (C163_no_git, C163_parent) repositories, with the branch (C163_branch, C163_detached) and the styles (C163_styles, C163_formats, C163_formats_untagged, C163_pre, C163_pre_plain, C163_unknown_style) and signature lines (C163_signed). Two parts are false: a git show or git rev-list that fails after git describe worked makes the import raise (C163_import_refuted), and the tag 'v' itself counts as no tag (C163_bare_tag_refuted). git's answers are arbitrary parameters."
  },
  {
   "property": "C164",
   "status": "partial",
   "theorems": [
    "C164_identifies_partial",
    "C164_identifies_refuted",
    "C164_pep440_partial",
    "C164_pep440_refuted"
   ],
   "note": "Proved for tags without a plus sign (C164_identifies_partial) and for tags that are PEP 440 versions (C164_pep440_partial). False otherwise: tag 1.0+3.gab and three commits after tag 1.0 have one version (C164_identifies_refuted), and every tag that starts with v is taken, verified gives the version erified (C164_pep440_refuted)."
  },
  {
   "property": "C165",
   "status": "partial",
   "theorems": [
    "C165_tagged",
    "C165_lines",
    "C165_unsuitable",
    "C165_branch",
    "C165_nothing",
    "C165_untagged_refuted",
    "C165_newest_refuted",
    "C165_empty_date"
   ],
   "note": "Proved when release tags are listed (C165_tagged), when tags are listed but none of a release (C165_unsuitable), and when no reference looks like a release (C165_nothing). False otherwise: without tags a branch named like a release is taken for one (C165_untagged_refuted, C165_branch). Also: the newest of two tags on a commit is not what is taken (C165_newest_refuted), and an empty date raises (C165_empty_date)."
  },
  {
   "property": "C166",
   "status": "partial",
   "theorems": [
    "C166_values",
    "C166_sea",
    "C166_inverted",
    "C166_covering",
    "C166_kernels",
    "C166_no_outline",
    "C166_from_file_partial",
    "C166_diagonal_refuted"
   ],
   "note": "Proved for arrays whose rings end with their first point twice (C166_values, C166_sea, C166_inverted, C166_covering, C166_no_outline), with either kernel at tolerance zero (C166_kernels). Shoreline makes such arrays from files whose rings do not start at a point with equal coordinates (C166_from_file_partial). False for a ring that does: remove_dup drops its first point and a side, and a point of the island counts as sea (C166_diagonal_refuted)."
  },
  {
   "property": "C167",
   "status": "partial",
   "theorems": [
    "C167_elements",
    "C167_diagonal_refuted"
   ],
   "note": "Proved for arrays whose rings end with their first point twice (C167_elements). False for an island whose ring starts at a point with equal coordinates: elements are returned that lie on it (C167_diagonal_refuted)."
  },
  {
   "property": "C168",
   "status": "proved",
   "theorems": [
    "C168_distance",
    "C168_nan"
   ],
   "note": "C168_distance. Distances are those skfmm returned, or 999 when it finds no level set; u = 2^-53. A missing distance gives a missing size (C168_nan)."
  },
  {
   "property": "C169",
   "status": "partial",
   "theorems": [
    "C169_wavelength",
    "C169_hmin_refuted",
    "C169_nan"
   ],
   "note": "C169_wavelength, with hmin a lower bound when it is not above the upper bound. False otherwise: hmin is taken before the upper bound is applied (C169_hmin_refuted). Missing data give missing sizes (C169_nan)."
  },
  {
   "property": "C170",
   "status": "proved",
   "theorems": [
    "C170_slope",
    "C170_nan"
   ],
   "note": "C170_slope; the formula with the double nearest to pi and with 1e-10. Missing data give missing sizes (C170_nan)."
  },
  {
   "property": "C171",
   "status": "partial",
   "theorems": [
    "C171_resample",
    "C171_ends_refuted",
    "C171_zero"
   ],
   "note": "Proved for lines of at most 2^50 edge lengths (C171_resample). With 2^54 edge lengths, or an edge length of zero, the loop does not end (C171_ends_refuted, C171_zero)."
  },
  {
   "property": "C172",
   "status": "partial",
   "theorems": [
    "C172_even_odd_partial",
    "C172_even_odd_refuted",
    "C172_open_refuted",
    "C172_length"
   ],
   "note": "C172_even_odd_partial: closed edges, each of length zero or at least 2^-100, level or rising by more than the tolerance. False otherwise (C172_even_odd_refuted, C172_open_refuted)."
  },
  {
   "property": "C173",
   "status": "partial",
   "theorems": [
    "C173_on_edge_partial",
    "C173_on_edge_refuted",
    "C173_near",
    "C173_short_edge_refuted"
   ],
   "note": "Found on an edge when the tolerance is at least 2^-48 of the coordinates (C173_on_edge_partial); false in metres with the default (C173_on_edge_refuted). Reports lie within the tolerance plus the tolerance divided by the edge length (C173_near), so a short edge puts distant queries on the boundary (C173_short_edge_refuted)."
  },
  {
   "property": "C174",
   "status": "partial",
   "theorems": [
    "C174_kernels_agree_partial",
    "C174_kernels_agree_refuted"
   ],
   "note": "C174_kernels_agree_partial under the restrictions of C172. False at distance 1/5 of the polygon (C174_kernels_agree_refuted)."
  },
  {
   "property": "C175",
   "status": "partial",
   "theorems": [
    "C175_grid_partial",
    "C175_grid_refuted",
    "C175_shoreline_partial",
    "C175_shoreline_refuted",
    "C175_dem_refuted",
    "C175_no_file"
   ],
   "note": "Grid: complete if the axes given belong to the current figure (C175_grid_partial), otherwise the other figure is written (C175_grid_refuted). Shoreline: complete unless shown on a screen (C175_shoreline_partial), then blank (C175_shoreline_refuted). DEM: never complete (C175_dem_refuted)."
  },
  {
   "property": "C176",
   "status": "proved",
   "theorems": [
    "C176_window",
    "C176_mesh",
    "C176_then_save"
   ],
   "note": ""
  },
  {
   "property": "C177",
   "status": "proved",
   "theorems": [
    "C177_returns",
    "C177_entries",
    "C177_dem_entries",
    "C177_dem_cmap",
    "C177_backwards"
   ],
   "note": ""
  },
  {
   "property": "C178",
   "status": "partial",
   "theorems": [
    "C178_grid",
    "C178_shoreline_refuted",
    "C178_dem_refuted"
   ],
   "note": "Holds for grids (C178_grid); shoreline plots ignore limits (C178_shoreline_refuted), DEM plots replace the labels (C178_dem_refuted)."
  },
  {
   "property": "C179",
   "status": "proved",
   "theorems": [
    "C179_returns",
    "C179_box",
    "C179_legend"
   ],
   "note": ""
  },
  {
   "property": "C180",
   "status": "partial",
   "theorems": [
    "C180_segments",
    "C180_polygon_partial",
    "C180_polygon_refuted"
   ],
   "note": "C180_polygon_partial: every part of the polygon has a row. False for a leading separator (C180_polygon_refuted)."
  },
  {
   "property": "C181",
   "status": "partial",
   "theorems": [
    "C181_marks_refuted"
   ],
   "note": "C181_marks_refuted: same result, nodes marked are consecutive from the first on, the last node never is."
  },
  {
   "property": "C182",
   "status": "proved",
   "theorems": [
    "C182_accuracy",
    "C182_rows"
   ],
   "note": ""
  },
  {
   "property": "C183",
   "status": "partial",
   "theorems": [
    "C183_range_partial",
    "C183_coincident_refuted",
    "C183_number_refuted"
   ],
   "note": "C183_range_partial: nan or in range. nan for coincident corners (C183_coincident_refuted) and for some triangles with an area (C183_number_refuted)."
  },
  {
   "property": "C184",
   "status": "partial",
   "theorems": [
    "C184_verdict_refuted",
    "C184_small_mesh"
   ],
   "note": "C184_verdict_refuted: faces with coincident corners always stay (nan < min_qual is False); faces with slack are decided by their exact quality. C184_small_mesh: in a mesh of small faces exactly the nan faces stay on the boundary."
  },
  {
   "property": "C185",
   "status": "proved",
   "theorems": [
    "C185_verdict",
    "C185_looked_at",
    "C185_aborts",
    "C185_bad_limit"
   ],
   "note": ""
  },
  {
   "property": "C186",
   "status": "proved",
   "theorems": [
    "C186_newest"
   ],
   "note": ""
  },
  {
   "property": "C187",
   "status": "partial",
   "theorems": [
    "C187_never_missed_partial",
    "C187_bundled_refuted"
   ],
   "note": "C187_never_missed_partial: a bundled library is always found. Members of other names pass too (C187_bundled_refuted)."
  },
  {
   "property": "C188",
   "status": "proved",
   "theorems": [
    "C188_starts",
    "C188_aborts",
    "C188_imports_end"
   ],
   "note": "other libraries are taken to import without error"
  },
  {
   "property": "C189",
   "status": "partial",
   "theorems": [
    "C189_star_refuted",
    "C189_missing",
    "C189_modules"
   ],
   "note": "refuted: exactly three names are missing (C189_missing); the lists of the single modules are complete (C189_modules)"
  },
  {
   "property": "C190",
   "status": "proved",
   "theorems": [
    "C190_switch"
   ],
   "note": ""
  },
  {
   "property": "C191",
   "status": "partial",
   "theorems": [
    "C191_hidden_refuted",
    "C191_attributes"
   ],
   "note": "refuted for exactly two modules (C191_attributes)"
  },
  {
   "property": "C192",
   "status": "proved",
   "theorems": [
    "C192_needed_modules",
    "C192_names",
    "C192_distinct",
    "C192_never_incomplete"
   ],
   "note": "what is asked of Cython is the hypothesis [faithful]"
  },
  {
   "property": "C193",
   "status": "partial",
   "theorems": [
    "C193_without_sources",
    "C193_builds_iff",
    "C193_without_cython_refuted"
   ],
   "note": "refuted for a .pyx file without Cython; exact condition proved (C193_builds_iff)"
  },
  {
   "property": "C194",
   "status": "partial",
   "theorems": [
    "C194_directories",
    "C194_windows",
    "C194_vcpkg_unchecked_refuted",
    "C194_paths",
    "C194_slashes"
   ],
   "note": "proved outside Windows and for complete prefixes; refuted for the fallback on Windows"
  },
  {
   "property": "C195",
   "status": "partial",
   "theorems": [
    "C195_words",
    "C195_listed",
    "C195_old_python",
    "C195_fiona_version_refuted",
    "C195_imports_refuted"
   ],
   "note": "refuted: affine and xarray are imported but not required directly; the rest proved"
  },
  {
   "property": "C196",
   "status": "partial",
   "theorems": [
    "C196_dangling_keeps_traversable",
    "C196_both_steps",
    "C196_no_poor_faces_partial",
    "C196_poor_faces_refuted",
    "C196_no_dangling_refuted"
   ],
   "note": "mesh_clean proved without poor faces; with a poor face it can return a dangling face (refuted)"
  },
  {
   "property": "C197",
   "status": "partial",
   "theorems": [
    "C197_forces",
    "C197_returns",
    "C197_zero_sum_refuted",
    "C197_finite_refuted"
   ],
   "note": "proved up to rounding with error bounds for coordinates of ordinary size; exact balance and finiteness at extreme distances refuted"
  },
  {
   "property": "C198",
   "status": "partial",
   "theorems": [
    "C198_centroid",
    "C198_own_box_refuted",
    "C198_kept"
   ],
   "note": "proved up to the rounding of the centroid; centroid inside the bounding box of its corners refuted"
  },
  {
   "property": "C199",
   "status": "partial",
   "theorems": [
    "C199_keeps",
    "C199_keeps_box",
    "C199_box_partial",
    "C199_box_exact",
    "C199_lands_refuted",
    "C199_corner_refuted",
    "C199_far",
    "C199_far_refuted"
   ],
   "note": "unchanged points proved for all distance functions; landing on the side proved up to a rounding bound, and exactly when the differences are exact; landing in general, beyond corners and far from the origin refuted"
  },
  {
   "property": "C200",
   "status": "partial",
   "theorems": [
    "C200_build_reads",
    "C200_rebuild",
    "C200_import_partial",
    "C200_import_refuted",
    "C200_injection_refuted",
    "C200_ascii",
    "C200_letters",
    "C200_last_value",
    "C200_code_refuted"
   ],
   "note": "archive and build proved for all texts; import proved for texts without quotation marks, backslashes, control characters or three apostrophes, and refuted for those git allows in a tag"
  },
  {
   "property": "C201",
   "status": "partial",
   "theorems": [
    "C201_keywords",
    "C201_agree_partial",
    "C201_installed_partial",
    "C201_agree_refuted",
    "C201_ext_refuted",
    "C201_quoted",
    "C201_ext_inplace",
    "C201_ext_same",
    "C201_unexpanded"
   ],
   "note": "proved unless one of the three enclosing directories has a name that starts with None; refuted there, and for build_ext alone"
  },
  {
   "property": "C202",
   "status": "partial",
   "theorems": [
    "C202_fixed_partial",
    "C202_box_partial",
    "C202_close_refuted"
   ],
   "note": "proved for fixed points that are the same or 2^-500 apart; refuted for closer ones"
  },
  {
   "property": "C203",
   "status": "proved",
   "theorems": [
    "C203_fixed",
    "C203_free"
   ],
   "note": ""
  },
  {
   "property": "C204",
   "status": "proved",
   "theorems": [
    "C204_returned",
    "C204_rejected",
    "C204_box"
   ],
   "note": ""
  },
  {
   "property": "C205",
   "status": "partial",
   "theorems": [
    "C205_fixed_partial",
    "C205_fixed_refuted",
    "C205_default_start_partial"
   ],
   "note": "proved for fixed points at which the last triangulation has a triangle that is deep enough inside; refuted in general"
  },
  {
   "property": "C206",
   "status": "partial",
   "theorems": [
    "C206_axis_partial",
    "C206_strict",
    "C206_cover_refuted",
    "C206_extra_refuted",
    "C206_exchanged",
    "C206_points"
   ],
   "note": "ends of the lattice proved up to 16 u M; exact ends refuted in both directions"
  },
  {
   "property": "C207",
   "status": "partial",
   "theorems": [
    "C207_kept_partial",
    "C207_dropped_partial",
    "C207_smallest_partial",
    "C207_tiny_refuted"
   ],
   "note": "proved for sizes between 2^-200 and 2^200; refuted for all positive sizes"
  },
  {
   "property": "C208",
   "status": "partial",
   "theorems": [
    "C208_densify_partial",
    "C208_gap_partial",
    "C208_gap_refuted",
    "C208_fewest_refuted",
    "C208_infinite"
   ],
   "note": "proved up to 20 u M for the pieces and 60 u M for gaps; exact bounds refuted"
  },
  {
   "property": "C209",
   "status": "partial",
   "theorems": [
    "C209_decides_partial",
    "C209_raises_partial",
    "C209_box",
    "C209_decides_refuted",
    "C209_nan",
    "C209_contract"
   ],
   "note": "proved when the first turn that is not straight exceeds 1e-8 and 40 u of the product of the extents; refuted without the second condition; LAPACK, log and exp are any functions within a contract, shown to be kept by division and by reciprocals"
  },
  {
   "property": "C210",
   "status": "partial",
   "theorems": [
    "C210_idempotent_partial",
    "C210_unconfigured",
    "C210_space",
    "C210_shared_refuted",
    "C210_attributes_refuted",
    "C210_init_refuted"
   ],
   "note": "proved for finished files, a path of printable characters without white space and an __init__.py without the old lines; refuted for the others by four cases"
  },
  {
   "property": "C211",
   "status": "partial",
   "theorems": [
    "C211_init",
    "C211_init_kept",
    "C211_formatted_refuted",
    "C211_manifest_partial",
    "C211_manifest_refuted",
    "C211_attributes_partial",
    "C211_attributes_kept",
    "C211_attributes_refuted",
    "C211_emptied"
   ],
   "note": "proved for finished files; three refutations; configparser and the text of _version.py are parameters"
  },
  {
   "property": "C212",
   "status": "partial",
   "theorems": [
    "C212_scan",
    "C212_status",
    "C212_commented_refuted",
    "C212_spelled_refuted"
   ],
   "note": "exact condition on the text proved; two refutations of the intention"
  },
  {
   "property": "C213",
   "status": "partial",
   "theorems": [
    "C213_area",
    "C213_decides_partial",
    "C213_degrees",
    "C213_nan",
    "C213_contract",
    "C213_dropped_refuted",
    "C213_kept_refuted"
   ],
   "note": "error bound for any order of summation and fused operations, decision outside the bound, nan; refuted inside the bound by two rings; the transformation to degrees and the other branch (area of shapely) are not modelled on doubles"
  },
  {
   "property": "C214",
   "status": "partial",
   "theorems": [
    "C214_circumference_partial",
    "C214_bound",
    "C214_nan",
    "C214_contract",
    "C214_refuted"
   ],
   "note": "error bound for any order of summation; closed rings and rings with ends clearly apart; the closing edge of nearly closed rings may be missing, refuted by a corner at 128 degrees east; nan"
  },
  {
   "property": "C215",
   "status": "partial",
   "theorems": [
    "C215_sets_partial",
    "C215_nan",
    "C215_complete",
    "C215_multiscale",
    "C215_disjoint",
    "C215_box_low",
    "C215_box_high",
    "C215_minimum",
    "C215_maximum",
    "C215_seam_refuted",
    "C215_nan_refuted"
   ],
   "note": "exact for values that are numbers, infinities included; nan characterised; refuted for nan and on the seam; one point at a time, the arrays are in C24 and M_Sdf"
  },
  {
   "property": "C216",
   "status": "partial",
   "theorems": [
    "C216_sea_partial",
    "C216_covering_partial",
    "C216_nonfinite",
    "C216_in_covering",
    "C216_refuted"
   ],
   "note": "exact value and sign with the compiled kernel on doubles, one query at a time; the tree is any function with finite answers not below zero; in its covering for any rows and any query; refuted for a side that rises by the least double"
  }
 ]
}
