# What Print Assumptions lists for each theorem

Generated by `tools/mkassume.py`.

* **A0**: closed under the global context
* **A1**: `ClassicalDedekindReals.sig_forall_dec`, `FunctionalExtensionality.functional_extensionality_dep`
* **A2**: `ClassicalDedekindReals.sig_forall_dec`, `ClassicalDedekindReals.sig_not_dec`, `FunctionalExtensionality.functional_extensionality_dep`
* **A3**: `ClassicalDedekindReals.sig_forall_dec`, `ClassicalDedekindReals.sig_not_dec`, `Classical_Prop.classic`, `FunctionalExtensionality.functional_extensionality_dep`

| file | set | theorems |
|---|---|---|
| T_Adjacency.v | A0 | C05_face_table_exact C05_face_table_row_length C05_face_table_sound C05_face_table_symmetric C05_face_table_connectivity C06_vertex_table_exact C06_unused_vertex_refuted |
| T_AreaF.v | A1 | C213_degrees C213_nan C213_contract C213_dropped_refuted C213_kept_refuted |
| T_AreaF.v | A3 | C213_area C213_decides_partial |
| T_Blend.v | A0 | C73_blend C73_range C73_hmin_refuted C73_not_inside C73_extrapolating_nest |
| T_Boundary.v | A0 | C32_sections_partial C32_runs_exist C32_sections_all C32_two_deep_nodes_refuted C32_pair_crash_refuted C32_stale_end_refuted C32_isolated_crash_refuted C32_isolated_bogus_refuted C62_min_nodes_refuted C63_seam_refuted C63_other_loops_refuted |
| T_BoundaryM.v | A0 | C63_one_loop_partial C62_threshold_ignored |
| T_BuildVersion.v | A0 | C200_build_reads C200_rebuild C200_import_partial C200_import_refuted C200_injection_refuted C201_keywords C201_agree_partial C201_installed_partial C201_agree_refuted C201_ext_refuted C200_ascii C200_letters C200_last_value C200_code_refuted C201_quoted C201_ext_inplace C201_ext_same C201_unexpanded |
| T_Circle.v | A0 | C78_not_closed |
| T_Circle.v | A2 | C78_circle C78_closed_iff |
| T_Clean.v | A0 | C07_flood_fill_exact C08_large_components_kept C08_whole_components C09_interior_faces_exact C09_nothing_to_delete C09_no_boundary C10_terminates C10_traversable_exit C10_traversable C10_traversable_unchanged C10_keeps_boundary C10_no_boundary C55_always_returns_refuted C55_all_small_fails C11_returns C11_no_dangling_face C11_one_round C11_rounds C17_boundary_faces_exact C17_no_boundary C18_smoothing C18_unused_vertex C18_no_boundary C18_empty_pins_refuted C18_indices_refuted C18_scalar_pins C56_mesh_clean_well_formed C56_mesh_clean_traversable_partial C56_traversable_refuted C56_mesh_clean_without_smoothing |
| T_Clip.v | A0 | C116_simplified_partial C116_closed_refuted C116_distinct_refuted C117_part_partial C117_refused C117_closed_refuted C118_rings_partial C118_read_back C118_touching_refuted C118_twice_refuted C119_kinds_partial C119_islands C119_landlocked_refuted C119_outline C119_outline_box C120_threshold_partial C120_refused C120_documented_refuted C120_linear_refuted C121_used_partial C121_region C121_given_refuted C121_array_box C122_scaled C122_inside_partial C122_inside_refuted C123_reader |
| T_CutF.v | A0 | C158_same_code |
| T_CutF.v | A1 | C158_facts C158_box C158_closed |
| T_CutF.v | A3 | C158_corners |
| T_Delaunay.v | A0 | C54_engine C54_topology C54_stale C84_fresh C84_single C84_refuted C85_remove C86_move_partial C86_refuted C87_neighbours C87_stale |
| T_Dem.v | A0 | C48_raster_index C48_fallback_descending_y C48_fallback_ascending_y C48_fallback_refuted C49_refuted C49_region_ignored C49_largest_wins C49_container_iff C49_prefers_overlap_partial C49_overlap_test C76_nodes_at_pixel_corners C76_last_pixels_undefined C76_synthetic C76_crs C76_window_extent C76_refuted C77_geographic_iff C79_axis_aligned_partial C79_same_crs C79_ordered C79_refuted C80_flip C155_whole_file C155_clipped_values C155_clipped_keeps_numbers C155_refuted C155_mask |
| T_DensifyF.v | A1 | C208_gap_refuted C208_fewest_refuted |
| T_DensifyF.v | A3 | C208_densify_partial C208_gap_partial C208_infinite |
| T_Distance.v | A0 | C93_distance_sizes C94_distance_bounds C95_resampling_partial C95_short_line_refuted C95_resampling_endless C96_shoreline_mask_partial C96_shoreline_mask_refuted C97_feature_sizes C97_feature_refusal C98_feature_minimum_refuted C98_feature_minimum_partial |
| T_Distort.v | A2 | C127_forces_partial C127_scale_unique C127_start_refuted C127_start_even |
| T_Distort.v | A3 | C127_start_agrees C128_sound C128_complete_partial C128_distinct_refuted |
| T_Domains.v | A0 | C26_ring C52_empty C151_metadata C151_returns C151_multiscale C151_box C151_boxes C151_shorelines C152_count C152_margin C152_any C152_points C152_file_refuted C153_polygon C153_nan C153_empty C153_tuple C153_four_refuted C154_shape C154_entries C154_increasing |
| T_Edges.v | A0 | C01_unique_edges C02_boundary_edges C03_winding_terminates C03_winding_is_a_trail C04_winding_closes C04_winding_covers_boundary_refuted C31_poly_edges_by_part C31_ring_closed_iff C31_poly_edges_close_ring_refuted |
| T_FixMesh.v | A0 | C12_fix_mesh_returns C12_fix_mesh_well_formed C13_fix_mesh_geometry C13_zero_tolerance_refuted C13_index_map_refuted C14_equal_points_merged_partial C14_equal_points_merged_refuted C15_no_degenerate_triangle_refuted C15_no_degenerate_triangle_partial |
| T_ForceF.v | A0 | C197_finite_refuted |
| T_ForceF.v | A1 | C197_returns C197_zero_sum_refuted C198_own_box_refuted |
| T_ForceF.v | A3 | C197_forces C198_centroid C198_kept |
| T_Forces.v | A3 | C35_forces_repulsive C35_forces_balance C35_forces_returns C70_forces_scale_free |
| T_GenF.v | A3 | C202_fixed_partial C202_box_partial C202_close_refuted C203_fixed C203_free |
| T_GenF2.v | A0 | C204_returned C204_rejected |
| T_GenF2.v | A3 | C204_box C205_fixed_partial C205_fixed_refuted |
| T_Generate.v | A0 | C36_generate_mesh_result C36_returned_centroids_inside C36_calls_made C36_no_other_calls C66_fixed_points_partial C66_fixed_points_default_start C66_placing_fixed_points C66_fixed_points_refuted C67_locked_boundary_partial C67_unlocked_moves C67_locked_boundary_refuted C68_projection_keeps_inside C68_projection_affine C68_projection_flat_refuted C69_initial_points |
| T_GradLimit.v | A0 | C19_limiter_range C20_limiter_gradation C21_antidiagonal_refuted C21_eight_neighbours_partial C22_limiter_passes C22_limiter_converges C23_limiter_walk C23_limited_unchanged C57_limiter_maximal |
| T_Gradation.v | A0 | C88_gradation_lowers C88_gradation_refusals C89_gradation_obeyed C89_graded_kept C90_global_gradation_refuted C90_global_gradation_partial C91_crs_kept_refuted C91_crs_given_partial C92_stereographic_pass |
| T_Grid.v | A0 | C37_rebuild_partial C37_global_alternates C37_build_twice_refuted C37_global_nodes C37_multiscale_repeats_partial C37_multiscale_refuted C71_eval C71_unbuilt C71_nodes C71_range C71_extrapolation_refuted C72_multiscale_minimum C72_multiscale_range C52_compute_minimum_partial C52_disjoint C52_global_refuted C39_bands_partial C39_nan_refuted C39_global_refuted C39_refused_band C39_atomic_refuted C53_planes C53_too_small |
| T_GridN.v | A0 | C71_not_finite C71_beside_infinite |
| T_Idw.v | A1 | C38_values C38_range C38_neighbour_range C38_data_points C38_too_few_points C38_rejects C38_scale_free |
| T_IdwStat.v | A1 | C143_mean C143_range C143_scale C143_equal C143_none C143_all_zero_refuted C143_documented_shape_refuted C144_sums C144_nearest_first C144_off C144_other_neighbours_refuted C144_other_neighbours C144_poisoned |
| T_Ieee.v | A0 | C150_returns |
| T_Ieee.v | A1 | C146_strict_refuted C147_circle C148_constant_refuted C150_oriented_refuted |
| T_Ieee.v | A3 | C145_box_sign C145_box_value C146_first C146_sorted C146_strict_partial C148_range_partial C149_rint C149_filter C149_exact_on_grid C150_near C150_oriented_on_grid C150_oriented_partial |
| T_Init.v | A0 | C188_starts C188_aborts C188_imports_end C189_star_refuted C189_missing C189_modules C190_switch C191_hidden_refuted C191_attributes |
| T_Inpoly.v | A0 | C28_ring_rule C28_edges_rule C28_kernels_agree_ring C28_kernels_agree_closed_partial C28_fast_rule C28_open_edges_refuted C28_default_tolerance_refuted C29_order_direction C29_order_direction_fast C29_pointwise C29_pointwise_fast C30_outside_ring C30_outside_edges C30_rectangle C61_fast_near C61_raycasting_refuted |
| T_Install.v | A0 | C192_needed_modules C192_names C192_distinct C192_never_incomplete C193_without_sources C193_builds_iff C193_without_cython_refuted C194_directories C194_windows C194_vcpkg_unchecked_refuted C194_paths C194_slashes C195_words C195_listed C195_old_python C195_fiona_version_refuted C195_imports_refuted |
| T_Installer.v | A0 | C210_idempotent_partial C210_unconfigured C210_space C210_shared_refuted C210_attributes_refuted C210_init_refuted C211_init C211_init_kept C211_formatted_refuted C211_manifest_partial C211_manifest_refuted C211_attributes_partial C211_attributes_kept C211_attributes_refuted C211_emptied C212_scan C212_status C212_commented_refuted C212_spelled_refuted |
| T_LapF.v | A0 | C159_unused C159_closed |
| T_LapF.v | A1 | C159_box_refuted |
| T_LapF.v | A3 | C159_kept C159_pinned C159_sweeps C159_box_partial C159_no_pins C160_growth_partial C160_refuted |
| T_LengthF.v | A0 | C214_nan C214_contract |
| T_LengthF.v | A2 | C214_refuted |
| T_LengthF.v | A3 | C214_circumference_partial C214_bound |
| T_LimitF.v | A0 | C157_first_nan |
| T_LimitF.v | A3 | C156_range C156_gradation C156_relative C156_converges C156_maximal C156_unchanged C157_refuted |
| T_Multi.v | A0 | C129_frames C129_refused C129_ends C130_grids C130_function C131_sizes_partial C131_sizes_refuted C131_flag_refuted C132_width_partial C132_feet_refuted C133_frame C133_values_partial C133_minimum C133_least_refuted C134_round C134_row_refuted |
| T_OrientF.v | A1 | C209_nan |
| T_OrientF.v | A3 | C209_decides_partial C209_raises_partial C209_box C209_decides_refuted C209_contract |
| T_PipF.v | A0 | C161_length C161_nonfinite |
| T_PipF.v | A1 | C161_even_odd_refuted C162_on_edge_refuted |
| T_PipF.v | A3 | C161_even_odd_partial C162_on_edge_partial C162_near |
| T_Plot.v | A0 | C175_grid_partial C175_grid_refuted C175_shoreline_partial C175_shoreline_refuted C175_dem_refuted C175_no_file C176_window C176_mesh C176_then_save C177_returns C177_entries C177_dem_entries C177_dem_cmap C177_backwards C178_grid C178_shoreline_refuted C178_dem_refuted C179_returns C179_box C179_legend C180_segments C180_polygon_partial C180_polygon_refuted C181_marks_refuted |
| T_ProjF.v | A0 | C199_keeps C199_corner_refuted C199_far_refuted |
| T_ProjF.v | A1 | C199_lands_refuted |
| T_ProjF.v | A3 | C199_keeps_box C199_box_partial C199_box_exact C199_far |
| T_QualF.v | A0 | C182_rows |
| T_QualF.v | A1 | C183_number_refuted |
| T_QualF.v | A3 | C182_accuracy C183_range_partial C183_coincident_refuted C184_verdict_refuted C184_small_mesh |
| T_Quality.v | A2 | C16_value_partial C16_rows C16_index C16_documented_quality C16_radii_exist C16_scale_free_refuted C16_equilateral_refuted C16_at_most_one_refuted C16_bounded_by_size C16_signed_refuted C16_small_meshes_lose_boundary_refuted |
| T_RayF.v | A0 | C172_length |
| T_RayF.v | A2 | C172_even_odd_refuted C172_open_refuted C173_on_edge_refuted C173_short_edge_refuted C174_kernels_agree_refuted |
| T_RayF.v | A3 | C172_even_odd_partial C173_on_edge_partial C173_near C174_kernels_agree_partial |
| T_Read.v | A0 | C135_selection C135_vertex_inside C135_beside C135_larger_box C135_multi C136_refuted C136_unchanged_partial C137_refuted C137_ignored C138_crs_used C138_no_crs_refuted C139_total C139_third_refuted |
| T_Region.v | A0 | C40_reflexive C40_transitive C40_geometric C40_exact C40_world_like_refuted C42_ordered C42_atomic C42_setter_atomic C42_nan_refuted C64_separable_partial C64_refuted |
| T_Rings.v | A0 | C111_decomposition C111_refused C111_one_ring C112_shapely_edges C112_shapely_ring C112_fallback C113_kernels_partial C113_shapely_refuted C113_matplotlib_never C113_matplotlib_refuted C114_settled_partial C114_count_refuted C115_union C115_one_ring_partial C115_hole_refuted |
| T_Sdf.v | A0 | C24_union C24_intersection C24_difference C25_multiscale C26_rectangle C26_rectangle_batch C27_nonfinite C27_inverted_refuted C58_shoreline_sign C58_inside_covering C58_inverted_nests_refuted C59_union_box C59_intersection_box C59_difference_box C60_covering_required_refuted C60_no_covering_fails |
| T_SetF.v | A0 | C215_nan C215_complete C215_seam_refuted C215_nan_refuted |
| T_SetF.v | A3 | C215_sets_partial C215_multiscale C215_disjoint C215_box_low C215_box_high C215_minimum C215_maximum |
| T_Setup.v | A0 | C124_grid C124_call C124_function C125_four_partial C125_accepted C125_dimension_refuted C125_missing C126_call_partial C126_defaults C126_no_options C126_float_refuted C126_empty_refuted C126_count C126_kinds |
| T_Shave.v | A0 | C196_dangling_keeps_traversable C196_both_steps C196_no_poor_faces_partial C196_poor_faces_refuted C196_no_dangling_refuted |
| T_Shore.v | A0 | C43_parts_array_parts C43_array_parts_array C43_any_array C43_no_points C44_densify C45_corners C45_facts C45_box C45_shoreline C45_empty C46_refuted C46_actual C46_ring_kept C46_one_dimensional C47_decides C47_raises C47_convex_partial C47_refuted C47_open_triangle C47_box C74_poly_area C74_closed C74_rotate C74_reverse C74_box C75_overlap |
| T_SignF.v | A1 | C216_refuted |
| T_SignF.v | A3 | C216_sea_partial C216_covering_partial C216_nonfinite C216_in_covering |
| T_Signed.v | A0 | C166_values C166_sea C166_inverted C166_covering C166_kernels C166_no_outline C166_from_file_partial C166_diagonal_refuted C166_case C167_elements C167_diagonal_refuted C167_case |
| T_SizeF.v | A0 | C168_nan C169_nan C170_nan |
| T_SizeF.v | A1 | C169_hmin_refuted |
| T_SizeF.v | A3 | C168_distance C169_wavelength C170_slope C171_resample C171_ends_refuted C171_zero |
| T_Slope.v | A2 | C99_lowpass C99_highpass C99_bandpass C99_refused C100_bandstop_refuted C100_bandstop_exact C100_bandstop_partial C108_wavelengths C109_projected_refuted C109_geographic_refuted C109_degrees_partial C110_hmin_refuted C110_hmin_partial |
| T_Slope.v | A3 | C101_slope_sizes C102_plane C103_limits C104_coarser C104_extrapolates_refuted C104_refused C105_smoothing_refuted C105_sizes_refuted C105_exact C105_returns C106_not_refused_refuted C106_projected_refuted C106_narrow_refuted C106_wraps_refuted C106_global_refuted C107_bandstop_refuted C107_exact C109_latitude_refuted |
| T_Slope2.v | A3 | C106_pole_refuted |
| T_StartF.v | A1 | C206_cover_refuted C206_extra_refuted C207_tiny_refuted |
| T_StartF.v | A3 | C206_axis_partial C206_strict C206_exchanged C206_points C207_kept_partial C207_dropped_partial C207_smallest_partial C205_default_start_partial |
| T_Stereo.v | A0 | C41_empty |
| T_Stereo.v | A2 | C41_on_sphere |
| T_Stereo.v | A3 | C41_there_and_back C41_back_and_there C41_wraps C41_north_pole C41_origin C41_only_origins |
| T_Survive.v | A0 | C55_few_faces_partial C55_no_ties_partial C55_ties_refuted C55_share_sharp C09_something_left |
| T_Validate.v | A0 | C50_exact C50_metadata_only C81_regional_crs_refuted C81_missing_crs_refuted C81_sizing_crs_refuted C81_global_partial C51_refuted C51_colliding_options C51_unknown_options C51_usable_partial C82_limit C82_least_partial C82_refuted C83_hmin_repaired |
| T_Validate.v | A2 | C50_containment_refuted |
| T_Validate2.v | A0 | C50_messages C50_length_message |
| T_Version.v | A0 | C163_tagged C163_untagged C163_no_git C163_parent C163_foreign C163_describe_long C163_branch C163_detached C163_styles C163_unknown_style C163_formats C163_formats_untagged C163_pre C163_pre_plain C163_signed C163_import_refuted C163_bare_tag_refuted C164_identifies_partial C164_identifies_refuted C164_pep440_partial C164_pep440_refuted C165_tagged C165_lines C165_unsuitable C165_branch C165_nothing C165_untagged_refuted C165_newest_refuted C165_empty_date |
| T_Wheel.v | A0 | C185_verdict C185_looked_at C185_aborts C185_bad_limit C186_newest C187_never_missed_partial C187_bundled_refuted |
| T_Writers.v | A0 | C33_fort14_read_back C33_wrong_length C34_t3s_unchanged C34_fort14_refuted C34_shift_refuted C65_t3s_read_back |
| T_Xr.v | A0 | C140_values C140_nothing C140_ends C141_key_error C141_bounds_refuted C141_other_grid_refuted C141_unnamed_refuted C142_refuted C142_leading_axis |
