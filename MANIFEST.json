{
 "claims": [
  {
   "property": "C01",
   "status": "proved",
   "theorems": [
    "dd_zero_2d_inner",
    "dd_zero_2d_outer",
    "dd_zero_triangle_outer",
    "dd_zero_triangle_inner",
    "dd_zero_reversed_faces",
    "reversal_value_rows",
    "reversal_value_cols"
   ],
   "note": "All degrees. Quadrilaterals of both orientations, triangles (inner ones for px <= py, the code raises otherwise), and reversed faces."
  },
  {
   "property": "C02",
   "status": "proved",
   "theorems": [
    "dd_zero_3d_curl_grad",
    "dd_zero_3d_div_curl"
   ],
   "note": "All degrees (px,py,pz)."
  },
  {
   "property": "C03",
   "status": "proved",
   "theorems": [
    "gradient_1d",
    "gradient_2d_inner",
    "rot_2d_inner",
    "curl_2d_outer",
    "divergence_2d_outer",
    "gradient_3d",
    "curl_3d",
    "divergence_3d",
    "curl_triangle_outer",
    "divergence_triangle_outer",
    "gradient_triangle_inner",
    "rot_triangle_inner",
    "gradient_triangle_inner_refuted",
    "gradient_triangle_inner_rows_refuted"
   ],
   "note": "Action of every incidence matrix on every integer cochain; finding: msehtt inner triangle matrices raise for px > py and have surplus rows for px < py."
  },
  {
   "property": "C04",
   "status": "proved",
   "theorems": [
    "numbering_bijective_m1n1k0",
    "numbering_bijective_m1n1k1",
    "numbering_bijective_m2n2k0",
    "numbering_bijective_m2n2k1i",
    "numbering_bijective_m2n2k1o",
    "numbering_bijective_m2n2k2",
    "numbering_bijective_m3n3k0",
    "numbering_bijective_m3n3k1",
    "numbering_bijective_m3n3k2",
    "numbering_bijective_m3n3k3",
    "component_blocks_m1n1k0",
    "component_blocks_m1n1k1",
    "component_blocks_m2n2k0",
    "component_blocks_m2n2k1i",
    "component_blocks_m2n2k1o",
    "component_blocks_m2n2k2",
    "component_blocks_m3n3k0",
    "component_blocks_m3n3k1",
    "component_blocks_m3n3k2",
    "component_blocks_m3n3k3",
    "component_blocks_htt_m2n2k1_inner",
    "component_sizes_htt_m2n2k1_outer_refuted",
    "numbering_bijective_triangle_outer",
    "numbering_bijective_triangle_inner",
    "triangle_node_numbers_injective",
    "triangle_node_numbers_onto",
    "triangle_node_numbers_range"
   ],
   "note": "Bijection onto 0..N-1 and component blocks; finding: msehtt swaps the component sizes of outer 1-forms."
  },
  {
   "property": "C05",
   "status": "proved",
   "theorems": [
    "element_numbers_bijective",
    "generated_numbering",
    "element_locator_inverse",
    "element_locator_rejects"
   ],
   "note": "Any number of regions, any dimension >= 1."
  },
  {
   "property": "C06",
   "status": "proved",
   "theorems": [
    "neighbour_across_plus_side",
    "neighbour_across_minus_side",
    "neighbour_map_symmetric",
    "neighbours_are_elements",
    "map_2d_exists"
   ],
   "note": "Region maps that pass the check; neighbours are characterised exactly, no entry stands for -1. Existence of the map is shown in 2-D."
  },
  {
   "property": "C07",
   "status": "proved",
   "theorems": [
    "element_to_group_map",
    "merge_after_split",
    "split_after_merge",
    "split_values",
    "element_data_is_reference_data",
    "groups_partition_by_key"
   ],
   "note": "Any partition; the generated groups are a partition by equal key."
  },
  {
   "property": "C47",
   "status": "proved",
   "theorems": [
    "equal_metric_key_bound",
    "metric_key_refuted"
   ],
   "note": "Refuted as stated: for every factor N there is a layout with two elements of size ratio N in one group. What holds: lengths in one group differ by at most (1+p)e-5."
  },
  {
   "property": "C08",
   "status": "proved",
   "theorems": [
    "numbering_0forms_1d",
    "numbering_0forms_1d_one_periodic_element_refuted",
    "one_periodic_element_is_consistent"
   ],
   "note": "Every consistent element map without self-neighbours; for a single periodic element the end points are numbered -1, for every degree."
  },
  {
   "property": "C09",
   "status": "proved",
   "theorems": [
    "numbering_inner_1forms_2d",
    "numbering_outer_1forms_2d",
    "numbering_top_forms"
   ],
   "note": "Every consistent element map without self-neighbours, every degree."
  },
  {
   "property": "C10",
   "status": "proved",
   "theorems": [
    "numbering_2forms_3d_without_boundary",
    "numbering_2forms_3d_boundary_refuted",
    "two_hexahedra_are_consistent"
   ],
   "note": "Refuted as stated (two hexahedra with boundary); proved for every consistent map without boundary."
  },
  {
   "property": "C48",
   "status": "proved",
   "theorems": [
    "vertex_attachments_2d",
    "numbering_0forms_2d",
    "numbering_0forms_2d_on_regions",
    "numbering_0forms_2d_eight_elements_refuted",
    "eight_elements_are_consistent",
    "generated_maps_are_consistent",
    "generated_maps_have_no_self_neighbour",
    "generated_maps_have_regular_vertices"
   ],
   "note": "Proved under the stated conditions on the regions; refuted with eight elements around a vertex."
  },
  {
   "property": "C14",
   "status": "proved",
   "theorems": [
    "chaining_is_a_bijection",
    "chaining_succeeds"
   ],
   "note": "Any number of members, ranks and elements."
  },
  {
   "property": "C15",
   "status": "proved",
   "theorems": [
    "merge_is_elementwise",
    "unmerge_is_elementwise",
    "vector_merge_after_split",
    "vector_split_after_merge",
    "assemble_after_share"
   ],
   "note": "For numberings that use exactly the dofs 0..n-1; any value type."
  },
  {
   "property": "C16",
   "status": "proved",
   "theorems": [
    "locations_are_right",
    "locations_after_hash_collision_refuted"
   ],
   "note": "All question histories whose lists have distinct hashes; refuted under a hash collision."
  },
  {
   "property": "C17",
   "status": "proved",
   "theorems": [
    "number_of_local_dof",
    "dof_has_one_number",
    "number_of_global_dof_refuted",
    "number_of_global_dof_raises_refuted"
   ],
   "note": "Proved for (element, local dof); refuted for member-global dofs."
  },
  {
   "property": "C18",
   "status": "proved",
   "theorems": [
    "chaining_method_1",
    "chaining_method_0_sequential",
    "chaining_method_0_unordered_refuted",
    "chain_with_one_method",
    "chaining_method_ignored_refuted"
   ],
   "note": "Refuted as stated when both methods are used; holds with one method."
  },
  {
   "property": "C49",
   "status": "proved",
   "theorems": [
    "chain_cache_is_faithful",
    "chain_cache_address_reuse_refuted",
    "chaining_of_chains_is_flat"
   ],
   "note": "All operation histories without address reuse; refuted with reuse."
  },
  {
   "property": "C50",
   "status": "proved",
   "theorems": [
    "equality_of_same_shapes",
    "equality_with_empty_element_refuted"
   ],
   "note": "Proved for equal row lengths; refuted otherwise."
  },
  {
   "property": "C19",
   "status": "proved",
   "theorems": [
    "assembled_matrix_entries",
    "assembled_matrix_product",
    "assembled_matrix_any_distribution"
   ],
   "note": "All csr/csc element matrices, numberings, ranks; exact rationals."
  },
  {
   "property": "C20",
   "status": "proved",
   "theorems": [
    "assembled_vector_entries",
    "assembled_vector_repeated_dof_refuted"
   ],
   "note": "Proved when no element repeats a dof; refuted otherwise."
  },
  {
   "property": "C21",
   "status": "proved",
   "theorems": [
    "customised_rows",
    "identified_row_rectangular_refuted"
   ],
   "note": "All histories of zero_row/identify_row; refuted for matrices with different row and column numberings."
  },
  {
   "property": "C22",
   "status": "proved",
   "theorems": [
    "prescribed_dofs_exact",
    "essential_conditions_exact"
   ],
   "note": "For one matrix (set_dof) and for one unknown of a block system (apply_essential_bc)."
  },
  {
   "property": "C25",
   "status": "proved",
   "theorems": [
    "assembled_block_matrix",
    "assembled_block_vector"
   ],
   "note": "All block shapes accepted by bmat, missing blocks included."
  },
  {
   "property": "C26",
   "status": "proved",
   "theorems": [
    "jacobi_keeps_solutions",
    "jacobi_scales_diagonal"
   ],
   "note": "Row by row, any diagonal."
  },
  {
   "property": "C27",
   "status": "proved",
   "theorems": [
    "essential_rows_of_one_rank",
    "essential_rows_of_one_owner",
    "essential_rows_are_found",
    "essential_rows_refuted"
   ],
   "note": "Refuted for several ranks; proved if one rank stores the row."
  },
  {
   "property": "C23",
   "status": "proved",
   "theorems": [
    "derived_elements_are_operations",
    "reading_with_unique_keys",
    "customising_changes_the_element",
    "reading_with_shared_keys",
    "assembling_with_shared_keys",
    "reading_with_keys_of_one_length",
    "reading_with_keys_without_products",
    "negated_customised_matrix_refuted",
    "stale_negated_matrix_refuted",
    "product_of_matrices_keys_refuted",
    "sum_of_matrices_keys_refuted"
   ],
   "note": "Refuted for shared cache keys; proved for all programs with unique keys, and with shared keys if customised matrices are used in block matrices only."
  },
  {
   "property": "C24",
   "status": "proved",
   "theorems": [
    "reading_after_thresholds",
    "assembling_after_thresholds",
    "threshold_changes_matrix_refuted",
    "threshold_changes_the_operand_refuted",
    "threshold_changes_customised_matrix_refuted",
    "threshold_changes_cached_matrix_refuted",
    "threshold_cuts_small_entries",
    "assembled_with_threshold"
   ],
   "note": "Refuted; proved for uncustomised computed matrices with unique keys."
  },
  {
   "property": "C51",
   "status": "proved",
   "theorems": [
    "customised_element_is_frozen"
   ],
   "note": "All later programs without thresholds."
  },
  {
   "property": "C52",
   "status": "proved",
   "theorems": [
    "assembled_matrix_cache_key_refuted"
   ],
   "note": "Refuted."
  },
  {
   "property": "C28",
   "status": "proved",
   "theorems": [
    "computed_inputs_exact",
    "compressing_keeps_inputs"
   ],
   "note": "All histories of recording and compressing."
  },
  {
   "property": "C29",
   "status": "proved",
   "theorems": [
    "resumed_run_equals_uninterrupted",
    "repeated_inputs_resume_refuted",
    "close_inputs_resume_refuted",
    "state_after_finished_run_refuted"
   ],
   "note": "All solvers, any number of runs killed at any point, writes at any steps. Proved for inputs with distinct keys; refuted for repeated and close inputs, and for the state if nothing is left to compute."
  },
  {
   "property": "C30",
   "status": "proved",
   "theorems": [
    "integer_inputs_have_own_keys",
    "spaced_inputs_have_own_keys",
    "equal_keys_are_close",
    "distinct_inputs_same_key_refuted"
   ],
   "note": "Refuted; proved for integers and inputs at least 1e-5 apart."
  },
  {
   "property": "C31",
   "status": "proved",
   "theorems": [
    "cached_answer_is_an_earlier_answer",
    "cache_is_invisible",
    "cache_is_bounded",
    "recent_calls_are_hits"
   ],
   "note": "All programs that do not write arrays passed to or returned by cached calls."
  },
  {
   "property": "C32",
   "status": "proved",
   "theorems": [
    "integer_arrays_are_separated",
    "finding_small_dofs_is_exact",
    "finding_far_dofs_refuted",
    "finding_missing_dof_refuted"
   ],
   "note": "Refuted above 1e5 (a wrong place, and places for a dof that does not exist); proved below."
  },
  {
   "property": "C33",
   "status": "proved",
   "theorems": [
    "memoised_calls",
    "memoised_once",
    "memoize1_is_invisible",
    "memoize1_long_arrays_refuted",
    "memoize3_types_refuted",
    "memoised_methods",
    "equal_values",
    "equal_arguments"
   ],
   "note": "Proved for functions that respect the key; refuted for long arrays (memoize1) and for functions telling 1 from 1.0."
  },
  {
   "property": "C34",
   "status": "proved",
   "theorems": [
    "frozen_objects",
    "frozen_names_are_kept"
   ],
   "note": "All histories that do not assign or delete the flag itself."
  },
  {
   "property": "C53",
   "status": "proved",
   "theorems": [
    "argument_changed_later_refuted",
    "result_changed_later_refuted"
   ],
   "note": "Refuted."
  },
  {
   "property": "C35",
   "status": "proved",
   "theorems": [
    "V_cycle_is_a_walk",
    "N_cycle_is_a_walk",
    "W_cycle_is_a_walk",
    "FMG_cycle_is_a_walk",
    "W_cycle_below_bottom_refuted",
    "W_cycle_above_top_refuted"
   ],
   "note": "Proved for V and N with all layers; W and FMG sequences are walks from and to the right layers but may leave the layers (refuted)."
  },
  {
   "property": "C36",
   "status": "proved",
   "theorems": [
    "pairs_are_brackets",
    "pairs_exist",
    "pairs_join_the_same_layers",
    "restriction_has_one_partner",
    "interpolation_has_one_partner",
    "pairs_are_nested",
    "restrictions_are_paired",
    "unpaired_interpolations_enter_new_layers"
   ],
   "note": "All schedules."
  },
  {
   "property": "C54",
   "status": "proved",
   "theorems": [
    "multigrid_from_the_top",
    "multigrid_from_the_bottom",
    "cleaning_is_invisible"
   ],
   "note": "All schedules not going above their end; arbitrary vectors, matrices, transfers and solvers."
  },
  {
   "property": "C55",
   "status": "proved",
   "theorems": [
    "coarse_correction_doubles_the_residual",
    "coarse_correction_refuted"
   ],
   "note": "Refuted."
  },
  {
   "property": "C41",
   "status": "proved",
   "theorems": [
    "hms_round_trip",
    "hms_parts",
    "dhms_round_trip",
    "dhms_parts",
    "dhmsm_round_trip",
    "dhmsm_negative_refuted"
   ],
   "note": "All rational numbers of seconds; with milliseconds refuted for negative times."
  },
  {
   "property": "C42",
   "status": "proved",
   "theorems": [
    "graph_of_history",
    "graph_is_symmetric",
    "edges_are_drawn_once",
    "self_loop_drawing_refuted"
   ],
   "note": "All histories; drawing fails exactly for self-loops."
  },
  {
   "property": "C43",
   "status": "proved",
   "theorems": [
    "ranking_of_history",
    "ranking_keeps_best_refuted",
    "ranking_of_all_hosts_refuted",
    "printed_ranking",
    "printed_cost_refuted",
    "costs_meet"
   ],
   "note": "All histories from an empty file, at the level of the text of the file."
  },
  {
   "property": "C38",
   "status": "proved",
   "theorems": [
    "constant_sequence_made",
    "constant_sequence_valid",
    "constant_grid",
    "constant_ends",
    "constant_accepted",
    "constant_rejected",
    "constant_monotone",
    "slightly_below_refuted",
    "slightly_above_accepted"
   ],
   "note": "Exact arithmetic; round(x, 8) is modelled."
  },
  {
   "property": "C39",
   "status": "proved",
   "theorems": [
    "function_answers",
    "function_history",
    "function_monotone",
    "function_again",
    "function_reached",
    "function_calls",
    "function_whole_steps",
    "function_in_order",
    "failed_question_advances_refuted",
    "failed_function_refuted",
    "failed_function_for_good_refuted"
   ],
   "note": "All histories when the function gives positive numbers; refuted after it failed."
  },
  {
   "property": "C40",
   "status": "proved",
   "theorems": [
    "substitution_values",
    "substitution_exact",
    "unknown_keys_rejected",
    "long_names_rejected",
    "interval_of_one_step",
    "half_steps_are_midpoints",
    "power_of_negative_refuted",
    "factor_in_front_refuted"
   ],
   "note": "Refuted in general; proved for letters that stand apart and negative values that are not bases of powers. Arithmetic expressions without exponent literals."
  },
  {
   "property": "C37",
   "status": "proved",
   "theorems": [
    "newton_stops",
    "newton_bound_irrelevant",
    "picard_stops",
    "nonlinear_iterations",
    "nonlinear_report",
    "info_zero_iff_converged",
    "forced_iterations",
    "nan_runs_to_limit",
    "solution_is_stored",
    "newton_solution",
    "newton_single_valued",
    "picard_solution",
    "newton_boundary_values",
    "picard_boundary_values",
    "newton_solve_succeeds",
    "second_solve_raises",
    "foreign_customization_raises",
    "picard_constraint_guess",
    "failed_run_keeps_iterates_refuted"
   ],
   "note": "For every linear solver and norm. Boundary values assume that the linear solver honours identity rows (C21, C22)."
  },
  {
   "property": "C11",
   "status": "proved",
   "theorems": [
    "un_k0_numbers",
    "un_k2_numbers",
    "un_equal_degrees_conform",
    "un_any_order",
    "un_ranks",
    "un_unequal_degrees_refuted",
    "un_unequal_degrees_fail_refuted",
    "un_curved_triangle_no_2form"
   ],
   "note": "All meshes of quadrilaterals and triangles, all positive degrees that agree on shared edges; refuted if they do not agree."
  },
  {
   "property": "C12",
   "status": "proved",
   "theorems": [
    "un_k1_outer_numbers",
    "un_k1_inner_numbers",
    "un_equal_degrees_conform",
    "un_any_order"
   ],
   "note": "As C11, both orientations."
  },
  {
   "property": "C13",
   "status": "proved",
   "theorems": [
    "un_ring_edges_distinct_refuted",
    "un_distinct_ends_distinct_numbers",
    "un_same_ends_same_numbers"
   ],
   "note": "Refuted; edges are merged exactly if they have the same end vertices."
  },
  {
   "property": "C56",
   "status": "proved",
   "theorems": [
    "un_hex_k0_numbers",
    "un_hex_k1_numbers",
    "un_hex_k2_numbers",
    "un_hex_k3_numbers",
    "un_equal_degrees_conform_hex",
    "un_any_order",
    "un_ranks",
    "un_hex_direction_refuted"
   ],
   "note": "All meshes of hexahedra without mismatched faces; reversed edges are not shared (refuted)."
  },
  {
   "property": "C45",
   "status": "proved",
   "theorems": [
    "poly_accepted_nodes",
    "poly_kronecker",
    "poly_nodal_degree",
    "poly_nodal_exact",
    "poly_partition_of_unity",
    "poly_nodal_reduction",
    "poly_nodal_unique",
    "poly_derivative",
    "poly_edge_degree",
    "poly_edge_kronecker",
    "poly_derivative_of_reconstruction",
    "poly_edge_reduction",
    "poly_edge_exact",
    "poly_edge_unique",
    "poly_nodal_matrix",
    "poly_edge_matrix",
    "poly_cached_exact",
    "poly_rational_is_real",
    "poly_matrix_entries",
    "poly_texts_near",
    "poly_cached_refuted",
    "tensor_gradient_1d"
   ],
   "note": "Exact real arithmetic. With the memory of evaluations: exact if node texts and points are distinguishable, refuted for node sets that agree to five decimals."
  },
  {
   "property": "C57",
   "status": "proved",
   "theorems": [
    "tensor_gradient_1d",
    "tensor_gradient_2d",
    "tensor_rot_2d",
    "tensor_curl_2d",
    "tensor_divergence_2d",
    "tensor_gradient_3d",
    "tensor_curl_3d",
    "tensor_divergence_3d",
    "tensor_matrices_exist",
    "tensor_point_1d",
    "tensor_edge_1d",
    "tensor_point_2d",
    "tensor_edge_2d_x",
    "tensor_edge_2d_y",
    "tensor_face_2d",
    "tensor_point_3d",
    "tensor_edge_3d_x",
    "tensor_edge_3d_y",
    "tensor_edge_3d_z",
    "tensor_face_3d_x",
    "tensor_face_3d_y",
    "tensor_face_3d_z",
    "tensor_cell_3d",
    "tensor_values_1d_k0",
    "tensor_values_1d_k1",
    "tensor_values_2d_k0",
    "tensor_values_2d_k1_inner",
    "tensor_values_2d_k1_outer",
    "tensor_values_2d_k2",
    "tensor_values_3d_k0",
    "tensor_values_3d_k1",
    "tensor_values_3d_k2",
    "tensor_values_3d_k3",
    "tensor_wrong_length",
    "tensor_three_components_any_length"
   ],
   "note": "Reference element (identity mapping), exact real arithmetic."
  },
  {
   "property": "C46",
   "status": "proved",
   "theorems": [
    "space_vc_total",
    "space_vc_exact",
    "space_vc_adjoint",
    "space_three_cross_products",
    "space_new_accepts",
    "space_new_data",
    "space_new_orientation",
    "space_new_stays",
    "space_one_object",
    "space_same_identity",
    "space_hodge_involution",
    "space_d_codifferential",
    "space_codifferential_d",
    "space_no_d_of_top",
    "space_no_codifferential_of_bottom",
    "space_codifferential_by_hodge",
    "space_wedge_commutes",
    "space_wedge_too_high",
    "space_wedge_associates",
    "space_leibniz",
    "space_trace_d",
    "space_no_trace_of_top",
    "space_no_trace_without_boundary",
    "space_cross_product",
    "space_unknown_is_stuck",
    "space_wedge_of_two_orientations",
    "space_wedge_spoils",
    "space_text_key",
    "space_text_is_object",
    "space_equality",
    "space_project_to",
    "space_short_word_gives_inner",
    "space_new_orientation_refuted",
    "space_inner_is_outer_refuted",
    "space_wedge_history_refuted"
   ],
   "note": "Laws of the operators for sessions that write orientations in full and take no wedge of two orientations; what happens otherwise is stated too (short words and mixed wedges return spaces of another orientation)."
  },
  {
   "property": "C44",
   "status": "proved",
   "theorems": [
    "face_dofs_2d_k0",
    "face_dofs_2d_outer",
    "face_dofs_2d_inner",
    "face_dofs_3d_k0",
    "face_dofs_3d_k1",
    "face_dofs_3d_k2",
    "face_dofs_2d_other_faces",
    "face_dofs_3d_other_faces",
    "face_dofs_msepy_1d_k0",
    "face_dofs_msepy_2d_k0",
    "face_dofs_msepy_2d_outer",
    "face_dofs_msepy_2d_inner",
    "face_dofs_msepy_3d_k0",
    "face_dofs_msepy_3d_k2",
    "face_dofs_msepy_other_side",
    "face_dofs_msepy_3d_k1_refuted",
    "face_dofs_msepy_boundary_forms",
    "face_dofs_triangle_k0",
    "face_dofs_triangle_outer",
    "face_dofs_triangle_inner",
    "face_dofs_triangle_other_faces",
    "face_component_outer",
    "face_component_inner",
    "face_component_triangle_outer",
    "face_component_triangle_inner",
    "face_dofs_3d_k2_calls",
    "face_dofs_3d_k2_after_component_refuted",
    "face_component_3d_k2_refuted"
   ],
   "note": "All finders of msepy and msehtt on quadrilaterals, hexahedra and triangles; refuted for msepy 3-D 1-forms and for the 3-D 2-form finder after component-wise calls."
  },
  {
   "property": "C58",
   "status": "proved",
   "theorems": [
    "triangle_values_k0",
    "triangle_values_outer",
    "triangle_values_inner",
    "triangle_curl",
    "triangle_gradient",
    "triangle_divergence",
    "triangle_rot"
   ],
   "note": "Reference element, exact real arithmetic; inner orientation for px <= py (otherwise the code raises, C01)."
  },
  {
   "property": "C59",
   "status": "proved",
   "theorems": [
    "mapping_crazy_1d",
    "mapping_crazy_2d",
    "mapping_crazy_3d",
    "mapping_linear_accepted",
    "mapping_linear_accepted_3d",
    "mapping_linear_axes",
    "mapping_linear_2d",
    "mapping_linear_3d",
    "mapping_line",
    "mapping_arc",
    "mapping_transfinite",
    "mapping_element_1d",
    "mapping_element_2d",
    "mapping_element_3d",
    "mapping_region_element",
    "mapping_quarter",
    "mapping_rectangle",
    "mapping_orthogonal_rectangle",
    "mapping_orthogonal_rectangle_near",
    "mapping_orthogonal_hexahedron",
    "mapping_quadrilateral_region",
    "mapping_quadrilateral",
    "mapping_chaotic_total",
    "mapping_chaotic",
    "mapping_triangle",
    "mapping_curvilinear_triangle",
    "mapping_refined_triangle",
    "mapping_partial_derivatives"
   ],
   "note": "Real numbers. Orthogonal elements: exact when the rounding to eight decimals is. 3-D mappings: partial derivatives."
  },
  {
   "property": "C60",
   "status": "proved",
   "theorems": [
    "jacobian_determinant",
    "jacobian_other_dimensions",
    "jacobian_metric",
    "jacobian_inverse_exists",
    "jacobian_inverse",
    "jacobian_inverse_determinant",
    "jacobian_metric_matrix",
    "jacobian_inverse_metric_matrix",
    "jacobian_metric_matrices_inverse",
    "jacobian_metric_lengths",
    "jacobian_metric_positive",
    "jacobian_of_inverse_mapping",
    "jacobian_orthogonal_rectangle",
    "jacobian_orthogonal_hexahedron",
    "jacobian_tiny_rectangle_refuted"
   ],
   "note": "Real numbers; nonzero determinant where the code divides."
  },
  {
   "property": "C61",
   "status": "proved",
   "theorems": [
    "region_crazy_2d_glued",
    "region_crazy_3d_glued",
    "region_crazy_2d_walls",
    "region_crazy_3d_walls",
    "region_multi_1d_glued",
    "region_multi_1d_walls",
    "region_multi_2d_glued",
    "region_multi_2d_walls",
    "region_multi_3d_glued",
    "region_multi_3d_walls",
    "region_step_2d_glued",
    "region_step_2d_walls",
    "region_step_3d_glued",
    "region_step_cover",
    "region_step_apart",
    "region_arc_start",
    "region_arc_end",
    "region_arc_circle",
    "region_arc_turn",
    "region_arc_angle",
    "region_transfinite_sides",
    "region_cylinder_glued",
    "region_cylinder_walls",
    "region_cylinder_arcs",
    "region_crazy_1d_untangled",
    "region_crazy_2d_untangled",
    "region_crazy_3d_untangled",
    "region_crazy_2d_documented",
    "region_crazy_3d_safe",
    "region_crazy_3d_documented_refuted",
    "region_crazy_3d_injective_refuted",
    "region_crazy_1d_bijection",
    "region_crazy_2d_bijection",
    "region_crazy_3d_bijection",
    "region_chaotic_parts",
    "region_chaotic_turned",
    "region_chaotic_periodic",
    "region_chaotic_undeformed",
    "region_chaotic_image",
    "region_chaotic_bounds_refuted"
   ],
   "note": "Real numbers. Refuted: documented range of c in 3-D, the bounds of deformed chaotic domains. The cylinder regions are not shown to be one to one."
  },
  {
   "property": "C62",
   "status": "proved",
   "theorems": [
    "normal_2d_defined",
    "normal_2d_outward",
    "normal_2d_mirrored",
    "normal_2d_behind",
    "normal_triangle_same",
    "normal_triangle_faces",
    "normal_triangle_behind",
    "normal_quad_behind",
    "normal_3d_outward",
    "normal_3d_msepy",
    "normal_is_plane_2d_refuted",
    "normal_is_plane_3d_refuted",
    "normal_perp_plane_refuted",
    "normal_area_refuted",
    "normal_area_box",
    "normal_area_far_refuted"
   ],
   "note": "Real numbers; numpy.isclose is modelled with its default tolerances."
  },
  {
   "property": "C63",
   "status": "proved",
   "theorems": [
    "reduce_rule_exact",
    "reduce_2d_k0",
    "reduce_2d_inner",
    "reduce_2d_outer",
    "reduce_2d_k2",
    "reduce_triangle_k0",
    "reduce_triangle_inner",
    "reduce_triangle_outer",
    "reduce_3d_k0",
    "reduce_3d_k1",
    "reduce_3d_k2",
    "reduce_3d_k3",
    "reconstruct_2d_inner",
    "reconstruct_2d_outer",
    "reconstruct_2d_k2",
    "reconstruct_3d_k1",
    "reconstruct_3d_k2",
    "reconstruct_3d_k3",
    "reduce_reconstructed_2d_k0",
    "reduce_reconstructed_2d_inner",
    "reduce_reconstructed_2d_outer",
    "reduce_reconstructed_2d_k2",
    "reduce_reconstructed_3d_k0",
    "reduce_reconstructed_3d_k1",
    "reduce_reconstructed_3d_k2",
    "reduce_reconstructed_3d_k3",
    "reconstructed_gauss_2d",
    "reconstructed_green_2d",
    "reconstructed_gradient_2d",
    "reconstructed_curl_2d",
    "reconstructed_gradient_2d_pointwise",
    "reconstructed_curl_2d_pointwise",
    "reconstructed_gauss_3d",
    "reconstructed_stokes_3d",
    "reconstructed_gradient_3d"
   ],
   "note": "Real numbers; quadrature nodes and weights are arguments with the assumption that the rule integrates the polynomials of the space exactly."
  },
  {
   "property": "C64",
   "status": "proved",
   "theorems": [
    "mass_inner_product_1d_k0",
    "mass_inner_product_1d_k1",
    "mass_inner_product_2d_k0",
    "mass_inner_product_2d_inner",
    "mass_inner_product_2d_outer",
    "mass_inner_product_2d_k2",
    "mass_inner_product_3d_k0",
    "mass_inner_product_3d_k1",
    "mass_inner_product_3d_k2",
    "mass_inner_product_3d_k3",
    "mass_symmetric_1d_k0",
    "mass_symmetric_1d_k1",
    "mass_symmetric_2d_k0",
    "mass_symmetric_2d_inner",
    "mass_symmetric_2d_outer",
    "mass_symmetric_2d_k2",
    "mass_symmetric_3d_k0",
    "mass_symmetric_3d_k1",
    "mass_symmetric_3d_k2",
    "mass_symmetric_3d_k3",
    "mass_definite_1d_k0",
    "mass_definite_1d_k1",
    "mass_definite_2d_k0",
    "mass_definite_2d_inner",
    "mass_definite_2d_outer",
    "mass_definite_2d_k2",
    "mass_definite_3d_k0",
    "mass_definite_3d_k1",
    "mass_definite_3d_k2",
    "mass_definite_3d_k3",
    "mass_exact_1d_k0",
    "mass_exact_1d_k1",
    "mass_exact_2d_k0",
    "mass_exact_2d_inner",
    "mass_exact_2d_outer",
    "mass_exact_2d_k2",
    "mass_exact_3d_k0",
    "mass_exact_3d_k1",
    "mass_exact_3d_k2",
    "mass_exact_3d_k3",
    "hexahedron_mass_k1_refuted",
    "hexahedron_mass_k2_refuted",
    "lobatto_mass_refuted",
    "cached_mass_refuted",
    "curved_mass_quadrature",
    "linear_mass_quadrature",
    "collocated_mass_quadrature"
   ],
   "note": "Real numbers; nodes and weights of the rule are arguments. Hexahedra, Lobatto rule and cache refuted."
  },
  {
   "property": "C65",
   "status": "proved",
   "theorems": [
    "shared_from_equal_signature",
    "shared_right_if_determined",
    "signatures_of_types",
    "shifted_triangles_share",
    "shifted_quads_share",
    "triangle_numbers_determine",
    "rectangle_signature_near",
    "hexahedron_signature_near",
    "rounded_numbers_near",
    "quad_signature_refuted",
    "triangle_signature_mirror_refuted",
    "triangle_signature_turn_refuted",
    "rectangle_signature_tiny_refuted",
    "shared_jacobian_refuted"
   ],
   "note": "Real numbers. Quadrilaterals, mirrored and slightly turned triangles and tiny boxes refuted."
  },
  {
   "property": "C66",
   "status": "proved",
   "theorems": [
    "cochain_newest",
    "cochain_calls_succeed",
    "cochain_last_set",
    "cochain_bounded",
    "cochain_set_effect",
    "cochain_increasing_times",
    "cochain_clean_at_refuted",
    "cochain_overwrite_refuted",
    "py_cochain_right",
    "py_cochain_bounded",
    "interpolation_on_chord",
    "interpolation_at_stored",
    "interpolation_outside_raises",
    "py_interpolation_first_chord",
    "py_interpolation_refuted",
    "signature_2d_close",
    "signature_3d_close",
    "signature_noise_refuted",
    "signature_collision_refuted",
    "saved_times_and_values",
    "save_read_round_trip",
    "read_missing_raises",
    "read_cache_reads",
    "read_coincident_refuted",
    "read_part_refuted"
   ],
   "note": "clean(t=newest), overwriting under automatic cleaning, msepy interpolation, coincident signatures and forms on parts refuted."
  },
  {
   "property": "C67",
   "status": "proved",
   "theorems": [
    "reversal_pair",
    "reversal_directions_agree",
    "reversal_values_agree",
    "reversal_only_there",
    "reversal_once",
    "reversal_succeeds",
    "reversal_later_type",
    "reversal_info",
    "reversal_info_sorted",
    "reversal_raw_dofs",
    "reversal_edges_directed",
    "reversal_straight_measured",
    "reversal_straight_agree",
    "reversal_constant_field",
    "reversal_faces_disjoint",
    "reversal_cochain",
    "reversal_basis",
    "reversal_values_unchanged",
    "reversal_mass_signs",
    "reversal_inner_product_unchanged",
    "reversal_derivative_unchanged",
    "reversal_of_derivative",
    "reversal_zero_refuted",
    "reversal_order_refuted",
    "reversal_curved_triangle_refuted"
   ],
   "note": "Edges perpendicular to the periodic test field, order dependence and curved triangles refuted."
  },
  {
   "property": "C68",
   "status": "proved",
   "theorems": [
    "split_parts_sum",
    "split_succeeds",
    "split_parts_even",
    "shares_add_up",
    "rank_takes_nearest",
    "rank_takes_one_more",
    "rank_takes_at_least",
    "naive_distribution",
    "naive_shares_refuted",
    "manifold_in_order",
    "manifold_few_elements",
    "manifold_many_elements",
    "manifold_enough_refuted",
    "distribution_complete",
    "distribution_succeeds",
    "distribution_too_few",
    "distribution_enough_refuted",
    "file_distribution_complete",
    "file_last_rank_empty",
    "file_distribution_refuted",
    "renumbered_by_position",
    "renumbered_global",
    "renumbered_ranks",
    "renumbered_local"
   ],
   "note": "Exact shares, the pile distribution from 9 ranks on, and files on 5 or more ranks refuted."
  },
  {
   "property": "C69",
   "status": "proved",
   "theorems": [
    "ts_box_neighbours",
    "ts_succeeds",
    "ts_result",
    "ts_other_types_refuted",
    "ts_names",
    "ts_names_distinct",
    "ts_nodes",
    "ts_placed",
    "ts_conforming",
    "ts_children_cover",
    "ts_region",
    "ts_boundary",
    "ts_orientation",
    "ts_orientation_straight",
    "ts_children_measure",
    "ts_measure",
    "ts_triangle_thirds",
    "ts_two_edges_refuted"
   ],
   "note": "Different edges between the same two nodes, and other element types, refuted."
  },
  {
   "property": "C70",
   "status": "proved",
   "theorems": [
    "axis_points_equal",
    "axis_points_union",
    "axis_segment_contains",
    "axis_segment_equal",
    "axis_rectangle_contains",
    "axis_rectangle_equal",
    "axis_box_contains",
    "axis_box_equal",
    "axis_box_contains_refuted",
    "axis_segment_union",
    "axis_segment_union_refuted",
    "axis_rectangle_union",
    "axis_rectangle_union_refuted",
    "axis_box_union",
    "axis_box_union_small_refuted",
    "axis_box_union_refuted",
    "axis_segment_key",
    "axis_rectangle_key",
    "axis_keys_refuted"
   ],
   "note": "Boxes with different sides along x and y, reversed segments, small rectangles and boxes, and keys of nearly equal coordinates refuted."
  },
  {
   "property": "C71",
   "status": "proved",
   "theorems": [
    "dofcor_sound",
    "dofcor_once",
    "dofcor_some",
    "dofcor_found",
    "dofcor_ranks",
    "dofcor_complete",
    "dofcor_rank_part",
    "dofcor_rank_part_raises",
    "dofcor_rank_parts",
    "dofcor_rectangles_run",
    "dofcor_rectangles",
    "dofcor_rectangles_complete",
    "dofcor_periodic_refuted",
    "dofcor_rounding_refuted"
   ],
   "note": "Periodic dofs met in different orders and nearly equal coordinates around zero refuted."
  },
  {
   "property": "C72",
   "status": "proved",
   "theorems": [
    "wf_getitem",
    "wf_replace",
    "wf_replace_runs",
    "wf_delete",
    "wf_rearrange",
    "wf_rearrange_asked",
    "wf_rearrange_runs",
    "wf_switch_sign",
    "wf_switch_sign_twice",
    "wf_merge",
    "wf_by_parts",
    "wf_by_parts_dropped",
    "wf_split",
    "wf_split_runs",
    "wf_split_refuted",
    "wf_to_duality",
    "wf_commute",
    "wf_commute_format",
    "wf_commute_restricted_refuted",
    "wf_derives",
    "wf_read",
    "wf_read_signs",
    "wf_double_minus_refuted",
    "wf_pde_one_equality",
    "wf_third_side_refuted",
    "wf_td",
    "wf_td_replace",
    "wf_td_average",
    "wf_td_differentiate",
    "wf_td_differentiate_refuted"
   ],
   "note": "Factors lost by split and differentiate, restrictions lost by commutation, repeated signs and third sides refuted."
  },
  {
   "property": "C73",
   "status": "proved",
   "theorems": [
    "proxy_term",
    "proxy_sides",
    "proxy_solutions",
    "proxy_rest",
    "proxy_ls_unknowns",
    "proxy_ls",
    "proxy_nls",
    "proxy_assembled",
    "proxy_time_derivative",
    "proxy_factors",
    "proxy_read",
    "proxy_read_entry",
    "proxy_right_unknown_refuted",
    "proxy_read_factor_refuted",
    "proxy_real_plus_refuted"
   ],
   "note": "Unknowns on the right-hand side, sums of parameters as factors and sums of unit fractions refuted."
  },
  {
   "property": "C74",
   "status": "proved",
   "theorems": [
    "field_central",
    "field_central_twice",
    "field_scalar",
    "field_vector",
    "field_convection",
    "field_convection_gradient",
    "field_scalar3",
    "field_vector3",
    "field_Laplacian_given",
    "field_Laplacian_gradient",
    "field_Laplacian",
    "field_vector_Laplacian",
    "field_tensor_Laplacian",
    "field_rot_gradient",
    "field_divergence_curl",
    "field_tensor_rot_gradient",
    "field_tensor_divergence_curl",
    "field_curl_gradient3",
    "field_divergence_curl3",
    "field_rot_gradient_refuted",
    "field_add",
    "field_add_runs",
    "field_sub",
    "field_sub_runs",
    "field_neg",
    "field_mul",
    "field_mul_runs",
    "field_mul_commutative_refuted",
    "field_cross",
    "field_cross_runs",
    "field_dot2",
    "field_dot3",
    "field_norm",
    "field_tensor_product",
    "field_convection_refuted",
    "field_new_scalar",
    "field_new_scalar_runs",
    "field_new_scalar3",
    "field_new_vector",
    "field_new_vector3",
    "field_integral",
    "field_integral_affine",
    "field_integral_swap",
    "field_integral_between",
    "field_vector_integral",
    "field_integral_tiny_refuted",
    "field_mesh_scalar",
    "field_mesh_vector",
    "field_mesh_scalar3",
    "field_mesh_accepts",
    "field_mesh_vector_accepts",
    "field_mesh_scalar3_accepts",
    "field_mesh_steady",
    "field_mesh_vector3_refuted"
   ],
   "note": "Convection in space, the check of 3-D vectors, commuted products and mixed supplied derivatives refuted."
  },
  {
   "property": "C75",
   "status": "proved",
   "theorems": [
    "newton_system_is_defined",
    "newton_matrix_is_derivative",
    "assembled_newton_matrix_is_derivative",
    "newton_is_exact_in_one_unknown",
    "newton_step_leaves_quadratic_part",
    "picard_system_is_defined",
    "picard_step_leaves_change",
    "picard_fixed_points_are_solutions",
    "newton_raises_with_known_factor",
    "newton_raises_with_one_unknown",
    "three_forms_checked",
    "squares_of_unknowns_refuted",
    "derivative_gathering_refuted",
    "trilinear_vector",
    "trilinear_vector_of_other_form_raises",
    "trilinear_matrix",
    "trilinear_matrix_times_cochain",
    "trilinear_wrapper"
   ],
   "note": "Terms with one unknown twice and gathering matrices of a transposed derivative refuted."
  },
  {
   "property": "C76",
   "status": "proved",
   "theorems": [
    "element_array_is_term",
    "element_array_defined",
    "generated_arrays_are_terms",
    "keys_have_contents",
    "quadrature_degree_is",
    "generate_raises_for",
    "tuples_of_degrees_raise",
    "element_types_raise",
    "cross_keeps_energy",
    "cross_is_orthogonal_to_A",
    "cross_with_itself_vanishes",
    "cross_is_skew_in_BC",
    "cross_is_skew_in_AB",
    "cross_is_cyclic",
    "given_A_matrix_is_term",
    "given_A_matrix_is_skew",
    "product_is_symmetric",
    "product_is_nonnegative",
    "d_C_is_a_form",
    "d_B_is_a_form",
    "quadrature_degree_is_enough",
    "log_vector_is_its_term",
    "cleaned_caches_are_right",
    "caches_with_fresh_addresses_are_right",
    "uncleaned_caches_refuted"
   ],
   "note": "Arrays of four terms after a renewal with a reused address refuted."
  },
  {
   "property": "C77",
   "status": "proved",
   "theorems": [
    "source_operators_are_field_operators",
    "momentum_source_is_momentum",
    "magnetic_source_is_ohm",
    "manufactured_mhd_solves",
    "third_hall_solves_the_rest",
    "third_hall_incompressible_refuted",
    "mhd_boundary_conditions",
    "mhd_periodic",
    "initial_fields_solenoidal",
    "orszag_tang_fields_are_curls",
    "conservation_fields_independent_refuted",
    "null_points_balance",
    "taylor_green_solves",
    "plane_mhd_solves",
    "eigen_solution_solves",
    "pnpns_derivatives_right",
    "pnpns_flow_and_potential",
    "pnpns_positive",
    "pnpns_balances",
    "pnpns_default_shift_refuted",
    "dipole_flow",
    "dipole_kinetic_energy",
    "dipole_sign_refuted",
    "piecewise_last_wins",
    "piecewise_exclusive",
    "piecewise_otherwise",
    "piecewise_types",
    "shear_layer",
    "loop_potential",
    "loop_potential_integers_refuted",
    "loop_velocity_right",
    "loop_velocity_left_refuted",
    "lid_moves",
    "discontinuous_concentrations"
   ],
   "note": "Samples outside their working parameters refuted."
  },
  {
   "property": "C78",
   "status": "proved",
   "theorems": [
    "C78_ranks_do_not_matter",
    "C78_gmres_rounds_are_best",
    "C78_lgmres_rounds_are_best",
    "C78_gmres_ends",
    "C78_lgmres_ends",
    "C78_gmres_not_worse",
    "C78_lgmres_not_worse",
    "C78_gmres_info",
    "C78_lgmres_info",
    "C78_no_rounds_refuted",
    "C78_gmres_fails_refuted",
    "C78_lgmres_fails_refuted",
    "C78_identity_refuted",
    "C78_gmres_fails_only_there",
    "C78_full_round_solves",
    "C78_full_round_converges",
    "C78_full_round_of_lgmres_converges"
   ],
   "note": "Exact arithmetic. Small systems, dependent Krylov vectors and maxiter = 0 refuted."
  },
  {
   "property": "C79",
   "status": "proved",
   "theorems": [
    "C79_conforming",
    "C79_boundary",
    "C79_numbers",
    "C79_tiles",
    "C79_first_level",
    "C79_next_level",
    "C79_uniform",
    "C79_area",
    "C79_not_inverted",
    "C79_points",
    "C79_centroid",
    "C79_map",
    "C79_tqr_triangles",
    "C79_tqr_mixed_refuted",
    "C79_turned_refuted",
    "C79_torus_refuted",
    "C79_center_refuted",
    "C79_cache_refuted"
   ],
   "note": "Exact reference coordinates; base meshes whose sides are determined by their nodes. Turned sides, small periodic meshes, the default function with center and the stale cache are refuted."
  },
  {
   "property": "C80",
   "status": "proved",
   "theorems": [
    "dds_region",
    "dds_region_unique",
    "dds_defined",
    "dds_all_regions",
    "dds_given_start",
    "dds_default_start",
    "dds_linear_flow",
    "dds_key",
    "dds_sub",
    "dds_add",
    "dds_numbers",
    "dds_dot",
    "dds_cross",
    "dds_maximum",
    "dds_l2",
    "dds_jump_refuted",
    "dds_sign_refuted",
    "dds_order_refuted",
    "dds_l2_refuted"
   ],
   "note": "Exact rational arithmetic; interpolation, norm and plots are left out. Jumps, signs of zero, asymmetric comparison and L2 norms on arrays that are not square are refuted."
  },
  {
   "property": "C81",
   "status": "proved",
   "theorems": [
    "psl_defined",
    "psl_one",
    "psl_boxes",
    "psl_corners",
    "psl_numbers",
    "psl_single_refuted",
    "psl_warns",
    "psl_warning_refuted"
   ],
   "note": "Exact rational arithmetic; numberings as modelled for C56. Layouts with one element in two directions are refuted."
  },
  {
   "property": "C82",
   "status": "proved",
   "theorems": [
    "qd_prime",
    "qd_prime_defined",
    "qd_simple",
    "qd_root",
    "qd_positive",
    "qd_lobatto",
    "qd_tensor",
    "qd_weights",
    "qd_place2",
    "qd_place3",
    "qd_cus",
    "qd_cus_defined",
    "qd_cus_exact",
    "qd_cus_refuted",
    "qd_nd",
    "qd_nd_refuted",
    "qd_arguments",
    "qd_list_refuted",
    "qk_keys",
    "qk_coded",
    "qk_parts",
    "qk_parts_number",
    "qk_mixed_refuted",
    "qk_exponent_refuted"
   ],
   "note": "Exact real arithmetic. That the steps of Newton converge to the roots is not claimed; Gauss nodes are those of scipy."
  },
  {
   "property": "C83",
   "status": "proved",
   "theorems": [
    "sg_crossing",
    "sg_crossing_raises",
    "sg_crossing_refuted",
    "sg_points_found",
    "sg_points_near",
    "sg_points_refuted",
    "sg_parts_contained",
    "sg_parts_keys",
    "sg_keys_refuted",
    "sg_intersection",
    "sg_overlap",
    "sg_overlap_swapped",
    "sg_keys_lines",
    "sg_reversed",
    "sg_equal_points",
    "sg_touch",
    "sg_apart",
    "sg_inside",
    "sg_sticking_out",
    "sg_union_pieces",
    "sg_union_lengths",
    "sg_union_gap",
    "sg_union_far"
   ],
   "note": "Exact real arithmetic. The theorems sg_overlap, sg_overlap_swapped, sg_touch, sg_apart, sg_inside, sg_sticking_out and those of unions are for segments of the x axis within [-50, 50], sg_equal_points for points of the unit square, sg_points_near for segments not longer than ten; the others have no such bound."
  },
  {
   "property": "C84",
   "status": "proved",
   "theorems": [
    "sgp_edges",
    "sgp_points",
    "sgp_edge_points",
    "sgp_contain",
    "sgp_vertices",
    "sgp_contained_refuted",
    "sgp_short_refuted",
    "sgp_ring_refuted",
    "sgp_equal",
    "sgp_equal_refuted"
   ],
   "note": "Exact real arithmetic; matplotlib is any function."
  }
 ]
}