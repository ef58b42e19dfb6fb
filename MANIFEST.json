{
 "claims": [
  {
   "property": "C01",
   "status": "proved",
   "theorems": [
    "C01_factor_is_ratio_of_sizes",
    "C01_factor_laws"
   ],
   "note": ""
  },
  {
   "property": "C02",
   "status": "proved",
   "theorems": [
    "C02_factor_decision_exact",
    "C02_factor_decision_double",
    "C02_convert_raises_like_factor"
   ],
   "note": ""
  },
  {
   "property": "C03",
   "status": "proved",
   "theorems": [
    "C03_units_class_enforced"
   ],
   "note": "Equal names are C128."
  },
  {
   "property": "C04",
   "status": "proved",
   "theorems": [
    "C04_convert_preserves_quantity",
    "C04_convert_round_trip",
    "C04_convert_via_third_unit",
    "C04_convert_order_and_zero",
    "C04_convert_list_elementwise",
    "C04_convert_none"
   ],
   "note": ""
  },
  {
   "property": "C05",
   "status": "proved",
   "theorems": [
    "C05_unitless_value",
    "C05_unknown_system",
    "C05_system_default",
    "C05_system_default_unitless",
    "C05_default_units_exceptions"
   ],
   "note": ""
  },
  {
   "property": "C06",
   "status": "proved",
   "theorems": [
    "C06_double_round_trip_error"
   ],
   "note": ""
  },
  {
   "property": "C07",
   "status": "proved",
   "theorems": [
    "C07_none",
    "C07_prettify_nearest_step"
   ],
   "note": ""
  },
  {
   "property": "C08",
   "status": "proved",
   "theorems": [
    "C08_nan",
    "C08_round_to_nearest_multiple",
    "C08_round_to_monotone",
    "C08_round_to_idempotent",
    "C08_round_to_zero_raises",
    "C08_rounded_list_elementwise"
   ],
   "note": ""
  },
  {
   "property": "C09",
   "status": "proved",
   "theorems": [
    "C09_comparisons_compare_quantities",
    "C09_order_laws",
    "C09_plain_numbers",
    "C09_same_units"
   ],
   "note": ""
  },
  {
   "property": "C10",
   "status": "proved",
   "theorems": [
    "C10_apart",
    "C10_same_units"
   ],
   "note": "Nearly equal quantities in different units are C129."
  },
  {
   "property": "C11",
   "status": "proved",
   "theorems": [
    "C11_exceptions",
    "C11_list_with_value",
    "C11_sum_and_difference",
    "C11_plain_numbers",
    "C11_plain_floor_division",
    "C11_ratios",
    "C11_unitless",
    "C11_unary",
    "C11_unsupported_operations_raise",
    "C11_lists"
   ],
   "note": ""
  },
  {
   "property": "C12",
   "status": "proved",
   "theorems": [
    "C12_incompatible_never_combine"
   ],
   "note": "All doubles; the exception of each operation is stated. See C113 for the class of the exception."
  },
  {
   "property": "C13",
   "status": "proved",
   "theorems": [
    "C13_values_carry_recognised_units",
    "C13_decoded_values_carry_recognised_units",
    "C13_constructor"
   ],
   "note": ""
  },
  {
   "property": "C14",
   "status": "proved",
   "theorems": [
    "C14_dumps_refuses",
    "C14_sparse_fields",
    "C14_value_fields",
    "C14_json_round_trip"
   ],
   "note": ""
  },
  {
   "property": "C15",
   "status": "proved",
   "theorems": [
    "C15_prettified",
    "C15_value_round"
   ],
   "note": "Under Python 3 round and prettified always raise (C130)."
  },
  {
   "property": "C16",
   "status": "proved",
   "theorems": [
    "C16_other_ranks",
    "C16_normalize",
    "C16_normalize_stack",
    "C16_normalize_zero",
    "C16_proj_reject_decompose",
    "C16_proj_reject_scale_invariant",
    "C16_stacks_row_by_row",
    "C16_sproj_and_magnitude"
   ],
   "note": ""
  },
  {
   "property": "C17",
   "status": "proved",
   "theorems": [
    "C17_angle",
    "C17_signed_angle"
   ],
   "note": ""
  },
  {
   "property": "C18",
   "status": "proved",
   "theorems": [
    "C18_acos_argument_in_range"
   ],
   "note": ""
  },
  {
   "property": "C19",
   "status": "proved",
   "theorems": [
    "C19_pad_unpad_round_trip",
    "C19_pad_appends_ones",
    "C19_unpad_rejects",
    "C19_apply_homogeneous_affine"
   ],
   "note": ""
  },
  {
   "property": "C20",
   "status": "proved",
   "theorems": [
    "C20_reject_axis",
    "C20_reject_axis_stack",
    "C20_reject_axis_range",
    "C20_reject_axis_squash",
    "C20_almost_zero",
    "C20_almost_collinear",
    "C20_exactly_collinear"
   ],
   "note": ""
  },
  {
   "property": "C21",
   "status": "proved",
   "theorems": [
    "C21_constructor_rejects",
    "C21_normal_and_reference",
    "C21_equation",
    "C21_from_points",
    "C21_from_points_and_vector"
   ],
   "note": ""
  },
  {
   "property": "C22",
   "status": "proved",
   "theorems": [
    "C22_signed_distance",
    "C22_is_euclidean_distance",
    "C22_sign",
    "C22_points_in_front",
    "C22_cover_and_overlap",
    "C22_ret_indices",
    "C22_flipped"
   ],
   "note": ""
  },
  {
   "property": "C23",
   "status": "proved",
   "theorems": [
    "C23_project_point"
   ],
   "note": ""
  },
  {
   "property": "C24",
   "status": "proved",
   "theorems": [
    "C24_canonical_point"
   ],
   "note": ""
  },
  {
   "property": "C25",
   "status": "proved",
   "theorems": [
    "C25_line_xsection",
    "C25_line_segment_xsection",
    "C25_line_xsections_rows",
    "C25_line_segment_xsections_rows",
    "C25_missing_rows_are_nan"
   ],
   "note": ""
  },
  {
   "property": "C26",
   "status": "proved",
   "theorems": [
    "C26_fit_is_least_squares",
    "C26_covariance"
   ],
   "note": ""
  },
  {
   "property": "C27",
   "status": "proved",
   "theorems": [
    "C27_selected_faces",
    "C27_bad_index"
   ],
   "note": ""
  },
  {
   "property": "C28",
   "status": "proved",
   "theorems": [
    "C28_every_edge_consumed_once",
    "C28_trails",
    "C28_add_edge_rejects",
    "C28_star_is_no_trail"
   ],
   "note": "The trail claim holds under its hypothesis (C28_trails); without it the edges are still all consumed once, but a path may step between vertices that are not joined (C28_star_is_no_trail). FINDING: the ValueError \"too many odd degree edges\" in mesh_xsections cannot be raised."
  },
  {
   "property": "C29",
   "status": "proved",
   "theorems": [
    "C29_sections",
    "C29_watertight",
    "C29_never_raises",
    "C29_neighborhood",
    "C29_joined"
   ],
   "note": "The plane and the vertices are read in exact arithmetic; a query oracle stands for cKDTree. Non-manifold meshes: see C28_star_is_no_trail for what can go wrong with the order of the vertices."
  },
  {
   "property": "C30",
   "status": "proved",
   "theorems": [
    "C30_edges_match_after_any_history",
    "C30_failed_operation_changes_nothing",
    "C30_setters",
    "C30_point_arrays",
    "C30_chain_edges",
    "C30_constructor"
   ],
   "note": "The excepted state is C131."
  },
  {
   "property": "C31",
   "status": "proved",
   "theorems": [
    "C31_intersect_plane"
   ],
   "note": ""
  },
  {
   "property": "C32",
   "status": "proved",
   "theorems": [
    "C32_cut_open",
    "C32_cut_open_rejects",
    "C32_meetsb"
   ],
   "note": ""
  },
  {
   "property": "C33",
   "status": "proved",
   "theorems": [
    "C33_cut_closed",
    "C33_cut_closed_rejects"
   ],
   "note": ""
  },
  {
   "property": "C34",
   "status": "proved",
   "theorems": [
    "C34_partition_by_length"
   ],
   "note": ""
  },
  {
   "property": "C35",
   "status": "proved",
   "theorems": [
    "C35_reindexed",
    "C35_reindexed_open",
    "C35_flip",
    "C35_total_length",
    "C35_no_vertices"
   ],
   "note": ""
  },
  {
   "property": "C36",
   "status": "partial",
   "theorems": [
    "C36_documented_direction_refuted"
   ],
   "note": "REFUTED: the returned array maps new edges to old ones (a three-vertex witness). C35 proves the direction that does hold."
  },
  {
   "property": "C37",
   "status": "proved",
   "theorems": [
    "C37_no_points",
    "C37_partition_segment",
    "C37_partition_segment_old",
    "C37_partition",
    "C37_partition_keeps_vertices"
   ],
   "note": ""
  },
  {
   "property": "C38",
   "status": "proved",
   "theorems": [
    "C38_line_intersect"
   ],
   "note": ""
  },
  {
   "property": "C39",
   "status": "proved",
   "theorems": [
    "C39_intersecting_lines",
    "C39_parallel_lines"
   ],
   "note": "The excepted case is C132."
  },
  {
   "property": "C40",
   "status": "proved",
   "theorems": [
    "C40_sum_to_one",
    "C40_reproduce_projection",
    "C40_vertices",
    "C40_rows_independent"
   ],
   "note": ""
  },
  {
   "property": "C41",
   "status": "proved",
   "theorems": [
    "C41_apex",
    "C41_farthest"
   ],
   "note": ""
  },
  {
   "property": "C42",
   "status": "proved",
   "theorems": [
    "C42_constructor",
    "C42_exact",
    "C42_orderings_double"
   ],
   "note": ""
  },
  {
   "property": "C43",
   "status": "proved",
   "theorems": [
    "C43_normal",
    "C43_swap_and_cycle",
    "C43_rows_independent"
   ],
   "note": ""
  },
  {
   "property": "C44",
   "status": "proved",
   "theorems": [
    "C44_rectangular_prism",
    "C44_cube",
    "C44_triangular_prism",
    "C44_horizontal_plane"
   ],
   "note": ""
  },
  {
   "property": "C45",
   "status": "proved",
   "theorems": [
    "C45_parts_in_order",
    "C45_index",
    "C45_range",
    "C45_refused",
    "C45_convert"
   ],
   "note": ""
  },
  {
   "property": "C46",
   "status": "proved",
   "theorems": [
    "C46_reverse_undoes",
    "C46_rotate_valid"
   ],
   "note": ""
  },
  {
   "property": "C47",
   "status": "proved",
   "theorems": [
    "C47_ranges_compose",
    "C47_empty_range",
    "C47_bounds"
   ],
   "note": ""
  },
  {
   "property": "C48",
   "status": "proved",
   "theorems": [
    "C48_last_row_exact",
    "C48_never_raises"
   ],
   "note": "The dot products are modelled left to right; the argument does not depend on the order of summation. Steps added by append_transform4, or by append_transform3 without a reverse matrix, are outside the claim."
  },
  {
   "property": "C49",
   "status": "proved",
   "theorems": [
    "C49_forward",
    "C49_backward",
    "C49_same_tag",
    "C49_via",
    "C49_unknown_tag",
    "C49_read_before_set",
    "C49_mesh",
    "C49_reserved_names"
   ],
   "note": "FINDING: a tag named like one of the object's own attributes (e.g. points) can be set but reads back an internal value; reading an unknown tag while a mesh without vertices is set returns the mesh."
  },
  {
   "property": "C50",
   "status": "proved",
   "theorems": [
    "C50_rotation_from_up_and_look",
    "C50_refused"
   ],
   "note": ""
  },
  {
   "property": "C51",
   "status": "proved",
   "theorems": [
    "C51_rodrigues_vector",
    "C51_tiny",
    "C51_turn_unique"
   ],
   "note": ""
  },
  {
   "property": "C52",
   "status": "proved",
   "theorems": [
    "C52_rotation_is_turn",
    "C52_as_rotation_matrix",
    "C52_near_identity",
    "C52_always_rotation",
    "C52_vector_rotation",
    "C52_rodrigues_inverse",
    "C52_minus_identity",
    "C52_bad_shape"
   ],
   "note": ""
  },
  {
   "property": "C53",
   "status": "proved",
   "theorems": [
    "C53_euler",
    "C53_degrees"
   ],
   "note": ""
  },
  {
   "property": "C54",
   "status": "proved",
   "theorems": [
    "C54_best_fit",
    "C54_exact",
    "C54_refuses",
    "C54_layout"
   ],
   "note": "Beyond the claim: the ValueError is raised exactly when some reflection fits strictly better than every rotation. FINDING: three points passed as rows (a 3x3 array) are read by columns (C54_layout)."
  },
  {
   "property": "C55",
   "status": "proved",
   "theorems": [
    "C55_best_rotation",
    "C55_one_pair",
    "C55_layout"
   ],
   "note": ""
  },
  {
   "property": "C56",
   "status": "proved",
   "theorems": [
    "C56_rotate_to_xz_plane",
    "C56_refused"
   ],
   "note": ""
  },
  {
   "property": "C57",
   "status": "proved",
   "theorems": [
    "C57_as_numeric_array",
    "C57_decided"
   ],
   "note": ""
  },
  {
   "property": "C58",
   "status": "proved",
   "theorems": [
    "C58_object_arrays",
    "C58_scalars",
    "C58_arrays",
    "C58_plain_arrays",
    "C58_bad_arrays",
    "C58_scalar_or_array",
    "C58_empty"
   ],
   "note": "What differs from the plain reading is C133."
  },
  {
   "property": "C59",
   "status": "proved",
   "theorems": [
    "C59_zero_safe_divide",
    "C59_refusals",
    "C59_one_entry"
   ],
   "note": ""
  },
  {
   "property": "C60",
   "status": "proved",
   "theorems": [
    "C60_scale_to_range",
    "C60_constant"
   ],
   "note": ""
  },
  {
   "property": "C61",
   "status": "proved",
   "theorems": [
    "C61_orthogonalize",
    "C61_orthonormalize",
    "C61_index_error"
   ],
   "note": ""
  },
  {
   "property": "C62",
   "status": "proved",
   "theorems": [
    "C62_change_of_basis",
    "C62_same_frame",
    "C62_errors"
   ],
   "note": ""
  },
  {
   "property": "C63",
   "status": "proved",
   "theorems": [
    "C63_split_rows",
    "C63_split_columns",
    "C63_blocks",
    "C63_default_masks",
    "C63_MMT",
    "C63_MTM_matmat"
   ],
   "note": "The property linOp (lines 147-149) passes shape twice and cannot be evaluated. mask_sparse_matrix with both masks and matvec are C114."
  },
  {
   "property": "C64",
   "status": "proved",
   "theorems": [
    "C64_lchol",
    "C64_refused",
    "C64_argument_unchanged"
   ],
   "note": ""
  },
  {
   "property": "C65",
   "status": "proved",
   "theorems": [
    "C65_lengths",
    "C65_cross_product"
   ],
   "note": ""
  },
  {
   "property": "C66",
   "status": "proved",
   "theorems": [
    "C66_jacobian",
    "C66_normalized_derivative",
    "C66_value"
   ],
   "note": ""
  },
  {
   "property": "C67",
   "status": "proved",
   "theorems": [
    "C67_negative_numbers",
    "C67_refused",
    "C67_not_triples",
    "C67_edges_derivative"
   ],
   "note": ""
  },
  {
   "property": "C68",
   "status": "proved",
   "theorems": [
    "C68_refresh",
    "C68_v_and_f"
   ],
   "note": "Changes of normalized alone are C134."
  },
  {
   "property": "C69",
   "status": "proved",
   "theorems": [
    "C69_convexify",
    "C69_hull",
    "C69_flatten",
    "C69_flatten_total",
    "C69_short",
    "C69_no_points",
    "C69_rejects"
   ],
   "note": "Hull routine, PCA, cv2.Rodrigues and matrix inverse are arguments with stated hypotheses. Finding: with flatten=True a normal given as ndarray raises ValueError; with at most one point want_vertices is ignored."
  },
  {
   "property": "C70",
   "status": "proved",
   "theorems": [
    "C70_input_float",
    "C70_allow_empty",
    "C70_input_value"
   ],
   "note": "Over plumbum terminal.prompt as documented; the built-in float parser is an arbitrary function."
  },
  {
   "property": "C71",
   "status": "proved",
   "theorems": [
    "C71_inflection_points",
    "C71_too_few",
    "C71_derivative_unique"
   ],
   "note": "As the code computes it; see C77 for what it does not compute. Curves sampled at a constant step divide by zero."
  },
  {
   "property": "C72",
   "status": "proved",
   "theorems": [
    "C72_translation",
    "C72_explicit"
   ],
   "note": ""
  },
  {
   "property": "C73",
   "status": "partial",
   "theorems": [
    "C73_units_assignment_refuted"
   ],
   "note": "REFUTED: the setter stores any string."
  },
  {
   "property": "C74",
   "status": "proved",
   "theorems": [
    "C74_scaled_exact"
   ],
   "note": "A single point is C123."
  },
  {
   "property": "C75",
   "status": "proved",
   "theorems": [
    "C75_face_normals",
    "C75_vertex_normals",
    "C75_vertex_normals_scaled",
    "C75_bad_face"
   ],
   "note": ""
  },
  {
   "property": "C76",
   "status": "proved",
   "theorems": [
    "C76_face_normals_derivative"
   ],
   "note": ""
  },
  {
   "property": "C77",
   "status": "partial",
   "theorems": [
    "C77_refuted"
   ],
   "note": "REFUTED: np.gradient receives the increments as coordinates (since numpy 1.13), so the second derivative is not that of the curve; four points of a parabola are a witness."
  },
  {
   "property": "C78",
   "status": "partial",
   "theorems": [
    "C78_refuted",
    "C78_corner_lost"
   ],
   "note": "REFUTED: a face in the plane raises TypeError (C78_refuted); a face with a corner in the plane and corners on both sides loses its section (C78_corner_lost). The docstring says that such vertices are ignored. The positive statement without on-plane vertices is C29."
  },
  {
   "property": "C79",
   "status": "partial",
   "theorems": [
    "C79_refuted"
   ],
   "note": "REFUTED: with several components the chosen one is always returned closed. What is proved of the choice is C29_neighborhood."
  },
  {
   "property": "C80",
   "status": "proved",
   "theorems": [
    "C80_vector_jacobian",
    "C80_at_zero",
    "C80_node",
    "C80_node_other"
   ],
   "note": "Curves through vectors of length exactly machine epsilon or below, where the matrix is the identity, are covered only by the derivative at zero."
  },
  {
   "property": "C81",
   "status": "proved",
   "theorems": [
    "C81_matrix_jacobian",
    "C81_inverse",
    "C81_near_identity",
    "C81_half_turn"
   ],
   "note": "At sin(angle) = 1e-5 exactly the two branches meet and nothing is claimed."
  },
  {
   "property": "C82",
   "status": "proved",
   "theorems": [
    "C82_other_keys",
    "C82_getitem"
   ],
   "note": "Unpacking is C115."
  },
  {
   "property": "C83",
   "status": "partial",
   "theorems": [
    "C83_truth_refuted",
    "C83_truth_python2"
   ],
   "note": "REFUTED as stated: the class defines __nonzero__ but not __bool__ (nor __len__), so under Python 3 every Value is true. Holds under Python 2."
  },
  {
   "property": "C84",
   "status": "partial",
   "theorems": [
    "C84_hash_refuted"
   ],
   "note": "REFUTED as stated: the class defines __eq__ without __hash__, so under Python 3 hash(v) raises TypeError for every Value."
  },
  {
   "property": "C85",
   "status": "proved",
   "theorems": [
    "C85_int",
    "C85_not_finite"
   ],
   "note": ""
  },
  {
   "property": "C86",
   "status": "proved",
   "theorems": [
    "C86_classes",
    "C86_listings"
   ],
   "note": ""
  },
  {
   "property": "C87",
   "status": "proved",
   "theorems": [
    "C87_one_unknown",
    "C87_passes"
   ],
   "note": "The only calls that return have one unknown; all others are C135."
  },
  {
   "property": "C88",
   "status": "proved",
   "theorems": [
    "C88_preconditioner",
    "C88_unused_columns_are_zero",
    "C88_symmetric_positive",
    "C88_solve"
   ],
   "note": "The non-convergence flag of scipy cg is dropped by the code; the residual claim is conditional on cg meeting its tolerance."
  },
  {
   "property": "C89",
   "status": "proved",
   "theorems": [
    "C89_stretches",
    "C89_returns",
    "C89_refuses"
   ],
   "note": "The remaining shapes that fit are C116."
  },
  {
   "property": "C90",
   "status": "proved",
   "theorems": [
    "C90_row_col"
   ],
   "note": ""
  },
  {
   "property": "C91",
   "status": "proved",
   "theorems": [
    "C91_exceptions",
    "C91_entries",
    "C91_shape",
    "C91_returns",
    "C91_returns_inferred"
   ],
   "note": ""
  },
  {
   "property": "C92",
   "status": "proved",
   "theorems": [
    "C92_view",
    "C92_raises",
    "C92_just_warn"
   ],
   "note": ""
  },
  {
   "property": "C93",
   "status": "proved",
   "theorems": [
    "C93_sequence",
    "C93_rows",
    "C93_not_iterable"
   ],
   "note": "A single array is C117."
  },
  {
   "property": "C94",
   "status": "proved",
   "theorems": [
    "C94_refused",
    "C94_list",
    "C94_copy",
    "C94_edges"
   ],
   "note": "The base array behind the edge view is not modelled. The array given for v is C118."
  },
  {
   "property": "C95",
   "status": "proved",
   "theorems": [
    "C95_assign_read",
    "C95_delete",
    "C95_plain_attributes"
   ],
   "note": ""
  },
  {
   "property": "C96",
   "status": "proved",
   "theorems": [
    "C96_to_dict"
   ],
   "note": "In exact arithmetic. Writing it as JSON is C119."
  },
  {
   "property": "C97",
   "status": "partial",
   "theorems": [
    "C97_refuted",
    "C97_lost_crossing",
    "C97_raises",
    "C97_returns"
   ],
   "note": "REFUTED: a vertex can be at a distance of about 1e-17 on the other side, and line_segment_xsection then finds no point on its edge in either direction; TypeError (C97_refuted, C97_lost_crossing). C97_raises and C97_returns say exactly when. Dot products are summed left to right (an assumption about numpy). The positive statement with a margin is C98."
  },
  {
   "property": "C98",
   "status": "proved",
   "theorems": [
    "C98_exact_plane",
    "C98_clear_of_the_plane",
    "C98_edge"
   ],
   "note": "Doubles are IEEE binary64 with rounding to nearest; dot products are summed left to right. The distance of a vertex to the plane is exact, for the stored normal; C98_exact_plane says the same of the distance to the exact plane through the given point perpendicular to the given vector."
  },
  {
   "property": "C99",
   "status": "proved",
   "theorems": [
    "C99_without_points",
    "C99_no_rows"
   ],
   "note": "The closed case of partition_by_length is C120."
  },
  {
   "property": "C100",
   "status": "proved",
   "theorems": [
    "C100_any_index"
   ],
   "note": "The length of the mapping is C121."
  },
  {
   "property": "C101",
   "status": "proved",
   "theorems": [
    "C101_basis"
   ],
   "note": ""
  },
  {
   "property": "C102",
   "status": "proved",
   "theorems": [
    "C102_zero",
    "C102_nan",
    "C102_infinite",
    "C102_unchanged"
   ],
   "note": "For positive lengths see C34 (exact arithmetic) and C107 (doubles), for negative ones C122."
  },
  {
   "property": "C103",
   "status": "proved",
   "theorems": [
    "C103_magnitude",
    "C103_normalize",
    "C103_rows"
   ],
   "note": "The squares are summed left to right (an assumption about numpy). Outside the range see C112."
  },
  {
   "property": "C104",
   "status": "proved",
   "theorems": [
    "C104_distance",
    "C104_sign",
    "C104_points_in_front"
   ],
   "note": "Dot products are summed left to right (an assumption about numpy). Longer normals: C112."
  },
  {
   "property": "C105",
   "status": "proved",
   "theorems": [
    "C105_project"
   ],
   "note": "Exactness is refuted in C112."
  },
  {
   "property": "C106",
   "status": "proved",
   "theorems": [
    "C106_flipped",
    "C106_sides_swap"
   ],
   "note": "Without the margin it is refuted in C112."
  },
  {
   "property": "C107",
   "status": "proved",
   "theorems": [
    "C107_partition_by_length"
   ],
   "note": "Exactness is refuted in C112."
  },
  {
   "property": "C108",
   "status": "proved",
   "theorems": [
    "C108_partition_segment"
   ],
   "note": "numpy.linspace is modelled as in numpy 1.13-1.23. Exactness of the last point is refuted in C112."
  },
  {
   "property": "C109",
   "status": "proved",
   "theorems": [
    "C109_scale_to_range"
   ],
   "note": "That the largest element stays within r_max is refuted in C112."
  },
  {
   "property": "C110",
   "status": "proved",
   "theorems": [
    "C110_apex",
    "C110_farthest"
   ],
   "note": "Exactness is refuted in C112."
  },
  {
   "property": "C111",
   "status": "proved",
   "theorems": [
    "C111_proj_reject"
   ],
   "note": "Exactness is refuted in C112."
  },
  {
   "property": "C112",
   "status": "partial",
   "theorems": [
    "C112_normalize_long_refuted",
    "C112_normalize_short_refuted",
    "C112_plane_long_normal_refuted",
    "C112_project_refuted",
    "C112_flipped_refuted",
    "C112_partition_by_length_refuted",
    "C112_last_point_refuted",
    "C112_range_refuted",
    "C112_apex_refuted",
    "C112_own_projection_refuted"
   ],
   "note": "REFUTED, each part by its own theorem: overflow and underflow in normalize (also of the normal of a Plane), a projected point with sign 1, a point in front of a plane and of the flipped plane, 0.4 divided by 0.1, the last of two samples from -0.9 to -0.3, 0 and 3 scaled to 0 .. 0.1, apex among 2^53 and 2^53 + 1, the projection of (1, 1, 0) on itself. What holds is C103-C111."
  },
  {
   "property": "C113",
   "status": "partial",
   "theorems": [
    "C113_division_reports_ValueError_refuted"
   ],
   "note": "REFUTED: a unitless Value divided by a Value with units raises KeyError."
  },
  {
   "property": "C114",
   "status": "proved",
   "theorems": [
    "C114_mask_both",
    "C114_matvec"
   ],
   "note": "The remaining cases are C136."
  },
  {
   "property": "C115",
   "status": "partial",
   "theorems": [
    "C115_unpack_refuted"
   ],
   "note": "REFUTED: iteration asks for v[2], which raises KeyError instead of IndexError, so list(v), a, b = v and x in v all raise."
  },
  {
   "property": "C116",
   "status": "partial",
   "theorems": [
    "C116_column_row_refuted",
    "C116_single_entry_refuted"
   ],
   "note": "REFUTED: a column against a row raises ValueError (misplaced parenthesis in the call of np.tile), and a single entry against a matrix raises Exception."
  },
  {
   "property": "C117",
   "status": "partial",
   "theorems": [
    "C117_array_refuted"
   ],
   "note": "REFUTED: the loop makes views read-only, or meets numbers, and the array stays writable."
  },
  {
   "property": "C118",
   "status": "partial",
   "theorems": [
    "C118_transposed",
    "C118_shared_refuted"
   ],
   "note": "REFUTED: for float64 arrays of shape (n, 3) the polyline keeps the caller's array object, so later writes, and even shape assignments, are seen in it (C118_shared_refuted); for shape (3, n) it keeps a transposed view (C118_transposed)."
  },
  {
   "property": "C119",
   "status": "partial",
   "theorems": [
    "C119_json_refuted"
   ],
   "note": "REFUTED: the edges are an index array, which the encoder refuses; without vertices to_dict itself raises TypeError."
  },
  {
   "property": "C120",
   "status": "partial",
   "theorems": [
    "C120_partition_refuted"
   ],
   "note": "REFUTED for closed ones: it raises IndexError after v was replaced by an empty array."
  },
  {
   "property": "C121",
   "status": "partial",
   "theorems": [
    "C121_mapping_length_refuted"
   ],
   "note": "REFUTED: outside 0..n it has more entries than there are edges."
  },
  {
   "property": "C122",
   "status": "partial",
   "theorems": [
    "C122_negative_refuted",
    "C122_minus_zero_refuted"
   ],
   "note": "REFUTED for negative lengths and minus zero: the polyline is returned as it was, no error."
  },
  {
   "property": "C123",
   "status": "partial",
   "theorems": [
    "C123_single_point_refuted"
   ],
   "note": "REFUTED: the helper column enters both norms, so the factor is wrong unless both points have the same length."
  },
  {
   "property": "C124",
   "status": "proved",
   "theorems": [
    "C124_intersect_plane"
   ],
   "note": "Exact arithmetic is C31."
  },
  {
   "property": "C125",
   "status": "proved",
   "theorems": [
    "C125_cut_open",
    "C125_cut_closed",
    "C125_rejects"
   ],
   "note": "Exact arithmetic is C32 and C33; without the margin the claim is refuted in C126."
  },
  {
   "property": "C126",
   "status": "partial",
   "theorems": [
    "C126_open_refuted",
    "C126_closed_refuted"
   ],
   "note": "REFUTED: the direction of the crossing edge may round to 0 although the signs of its ends differ, and the back part is kept; a crossing may be lost, and the result then starts at a vertex far from the plane."
  },
  {
   "property": "C127",
   "status": "proved",
   "theorems": [
    "C127_convert",
    "C127_compare",
    "C127_sum_and_difference",
    "C127_ratio"
   ],
   "note": "Exact arithmetic is C09 and C11; for quantities closer than the margin, C10 shows that equality is not even symmetric."
  },
  {
   "property": "C128",
   "status": "partial",
   "theorems": [
    "C128_equal_names_refuted"
   ],
   "note": "REFUTED: when both names are equal (even unknown names) the class check is skipped."
  },
  {
   "property": "C129",
   "status": "partial",
   "theorems": [
    "C129_different_units_refuted"
   ],
   "note": "REFUTED: in binary64, Value(12,\"in\") == Value(1,\"ft\") is False while the reverse is True."
  },
  {
   "property": "C130",
   "status": "partial",
   "theorems": [
    "C130_value_round_refuted"
   ],
   "note": "REFUTED: both methods always raise (the built-in round calls __round__ without its required argument)."
  },
  {
   "property": "C131",
   "status": "partial",
   "theorems": [
    "C131_failed_assignment_refuted"
   ],
   "note": "REFUTED for one case: assigning an empty array to a closed polyline raises IndexError after the vertices were replaced, leaving stale edges."
  },
  {
   "property": "C132",
   "status": "partial",
   "theorems": [
    "C132_first_point_on_second_line_refuted"
   ],
   "note": "REFUTED: None is returned for every such quadruple in which p0 is neither p1 nor q1."
  },
  {
   "property": "C133",
   "status": "partial",
   "theorems": [
    "C133_order_refuted",
    "C133_mixed_refuted",
    "C133_decimals_and_bools_refuted"
   ],
   "note": "REFUTED: Decimal(0) is refused, Decimal(\"NaN\") accepted, every list mixing bools with numbers is accepted, and a Decimal zero is accepted after a Fraction zero but not before it."
  },
  {
   "property": "C134",
   "status": "partial",
   "theorems": [
    "C134_normalized_ignored",
    "C134_refuted"
   ],
   "note": "REFUTED: changing normalized after a read has no effect (C134_refuted, C134_normalized_ignored)."
  },
  {
   "property": "C135",
   "status": "partial",
   "theorems": [
    "C135_refuted",
    "C135_single_1d_refused",
    "C135_exact_guess_refuted",
    "C135_empty_guess"
   ],
   "note": "REFUTED: without a guess the code calls np.zeros(b), which takes the entries of b as sizes and raises TypeError because they are not integers; the truth test of a guess with two or more entries raises ValueError; an exact guess gives NaN (C135_exact_guess_refuted)."
  },
  {
   "property": "C136",
   "status": "partial",
   "theorems": [
    "C136_mask_both_refuted",
    "C136_matvec_refuted"
   ],
   "note": "REFUTED in two places: mask_sparse_matrix with an all-False column mask keeps (duplicates) entries (C136_mask_both_refuted), and matvec refuses every 1-d vector and raises ValueError for column vectors when there are both dense rows and dense columns and more than one row (C136_matvec_refuted)."
  },
  {
   "property": "C137",
   "status": "proved",
   "theorems": [
    "C137_round_to",
    "C137_decimal"
   ],
   "note": "Exact arithmetic is C08."
  },
  {
   "property": "C138",
   "status": "proved",
   "theorems": [
    "C138_prettify"
   ],
   "note": "Exact arithmetic is C07; precisions 5, 9, 15, 18, 21 are C139."
  },
  {
   "property": "C139",
   "status": "partial",
   "theorems": [
    "C139_five_decimals_refuted"
   ],
   "note": "REFUTED: 1.0 / (1.0 / 10 ** 5) is 99999.99999999999, so prettify(3.0, \"cm\", precision=5) returns 3.0000000000000004 cm (C139_five_decimals_refuted)."
  },
  {
   "property": "C140",
   "status": "proved",
   "theorems": [
    "C140_forward",
    "C140_reverse",
    "C140_round_trip"
   ],
   "note": "Exact arithmetic is C45 and C46. Rotation matrices are taken as they are stored: the entries computed by rodrigues and euler are bounded in C154 and C155."
  },
  {
   "property": "C141",
   "status": "proved",
   "theorems": [
    "C141_segment_lengths",
    "C141_total_length"
   ],
   "note": "Exact arithmetic is C35. np.sum adds pairwise for longer arrays: the bound is proved for every order and grouping (SpecSumD.summed), the model itself adds from left to right."
  },
  {
   "property": "C142",
   "status": "proved",
   "theorems": [
    "C142_surface_normal",
    "C142_from_points",
    "C142_from_points_and_vector"
   ],
   "note": "Exact arithmetic is C43 and C21."
  },
  {
   "property": "C143",
   "status": "proved",
   "theorems": [
    "C143_canonical_point",
    "C143_canonical",
    "C143_equation"
   ],
   "note": "Exact arithmetic is C24 and C21."
  },
  {
   "property": "C144",
   "status": "partial",
   "theorems": [
    "C144_mirrored_refuted"
   ],
   "note": "Refuted; C39 has the exact arithmetic, where the comparison is right, and C145 what holds for doubles."
  },
  {
   "property": "C145",
   "status": "proved",
   "theorems": [
    "C145_up_to_mirror",
    "C145_beyond_first_point"
   ],
   "note": "The error bound is relative to the condition of the pair of lines; nearly parallel lines are outside it."
  },
  {
   "property": "C146",
   "status": "proved",
   "theorems": [
    "C146_barycentric"
   ],
   "note": "Exact arithmetic is C40."
  },
  {
   "property": "C147",
   "status": "proved",
   "theorems": [
    "C147_centre",
    "C147_corners",
    "C147_volume_and_area"
   ],
   "note": "Exact arithmetic and the orderings in doubles are C42."
  },
  {
   "property": "C148",
   "status": "proved",
   "theorems": [
    "C148_line",
    "C148_segment"
   ],
   "note": "Exact arithmetic and the equality of the array versions with the single ones are C25. Relative to C151, the condition for a result is the distance from the end points."
  },
  {
   "property": "C149",
   "status": "proved",
   "theorems": [
    "C149_line_intersect",
    "C149_one_division",
    "C149_along_an_axis"
   ],
   "note": "Exact arithmetic is C38. Fused multiply-add in the linear algebra library is not modelled."
  },
  {
   "property": "C150",
   "status": "partial",
   "theorems": [
    "C150_parallel_refuted"
   ],
   "note": "False: the lines through (0, 0), (1, 1) and (0, 1), (49, 50). True in exact arithmetic (C38) and for vertical and horizontal lines of doubles (C149)."
  },
  {
   "property": "C151",
   "status": "partial",
   "theorems": [
    "C151_crossing_segment_refuted",
    "C151_end_point_in_plane_refuted"
   ],
   "note": "False: the segment from (2, 0, -1) to the origin and the plane through (-1, -1, 0) perpendicular to (-1, 1, -1); and a strictly crossing one. What holds for doubles is C148; in exact arithmetic the claim holds (C25)."
  },
  {
   "property": "C152",
   "status": "proved",
   "theorems": [
    "C152_up_and_look"
   ],
   "note": "Exact arithmetic is C50. Vectors closer to collinear than 2^-20 are outside the bound."
  },
  {
   "property": "C153",
   "status": "partial",
   "theorems": [
    "C153_collinear_refuted"
   ],
   "note": "False: up = look = (1, 1, 0) returns a matrix whose first row is zero. In exact arithmetic such pairs are refused (C50)."
  },
  {
   "property": "C154",
   "status": "proved",
   "theorems": [
    "C154_rodrigues"
   ],
   "note": "Exact arithmetic is C51. The maths library is a parameter: any sin and cos within 2^-52, the correctly rounded ones are the witness."
  },
  {
   "property": "C155",
   "status": "proved",
   "theorems": [
    "C155_euler",
    "C155_degrees"
   ],
   "note": "Exact arithmetic is C53. Same parameter as C154, with pi."
  },
  {
   "property": "C156",
   "status": "proved",
   "theorems": [
    "C156_angle",
    "C156_signed_angle"
   ],
   "note": "Exact arithmetic is C17. Same parameter as C154, with arccos within 2^-51. 10^-4 degrees is the bound near 0 and 180 degrees, where arccos loses half of the digits; elsewhere the bound on the cosine is the stronger one."
  },
  {
   "property": "C157",
   "status": "proved",
   "theorems": [
    "C157_repr",
    "C157_edges_attribute",
    "C157_polyline_xsection"
   ],
   "note": ""
  },
  {
   "property": "C158",
   "status": "proved",
   "theorems": [
    "C158_range",
    "C158_manager_forward",
    "C158_manager_backward",
    "C158_round_trip"
   ],
   "note": "Exact arithmetic is C47 and C49."
  },
  {
   "property": "C159",
   "status": "proved",
   "theorems": [
    "C159_translation",
    "C159_back",
    "C159_given_factor"
   ],
   "note": "Exact arithmetic is C72."
  },
  {
   "property": "C160",
   "status": "proved",
   "theorems": [
    "C160_almost_zero",
    "C160_collinear_found",
    "C160_collinear"
   ],
   "note": "Exact arithmetic is C20."
  },
  {
   "property": "C161",
   "status": "proved",
   "theorems": [
    "C161_face_normals",
    "C161_vertex_normals"
   ],
   "note": "Exact arithmetic is C75. The scaled variant (normalized=False) is C171."
  },
  {
   "property": "C162",
   "status": "partial",
   "theorems": [
    "C162_orthonormal_refuted",
    "C162_two_rows"
   ],
   "note": "Exact arithmetic is C61. The bound is for two rows; for three rows the claim is refuted."
  },
  {
   "property": "C163",
   "status": "proved",
   "theorems": [
    "C163_order"
   ],
   "note": "Accuracy is C109; that results may exceed r_max is C112_range_refuted."
  },
  {
   "property": "C164",
   "status": "proved",
   "theorems": [
    "C164_attribute",
    "C164_no_attribute",
    "C164_history"
   ],
   "note": "Names that are ordinary attributes of the class (value, units, convert, ...) do not reach __getattr__."
  },
  {
   "property": "C165",
   "status": "proved",
   "theorems": [
    "C165_face_normals",
    "C165_vertex_normals"
   ],
   "note": "The derivative for normalized=False is made of operators of chumpy and is not modelled."
  },
  {
   "property": "C166",
   "status": "partial",
   "theorems": [
    "C166_evenly_sampled",
    "C166_refuted"
   ],
   "note": "Refuted: C166_evenly_sampled shows that nothing is reported for any evenly sampled monotone curve, C166_refuted gives a cubic with an inflection."
  },
  {
   "property": "C167",
   "status": "proved",
   "theorems": [
    "C167_rotation",
    "C167_transform"
   ],
   "note": "svd is an argument; scipy.linalg.det is the cofactor formula."
  },
  {
   "property": "C168",
   "status": "proved",
   "theorems": [
    "C168_rotation",
    "C168_transform"
   ],
   "note": "svd is an argument of stated accuracy. find_rigid_rotation with a single pair and with scaling is C170."
  },
  {
   "property": "C169",
   "status": "partial",
   "theorems": [
    "C169_accepts",
    "C169_refuses",
    "C169_flat_refuted"
   ],
   "note": "Refuted for flat data (C169_flat_refuted); C169_accepts and C169_refuses give the outcome when the determinant is clear of rounding errors."
  },
  {
   "property": "C170",
   "status": "proved",
   "theorems": [
    "C170_scaled",
    "C170_pair"
   ],
   "note": "svd is an argument of stated accuracy. A single pair with scaling is C123 (refuted in exact arithmetic)."
  },
  {
   "property": "C171",
   "status": "proved",
   "theorems": [
    "C171_vertex_normals_scaled"
   ],
   "note": "Exact arithmetic is C75. Between zero and the lower bound on |m| nothing is said."
  },
  {
   "property": "C172",
   "status": "partial",
   "theorems": [
    "C172_rotate_to_xz_plane",
    "C172_estimated_normal",
    "C172_own_rodrigues",
    "C172_above_one_refuted"
   ],
   "note": "Exact arithmetic is C56. Refuted for normals whose second coordinate is above 1 by rounding; proved for all others."
  },
  {
   "property": "C173",
   "status": "proved",
   "theorems": [
    "C173_rodrigues_matrix",
    "C173_small_turn",
    "C173_as_rotation_matrix",
    "C173_as_rotation_matrix_small",
    "C173_round_trip"
   ],
   "note": "Exact arithmetic is C52 and C51. svd is an argument of stated accuracy. Half turns (sin t below 2e-5 and t near pi) are outside the claim."
  },
  {
   "property": "C174",
   "status": "partial",
   "theorems": [
    "C174_elsewhere",
    "C174_always",
    "C174_near_half_turn_refuted"
   ],
   "note": "Refuted next to half turns (C174_near_half_turn_refuted); C174_elsewhere proves it everywhere else, C174_always bounds the error by 1/50 for every rotation matrix."
  }
 ]
}