{
 "claims": [
  {
   "property": "C01",
   "status": "proved",
   "theorems": [
    "C01_reachable_wellformed",
    "C01_constructor_holds_rows",
    "C01_constructor_rejects_narrow",
    "C01_constructor_rejects_tdata"
   ],
   "note": "Induction over programs of curve operations (Program.v); holds at every scalar type."
  },
  {
   "property": "C02",
   "status": "proved",
   "theorems": [
    "C02_int_index",
    "C02_int_index_iff",
    "C02_int_index_error_refuted"
   ],
   "note": "Exact: accepted iff -2*size <= i < size (C02_int_index_iff); the double wrap of indices below -size is C02_int_index_error_refuted."
  },
  {
   "property": "C03",
   "status": "proved",
   "theorems": [
    "C03_slice",
    "C03_slice_zero_step",
    "C03_slice_keeps_ndim_refuted"
   ],
   "note": "Slices select exactly as Python does; an empty result loses ndim (C03_slice_keeps_ndim_refuted)."
  },
  {
   "property": "C04",
   "status": "proved",
   "theorems": [
    "C04_index_list",
    "C04_index_list_error",
    "C04_mask",
    "C04_mask_error"
   ],
   "note": "Every scalar type."
  },
  {
   "property": "C05",
   "status": "proved",
   "theorems": [
    "C05_add",
    "C05_add_ndim_error",
    "C05_add_assoc_iff",
    "C05_add_assoc_refuted"
   ],
   "note": "Associativity characterised exactly (C05_add_assoc_iff); it fails only when an empty curve of dimension other than 2 loses its dimension."
  },
  {
   "property": "C06",
   "status": "proved",
   "theorems": [
    "C06_split_join"
   ],
   "note": "Every scalar type."
  },
  {
   "property": "C07",
   "status": "proved",
   "theorems": [
    "C07_reverse",
    "C07_reverse_involutive"
   ],
   "note": "Every scalar type."
  },
  {
   "property": "C08",
   "status": "proved",
   "theorems": [
    "C08_insert",
    "C08_insert_float",
    "C08_insert_index_error",
    "C08_insert_ndim_error"
   ],
   "note": "Integer indices."
  },
  {
   "property": "C09",
   "status": "proved",
   "theorems": [
    "C09_delete",
    "C09_delete_error"
   ],
   "note": "Integer, slice and index list; every scalar type."
  },
  {
   "property": "C10",
   "status": "proved",
   "theorems": [
    "C10_delete_insert",
    "C10_append",
    "C10_append_is_add"
   ],
   "note": "Every scalar type."
  },
  {
   "property": "C11",
   "status": "proved",
   "theorems": [
    "C11_in_count_index",
    "C11_contains",
    "C11_count",
    "C11_index_first",
    "C11_ndim_mismatch"
   ],
   "note": "Every scalar type (so also binary64 with NaN)."
  },
  {
   "property": "C12",
   "status": "proved",
   "theorems": [
    "C12_index_interval",
    "C12_index_interval_iff",
    "C12_index_interval_refuted"
   ],
   "note": "Result characterised for every start/end (C12_index_interval); it addresses the point found iff start >= -size (C12_index_interval_iff)."
  },
  {
   "property": "C13",
   "status": "proved",
   "theorems": [
    "C13_contains_curve"
   ],
   "note": "Every scalar type."
  },
  {
   "property": "C14",
   "status": "proved",
   "theorems": [
    "C14_isequal_meaning",
    "C14_curve_eq",
    "C14_curve_eq_refl",
    "C14_curve_eq_size",
    "C14_symmetric_refuted",
    "C14_transitive_refuted",
    "C14_refl_nan_refuted"
   ],
   "note": "Reflexive over exact reals; symmetry, transitivity and NaN reflexivity refuted by binary64 witnesses, as the property states."
  },
  {
   "property": "C15",
   "status": "proved",
   "theorems": [
    "C15_unique",
    "C15_unique_points",
    "C15_unique_idempotent",
    "C15_lexicographic"
   ],
   "note": "Order facts over exact reals; numpy.unique modelled as sort of first occurrences."
  },
  {
   "property": "C16",
   "status": "proved",
   "theorems": [
    "C16_drop_mask",
    "C16_drop_mask2",
    "C16_drop_indices",
    "C16_drop_errors"
   ],
   "note": "Every scalar type."
  },
  {
   "property": "C17",
   "status": "proved",
   "theorems": [
    "C17_nonsingular",
    "C17_nonsingular_idempotent_refuted",
    "C17_nonsingular_empty"
   ],
   "note": "Exact characterisation of the kept points over binary64; non-idempotence shown by a NaN witness."
  },
  {
   "property": "C18",
   "status": "proved",
   "theorems": [
    "C18_insertdim",
    "C18_insertdim_values",
    "C18_insertdim_error",
    "C18_deletedim",
    "C18_deletedim_plane_error",
    "C18_deletedim_insertdim",
    "C18_deletedim_all_refuted",
    "C18_deletedim_any",
    "C18_deletedim_range"
   ],
   "note": "Every scalar type; deletedim of all axes is a refuted corner."
  },
  {
   "property": "C19",
   "status": "proved",
   "theorems": [
    "C19_values",
    "C19_values_all",
    "C19_rebuild",
    "C19_values_error"
   ],
   "note": "Every scalar type."
  },
  {
   "property": "C20",
   "status": "proved",
   "theorems": [
    "C20_as2d",
    "C20_as2d_errors",
    "C20_as2d_axis_refuted"
   ],
   "note": "Arrays of any shape; double wrap of very negative axes is C20_as2d_axis_refuted."
  },
  {
   "property": "C21",
   "status": "proved",
   "theorems": [
    "C21_copy",
    "C21_copy_iff",
    "C21_copy_refuted"
   ],
   "note": "Exact: the copy is the same curve iff it has points or is plane (C21_copy_iff)."
  },
  {
   "property": "C22",
   "status": "proved",
   "theorems": [
    "C22_coorient",
    "C22_coorient_zero_det_refuted",
    "C22_short"
   ],
   "note": "Exact reals; the zero-determinant case is shown not idempotent."
  },
  {
   "property": "C23",
   "status": "proved",
   "theorems": [
    "C23_subcurve",
    "C23_segments",
    "C23_curve_segment",
    "C23_curve_segment_error",
    "C23_curve_segment_negative_refuted"
   ],
   "note": "The missing check for very negative CurveSegment indices is C23_curve_segment_negative_refuted."
  },
  {
   "property": "C24",
   "status": "proved",
   "theorems": [
    "C24_chordlen",
    "C24_arclen",
    "C24_cumarclen",
    "C24_empty",
    "C24_empty_arclen_refuted"
   ],
   "note": "Exact reals. The empty curve reads uninitialised memory (parameter junk of the model), so its arclen is refuted to be determined."
  },
  {
   "property": "C25",
   "status": "proved",
   "theorems": [
    "C25_reverse",
    "C25_similarity",
    "C25_translate_scale",
    "C25_ends",
    "C25_join",
    "C25_delete",
    "C25_insert"
   ],
   "note": "Exact reals, any dimension."
  },
  {
   "property": "C26",
   "status": "proved",
   "theorems": [
    "C26_quadratic",
    "C26_two_points",
    "C26_one_point",
    "C26_linear",
    "C26_translate",
    "C26_reverse"
   ],
   "note": "Exact reals, any dimension."
  },
  {
   "property": "C27",
   "status": "proved",
   "theorems": [
    "C27_frenet"
   ],
   "note": "Exact reals; thresholds are the 1e-8 of numpy.isclose."
  },
  {
   "property": "C28",
   "status": "proved",
   "theorems": [
    "C28_plane_similarity",
    "C28_plane_mirror",
    "C28_plane_reverse",
    "C28_plane_straight",
    "C28_plane_quadratic",
    "C28_circle",
    "C28_plane_one_point",
    "C28_space_nonneg",
    "C28_space_straight",
    "C28_space_straight_uniform",
    "C28_space_scale",
    "C28_space_straight_refuted"
   ],
   "note": "Exact reals. C28_space_straight_refuted: one-sided end tangents can flip on non-uniform straight curves."
  },
  {
   "property": "C29",
   "status": "proved",
   "theorems": [
    "C29_plane_torsion",
    "C29_inflection_refuted"
   ],
   "note": "Exact reals; C29_inflection_refuted shows the norm condition is needed."
  },
  {
   "property": "C30",
   "status": "proved",
   "theorems": [
    "C30_point_is_row",
    "C30_position"
   ],
   "note": "Every scalar type; accepted index range is the one of C02."
  },
  {
   "property": "C31",
   "status": "proved",
   "theorems": [
    "C31_point_is_affine",
    "C31_ends",
    "C31_sequence",
    "C31_bad_shape",
    "C31_between",
    "C31_distance",
    "C31_construct"
   ],
   "note": "Exact reals."
  },
  {
   "property": "C32",
   "status": "proved",
   "theorems": [
    "C32_t_inverts_iff",
    "C32_ends",
    "C32_t_inverts_refuted",
    "C32_sequences",
    "C32_singular"
   ],
   "note": "Exact reals; characterised exactly, so the inversion claim is refuted for lines off the origin."
  },
  {
   "property": "C33",
   "status": "proved",
   "theorems": [
    "C33_collinear_iff",
    "C33_sound",
    "C33_complete_refuted",
    "C33_segment_point",
    "C33_segment_segment"
   ],
   "note": "Exact reals, matrix_rank modelled as exact rank; the raw points are ranked (no translation), hence the refutation."
  },
  {
   "property": "C34",
   "status": "proved",
   "theorems": [
    "C34_coplanar_iff",
    "C34_below_three",
    "C34_empty",
    "C34_one_point",
    "C34_isplane"
   ],
   "note": "Exact reals, exact rank."
  },
  {
   "property": "C35",
   "status": "proved",
   "theorems": [
    "C35_parallel_meaning",
    "C35_proportional",
    "C35_symmetric",
    "C35_orientation",
    "C35_translation",
    "C35_orthogonal_refuted"
   ],
   "note": "Exact reals; the absolute tolerance makes short orthogonal segments parallel (refuted)."
  },
  {
   "property": "C36",
   "status": "proved",
   "theorems": [
    "C36_angle",
    "C36_nan",
    "C36_symmetric",
    "C36_reverse",
    "C36_multiples",
    "C36_rounded"
   ],
   "note": "Exact reals with acos of the standard library; uses classical logic through Ranalysis."
  },
  {
   "property": "C37",
   "status": "proved",
   "theorems": [
    "C37_none",
    "C37_overlap",
    "C37_endpoints_refuted",
    "C37_checked"
   ],
   "note": "Exact reals; end points refuted for directions of mixed sign."
  },
  {
   "property": "C38",
   "status": "proved",
   "theorems": [
    "C38_shape",
    "C38_minimal_bound",
    "C38_minimal_exact",
    "C38_exact_refuted"
   ],
   "note": "Exact reals; explicit slack from isclose snapping."
  },
  {
   "property": "C39",
   "status": "proved",
   "theorems": [
    "C39_on_segments",
    "C39_near_optimal",
    "C39_distance_bound",
    "C39_degenerate_refuted",
    "C39_short_crossing_refuted",
    "C39_exact_refuted"
   ],
   "note": "Exact reals; explicit bounds; three refutations delimit them."
  },
  {
   "property": "C40",
   "status": "proved",
   "theorems": [
    "C40_params",
    "C40_points"
   ],
   "note": "Exact reals."
  },
  {
   "property": "C41",
   "status": "proved",
   "theorems": [
    "C41_truthy",
    "C41_make_info",
    "C41_segments",
    "C41_curves",
    "C41_accessors"
   ],
   "note": "Every scalar type."
  },
  {
   "property": "C42",
   "status": "proved",
   "theorems": [
    "C42_on_both_lines",
    "C42_near_both_segments",
    "C42_far_segments"
   ],
   "note": "Exact reals, plane and space."
  },
  {
   "property": "C43",
   "status": "proved",
   "theorems": [
    "C43_complete",
    "C43_exact",
    "C43_short_refuted",
    "C43_far_from_origin_refuted",
    "C43_overlap_refuted"
   ],
   "note": "Exact reals; three refutations show each hypothesis is needed."
  },
  {
   "property": "C44",
   "status": "proved",
   "theorems": [
    "C44_members",
    "C44_order",
    "C44_once"
   ],
   "note": "Every scalar type."
  },
  {
   "property": "C45",
   "status": "proved",
   "theorems": [
    "C45_curves",
    "C45_boxes",
    "C45_complete",
    "C45_all_pairs_refuted"
   ],
   "note": "Exact reals; C45_all_pairs_refuted: tolerance results can be lost by the filter."
  },
  {
   "property": "C46",
   "status": "proved",
   "theorems": [
    "C46_segment_curve",
    "C46_empty",
    "C46_refused"
   ],
   "note": "Every scalar type and every method."
  },
  {
   "property": "C47",
   "status": "proved",
   "theorems": [
    "C47_segments",
    "C47_curves",
    "C47_correct_overlap"
   ],
   "note": "Exact reals."
  },
  {
   "property": "C48",
   "status": "proved",
   "theorems": [
    "C48_remove_extra",
    "C48_separated",
    "C48_run",
    "C48_order_dependent_refuted"
   ],
   "note": "For every enumeration order of the component sets (parameter order)."
  },
  {
   "property": "C49",
   "status": "proved",
   "theorems": [
    "C49_dimension",
    "C49_default",
    "C49_table",
    "C49_errors",
    "C49_self",
    "C49_other",
    "C49_copy_refuted"
   ],
   "note": "For every method object."
  },
  {
   "property": "C50",
   "status": "proved",
   "theorems": [
    "C50_set_default",
    "C50_lookup",
    "C50_names",
    "C50_never_rebound",
    "C50_register",
    "C50_intersect_registry",
    "C50_failed",
    "C50_default_registered",
    "C50_default_stays",
    "C50_default_last"
   ],
   "note": "Histories of any length."
  },
  {
   "property": "C51",
   "status": "proved",
   "theorems": [
    "C51_init",
    "C51_points",
    "C51_length",
    "C51_length_zero",
    "C51_small_curve",
    "C51_round_float",
    "C51_round_rational"
   ],
   "note": "Exact reals."
  },
  {
   "property": "C52",
   "status": "proved",
   "theorems": [
    "C52_points",
    "C52_even",
    "C52_negative",
    "C52_length",
    "C52_grid_object",
    "C52_empty",
    "C52_one_value_refuted",
    "C52_init"
   ],
   "note": "Exact reals."
  },
  {
   "property": "C53",
   "status": "proved",
   "theorems": [
    "C53_validation_iff",
    "C53_accepted",
    "C53_other_specs",
    "C53_count_iff",
    "C53_reversed",
    "C53_nan_refuted",
    "C53_tiny_curve_refuted"
   ],
   "note": "Exact reals, NaN grid witness in binary64."
  },
  {
   "property": "C54",
   "status": "proved",
   "theorems": [
    "C54_linear",
    "C54_no_extrapolation",
    "C54_linear_points",
    "C54_identity",
    "C54_reversed",
    "C54_integer_curve_refuted",
    "C54_repeated_point_refuted",
    "C54_nan_last"
   ],
   "note": "Exact reals; interp1d modelled by its definition; refutations in binary64."
  },
  {
   "property": "C55",
   "status": "proved",
   "theorems": [
    "C55_result",
    "C55_errors",
    "C55_empty",
    "C55_empty_linear_refuted",
    "C55_single_linear"
   ],
   "note": "For every interpolator (oracle)."
  },
  {
   "property": "C56",
   "status": "proved",
   "theorems": [
    "C56_grid",
    "C56_own_size",
    "C56_parametric",
    "C56_degenerate_refuted"
   ],
   "note": "Exact reals; degenerate cases in binary64."
  },
  {
   "property": "C57",
   "status": "proved",
   "theorems": [
    "C57_linrescale",
    "C57_inverse",
    "C57_compose",
    "C57_default_range",
    "C57_constant_refuted"
   ],
   "note": "Exact reals."
  },
  {
   "property": "C58",
   "status": "proved",
   "theorems": [
    "C58_window_average",
    "C58_boundary",
    "C58_modes",
    "C58_convex",
    "C58_fixes_constant",
    "C58_affine",
    "C58_window_scale",
    "C58_reverse",
    "C58_float64_refuted",
    "C58_integer_constant_refuted",
    "C58_zero_sum_refuted",
    "C58_even_window_refuted",
    "C58_empty_refuted"
   ],
   "note": "Exact reals; all five boundary modes; get_window is an oracle."
  },
  {
   "property": "C59",
   "status": "proved",
   "theorems": [
    "C59_dispatch",
    "C59_window_errors",
    "C59_savgol"
   ],
   "note": "For every method and window oracle; savgol is an oracle."
  },
  {
   "property": "C60",
   "status": "proved",
   "theorems": [
    "C60_arc",
    "C60_lemniscate",
    "C60_archimedean",
    "C60_euler",
    "C60_lissajous",
    "C60_helix",
    "C60_irregular_helix",
    "C60_counts",
    "C60_arc_length",
    "C60_arc_curvature",
    "C60_full_turn_closed"
   ],
   "note": "Exact reals with the standard trigonometric functions; the Fresnel integrals are an oracle."
  },
  {
   "property": "C61",
   "status": "proved",
   "theorems": [
    "C61_transparent",
    "C61_unaffected",
    "C61_families",
    "C61_leaves",
    "C61_shared_only",
    "C61_same_object",
    "C61_write_visible",
    "C61_parameters",
    "C61_writes_refuted",
    "C61_points_refuted",
    "C61_index",
    "C61_write_iff"
   ],
   "note": "Histories of any length over heap, caches and points; writes allowed."
  },
  {
   "property": "C62",
   "status": "proved",
   "theorems": [
    "C62_floordiv",
    "C62_truth",
    "C62_constructor",
    "C62_matmul_scalar",
    "C62_norm_scalar",
    "C62_coordinatewise",
    "C62_numbers",
    "C62_dimensions_iff",
    "C62_type_error",
    "C62_vector_space",
    "C62_binary64_assoc_refuted",
    "C62_zero_division",
    "C62_float_result",
    "C62_copy",
    "C62_dot",
    "C62_form",
    "C62_scalar_point_refuted",
    "C62_getitem"
   ],
   "note": "Coordinate laws at every scalar type, vector space laws over exact reals."
  },
  {
   "property": "C63",
   "status": "proved",
   "theorems": [
    "C63_euclidean",
    "C63_other_metrics",
    "C63_sqeuclidean_refuted",
    "C63_dimensions",
    "C63_dimension_zero_refuted",
    "C63_lookup",
    "C63_kwargs_dropped",
    "C63_nonfinite_refuted"
   ],
   "note": "Exact reals; the nine metrics without proofs are oracles."
  },
  {
   "property": "C64",
   "status": "proved",
   "theorems": [
    "C64_curvature",
    "C64_torsion",
    "C64_error",
    "C64_handedness_refuted"
   ],
   "note": "Exact reals; closed forms of the discrete formulas."
  },
  {
   "property": "C65",
   "status": "proved",
   "theorems": [
    "C65_insert_at_indices",
    "C65_insert_point_at_indices",
    "C65_one_index",
    "C65_slice",
    "C65_count_error",
    "C65_index_error_high",
    "C65_index_error_low_refuted"
   ],
   "note": "numpy.insert is modelled after its source (stable ranks); C65_index_error_low_refuted refutes the documented IndexError for indices below -size."
  },
  {
   "property": "C66",
   "status": "proved",
   "theorems": [
    "C66_curve_iteration",
    "C66_curve_reversed",
    "C66_point_iteration",
    "C66_scalar_point_refuted"
   ],
   "note": "The mixin methods of collections.abc.Sequence are modelled after the standard library; the curve is not changed during the iteration."
  },
  {
   "property": "C67",
   "status": "proved",
   "theorems": [
    "C67_hermite_iff",
    "C67_hermite",
    "C67_straight",
    "C67_uneven_line_refuted",
    "C67_constant_speed_refuted",
    "C67_smooth"
   ],
   "note": "The scipy class is modelled after its source (validation, coefficients, evaluation). Exact results over the reals; the two refuted variants are binary64 computations of the model."
  },
  {
   "property": "C68",
   "status": "proved",
   "theorems": [
    "C68_pchip_iff",
    "C68_pchip",
    "C68_monotone",
    "C68_affine",
    "C68_straight",
    "C68_points_float_refuted",
    "C68_smooth",
    "C68_rule"
   ],
   "note": "scipy's derivative formulas (weighted harmonic mean, one-sided end formula with its two limiters) are modelled after their source. Exact results over the reals; rounding is exhibited by C68_points_float_refuted."
  },
  {
   "property": "C69",
   "status": "proved",
   "theorems": [
    "C69_spline_errors",
    "C69_spline",
    "C69_points"
   ],
   "note": "scipy's UnivariateSpline is an arbitrary function (Section variable), which may fail at creation or at evaluation."
  },
  {
   "property": "C70",
   "status": "proved",
   "theorems": [
    "C70_chords",
    "C70_model",
    "C70_cumulative",
    "C70_symmetric",
    "C70_reverse",
    "C70_reverse_refuted",
    "C70_self",
    "C70_zero_refuted",
    "C70_overflow_refuted",
    "C70_error",
    "C70_length_error",
    "C70_arclen_error"
   ],
   "note": "Any order of summation is allowed by the relations chord_values and sums_to; C70_model shows that the model is one instance. Error bound by the standard model of rounding (Flocq used for lemmas only). Refuted parts with witnesses: reversal keeps the length, distance zero only for equal points, no overflow."
  },
  {
   "property": "C71",
   "status": "proved",
   "theorems": [
    "C71_element",
    "C71_point",
    "C71_curve",
    "C71_contains"
   ],
   "note": ""
  },
  {
   "property": "C72",
   "status": "proved",
   "theorems": [
    "C72_ends",
    "C72_ends_refuted",
    "C72_ascending",
    "C72_ascending_refuted",
    "C72_validation",
    "C72_validation_refuted"
   ],
   "note": "Refuted parts carry witnesses."
  },
  {
   "property": "C73",
   "status": "proved",
   "theorems": [
    "C73_point",
    "C73_segments",
    "C73_matrix",
    "C73_distance",
    "C73_end_refuted"
   ],
   "note": "C73_end_refuted: witness 2^54."
  },
  {
   "property": "C74",
   "status": "proved",
   "theorems": [
    "C74_integer_part",
    "C74_idempotent"
   ],
   "note": "Conversions outside the int64 range are not modelled."
  },
  {
   "property": "C75",
   "status": "proved",
   "theorems": [
    "C75_cubic_iff",
    "C75_cubic",
    "C75_points",
    "C75_polynomial",
    "C75_affine",
    "C75_straight",
    "C75_minimum",
    "C75_clamped_line_refuted"
   ],
   "note": "Exact arithmetic; periodic splines are not covered. scipy's CubicSpline is modelled after its source (tridiagonal system, Hermite form)."
  },
  {
   "property": "C76",
   "status": "proved",
   "theorems": [
    "C76_akima_iff",
    "C76_akima",
    "C76_between",
    "C76_points",
    "C76_quadratic",
    "C76_straight",
    "C76_two_points",
    "C76_two_points_refuted"
   ],
   "note": "Exact arithmetic. scipy's Akima1DInterpolator is modelled after the source of the scipy versions current at the pinned commit; later versions may treat two samples separately."
  },
  {
   "property": "C77",
   "status": "proved",
   "theorems": [
    "C77_csaps_iff",
    "C77_csaps",
    "C77_default",
    "C77_natural",
    "C77_affine",
    "C77_straight",
    "C77_balance",
    "C77_line",
    "C77_monotone"
   ],
   "note": "Real arithmetic; positive weights and 0 <= smooth <= 1 are assumed (csaps checks neither)."
  },
  {
   "property": "C78",
   "status": "proved",
   "theorems": [
    "C78_reads",
    "C78_read_result",
    "C78_once",
    "C78_order",
    "C78_quiet_iff",
    "C78_few_points",
    "C78_frenet1_iff",
    "C78_regular_quiet",
    "C78_line_warns",
    "C78_plane_warns",
    "C78_construct",
    "C78_segment_t",
    "C78_segment_t_quiet",
    "C78_collinear_warns_refuted",
    "C78_segment_ts",
    "C78_angle",
    "C78_grid_iff",
    "C78_grid_error",
    "C78_count_quiet",
    "C78_extrapolated_quiet",
    "C78_interpolation",
    "C78_exact_agrees",
    "C78_exact_quiet",
    "C78_exact_float_refuted",
    "C78_intersect",
    "C78_call",
    "C78_intersect_agrees",
    "C78_intersect_exact_quiet"
   ],
   "note": "Classes and order of warnings, not texts; two refuted expectations: a collinear (by tolerance) point can warn, and the exact method can warn in binary64 although it finds the point."
  },
  {
   "property": "C79",
   "status": "proved",
   "theorems": [
    "C79_dimensions",
    "C79_too_many_dimensions",
    "C79_history",
    "C79_kind",
    "C79_kind_only",
    "C79_line",
    "C79_multicolor",
    "C79_last_value_unused",
    "C79_multicolor_fails",
    "C79_multicolor_works",
    "C79_normals",
    "C79_normals_3d",
    "C79_normals_few",
    "C79_chain",
    "C79_chain_mixed"
   ],
   "note": "Properties_Plot.v. Drawing commands are values in a log; what matplotlib does with them is not modelled. Theorems on the colour range and the normals are over the reals."
  },
  {
   "property": "C80",
   "status": "proved",
   "theorems": [
    "C80_affine",
    "C80_inner",
    "C80_vector_linear",
    "C80_lengths",
    "C80_vectors",
    "C80_scalars",
    "C80_plane_curvature",
    "C80_coplanar",
    "C80_isplane",
    "C80_segments",
    "C80_segment_point",
    "C80_almost",
    "C80_collinear_refuted"
   ],
   "note": "The map is only assumed to preserve distances; that it is affine is derived. Curves with one point are excluded because the code returns a one-column derivative for them. Exact arithmetic."
  },
  {
   "property": "C81",
   "status": "proved",
   "theorems": [
    "C81_linear",
    "C81_cubic",
    "C81_csaps",
    "C81_affine",
    "C81_isometry_affine",
    "C81_grid",
    "C81_moved",
    "C81_hermite_moved",
    "C81_pchip_axes",
    "C81_pchip_rotation_refuted"
   ],
   "note": "Over the reals. Csaps and scipy splines as modelled in Csaps.v and Splines*.v. Periodic boundary conditions are not in the model of the slopes; prescribed non-zero derivatives would have to be mapped along and are excluded by zero_derivs."
  },
  {
   "property": "C82",
   "status": "proved",
   "theorems": [
    "C82_iff",
    "C82_closed",
    "C82_values",
    "C82_points",
    "C82_wrap",
    "C82_bool",
    "C82_minimum",
    "C82_average",
    "C82_start",
    "C82_last_refuted"
   ],
   "note": "numpy's remainder is an oracle with the law of a remainder over the reals; the cyclic system is solved as in scipy (condensed system of n-2 unknowns), its solution is proved to exist and to be unique by diagonal dominance."
  },
  {
   "property": "C83",
   "status": "proved",
   "theorems": [
    "C83_copy",
    "C83_copy_index_refuted",
    "C83_t",
    "C83_subcurve_errors",
    "C83_subcurve",
    "C83_subcurve_last_refuted",
    "C83_segment",
    "C83_segments",
    "C83_chordlen_any",
    "C83_chordlen",
    "C83_chordlen_float",
    "C83_chordlen_negative_refuted"
   ],
   "note": ""
  },
  {
   "property": "C84",
   "status": "proved",
   "theorems": [
    "C84_distance",
    "C84_lengths",
    "C84_exact",
    "C84_almost",
    "C84_almost_segments",
    "C84_limits",
    "C84_rescale"
   ],
   "note": ""
  },
  {
   "property": "C85",
   "status": "proved",
   "theorems": [
    "C85_predicates",
    "C85_parallel_float",
    "C85_collinear",
    "C85_exact",
    "C85_exact_refuted",
    "C85_curves",
    "C85_boxes",
    "C85_curves_refuted",
    "C85_distance",
    "C85_distance_refuted",
    "C85_reverse",
    "C85_reverse_exact_refuted",
    "C85_dot"
   ],
   "note": "Symmetric where the one-sided tolerances allow it; witnesses for the rest (C85_exact_refuted, C85_curves_refuted, C85_distance_refuted, C85_reverse_exact_refuted)."
  },
  {
   "property": "C86",
   "status": "proved",
   "theorems": [
    "C86_fit",
    "C86_modes",
    "C86_polynomial",
    "C86_interior",
    "C86_linear",
    "C86_affine",
    "C86_reverse",
    "C86_parity",
    "C86_average",
    "C86_identity",
    "C86_errors",
    "C86_zero",
    "C86_negative",
    "C86_convex_refuted",
    "C86_parameter_refuted"
   ],
   "note": "scipy's savgol_filter is modelled after its source (versions before 1.9); least squares solved exactly by the normal equations."
  },
  {
   "property": "C87",
   "status": "proved",
   "theorems": [
    "C87_spline_iff",
    "C87_negative",
    "C87_smoothing_iff",
    "C87_spline",
    "C87_raise",
    "C87_points",
    "C87_weights",
    "C87_polynomial",
    "C87_one_piece",
    "C87_linear",
    "C87_cubic",
    "C87_average"
   ],
   "note": "The theorem of Schoenberg and Whitney is proved in FitProofs.v (zeros of splines in truncated powers), existence by the dimension argument in FitProofs2.v, the equivalence with smooth piecewise polynomials in FitProofs3.v. smooth > 0 stays an oracle (C69)."
  },
  {
   "property": "C88",
   "status": "proved",
   "theorems": [
    "C88_values",
    "C88_small_sizes",
    "C88_errors",
    "C88_number_name",
    "C88_symmetric",
    "C88_sign",
    "C88_flattop_refuted",
    "C88_shape",
    "C88_total",
    "C88_total_zero",
    "C88_hull",
    "C88_reverse",
    "C88_identity",
    "C88_half_step",
    "C88_empty_window"
   ],
   "note": "get_window is modelled after scipy's sources (before 1.6) in exact arithmetic; Kaiser windows for names that are numbers are an oracle. Over the reals 'blackman' of size 2 is zero; in binary64 it is a rounding residue (C88_blackman_rounding)."
  },
  {
   "property": "C89",
   "status": "proved",
   "theorems": [
    "C89_svd",
    "C89_oracle",
    "C89_rank",
    "C89_collinear",
    "C89_coplanar",
    "C89_collinear_exact",
    "C89_coplanar_exact",
    "C89_zero",
    "C89_near_line",
    "C89_near_plane",
    "C89_monotone",
    "C89_negative",
    "C89_same_points",
    "C89_scale",
    "C89_turn",
    "C89_move",
    "C89_coplanar_order_refuted",
    "C89_distant_refuted",
    "C89_one_point",
    "C89_empty",
    "C89_segment_point",
    "C89_segment_exact",
    "C89_segment_zero",
    "C89_isplane"
   ],
   "note": "Exact real arithmetic; the singular values are an oracle that returns the singular values (proved to exist and to be unique). Order independence of coplanarity and recognition of distant figures are refuted."
  },
  {
   "property": "C90",
   "status": "proved",
   "theorems": [
    "C90_short",
    "C90_long",
    "C90_wide",
    "C90_point",
    "C90_curve_point",
    "C90_segment",
    "C90_curve_segment",
    "C90_intersection",
    "C90_lines",
    "C90_lines_long",
    "C90_decimal",
    "C90_aligned",
    "C90_table",
    "C90_injective",
    "C90_point_injective",
    "C90_curve_point_injective",
    "C90_segment_injective",
    "C90_parameters_hidden",
    "C90_empty",
    "C90_break",
    "C90_long_refuted"
   ],
   "note": "numpy's array2string is modelled with separator ' ' and line width 75; how a floating-point number is printed is a parameter assumed to give one word (for the layout theorems: no newline), for integers it is modelled. C90_long_refuted: eleven points, differing in the sixth, same text."
  },
  {
   "property": "C91",
   "status": "proved",
   "theorems": [
    "C91_distance",
    "C91_tolerance",
    "C91_curves",
    "C91_shared",
    "C91_missed",
    "C91_nonparallel",
    "C91_subset",
    "C91_crossing_refuted"
   ],
   "note": "Exact integers (no wrap-around)."
  },
  {
   "property": "C92",
   "status": "proved",
   "theorems": [
    "C92_chord",
    "C92_length",
    "C92_exact",
    "C92_translate",
    "C92_reverse",
    "C92_nonsingular",
    "C92_safe",
    "C92_arclen",
    "C92_singular_refuted",
    "C92_arclen_refuted",
    "C92_almost_exact",
    "C92_almost_refuted",
    "C92_truncate",
    "C92_compare"
   ],
   "note": "int64 arithmetic wraps modulo 2^64 (numpy), np.einsum and np.sum in any order give the same; conversion of integers to binary64 rounds to nearest even; the sum of the float lengths is modelled from the right, the bound holds for a finite sum."
  },
  {
   "property": "C93",
   "status": "proved",
   "theorems": [
    "C93_error",
    "C93_piece",
    "C93_inner_refuted",
    "C93_overflow_refuted",
    "C93_segment",
    "C93_rescale",
    "C93_rescale_unit",
    "C93_rescale_refuted"
   ],
   "note": "Proved over the kernel's binary64 operations with Flocq's rounding lemmas; refutations are concrete curves and ranges."
  },
  {
   "property": "C94",
   "status": "proved",
   "theorems": [
    "C94_chord",
    "C94_right",
    "C94_short",
    "C94_nonsingular",
    "C94_safe",
    "C94_arclen",
    "C94_symmetries",
    "C94_narrow_refuted",
    "C94_nonsingular_empty"
   ],
   "note": "The model follows numpy's dtype rules for np.diff, ** 2, np.sum and np.sqrt; int64 is C92."
  },
  {
   "property": "C95",
   "status": "proved",
   "theorems": [
    "C95_total",
    "C95_point",
    "C95_near_both_segments",
    "C95_keeps",
    "C95_plane",
    "C95_collinear",
    "C95_overlap",
    "C95_exact",
    "C95_curves",
    "C95_curves_exact",
    "C95_crossing_refuted"
   ],
   "note": "The singular values are an oracle (existence and uniqueness: C89); lstsq is the solution of the normal equations without the rcond cut-off; arithmetic is real."
  },
  {
   "property": "C96",
   "status": "proved",
   "theorems": [
    "C96_no_longer",
    "C96_same_length",
    "C96_refine",
    "C96_speed",
    "C96_uniform",
    "C96_corner_refuted",
    "C96_extrapolation_refuted",
    "C96_parametric_refuted"
   ],
   "note": "Real arithmetic; rounding of the linear interpolant is in C93."
  },
  {
   "property": "C97",
   "status": "proved",
   "theorems": [
    "C97_bound",
    "C97_symmetric",
    "C97_no_longer",
    "C97_named",
    "C97_steps",
    "C97_asymmetric_refuted",
    "C97_mirror_refuted",
    "C97_wrap_refuted",
    "C97_constant_refuted",
    "C97_negative_refuted"
   ],
   "note": "Real arithmetic, float curves (integer curves are truncated, see C58)."
  },
  {
   "property": "C98",
   "status": "proved",
   "theorems": [
    "C98_model",
    "C98_binary64",
    "C98_lengths",
    "C98_reverse",
    "C98_distance_error",
    "C98_length_error",
    "C98_cumulative",
    "C98_rising_refuted",
    "C98_rising",
    "C98_underflow_refuted",
    "C98_overflow_refuted",
    "C98_double",
    "C98_double_zero",
    "C98_widen",
    "C98_round_trip",
    "C98_double_copy",
    "C98_narrow",
    "C98_narrow_length",
    "C98_narrow_refuted",
    "C98_nonsingular"
   ],
   "note": "The model at 53 bits is proved equal to the binary64 model used elsewhere (C98_binary64). The general claims that cumarclen rises strictly, that distinct points have positive finite float32 distance and that conversion to float32 keeps points distinct are refuted with witnesses. float16 is not claimed (numpy accumulates it in float32)."
  },
  {
   "property": "C99",
   "status": "proved",
   "theorems": [
    "C99_failures",
    "C99_success",
    "C99_kinds",
    "C99_hermite",
    "C99_spline_kinds",
    "C99_splines",
    "C99_periodic_kinds",
    "C99_periodic",
    "C99_fitpack",
    "C99_fitpack_call"
   ],
   "note": "C99_failures, C99_success and C99_kinds for programs of container operations; C99_hermite, C99_spline_kinds and C99_splines for the splines. Insertion at several indices with one below -size is outside the table (C65_index_error_low_refuted)."
  },
  {
   "property": "C100",
   "status": "proved",
   "theorems": [
    "C100_derivatives",
    "C100_inner",
    "C100_third_ends",
    "C100_plane_curvature",
    "C100_space_curvature",
    "C100_space_fine_refuted",
    "C100_length",
    "C100_linear"
   ],
   "note": "Derivatives, curvature (plane and space), length and linear interpolation with explicit constants; two refutations (third derivative at the ends, curvature in space with very fine steps)."
  },
  {
   "property": "C101",
   "status": "proved",
   "theorems": [
    "C101_pchip",
    "C101_akima",
    "C101_cubic",
    "C101_natural",
    "C101_clamped",
    "C101_not_a_knot",
    "C101_fourth",
    "C101_clamped_line_refuted"
   ],
   "note": "Exact arithmetic; the scipy constructors (PchipInterpolator, Akima1DInterpolator, CubicSpline) are the modelled algorithms of Splines.v and Splines2.v. Akima with two points reads uninitialised memory and is excluded (see C76). Whether the ratio rho in the not-a-knot bound is necessary is not settled."
  },
  {
   "property": "C102",
   "status": "proved",
   "theorems": [
    "C102_periodic",
    "C102_periodic_fourth",
    "C102_csaps",
    "C102_spline_linear",
    "C102_spline_cubic",
    "C102_hermite",
    "C102_hermite_line_refuted",
    "C102_hermite_unit"
   ],
   "note": "Over the reals. Smoothing proper (csaps with smooth below 1, 'spline' with s > 0) is not covered: those curves do not pass through the points. The unit-speed bound needs h > 2e-8 since numpy.isclose leaves shorter tangents as they are."
  },
  {
   "property": "C103",
   "status": "proved",
   "theorems": [
    "C103_polygon",
    "C103_exact",
    "C103_exact_apart",
    "C103_almost",
    "C103_graphs"
   ],
   "note": "Over the reals, in the contract of solve (exact solution of the square systems); sampling too finely loses crossings (C43_short_refuted), which is why h has lower bounds."
  },
  {
   "property": "C104",
   "status": "proved",
   "theorems": [
    "C104_window",
    "C104_window_inside",
    "C104_window_exact",
    "C104_savgol",
    "C104_savgol_derivative",
    "C104_savgol_even"
   ],
   "note": "Over the reals; convolve1d and savgol_filter as modelled for C58 and C86."
  },
  {
   "property": "C105",
   "status": "proved",
   "theorems": [
    "C105_torsion",
    "C105_space",
    "C105_fine_refuted"
   ],
   "note": "The points nearer to the ends are left out: the third differences there do not converge (C100). The collapse for small steps concerns steps between 1/5000 and 1/500; below, the normals are not normalised either."
  },
  {
   "property": "C106",
   "status": "proved",
   "theorems": [
    "C106_inner",
    "C106_error",
    "C106_exact",
    "C106_quadratic",
    "C106_sampled",
    "C106_fine_refuted",
    "C106_reverse",
    "C106_reverse_refuted"
   ],
   "note": "numpy.gradient is modelled as in C26: (f[i+1] - f[i-1]) / 2 inside, a*f0 + b*f1 + c*f2 from left to right at the ends. numpy computes these without fused multiply-add."
  },
  {
   "property": "C107",
   "status": "proved",
   "theorems": [
    "C107_speed",
    "C107_error",
    "C107_sign",
    "C107_integer",
    "C107_large_refuted"
   ],
   "note": "q ** 1.5 is modelled as q * sqrt q; the pow of the C library may differ from it by a few units in the last place, which changes the constants 10 and 7 by as much and nothing else (0 ** 1.5 is 0, so 0/0 is NaN as in the model). The sum of the norm is taken in any order in C70; here in the order of the model."
  },
  {
   "property": "C108",
   "status": "proved",
   "theorems": [
    "C108_unit",
    "C108_slow",
    "C108_line",
    "C108_line_refuted"
   ],
   "note": "The sum of squares is taken in the order of the model (right to left); numpy may take another, which the bound covers for curves of two dimensions."
  },
  {
   "property": "C109",
   "status": "proved",
   "theorems": [
    "C109_pchip",
    "C109_hermite",
    "C109_linear",
    "C109_window_refuted",
    "C109_global_refuted",
    "C109_arclen_refuted"
   ],
   "note": "generic in the number type; the refuted theorems are binary64 witnesses"
  },
  {
   "property": "C110",
   "status": "proved",
   "theorems": [
    "C110_point",
    "C110_cumarclen",
    "C110_steps_refuted",
    "C110_ends_refuted",
    "C110_cumarclen_refuted"
   ],
   "note": "generic in the number type; sharpness by binary64 witnesses for every property"
  },
  {
   "property": "C111",
   "status": "proved",
   "theorems": [
    "C111_window",
    "C111_savgol",
    "C111_window_refuted",
    "C111_interp_refuted"
   ],
   "note": "generic in the number type, for the summation order of the model"
  },
  {
   "property": "C112",
   "status": "proved",
   "theorems": [
    "C112_linear",
    "C112_pchip",
    "C112_cubic",
    "C112_spline",
    "C112_window",
    "C112_savgol",
    "C112_derivatives",
    "C112_mixed_refuted",
    "C112_arclen_refuted"
   ],
   "note": "generic in the number type, for the order of operations of the model"
  },
  {
   "property": "C113",
   "status": "proved",
   "theorems": [
    "C113_window",
    "C113_savgol",
    "C113_modes_refuted"
   ],
   "note": "generic in the number type, for the summation order of the model"
  },
  {
   "property": "C114",
   "status": "proved",
   "theorems": [
    "C114_value"
   ],
   "note": "generic in the number type; 'spline' calls the library with the whole grid and is not covered"
  }
 ]
}