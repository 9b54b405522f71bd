{
 "claims": [
  {
   "property": "C01",
   "status": "partial",
   "theorems": [
    "C01_get_subset",
    "C01_get_subset_rejects",
    "C01_wrapping_length_refuted"
   ],
   "note": "Exact behaviour proved in all cases. The 'copied whenever the clipped range fits' reading fails when offset+len wraps (returns -EINVAL, no memory error): C01_wrapping_length_refuted."
  },
  {
   "property": "C02",
   "status": "proved",
   "theorems": [
    "C02_add",
    "C02_sub",
    "C02_add_sub_reject",
    "C02_neg",
    "C02_scalar_add",
    "C02_scalar_mult",
    "C02_scalar_div",
    "C02_scalar_div_zero"
   ],
   "note": ""
  },
  {
   "property": "C03",
   "status": "proved",
   "theorems": [
    "C03_in_place"
   ],
   "note": ""
  },
  {
   "property": "C04",
   "status": "proved",
   "theorems": [
    "C04_dot",
    "C04_dot_laws",
    "C04_dot_any_arithmetic",
    "C04_dot_rejects"
   ],
   "note": ""
  },
  {
   "property": "C05",
   "status": "proved",
   "theorems": [
    "C05_norm"
   ],
   "note": ""
  },
  {
   "property": "C06",
   "status": "proved",
   "theorems": [
    "C06_metric",
    "C06_value",
    "C06_rejects"
   ],
   "note": ""
  },
  {
   "property": "C07",
   "status": "proved",
   "theorems": [
    "C07_to_unit",
    "C07_empty_refuted"
   ],
   "note": "Proved for non-empty vectors; C07_empty_refuted records that an empty vector makes it write past the buffer."
  },
  {
   "property": "C08",
   "status": "proved",
   "theorems": [
    "C08_cross",
    "C08_cross_any_arithmetic",
    "C08_cross_rejects"
   ],
   "note": ""
  },
  {
   "property": "C09",
   "status": "partial",
   "theorems": [
    "C09_cross_in_place_refuted"
   ],
   "note": "REFUTED: the code overwrites components it still needs."
  },
  {
   "property": "C10",
   "status": "proved",
   "theorems": [
    "C10_project",
    "C10_project_rejects"
   ],
   "note": ""
  },
  {
   "property": "C11",
   "status": "partial",
   "theorems": [
    "C11_rev",
    "C11_rev_involutive",
    "C11_rev_empty_refuted"
   ],
   "note": "Proved for every non-empty vector; for sz = 0 the code reads out of bounds (C11_rev_empty_refuted)."
  },
  {
   "property": "C12",
   "status": "partial",
   "theorems": [
    "C12_zte_partial",
    "C12_tiny_negative_refuted"
   ],
   "note": "Proved with the code's actual test 0 <= x < 1e-6; tiny negative values are not moved (C12_tiny_negative_refuted)."
  },
  {
   "property": "C13",
   "status": "proved",
   "theorems": [
    "C13_is_equal",
    "C13_contains",
    "C13_is_nonneg",
    "C13_nan_refuted"
   ],
   "note": "Over the reals. C13_nan_refuted: with NaN elements is_equal answers true."
  },
  {
   "property": "C14",
   "status": "proved",
   "theorems": [
    "C14_sort",
    "C14_near_duplicates_refuted"
   ],
   "note": "C14_near_duplicates_refuted shows the separation hypothesis is needed."
  },
  {
   "property": "C15",
   "status": "partial",
   "theorems": [
    "C15_sort_memory_safe_refuted"
   ],
   "note": "REFUTED: three out-of-bounds witnesses."
  },
  {
   "property": "C16",
   "status": "partial",
   "theorems": [
    "C16_vec_sum_partial",
    "C16_vec_sum_accumulates",
    "C16_vec_sum_rejects",
    "C16_vec_mean_partial",
    "C16_vec_mean_accumulates",
    "C16_vec_sum_dirty_output_refuted"
   ],
   "note": "zsl_vec_sum adds into the output, so the sum is right only if the output was zero; C16_vec_sum_accumulates is the exact behaviour, C16_vec_sum_dirty_output_refuted the counterexample."
  },
  {
   "property": "C17",
   "status": "proved",
   "theorems": [
    "C17_mtx_copy",
    "C17_mtx_copy_mismatch",
    "C17_mtx_from_arr",
    "C17_vec_init",
    "C17_vec_from_arr",
    "C17_vec_copy",
    "C17_vec_copy_overflow"
   ],
   "note": ""
  },
  {
   "property": "C18",
   "status": "proved",
   "theorems": [
    "C18_vec_safe"
   ],
   "note": ""
  },
  {
   "property": "C19",
   "status": "proved",
   "theorems": [
    "C19_get",
    "C19_set_get",
    "C19_out_of_range"
   ],
   "note": ""
  },
  {
   "property": "C20",
   "status": "proved",
   "theorems": [
    "C20_get_row",
    "C20_get_col",
    "C20_set_row",
    "C20_set_col",
    "C20_out_of_range"
   ],
   "note": ""
  },
  {
   "property": "C21",
   "status": "proved",
   "theorems": [
    "C21_init_fn",
    "C21_init_null_zero",
    "C21_init_identity",
    "C21_init_error"
   ],
   "note": ""
  },
  {
   "property": "C22",
   "status": "proved",
   "theorems": [
    "C22_add",
    "C22_sub",
    "C22_add_sub_in_place",
    "C22_binary_op",
    "C22_shape_mismatch",
    "C22_add_sub_mismatch",
    "C22_unary_op",
    "C22_unary_ops_R",
    "C22_unknown_op"
   ],
   "note": ""
  },
  {
   "property": "C23",
   "status": "partial",
   "theorems": [
    "C23_unsupported_op_clobbers",
    "C23_unsupported_op_refuted"
   ],
   "note": "REFUTED: eight operations of the enumeration fall through to -ENOSYS after overwriting element (0,0) of the output (exact behaviour in C23_unsupported_op_clobbers)."
  },
  {
   "property": "C24",
   "status": "proved",
   "theorems": [
    "C24_mult",
    "C24_mult_R",
    "C24_mult_in_place",
    "C24_mult_rejects",
    "C24_mult_d_rejects",
    "C24_mult_assoc",
    "C24_mult_identity",
    "C24_mult_transpose"
   ],
   "note": ""
  },
  {
   "property": "C25",
   "status": "proved",
   "theorems": [
    "C25_trans",
    "C25_trans_twice",
    "C25_trans_rejects"
   ],
   "note": ""
  },
  {
   "property": "C26",
   "status": "partial",
   "theorems": [
    "C26_trans_in_place_refuted"
   ],
   "note": "REFUTED already for 2x2."
  },
  {
   "property": "C27",
   "status": "partial",
   "theorems": [
    "C27_sum_rows",
    "C27_sum_rows_scaled_partial",
    "C27_scalar_mult_row",
    "C27_scalar_mult",
    "C27_rejects",
    "C27_scaled_row_guard_refuted"
   ],
   "note": "Proved except that zsl_mtx_sum_rows_scaled_d compares the row index j with sz_cols: valid rows of tall matrices are refused, rows behind the end of wide ones are read (C27_scaled_row_guard_refuted)."
  },
  {
   "property": "C28",
   "status": "proved",
   "theorems": [
    "C28_reduce",
    "C28_reduce_rejects",
    "C28_reduce_non_square_refuted"
   ],
   "note": "Square matrices, as claimed. C28_reduce_non_square_refuted: on non-square input the checks pass and the code reads out of bounds."
  },
  {
   "property": "C29",
   "status": "proved",
   "theorems": [
    "C29_determinant",
    "C29_multiplicative",
    "C29_transpose",
    "C29_zero_iff_singular"
   ],
   "note": "Every size >= 1, real arithmetic, equal to MathComp's determinant. Rejection of non-square shapes is C30."
  },
  {
   "property": "C30",
   "status": "partial",
   "theorems": [
    "C30_deter_non_square_partial",
    "C30_deter_non_square_refuted"
   ],
   "note": "Proved for matrices with at least 3 rows (C30_deter_non_square_partial). REFUTED for one and two rows: a 2x1 matrix is read out of bounds, 1x2 and 2x3 are accepted (C30_deter_non_square_refuted)."
  },
  {
   "property": "C31",
   "status": "proved",
   "theorems": [
    "C31_adjoint_3x3"
   ],
   "note": ""
  },
  {
   "property": "C32",
   "status": "partial",
   "theorems": [
    "C32_adjoint_transposed_partial",
    "C32_adjoint_refuted"
   ],
   "note": "REFUTED for 2x2 (C32_adjoint_refuted): for sizes other than 3 the code stores the cofactor matrix without transposing it; exact behaviour in C32_adjoint_transposed_partial."
  },
  {
   "property": "C33",
   "status": "proved",
   "theorems": [
    "C33_inv_3x3",
    "C33_inv_3x3_singular"
   ],
   "note": ""
  },
  {
   "property": "C34",
   "status": "proved",
   "theorems": [
    "C34_inv",
    "C34_inv_singular",
    "C34_inv_rejects"
   ],
   "note": "The condition 'meets no pivot smaller than 1e-6' is gj_clear (SpecGauss.v), a condition on the input in terms of textbook Gauss-Jordan elimination."
  },
  {
   "property": "C35",
   "status": "partial",
   "theorems": [
    "C35_inv_of_small_matrices",
    "C35_inv_refuted"
   ],
   "note": "REFUTED: C35_inv_of_small_matrices (all sizes but 3) and C35_inv_refuted."
  },
  {
   "property": "C36",
   "status": "partial",
   "theorems": [
    "C36_gauss_elim_partial",
    "C36_gauss_elim_refuted"
   ],
   "note": "One invertible E is applied to both matrices; elements of the column that are at least 1e-6 become zero, smaller ones stay (C36_gauss_elim_refuted)."
  },
  {
   "property": "C37",
   "status": "proved",
   "theorems": [
    "C37_gram_schmidt",
    "C37_dependent_columns_refuted"
   ],
   "note": "Real arithmetic. C37_dependent_columns_refuted: with dependent columns the code divides by a zero norm (float run gives NaN)."
  },
  {
   "property": "C38",
   "status": "proved",
   "theorems": [
    "C38_cols_norm"
   ],
   "note": "Real arithmetic; every column non-zero."
  },
  {
   "property": "C39",
   "status": "proved",
   "theorems": [
    "C39_cholesky",
    "C39_rejected"
   ],
   "note": "Real arithmetic. Stated for positive definite matrices (all pivots positive); -EINVAL cases with bounds checks enabled."
  },
  {
   "property": "C40",
   "status": "proved",
   "theorems": [
    "C40_householder",
    "C40_hessenberg_1x1_refuted"
   ],
   "note": "Real arithmetic; C40_hessenberg_1x1_refuted: hessenberg on a 1x1 matrix writes out of bounds."
  },
  {
   "property": "C41",
   "status": "proved",
   "theorems": [
    "C41_qr"
   ],
   "note": "Real arithmetic, every n >= 1."
  },
  {
   "property": "C42",
   "status": "proved",
   "theorems": [
    "C42_hessenberg"
   ],
   "note": "Real arithmetic, every n >= 1."
  },
  {
   "property": "C43",
   "status": "proved",
   "theorems": [
    "C43_qr_iteration"
   ],
   "note": "Real arithmetic, any number of iterations."
  },
  {
   "property": "C44",
   "status": "partial",
   "theorems": [
    "C44_balance_partial",
    "C44_balance_ends",
    "C44_balance_ends_nonnegative",
    "C44_garbage_unbalanced_refuted",
    "C44_already_balanced",
    "C44_uninitialised_refuted",
    "C44_garbage_refuted"
   ],
   "note": "With locals that start at zero every run ends (in exact arithmetic), with a matrix similar by powers of two and balanced to 5 %. Missing because the code refutes it: the locals row/col are used uninitialised, which is undefined (C44_uninitialised_refuted), can loop forever (C44_garbage_refuted) or leave the matrix unbalanced (C44_garbage_unbalanced_refuted)."
  },
  {
   "property": "C45",
   "status": "partial",
   "theorems": [
    "C45_eigenvalues_partial",
    "C45_triangular",
    "C45_eigenvalues_end",
    "C45_exchange_matrix_refuted"
   ],
   "note": "With locals that start at zero the computation always answers. Reported values are the diagonal of a matrix similar to the input (exact eigenvalues when that matrix is triangular, in particular for triangular inputs). REFUTED in general: for (0 1; 1 0) the code reports 0, 0 with code 0 for every number of iterations. The limit for symmetric matrices is C138."
  },
  {
   "property": "C46",
   "status": "partial",
   "theorems": [
    "C46_wide_matrix_refuted",
    "C46_pinv_singular_refuted"
   ],
   "note": "REFUTED: any matrix with more columns than rows makes zsl_mtx_svd/zsl_mtx_pinv leave their arrays; zsl_mtx_pinv divides by zero singular values. The positive statements for tall and square matrices are C128."
  },
  {
   "property": "C47",
   "status": "proved",
   "theorems": [
    "C47_min",
    "C47_max",
    "C47_min_idx",
    "C47_max_idx"
   ],
   "note": ""
  },
  {
   "property": "C48",
   "status": "partial",
   "theorems": [
    "C48_is_equal_partial",
    "C48_is_equal_shape",
    "C48_is_equal_refuted"
   ],
   "note": "REFUTED: memcmp covers rows+cols elements instead of rows*cols. The exact behaviour on matrices with at least that many elements is C48_is_equal_partial."
  },
  {
   "property": "C49",
   "status": "proved",
   "theorems": [
    "C49_is_sym",
    "C49_is_sym_total",
    "C49_is_notneg",
    "C49_is_sym_non_square_refuted"
   ],
   "note": "C49_is_sym_non_square_refuted records the behaviour outside the claim (non-square input)."
  },
  {
   "property": "C50",
   "status": "partial",
   "theorems": [
    "C50_wedge_orthogonal_partial",
    "C50_wedge_minors_partial",
    "C50_wedge_rejects",
    "C50_wedge_degenerate_refuted"
   ],
   "note": "Orthogonality proved when the determinant used is zero or the internal inversion is exact (gj_clear). The zero answer for independent rows is C50_wedge_degenerate_refuted."
  },
  {
   "property": "C51",
   "status": "partial",
   "theorems": [
    "C51_mean",
    "C51_mean_empty",
    "C51_weighted_mean",
    "C51_equal_weights",
    "C51_weighted_mean_rejects",
    "C51_weighted_mean_sizes_refuted",
    "C51_trim_mean_partial",
    "C51_trim_mean_refuted"
   ],
   "note": "Means proved; refuted: unequal sizes with fewer weights than data read out of bounds before the check; trimmed mean returns the maximum when one datum is left."
  },
  {
   "property": "C52",
   "status": "proved",
   "theorems": [
    "C52_demean",
    "C52_demean_rejects"
   ],
   "note": ""
  },
  {
   "property": "C53",
   "status": "partial",
   "theorems": [
    "C53_percentile",
    "C53_percentile_rejects",
    "C53_median",
    "C53_quartiles",
    "C53_data_range",
    "C53_close_values_refuted"
   ],
   "note": "Proved for data whose distinct values (and 0) are at least 1e-5 apart, the sorting tolerance; refuted for closer values."
  },
  {
   "property": "C54",
   "status": "partial",
   "theorems": [
    "C54_percentile_ends_refuted",
    "C54_percentile_near_ends_partial"
   ],
   "note": "Refuted for every (separated) vector: p = 0 reads w[-1], p = 100 reads w[n]. Proved for p close to the ends."
  },
  {
   "property": "C55",
   "status": "proved",
   "theorems": [
    "C55_variance",
    "C55_covariance",
    "C55_covar_rejects",
    "C55_covar_mtx",
    "C55_covar_mtx_rejects",
    "C55_single_value",
    "C55_mean_abs_dev"
   ],
   "note": ""
  },
  {
   "property": "C56",
   "status": "proved",
   "theorems": [
    "C56_linear_reg",
    "C56_linear_reg_rejects",
    "C56_equal_abscissae"
   ],
   "note": ""
  },
  {
   "property": "C57",
   "status": "proved",
   "theorems": [
    "C57_pdf",
    "C57_cdf",
    "C57_mean_variance",
    "C57_rejects"
   ],
   "note": "Real arithmetic. For b <= a the density and cdf return the number -22, which callers can take for a value."
  },
  {
   "property": "C58",
   "status": "proved",
   "theorems": [
    "C58_factorial",
    "C58_binomial_coefficient",
    "C58_negative"
   ],
   "note": "n <= 12, exactly the range in which n! fits int."
  },
  {
   "property": "C59",
   "status": "partial",
   "theorems": [
    "C59_factorial_overflow_refuted",
    "C59_no_overflow_partial",
    "C59_coefficient_overflow_refuted"
   ],
   "note": "False of the code: refuted for every n >= 13 (signed overflow); proved for n <= 12."
  },
  {
   "property": "C60",
   "status": "partial",
   "theorems": [
    "C60_pdf",
    "C60_pdf_outside_partial",
    "C60_pdf_outside_refuted",
    "C60_mean_variance",
    "C60_cdf",
    "C60_cdf_above_partial",
    "C60_cdf_above_refuted",
    "C60_rejects"
   ],
   "note": "n <= 12. pdf, mean, variance and cdf on 0..n proved; above n the cdf is 1 only for p < 1 (p = 1 gives 0 * infinity: refuted); likewise the pdf outside 0..n."
  },
  {
   "property": "C61",
   "status": "proved",
   "theorems": [
    "C61_bayes",
    "C61_rejects"
   ],
   "note": "Real arithmetic; the acceptance condition is exact."
  },
  {
   "property": "C62",
   "status": "partial",
   "theorems": [
    "C62_entropy_partial",
    "C62_entropy_value",
    "C62_rejects",
    "C62_zero_probability_refuted"
   ],
   "note": "Proved for strictly positive probabilities summing to 1; a zero probability passes the checks but gives NaN (refuted). Sums are accepted within 1e-6."
  },
  {
   "property": "C63",
   "status": "proved",
   "theorems": [
    "C63_ascending",
    "C63_descending",
    "C63_outside",
    "C63_short",
    "C63_total"
   ],
   "note": "Tables of up to 2^31 entries (unsigned int index sum)."
  },
  {
   "property": "C64",
   "status": "proved",
   "theorems": [
    "C64_two_points",
    "C64_two_points_rejects",
    "C64_table",
    "C64_table_points",
    "C64_table_rejects",
    "C64_descending_refuted",
    "C64_lerp",
    "C64_inverse",
    "C64_inverse_flat_refuted"
   ],
   "note": "Ascending tables with gaps of at least 1e-6. Descending tables are found by the search but rejected by the interpolation (theorem C64_descending_refuted); the inverse divides by zero on horizontal segments."
  },
  {
   "property": "C65",
   "status": "partial",
   "theorems": [
    "C65_neighbour_partial",
    "C65_nearest_refuted",
    "C65_table_partial",
    "C65_rejects"
   ],
   "note": "False of the code: the decision point is 1.5*x1, not the midpoint (refuted). Proved: one of the two enclosing ordinates, the nearest one if x3 = 2*x1."
  },
  {
   "property": "C66",
   "status": "proved",
   "theorems": [
    "C66_spline",
    "C66_knots",
    "C66_rejects"
   ],
   "note": "Real arithmetic; three or more strictly ascending points; includes continuity of first and second derivatives and the end conditions."
  },
  {
   "property": "C67",
   "status": "proved",
   "theorems": [
    "C67_product",
    "C67_associative",
    "C67_identity",
    "C67_empty",
    "C67_magnitude",
    "C67_commutative_refuted"
   ],
   "note": "Real arithmetic. Aliasing through an explicit store of quaternion objects."
  },
  {
   "property": "C68",
   "status": "proved",
   "theorems": [
    "C68_inverse",
    "C68_inverse_small",
    "C68_conjugate",
    "C68_conjugate_involution",
    "C68_conjugate_product",
    "C68_difference"
   ],
   "note": "Real arithmetic."
  },
  {
   "property": "C69",
   "status": "proved",
   "theorems": [
    "C69_to_unit",
    "C69_to_unit_small",
    "C69_magnitude",
    "C69_is_unit",
    "C69_is_unit_to_unit",
    "C69_scale"
   ],
   "note": "Real arithmetic."
  },
  {
   "property": "C70",
   "status": "proved",
   "theorems": [
    "C70_rotation",
    "C70_not_pure",
    "C70_composition",
    "C70_tiny_refuted"
   ],
   "note": "Real arithmetic. Below magnitude 1e-6 the result is the zero quaternion (C70_tiny_refuted)."
  },
  {
   "property": "C71",
   "status": "proved",
   "theorems": [
    "C71_rotation_matrix",
    "C71_wrong_shape"
   ],
   "note": "Real arithmetic."
  },
  {
   "property": "C72",
   "status": "partial",
   "theorems": [
    "C72_rotation_matrix_partial",
    "C72_round_trip_partial",
    "C72_round_trip_refuted",
    "C72_wrong_shape"
   ],
   "note": "False of the code for half turns about general axes (refuted). Proved when every non-zero vector component c has |4 r c| > 1e-6, from quaternions (round trip) and from every matrix with orthonormal columns and determinant 1; the result is a unit quaternion without that condition."
  },
  {
   "property": "C73",
   "status": "proved",
   "theorems": [
    "C73_from_euler"
   ],
   "note": "Real arithmetic."
  },
  {
   "property": "C74",
   "status": "partial",
   "theorems": [
    "C74_from_axis_angle",
    "C74_zero_axis",
    "C74_round_trip_partial",
    "C74_to_axis_angle_partial",
    "C74_small_angle_refuted",
    "C74_full_turn_refuted",
    "C74_wrong_size"
   ],
   "note": "Unit quaternion and rotation proved for all axes of length at least 1e-6; round trip proved when cos(angle/2) <= 1 - 1e-6. False below that (the axis and angle come back as zero) and for q = -1 (division by zero); both refuted."
  },
  {
   "property": "C75",
   "status": "partial",
   "theorems": [
    "C75_lerp",
    "C75_lerp_opposite_refuted",
    "C75_slerp",
    "C75_slerp_ends",
    "C75_slerp_opposite",
    "C75_slerp_unit",
    "C75_rejects"
   ],
   "note": "Everything proved for slerp; lerp returns the zero quaternion half way between opposite quaternions (refuted), a unit quaternion otherwise."
  },
  {
   "property": "C76",
   "status": "proved",
   "theorems": [
    "C76_exp_log",
    "C76_log_defined",
    "C76_log_zero_refuted",
    "C76_log",
    "C76_power",
    "C76_power_sum",
    "C76_power_natural",
    "C76_square_root"
   ],
   "note": "Real arithmetic. log 0 is not a real (refuted)."
  },
  {
   "property": "C77",
   "status": "partial",
   "theorems": [
    "C77_attitude_round_trip_partial",
    "C77_attitude_round_trip_refuted",
    "C77_conversion",
    "C77_dms",
    "C77_dms_rejects",
    "C77_heading_partial",
    "C77_heading_axis",
    "C77_heading_negative",
    "C77_heading_refuted",
    "C77_declination",
    "C77_declination_range_refuted",
    "C77_tilt",
    "C77_zero_accel_refuted",
    "C77_accel_angle",
    "C77_accel_angle_zero_refuted",
    "C77_tilt_compensation",
    "C77_sizes"
   ],
   "note": "Proved in real arithmetic: conversion formulas, DMS, tilt, tilt compensation, acceleration angle, heading for fields with y >= 0. Refuted of the code: exact round trip (the two constants are rounded; error bound proved), heading for y < 0 is off by 180 degrees, geographic heading is not wrapped into [0,360), zero acceleration is not rejected by zsl_att_from_accel or zsl_att_accel_angle."
  },
  {
   "property": "C78",
   "status": "partial",
   "theorems": [
    "C78_init",
    "C78_null_gyroscope_refuted",
    "C78_complementary_refuted",
    "C78_ill_sized_rejected",
    "C78_bad_gain_rejected",
    "C78_madgwick_feed",
    "C78_madgwick_history",
    "C78_madgwick_refuted",
    "C78_mahony_feed",
    "C78_mahony_history",
    "C78_complementary_feed",
    "C78_complementary_history",
    "C78_kalman_feed_partial",
    "C78_saam_feed_partial",
    "C78_aqua_feed_partial",
    "C78_saam_history",
    "C78_aqua_history_partial",
    "C78_kalman_history_partial"
   ],
   "note": "Madgwick, Mahony and complementary filters: any history of feeds keeps a unit quaternion (real arithmetic) under the stated hypotheses on gains; the unrestricted statement is refuted (a correction can cancel the integrated orientation exactly). AQUA: any history with a defined result keeps a unit quaternion. SAAM and Kalman: after any history the orientation is the initial one, a unit quaternion or zero (zero is reached: C101_saam_level_refuted)."
  },
  {
   "property": "C79",
   "status": "proved",
   "theorems": [
    "C79_integral_clamped",
    "C79_integral_step"
   ],
   "note": "Any history of feeds, for a non-negative limit; real arithmetic."
  },
  {
   "property": "C80",
   "status": "partial",
   "theorems": [
    "C80_madg_always_zero",
    "C80_mahn_always_zero",
    "C80_rejects",
    "C80_optimal_refuted"
   ],
   "note": "False of the code: the running minimum is reset in every iteration, so for every recording the reported gain is 0 (proved), and it does not minimise the error (refuted by a one-sample recording). Wrong sizes are rejected."
  },
  {
   "property": "C81",
   "status": "proved",
   "theorems": [
    "C81_corr_scalar",
    "C81_corr_vec",
    "C81_corr_vec_rejects",
    "C81_rot_mtx",
    "C81_rot_axis_angle",
    "C81_rot_rejects"
   ],
   "note": "Real arithmetic."
  },
  {
   "property": "C82",
   "status": "partial",
   "theorems": [
    "C82_xyY_XYZ_xyY",
    "C82_XYZ_xyY_XYZ",
    "C82_uv60_xy_uv60",
    "C82_xy_uv60_xy",
    "C82_uv60_uv76",
    "C82_uv76_uv60",
    "C82_XYZ_uv60_XYZ",
    "C82_black_refuted",
    "C82_invalid_flags_refuted"
   ],
   "note": "Proved for non-degenerate colours in real arithmetic. Black and y = 0 divide by zero without an error, and the invalid flags of the source are dropped (refuted)."
  },
  {
   "property": "C83",
   "status": "partial",
   "theorems": [
    "C83_rgbf",
    "C83_rgb8",
    "C83_rejects",
    "C83_uncapped_refuted",
    "C83_white_refuted"
   ],
   "note": "The eight-bit output is always in range, the real one with capping enabled; without capping it is not (refuted), and a channel of exactly 1.0 is flagged out of gamut (refuted)."
  },
  {
   "property": "C84",
   "status": "partial",
   "theorems": [
    "C84_none",
    "C84_sum",
    "C84_physical",
    "C84_scale",
    "C84_unknown_observer_refuted",
    "C84_nearest_refuted",
    "C84_zbar_dip_refuted"
   ],
   "note": "Proved for both enumerated observers; an observer outside the enumeration reads an indeterminate pointer (refuted). The wavelength is rounded down, not to the nearest sample, and the 2-degree zbar at 380 nm is ten times too small (refuted)."
  },
  {
   "property": "C85",
   "status": "partial",
   "theorems": [
    "C85_lerp",
    "C85_between",
    "C85_scotopic_unit_refuted"
   ],
   "note": "Interpolation proved for all wavelengths and both functions; the scotopic table is in a different unit (refuted)."
  },
  {
   "property": "C86",
   "status": "partial",
   "theorems": [
    "C86_kinematics",
    "C86_projectiles",
    "C86_momentum",
    "C86_energy",
    "C86_work",
    "C86_dynamics",
    "C86_rotation",
    "C86_gravitation",
    "C86_fluids",
    "C86_gases",
    "C86_thermo",
    "C86_sound",
    "C86_optics",
    "C86_photons",
    "C86_electric",
    "C86_electricity",
    "C86_components",
    "C86_magnetics",
    "C86_atomic",
    "C86_unguarded_refuted",
    "C86_refraction_refuted",
    "C86_refraction_domain",
    "C86_negative_refuted"
   ],
   "note": "Every scalar physics function (135 definitions) is proved to answer 0 with its law exactly on the arguments its guards accept, and -EINVAL with NAN otherwise. The full statement is false where the guards have gaps (division by zero, root/log/arcsine outside its domain, refraction index upside down, negative energy and pressure): refuted."
  },
  {
   "property": "C87",
   "status": "partial",
   "theorems": [
    "C87_inelastic",
    "C87_merge_all",
    "C87_elastic",
    "C87_elastic_energy_refuted",
    "C87_boyle",
    "C87_charles",
    "C87_flow",
    "C87_hydraulic",
    "C87_lever",
    "C87_carnot",
    "C87_bernoulli",
    "C87_transformer"
   ],
   "note": "Momentum, Bernoulli, flow, gas, lever, hydraulic, transformer and Carnot invariants proved, also along chains of calls. zsl_phy_mom_elas answers the velocity that conserves momentum for whatever final velocity the caller states, so kinetic energy is conserved only in the cases C87_elastic characterises (refuted in general)."
  },
  {
   "property": "C88",
   "status": "partial",
   "theorems": [
    "C88_position",
    "C88_position2",
    "C88_velocity",
    "C88_speed",
    "C88_speed_sign_refuted",
    "C88_work_energy",
    "C88_rotation",
    "C88_photon",
    "C88_flight_time",
    "C88_flight_time_first",
    "C88_flight_time_nonneg",
    "C88_flight_time_negative_refuted",
    "C88_range",
    "C88_range_error_refuted",
    "C88_trajectory",
    "C88_components",
    "C88_angle_refuted",
    "C88_vertical"
   ],
   "note": "Inverse pairs proved. False: the sign of the velocity is lost, negative flight times are reported, range ignores errors, the angle loses the direction (refuted)."
  },
  {
   "property": "C89",
   "status": "partial",
   "theorems": [
    "C89_series",
    "C89_parallel",
    "C89_parallel_rejects",
    "C89_parallel_empty_refuted",
    "C89_order",
    "C89_one_more",
    "C89_center",
    "C89_center_shift",
    "C89_center_rejects"
   ],
   "note": "Proved for every number of components, any order; an empty parallel circuit divides by zero (refuted)."
  },
  {
   "property": "C90",
   "status": "proved",
   "theorems": [
    "C90_fahrenheit",
    "C90_celsius",
    "C90_kelvin",
    "C90_from_kelvin",
    "C90_increasing"
   ],
   "note": ""
  },
  {
   "property": "C91",
   "status": "proved",
   "theorems": [
    "C91_found",
    "C91_rejects",
    "C91_white_points"
   ],
   "note": "All observer and illuminant values."
  },
  {
   "property": "C92",
   "status": "proved",
   "theorems": [
    "C92_mult_linear_reg",
    "C92_collinear_rejected",
    "C92_rejects"
   ],
   "note": ""
  },
  {
   "property": "C93",
   "status": "partial",
   "theorems": [
    "C93_weighted_partial",
    "C93_example",
    "C93_weights_refuted",
    "C93_rejects"
   ],
   "note": "Proved with the reciprocals of the weights; refuted with the weights themselves (and the caller's weights are overwritten)."
  },
  {
   "property": "C94",
   "status": "proved",
   "theorems": [
    "C94_quad_fit",
    "C94_rejects"
   ],
   "note": ""
  },
  {
   "property": "C95",
   "status": "proved",
   "theorems": [
    "C95_cdf",
    "C95_pdf",
    "C95_quantile"
   ],
   "note": "Real arithmetic with the mathematical erf; the accuracy of the polynomial approximation of the inverse of erf is not covered."
  },
  {
   "property": "C96",
   "status": "partial",
   "theorems": [
    "C96_euler_round_trip_partial",
    "C96_euler_total",
    "C96_euler_recovered"
   ],
   "note": "Ranges proved for all unit q. Round trip proved outside the band 1 - 2e-6 < |sin pitch| < 1 around gimbal lock, and at gimbal lock itself."
  },
  {
   "property": "C97",
   "status": "proved",
   "theorems": [
    "C97_ang_vel",
    "C97_ang_vel_rest",
    "C97_ang_mom",
    "C97_rejects"
   ],
   "note": "Real arithmetic."
  },
  {
   "property": "C98",
   "status": "proved",
   "theorems": [
    "C98_gravity_guard",
    "C98_gravity_sea_level",
    "C98_gravity_altitude",
    "C98_gravity_symmetric",
    "C98_gravity_latitude"
   ],
   "note": "Real arithmetic."
  },
  {
   "property": "C99",
   "status": "partial",
   "theorems": [
    "C99_equilibrium",
    "C99_equilibrium_imu",
    "C99_no_inclination_refuted"
   ],
   "note": "Proved with a known inclination and for the accelerometer-only filter; without an inclination the estimate of the field uses the wrong rotation (refuted)."
  },
  {
   "property": "C100",
   "status": "partial",
   "theorems": [
    "C100_gravity_jacobian",
    "C100_field_jacobian_partial",
    "C100_field_jacobian_refuted",
    "C100_level_reading_refuted",
    "C100_equilibrium_refuted"
   ],
   "note": "The gravity Jacobian is correct for the body-frame prediction; three entries of the field Jacobian are wrong and the residual uses the opposite rotation, so the descent claim is refuted."
  },
  {
   "property": "C101",
   "status": "partial",
   "theorems": [
    "C101_saam",
    "C101_saam_level_refuted",
    "C101_saam_rejects"
   ],
   "note": "Proved outside the stated degenerate directions; a level sensor is one of them (refuted)."
  },
  {
   "property": "C102",
   "status": "partial",
   "theorems": [
    "C102_aqua",
    "C102_aqua_defined",
    "C102_aqua_upside_down_refuted",
    "C102_alpha_init",
    "C102_alpha_init_rejects",
    "C102_first_feed_null_refuted"
   ],
   "note": "Proved whenever the feed has a defined result; undefined exactly in the stated antipodal cases (refuted there). Real arithmetic."
  },
  {
   "property": "C103",
   "status": "partial",
   "theorems": [
    "C103_initial_orientation",
    "C103_initial_rejects",
    "C103_first_prediction_refuted",
    "C103_parallel_start_refuted",
    "C103_history",
    "C103_update",
    "C103_H_jacobian",
    "C103_h_jacobian_refuted",
    "C103_innovation_refuted",
    "C103_F_refuted",
    "C103_P_init",
    "C103_P_init_rejects",
    "C103_first_feed_null_refuted",
    "C103_agree_refuted"
   ],
   "note": "The update is proved exactly, for matrices S on which the inversion threshold does not interfere (gj_clear); the covariance stays symmetric positive semi-definite and S is always invertible for positive variances. The consistency part is refuted: H is the derivative of a different prediction, F of a different integration, and readings that agree with the orientation move it. The hypotheses of C103_update are met in C103_agree_refuted. A refused first feed marks the filter initialised (C103_first_feed_null_refuted). The initial orientation from non-parallel readings is a unit quaternion that takes the z axis to the accelerometer reading (C103_initial_orientation); the filter then predicts the opposite reading (C103_first_prediction_refuted), and parallel first readings have no real result (C103_parallel_start_refuted). Along histories of any length the covariance stays symmetric positive semi-definite (C103_history), under the same condition at every feed."
  },
  {
   "property": "C104",
   "status": "partial",
   "theorems": [
    "C104_gyro_only",
    "C104_aqua_opposite",
    "C104_aqua_refuted"
   ],
   "note": "Madgwick, Mahony and complementary agree; AQUA turns the opposite way (refuted)."
  },
  {
   "property": "C105",
   "status": "partial",
   "theorems": [
    "C105_readings",
    "C105_gyroscope_refuted"
   ],
   "note": "Accelerometer and magnetometer as stated; Mahony and AQUA overwrite the gyroscope vector (refuted)."
  },
  {
   "property": "C106",
   "status": "partial",
   "theorems": [
    "C106_injective",
    "C106_unknown_refuted",
    "C106_white"
   ],
   "note": "Proved for the 13 enumerated matrices; an index outside the enumeration reads outside the table (refuted)."
  },
  {
   "property": "C107",
   "status": "proved",
   "theorems": [
    "C107_rejects",
    "C107_scales",
    "C107_idempotent"
   ],
   "note": "Real arithmetic."
  },
  {
   "property": "C108",
   "status": "partial",
   "theorems": [
    "C108_ohno2014",
    "C108_far",
    "C108_total",
    "C108_attenuated",
    "C108_accuracy_refuted",
    "C108_range_flags_refuted",
    "C108_rejects",
    "C108_mccamy",
    "C108_chain_refuted",
    "C108_ohno2011",
    "C108_bearing",
    "C108_ohno2011_level_refuted",
    "C108_ohno2011_line_refuted"
   ],
   "note": "The nearest-entry search, range test and formulas are proved as coded; the triangular solution is refuted, because the code squares squared distances (C108_attenuated gives the exact factor). The Ohno 2011 method is proved to compute the published formulae wherever its denominators are not zero and its second estimate is positive (C108_ohno2011, C108_bearing); it checks neither, so every colour with v = 0.24 or u = 0.292 gets no number (refuted)."
  },
  {
   "property": "C109",
   "status": "partial",
   "theorems": [
    "C109_offset",
    "C109_guards_refuted"
   ],
   "note": "Proved for |Duv| <= 0.09, every positive temperature with the 10-degree observer and every temperature from 1000 K on with the 2-degree observer (its table has a small non-monotone spot that matters only for colder bodies). Zero kelvin and unknown observers are not rejected (refuted)."
  },
  {
   "property": "C110",
   "status": "partial",
   "theorems": [
    "C110_black_body",
    "C110_zero_refuted",
    "C110_negative_refuted",
    "C110_unknown_observer_refuted",
    "C110_rgb8",
    "C110_uv",
    "C110_hotter_bluer",
    "C110_distinct"
   ],
   "note": "Planck's law proved for every temperature but 0 and both observers. Hotter is strictly bluer, and temperatures have distinct chromaticities, for every positive temperature (10 degrees) and from 1000 K on (2 degrees). 0 divides by zero, negative temperatures are accepted, unknown observers read an indeterminate pointer (refuted)."
  },
  {
   "property": "C111",
   "status": "proved",
   "theorems": [
    "C111_charging",
    "C111_kirchhoff",
    "C111_charging_current",
    "C111_discharging",
    "C111_coil",
    "C111_decay"
   ],
   "note": ""
  },
  {
   "property": "C112",
   "status": "proved",
   "theorems": [
    "C112_mode",
    "C112_mode_rejects"
   ],
   "note": "Data (and 0) equal or at least 1e-5 apart, the library's own tolerance."
  },
  {
   "property": "C113",
   "status": "partial",
   "theorems": [
    "C113_time_weighted_mean",
    "C113_rejects",
    "C113_single_refuted"
   ],
   "note": "Proved for two or more samples at times at least 1e-5 apart. A single sample passes the checks and gives 0/0 (refuted)."
  },
  {
   "property": "C114",
   "status": "partial",
   "theorems": [
    "C114_weighted_median_partial",
    "C114_weighted_median_unsorted",
    "C114_unsorted_refuted",
    "C114_rejects"
   ],
   "note": "Proved for data in ascending order. The code sorts the values but not the weights, so for other orders the answer is the weighted median of other pairs (refuted; exact behaviour in C114_weighted_median_unsorted)."
  },
  {
   "property": "C115",
   "status": "proved",
   "theorems": [
    "C115_median_abs_dev"
   ],
   "note": "Data and deviations at least 1e-5 apart or equal (sorting tolerance); at most 2^31-1 data."
  },
  {
   "property": "C116",
   "status": "partial",
   "theorems": [
    "C116_abs_err",
    "C116_rel_err_partial",
    "C116_rel_err_refuted"
   ],
   "note": "Proved for positive references; negative references give negative errors, zero divides by zero (refuted)."
  },
  {
   "property": "C117",
   "status": "proved",
   "theorems": [
    "C117_dot_rounding",
    "C117_growth"
   ],
   "note": "binary64, round to nearest, no contraction to fused multiply-add. Proved for the machine-arithmetic instance of the model, with the growth factor bounded by k u/(1-k u)."
  },
  {
   "property": "C118",
   "status": "proved",
   "theorems": [
    "C118_mean_rounding",
    "C118_mean_in_range_refuted"
   ],
   "note": "binary64, round to nearest, no contraction to fused multiply-add. The refuted companion shows the machine mean of three copies of 0.1 exceeds 0.1."
  },
  {
   "property": "C119",
   "status": "proved",
   "theorems": [
    "C119_norm_rounding",
    "C119_distance_rounding",
    "C119_to_unit_rounding",
    "C119_norm_overflow_refuted",
    "C119_tiny_direction_refuted"
   ],
   "note": "binary64, round to nearest, no contraction to fused multiply-add. Refuted companions show why the bounds are conditional: the norm of (2^600) overflows although representable, and (0, 2^-600) normalises to the first axis."
  },
  {
   "property": "C120",
   "status": "proved",
   "theorems": [
    "C120_product_rounding"
   ],
   "note": "binary64, round to nearest, no contraction to fused multiply-add. "
  },
  {
   "property": "C121",
   "status": "proved",
   "theorems": [
    "C121_dot_symmetric",
    "C121_distance_symmetric",
    "C121_product_transpose"
   ],
   "note": "binary64, round to nearest, no contraction to fused multiply-add. No hypothesis on finiteness."
  },
  {
   "property": "C122",
   "status": "proved",
   "theorems": [
    "C122_lerp_endpoints",
    "C122_lerp_rounding"
   ],
   "note": "binary64, round to nearest, no contraction to fused multiply-add. "
  },
  {
   "property": "C123",
   "status": "proved",
   "theorems": [
    "C123_variance_rounding",
    "C123_std_dev_rounding"
   ],
   "note": "binary64, round to nearest, no contraction to fused multiply-add. "
  },
  {
   "property": "C124",
   "status": "partial",
   "theorems": [
    "C124_fast_fit",
    "C124_fast_magnitude_refuted",
    "C124_fast_symmetric_refuted",
    "C124_fast_outside_refuted",
    "C124_fast_rejects"
   ],
   "note": "Exact data in real arithmetic, under gj_clear (the elimination meets no non-zero number below 1e-6). Refuted: the corrected magnitude is me/sqrt(1 - c^T M c), larger than me whenever the offset is not zero; K is triangular, not symmetric; an ellipsoid that does not contain the origin gives a NaN with code 0. Noisy data: not covered. "
  },
  {
   "property": "C125",
   "status": "partial",
   "theorems": [
    "C125_magn_sphere",
    "C125_corrected",
    "C125_magn_symmetric",
    "C125_magn_rejects",
    "C125_one_reading_refuted"
   ],
   "note": "Fixed point on perfect spheres, symmetry of K and rejections; convergence on ellipsoids or noisy data is not proved (the Jacobians in the code are wrong, see DESIGN section 6). One reading divides zero by zero (refuted). "
  },
  {
   "property": "C126",
   "status": "partial",
   "theorems": [
    "C126_exact_inv",
    "C126_exact_gauss_reduc",
    "C126_copy",
    "C126_mult",
    "C126_trans",
    "C126_deter",
    "C126_adjoint",
    "C126_gauss_elim",
    "C126_norm_elem",
    "C126_gauss_reduc",
    "C126_inv",
    "C126_vec_wedge",
    "C126_gram_schmidt",
    "C126_cols_norm",
    "C126_cholesky",
    "C126_householder",
    "C126_qrd",
    "C126_qrd_iter",
    "C126_balance",
    "C126_eigenvalues",
    "C126_doubles_inv",
    "C126_doubles_qrd",
    "C126_eigenvectors_refuted"
   ],
   "note": "Proved for every function listed, every size, content and lawful arithmetic. Refuted for zsl_mtx_eigenvectors (out-of-bounds write for eigenvalues closer than 1e-6 in a chain), hence also unproved for SVD and pseudo-inverse, which call it. Balancing and eigenvalues: bounds only, in exact arithmetic they also end (C44_balance_ends, C45_eigenvalues_end), in other arithmetics termination of the scaling loops is not claimed, and the indeterminate locals row and col are taken to hold some number. In exact arithmetic the inversion and the elimination always answer (C126_exact_*)."
  },
  {
   "property": "C127",
   "status": "partial",
   "theorems": [
    "C127_exact_madgwick",
    "C127_exact_mahony",
    "C127_exact_complementary",
    "C127_exact_kalman",
    "C127_exact_kalman_from_start",
    "C127_doubles_madgwick",
    "C127_doubles_mahony",
    "C127_doubles_complementary",
    "C127_doubles_saam",
    "C127_doubles_aqua",
    "C127_doubles_kalman",
    "C127_doubles_cal_madgwick",
    "C127_doubles_cal_mahony",
    "C127_madgwick",
    "C127_mahony",
    "C127_complementary",
    "C127_saam",
    "C127_aqua",
    "C127_kalman",
    "C127_cal_madgwick",
    "C127_cal_mahony",
    "C127_kalman_second_instance_refuted"
   ],
   "note": "Proved for all six filters and both gain searches, for histories of any length, in exact arithmetic and in binary64 with any total acos and asin (the mathematical library is a parameter). Refuted for a second Kalman instance: its covariance matrix is used before it has values (C127_kalman_second_instance_refuted). The NULL cases excluded by hypothesis are refuted in C102. In exact arithmetic, for a positive frequency, every history is answered by the Madgwick, Mahony, complementary and (first readings not parallel) Kalman filters: no division by zero and no root of a negative number (C127_exact_*)."
  },
  {
   "property": "C128",
   "status": "partial",
   "theorems": [
    "C128_svd_partial",
    "C128_pinv_partial",
    "C128_diagonal",
    "C128_pinv_repeated_refuted",
    "C128_u_orthogonal_refuted"
   ],
   "note": "Proved for r >= c when the eigenvalues reported for m^T m are exact, at least 1e-6 and at least 1e-6 apart and no elimination meets a tiny number (for r > c also: the eigenvectors of m m^T are complete); for diagonal matrices no hypothesis about a run is left. REFUTED for repeated singular values: zsl_mtx_pinv answers diag(1,2,1/4) for diag(1,2,1) and u is not orthogonal, because eigenvalues are paired with eigenvectors of other eigenvalues. Wide matrices and zero singular values: C46."
  },
  {
   "property": "C129",
   "status": "partial",
   "theorems": [
    "C129_reduction_partial",
    "C129_values_reported",
    "C129_symmetric_values",
    "C129_eigenvectors_partial",
    "C129_order",
    "C129_order_repeated_refuted"
   ],
   "note": "Proved for every square matrix for which the eigenvalue computation reports n values (code 0; always for a symmetric matrix) and whose eliminations meet no number other than 0 below 1e-6. The order of the columns is proved for eigenvalues that are exact and apart, and REFUTED for repeated ones (C129_order_repeated_refuted). That the reported values are near the eigenvalues is C45's subject; with inexact values the eigenspaces are empty and a non-zero code is answered."
  },
  {
   "property": "C130",
   "status": "partial",
   "theorems": [
    "C130_elapsed_partial",
    "C130_wrap_refuted"
   ],
   "note": "Proved when the counter does not wrap. REFUTED when it does (C130_wrap_refuted): exactly one cycle is lost, because 2^32 - 1 is used for 2^32. Zephyr's conversion of cycles to nanoseconds is not modelled."
  },
  {
   "property": "C131",
   "status": "proved",
   "theorems": [
    "C131_members",
    "C131_words"
   ],
   "note": "For a little-endian target whose compiler allocates bit-fields from the least significant bit, as the header documents."
  },
  {
   "property": "C132",
   "status": "proved",
   "theorems": [
    "C132_vector",
    "C132_matrix",
    "C132_rotations",
    "C132_text"
   ],
   "note": "What is handed to printf; the formatting of a number is the C library's."
  },
  {
   "property": "C133",
   "status": "partial",
   "theorems": [
    "C133_lat2g",
    "C133_lat2g_total",
    "C133_south_refuted",
    "C133_below_sea_level_refuted",
    "C133_ct2rgb_partial",
    "C133_ct2rgb_rejects",
    "C133_ct2rgb_hot_refuted",
    "C133_ct2rgbf_partial"
   ],
   "note": "strtof is an arbitrary function. The gravity command always ends, and prints the library's gravity exactly for latitudes in (0, 90] and altitudes in [0, 10000]; REFUTED for the equator and the south (C133_south_refuted) and for altitudes in [-500, 0) (C133_below_sea_level_refuted). The colour commands are proved for temperatures in (0, 2^32); above, the conversion to unsigned int is undefined (C133_ct2rgb_hot_refuted)."
  },
  {
   "property": "C134",
   "status": "partial",
   "theorems": [
    "C134_in_range_partial",
    "C134_random_refuted"
   ],
   "note": "In range, but REFUTED: the function stores 0 always (C134_random_refuted)."
  },
  {
   "property": "C135",
   "status": "partial",
   "theorems": [
    "C135_find",
    "C135_nearest",
    "C135_linear",
    "C135_pair",
    "C135_cubic_calc",
    "C135_cubic",
    "C135_mean",
    "C135_weighted_mean",
    "C135_demean",
    "C135_mode",
    "C135_spread",
    "C135_covar",
    "C135_covar_mtx",
    "C135_linear_reg",
    "C135_mult_reg",
    "C135_weighted_mult_reg",
    "C135_quad_fit",
    "C135_fast_calibration",
    "C135_iterative_calibration",
    "C135_doubles_linear",
    "C135_doubles_mode",
    "C135_doubles_quad_fit",
    "C135_doubles_fast_calibration",
    "C135_exact_fast_calibration",
    "C135_exact_iterative_calibration",
    "C135_fast_calibration_nan_refuted",
    "C135_sort_refuted",
    "C135_data_range_refuted"
   ],
   "note": "Proved for the functions named, every size and content. Functions that sort (percentile, median, quartiles, trimmed mean, data range, medians of deviations) are refuted: a vector of NaNs makes the sort read outside its array (C135_sort_refuted, C135_data_range_refuted; see C15 for finite data). The least-squares calibration with bounds checks uses an indeterminate matrix on every set of readings with a NaN (C135_fast_calibration_nan_refuted); it is safe without checks, and in exact arithmetic. The iterative calibration is safe when the library can sort each axis of the readings."
  },
  {
   "property": "C136",
   "status": "proved",
   "theorems": [
    "C136_to_unit",
    "C136_to_unit_regular",
    "C136_overflow_refuted",
    "C136_madgwick",
    "C136_mahony",
    "C136_complementary",
    "C136_saam",
    "C136_aqua",
    "C136_kalman",
    "C136_gyroscope_madgwick",
    "C136_gyroscope_mahony",
    "C136_gyroscope_complementary"
   ],
   "note": "Everything stated is proved, for all doubles and histories. Beside it: that every finite quaternion of length 1 or more is normalised is refuted (beyond about 1e154 the square overflows and the answer is zero with code 0, C136_overflow_refuted); it is proved for components up to 2^480 (C136_to_unit_regular)."
  },
  {
   "property": "C137",
   "status": "partial",
   "theorems": [
    "C137_recovery_madgwick_refuted",
    "C137_recovery_mahony_refuted",
    "C137_recovery_complementary_refuted",
    "C137_recovery_aqua_refuted",
    "C137_recovery_kalman_refuted",
    "C137_recovery_saam",
    "C137_nan_gyroscope_madgwick_refuted",
    "C137_nan_gyroscope_mahony_refuted",
    "C137_nan_gyroscope_complementary_refuted",
    "C137_nan_gyroscope_aqua_refuted",
    "C137_nan_gyroscope_kalman_refuted",
    "C137_nan_accelerometer_madgwick",
    "C137_nan_accelerometer_mahony",
    "C137_nan_accelerometer_complementary",
    "C137_nan_magnetometer_refuted"
   ],
   "note": "Refuted for Madgwick, Mahony, complementary, AQUA and an initialised Kalman filter: once one component of the orientation is NaN every accepted feed leaves four NaNs, for every later history (C137_recovery_*_refuted), and a gyroscope reading with a NaN is accepted with code 0 and puts them there (C137_nan_gyroscope_*_refuted). A NaN from the magnetometer does it too, though the filters treat a NaN from the accelerometer as an absent reading (C137_nan_magnetometer_refuted, C137_nan_accelerometer_*). SAAM recovers with the next reading (C137_recovery_saam)."
  },
  {
   "property": "C138",
   "status": "proved",
   "theorems": [
    "C138_qr_iteration",
    "C138_eigenvalues",
    "C138_positive_semidefinite",
    "C138_singular_values",
    "C138_opposite_refuted"
   ],
   "note": "Real arithmetic, exactly symmetric input, locals of zsl_mtx_balance starting at zero. Proved for every symmetric matrix without opposite non-zero eigenvalues and, without that condition, for every positive semidefinite matrix. The condition is needed: (0 1; 1 0) is C138_opposite_refuted."
  },
  {
   "property": "C139",
   "status": "partial",
   "theorems": [
    "C139_opposite_vertical_refuted",
    "C139_first_feed_refuted",
    "C139_full_feed_refuted"
   ],
   "note": "False of the code: the correction has the wrong sign for the convention of the prediction. Without integral gain the predicted vertical tends to the opposite of the measured one from every other orientation (C139_opposite_vertical_refuted); with any integral gain the first feed already enlarges the angle; with a magnetometer and the inclination the total agreement falls at every feed. Missing: the limit with an integral gain. Real arithmetic."
  },
  {
   "property": "C140",
   "status": "proved",
   "theorems": [
    "C140_complementary_settles"
   ],
   "note": "Real arithmetic. The gain must differ from 1/2 by 5e-7, because an interpolation of almost opposite quaternions shorter than 1e-6 becomes zero (C78)."
  },
  {
   "property": "C141",
   "status": "proved",
   "theorems": [
    "C141_aqua_settles",
    "C141_aqua_vertical",
    "C141_stall_refuted"
   ],
   "note": "Real arithmetic. With a magnetometer the bound holds as long as the feeds have an outcome (C102 says when). A threshold of 1 makes small tilts stay for ever (C141_stall_refuted)."
  },
  {
   "property": "C142",
   "status": "partial",
   "theorems": [
    "C142_stuck_refuted",
    "C142_leaves_refuted"
   ],
   "note": "False of the code: for every tilted orientation (with the two turned verticals not perpendicular) there is a reading, not the predicted one, at which the filter never moves (C142_stuck_refuted), and the orientation that predicts the reading exactly is left (C142_leaves_refuted). Real arithmetic, accelerometer only."
  },
  {
   "property": "C143",
   "status": "partial",
   "theorems": [
    "C143_aqua",
    "C143_mahony_madgwick_refuted"
   ],
   "note": "Proved of AQUA, false of Mahony's and Madgwick's filters, which turn the predictions the other way (C143_mahony_madgwick_refuted). Real arithmetic. Not stated for the complementary filter, which predicts no directions, and the Kalman filter."
  },
  {
   "property": "C144",
   "status": "partial",
   "theorems": [
    "C144_rgb8_double",
    "C144_nan_refuted",
    "C144_black_refuted"
   ],
   "note": "Proved whenever no channel of the machine's product is NaN. A NaN channel makes the conversion to uint8_t undefined (C144_nan_refuted); black given as xyY (0, 0, 0) leads there although every call reports success (C144_black_refuted), and so do finite colours above 1e308."
  },
  {
   "property": "C145",
   "status": "proved",
   "theorems": [
    "C145_product",
    "C145_cross"
   ],
   "note": "Any memory of quaternions, all aliasings; if the result is not finite nothing is claimed about its value."
  },
  {
   "property": "C146",
   "status": "proved",
   "theorems": [
    "C146_rotation",
    "C146_length"
   ],
   "note": "The vector is passed as a pure quaternion with scalar part zero."
  },
  {
   "property": "C147",
   "status": "proved",
   "theorems": [
    "C147_determinant"
   ],
   "note": "Any size, by induction on the expansion; the error term is gam(n^2) times the permanent of the absolute values, plus underflow."
  },
  {
   "property": "C148",
   "status": "partial",
   "theorems": [
    "C148_combine",
    "C148_measure",
    "C148_project",
    "C148_cross",
    "C148_in_place",
    "C148_ask",
    "C148_fill",
    "C148_subset",
    "C148_sum",
    "C148_quaternions",
    "C148_quaternion_functions",
    "C148_quaternions_of_vectors",
    "C148_axis_of_quaternion",
    "C148_rotation_matrices",
    "C148_attitudes",
    "C148_compass",
    "C148_probability",
    "C148_circuits",
    "C148_centre_of_mass",
    "C148_doubles",
    "C148_reals",
    "C148_copy_refuted",
    "C148_sum_refuted",
    "C148_geo_north_nan_refuted"
   ],
   "note": "Not for zsl_vec_copy and zsl_vec_sum, which never look at the room in their output (C148_copy_refuted, C148_sum_refuted), and zsl_comp_geo_north with an unset variable, which is undefined for a NaN reading in double precision (C148_geo_north_nan_refuted); the theorems for these three ask for the room and the value. Integer overflow in factorials and binomials is the subject of C58."
  },
  {
   "property": "C149",
   "status": "partial",
   "theorems": [
    "C149_sort",
    "C149_median",
    "C149_quartiles",
    "C149_data_range",
    "C149_nan_refuted",
    "C149_garbage_refuted"
   ],
   "note": "False with a NaN or an infinity among the data: the value is dropped with return value 0 (C149_nan_refuted), the range then reads an uninitialised element and a lone NaN makes the sort read out of bounds (C149_garbage_refuted). Data closer than 1e-5 are C14's subject."
  },
  {
   "property": "C150",
   "status": "partial",
   "theorems": [
    "C150_cholesky",
    "C150_indefinite_refuted"
   ],
   "note": "Finiteness of the factor is a hypothesis, entry by entry: for a matrix that is not positive definite the function returns 0 with entries that are not numbers (C150_indefinite_refuted). C39 is the exact statement."
  },
  {
   "property": "C151",
   "status": "proved",
   "theorems": [
    "C151_matrix",
    "C151_orthogonal",
    "C151_normalised",
    "C151_scale_refuted"
   ],
   "note": "Quaternions that are neither tiny nor huge are covered after zsl_quat_to_unit (C151_normalised). The function does not normalise itself (C151_scale_refuted)."
  },
  {
   "property": "C152",
   "status": "proved",
   "theorems": [
    "C152_min",
    "C152_max",
    "C152_min_idx",
    "C152_max_idx",
    "C152_first_nan_refuted",
    "C152_search_exact",
    "C152_ascending",
    "C152_descending",
    "C152_outside",
    "C152_search_nan_refuted"
   ],
   "note": "Infinite entries are not covered."
  },
  {
   "property": "C153",
   "status": "proved",
   "theorems": [
    "C153_two_points",
    "C153_table",
    "C153_nodes",
    "C153_last_refuted"
   ],
   "note": "The error is relative to |y1| + |y3 - y1|, not to the result, which may cancel."
  },
  {
   "property": "C154",
   "status": "proved",
   "theorems": [
    "C154_spectrum",
    "C154_luminous_efficiency",
    "C154_coordinates",
    "C154_temperature",
    "C154_correlated",
    "C154_rgb",
    "C154_ends_doubles",
    "C154_ends_reals",
    "C154_doubles",
    "C154_unset_refuted"
   ],
   "note": "The conversion of a channel to 8 bits is only proved free of memory errors here; that it stays in range in double precision is C144. Unset \"invalid\" members make a colour temperature query undefined (C154_unset_refuted)."
  },
  {
   "property": "C155",
   "status": "partial",
   "theorems": [
    "C155_equal",
    "C155_contains",
    "C155_nonneg",
    "C155_notneg",
    "C155_symmetric",
    "C155_nan_refuted"
   ],
   "note": "NaN compares equal to everything, is never counted, counts as non-negative, and off-diagonal NaNs count as symmetric (C155_nan_refuted)."
  },
  {
   "property": "C156",
   "status": "proved",
   "theorems": [
    "C156_vec_add_sub",
    "C156_vec_scalar",
    "C156_mtx_add_sub",
    "C156_mtx_scalar_mult",
    "C156_mtx_binary_op"
   ],
   "note": ""
  },
  {
   "property": "C157",
   "status": "partial",
   "theorems": [
    "C157_inverse",
    "C157_underflow_refuted"
   ],
   "note": "A determinant that is zero in machine arithmetic makes the function answer the identity with code 0, also for invertible matrices such as 1e-110 times the identity (C157_underflow_refuted). Finiteness of the computed determinant and of the entry is a hypothesis."
  },
  {
   "property": "C158",
   "status": "partial",
   "theorems": [
    "C158_project_over_u",
    "C158_project_over_v_refuted",
    "C158_inverse_in_place_refuted",
    "C158_inverse3_in_place_refuted",
    "C158_adjoint2_in_place_refuted",
    "C158_adjoint3_in_place_refuted",
    "C158_shape_refused",
    "C158_size_refused",
    "C158_sort_in_place_refuted"
   ],
   "note": "Holds for the projection written over the direction u. Refuted for the others: the projection over v answers u whatever v was; the inverse in place is the identity for every matrix of size other than 3; the adjoint in place is wrong for 2 x 2 and 3 x 3; the sort in place loses elements. No header comment forbids these calls."
  },
  {
   "property": "C159",
   "status": "partial",
   "theorems": [
    "C159_kinematics",
    "C159_energy",
    "C159_rotation",
    "C159_gravitation",
    "C159_fluids_and_gases",
    "C159_waves_and_light",
    "C159_electricity",
    "C159_transformer",
    "C159_relative",
    "C159_range_refuted",
    "C159_cancel_refuted"
   ],
   "note": "False without the range: an intermediate product may overflow or underflow although the answer is an ordinary number (C159_range_refuted). False for differences: kin_vel may lose all significant digits (C159_cancel_refuted). Functions that call the mathematical library, and the photon and Bohr formulas, whose constants have more than 22 decimals, are not covered."
  },
  {
   "property": "C160",
   "status": "partial",
   "theorems": [
    "C160_kinematics",
    "C160_projectiles",
    "C160_momentum",
    "C160_energy",
    "C160_work",
    "C160_dynamics",
    "C160_rotation",
    "C160_gravitation",
    "C160_fluids",
    "C160_gases",
    "C160_thermo",
    "C160_sound",
    "C160_optics",
    "C160_photons",
    "C160_atomic",
    "C160_electric",
    "C160_electricity",
    "C160_eleccomp",
    "C160_magnetics",
    "C160_composed",
    "C160_circuits",
    "C160_angle_refuted",
    "C160_angle",
    "C160_code_refuted",
    "C160_mass_center"
   ],
   "note": "False for zsl_phy_proj_angle: with a horizontal speed of 0 the vertical speed is not read and a NaN becomes pi/2 (C160_angle_refuted); proved when the horizontal speed is not 0 (C160_angle). The return code does not tell: NaN passes the guards and 0 is returned (C160_code_refuted). For functions that call the mathematical library the theorem assumes what IEEE 754 says of NaN in it (nan_through)."
  },
  {
   "property": "C161",
   "status": "partial",
   "theorems": [
    "C161_vectors",
    "C161_summaries",
    "C161_covariance",
    "C161_weighted_mean",
    "C161_regression",
    "C161_range_refuted",
    "C161_median_refuted"
   ],
   "note": "Proved for the sums. False for the order statistics: the sort drops the NaN; the range then reads memory that was never written (C161_range_refuted) and the median counts a zero that was not among the data (C161_median_refuted)."
  },
  {
   "property": "C162",
   "status": "partial",
   "theorems": [
    "C162_product",
    "C162_determinant",
    "C162_inverse3",
    "C162_cholesky",
    "C162_inverse_refuted"
   ],
   "note": "Proved for products, determinants of every size and the 3 x 3 inverse, whose nine entries are all NaN; Cholesky with bounds checks refuses such a matrix. False for the general inverse: elimination skips a NaN, because it is neither above nor below the threshold, and the inverse of a 2 x 2 matrix with a NaN is an ordinary matrix with code 0 (C162_inverse_refuted)."
  },
  {
   "property": "C163",
   "status": "partial",
   "theorems": [
    "C163_units",
    "C163_units_pairs",
    "C163_units_median",
    "C163_median_refuted",
    "C163_order",
    "C163_order_pairs"
   ],
   "note": "Proved for mean, variance, standard deviation, mean absolute deviation, covariance and regression, both for units and for order. The median follows units when the data are equal or 1e-5 apart (also from 0) in both units; without that it is false: the median of the single datum 1 is 1 and in units a million times larger it is 0 instead of 1e-6 (C163_median_refuted). Exact over reals."
  },
  {
   "property": "C164",
   "status": "proved",
   "theorems": [
    "C164_unambiguous",
    "C164_maps",
    "C164_header",
    "C164_told_apart"
   ],
   "note": "Lists of names and codes read from the headers; the header is the one of C131."
  },
  {
   "property": "C165",
   "status": "proved",
   "theorems": [
    "C165_numbers",
    "C165_lookup",
    "C165_order",
    "C165_range"
   ],
   "note": "Weights are integers in units of 1e-4, the precision of the table. The lookup is an array access; an index outside 0..118 is undefined behaviour."
  },
  {
   "property": "C166",
   "status": "partial",
   "theorems": [
    "C166_dot",
    "C166_growth",
    "C166_mean",
    "C166_norm",
    "C166_distance",
    "C166_product",
    "C166_elementwise",
    "C166_norm_range_refuted",
    "C166_count_refuted"
   ],
   "note": "Proved for the listed functions, whose only literal is 0.0. Results finite in exact arithmetic can be lost: a vector of length 2^64 has an infinite norm and one of length 2^-76 norm 0 (C166_norm_range_refuted), and sums stop counting at 2^24 (C166_count_refuted). The other functions are not proved in single precision."
  },
  {
   "property": "C167",
   "status": "partial",
   "theorems": [
    "C167_to_unit",
    "C167_to_unit_regular",
    "C167_overflow_refuted",
    "C167_madgwick",
    "C167_mahony",
    "C167_complementary",
    "C167_saam",
    "C167_aqua",
    "C167_kalman"
   ],
   "note": "A quaternion of length 2^80 (1e24), whose square is no float, is normalised to zero (C167_overflow_refuted); between 1.5e-6 and 2^40 the answer is certainly a unit quaternion (C167_to_unit_regular). Inside the filters the model rounds literals to float where C computes in double; the theorems do not depend on what the filters feed to the normalisation."
  },
  {
   "property": "C168",
   "status": "partial",
   "theorems": [
    "C168_sphere_row",
    "C168_sphere_derivative",
    "C168_sphere_origin_partial",
    "C168_sphere_refuted",
    "C168_ellipsoid_row",
    "C168_ellipsoid_first_partial",
    "C168_ellipsoid_refuted",
    "C168_ellipsoid_offset_refuted",
    "C168_radius_diverges",
    "C168_two_readings_refuted"
   ],
   "note": "C168_sphere_row and C168_ellipsoid_row say exactly which rows are computed, for every input. The sphere's row is the gradient at offset zero (C168_sphere_origin_partial) and has the wrong sign elsewhere (C168_sphere_refuted); the ellipsoid's row holds the derivatives in another order than the parameters (C168_ellipsoid_row, C168_ellipsoid_refuted), all nine of them at the first step (C168_ellipsoid_first_partial), and the offset's are right only while the matrix is the identity (C168_ellipsoid_offset_refuted). Consequences: C168_radius_diverges and C168_two_readings_refuted."
  },
  {
   "property": "C169",
   "status": "proved",
   "theorems": [
    "C169_unary_calls",
    "C169_init_calls",
    "C169_binary_calls",
    "C169_binary_refused",
    "C169_null",
    "C169_each_once",
    "C169_unary_map",
    "C169_unary_stops",
    "C169_binary_zip"
   ],
   "note": "The callback is any function from the matrix and the position to an outcome; one that changes the shape of the matrix while it is visited is not modelled (the loops' limits are those at the start). C169_unary_map, C169_unary_stops and C169_binary_zip say what this means for callbacks that replace their entry."
  },
  {
   "property": "C170",
   "status": "proved",
   "theorems": [
    "C170_distribution",
    "C170_tail",
    "C170_interval"
   ],
   "note": "In real arithmetic with erf the integral of exp(-t^2). The Gauss integral itself is proved (PErf.v, gauss_square)."
  },
  {
   "property": "C171",
   "status": "partial",
   "theorems": [
    "C171_increasing_partial",
    "C171_increasing_refuted",
    "C171_tail_refuted",
    "C171_near_partial"
   ],
   "note": "C171_increasing_partial: strictly increasing where 4p(1-p) >= exp(-6.125), and outside on either side; C171_increasing_refuted: not where the two polynomials meet. C171_near_partial: for 4p(1-p) >= exp(-23) (p from 3e-11 to 1 - 3e-11) the answer is on the right side of the mean at 0.83 to 1.13 times the right distance; a sharper bound is not proved. C171_tail_refuted: beyond, the answer is wrong by more than 3 deviations. Real arithmetic; fma is modelled as multiplication and addition."
  },
  {
   "property": "C172",
   "status": "proved",
   "theorems": [
    "C172_density",
    "C172_density_near"
   ],
   "note": "Real arithmetic: the errors are those of the constants, not of rounding."
  },
  {
   "property": "C173",
   "status": "proved",
   "theorems": [
    "C173_history",
    "C173_view",
    "C173_radians"
   ],
   "note": "Any arithmetic. The views are references into a store of objects (MView.v)."
  },
  {
   "property": "C174",
   "status": "proved",
   "theorems": [
    "C174_erf_inv",
    "C174_symmetric",
    "C174_units",
    "C174_error"
   ],
   "note": "Real arithmetic."
  },
  {
   "property": "C175",
   "status": "proved",
   "theorems": [
    "C175_chain",
    "C175_independent",
    "C175_order",
    "C175_maximum"
   ],
   "note": "Real arithmetic; probabilities strictly positive (a zero gives NaN, C62)."
  },
  {
   "property": "C176",
   "status": "proved",
   "theorems": [
    "C176_pooled",
    "C176_sum",
    "C176_chebyshev"
   ],
   "note": "Real arithmetic."
  },
  {
   "property": "C177",
   "status": "proved",
   "theorems": [
    "C177_reproduces",
    "C177_line"
   ],
   "note": "Real arithmetic."
  },
  {
   "property": "C178",
   "status": "proved",
   "theorems": [
    "C178_least_bending"
   ],
   "note": "Real arithmetic."
  },
  {
   "property": "C179",
   "status": "proved",
   "theorems": [
    "C179_error",
    "C179_convex"
   ],
   "note": "Real arithmetic; C153 bounds the rounding."
  },
  {
   "property": "C180",
   "status": "partial",
   "theorems": [
    "C180_speed",
    "C180_reverse",
    "C180_orientation_refuted"
   ],
   "note": "Speed and reversal proved in real arithmetic. The last sentence is false: replacing b by -b, the same orientation, gives other orientations on the way; the code does not take the shorter way (C180_orientation_refuted)."
  },
  {
   "property": "C181",
   "status": "proved",
   "theorems": [
    "C181_propagation",
    "C181_semidefinite"
   ],
   "note": "Real arithmetic."
  },
  {
   "property": "C182",
   "status": "proved",
   "theorems": [
    "C182_geometry",
    "C182_inverse",
    "C182_scale"
   ],
   "note": "Real arithmetic. Below 1e-6 see C70_tiny_refuted."
  },
  {
   "property": "C183",
   "status": "proved",
   "theorems": [
    "C183_slopes",
    "C183_monotone",
    "C183_no_jumps"
   ],
   "note": "Real arithmetic."
  }
 ]
}