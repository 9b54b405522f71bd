{
 "C01": {
  "status": "partial",
  "note": "Exact behaviour proved in all cases. The 'copied whenever the clipped range fits' reading fails when offset+len wraps (returns -EINVAL, no memory error): C01_wrapping_length_refuted."
 },
 "C07": {
  "status": "proved",
  "note": "Proved for non-empty vectors; C07_empty_refuted records that an empty vector makes it write past the buffer."
 },
 "C09": {
  "status": "partial",
  "note": "REFUTED: the code overwrites components it still needs."
 },
 "C11": {
  "status": "partial",
  "note": "Proved for every non-empty vector; for sz = 0 the code reads out of bounds (C11_rev_empty_refuted)."
 },
 "C12": {
  "status": "partial",
  "note": "Proved with the code's actual test 0 <= x < 1e-6; tiny negative values are not moved (C12_tiny_negative_refuted)."
 },
 "C13": {
  "status": "proved",
  "note": "Over the reals. C13_nan_refuted: with NaN elements is_equal answers true."
 },
 "C14": {
  "status": "proved",
  "note": "C14_near_duplicates_refuted shows the separation hypothesis is needed."
 },
 "C15": {
  "status": "partial",
  "note": "REFUTED: three out-of-bounds witnesses."
 },
 "C16": {
  "status": "partial",
  "note": "zsl_vec_sum adds into the output, so the sum is right only if the output was zero; C16_vec_sum_accumulates is the exact behaviour, C16_vec_sum_dirty_output_refuted the counterexample."
 },
 "C23": {
  "status": "partial",
  "note": "REFUTED: eight operations of the enumeration fall through to -ENOSYS after overwriting element (0,0) of the output (exact behaviour in C23_unsupported_op_clobbers)."
 },
 "C26": {
  "status": "partial",
  "note": "REFUTED already for 2x2."
 },
 "C27": {
  "status": "partial",
  "note": "Proved except that zsl_mtx_sum_rows_scaled_d compares the row index j with sz_cols: valid rows of tall matrices are refused, rows behind the end of wide ones are read (C27_scaled_row_guard_refuted)."
 },
 "C28": {
  "status": "proved",
  "note": "Square matrices, as claimed. C28_reduce_non_square_refuted: on non-square input the checks pass and the code reads out of bounds."
 },
 "C48": {
  "status": "partial",
  "note": "REFUTED: memcmp covers rows+cols elements instead of rows*cols. The exact behaviour on matrices with at least that many elements is C48_is_equal_partial."
 },
 "C49": {
  "status": "proved",
  "note": "C49_is_sym_non_square_refuted records the behaviour outside the claim (non-square input)."
 },
 "C29": {
  "status": "proved",
  "note": "Every size >= 1, real arithmetic, equal to MathComp's determinant. Rejection of non-square shapes is C30."
 },
 "C30": {
  "status": "partial",
  "note": "Proved for matrices with at least 3 rows (C30_deter_non_square_partial). REFUTED for one and two rows: a 2x1 matrix is read out of bounds, 1x2 and 2x3 are accepted (C30_deter_non_square_refuted)."
 },
 "C32": {
  "status": "partial",
  "note": "REFUTED for 2x2 (C32_adjoint_refuted): for sizes other than 3 the code stores the cofactor matrix without transposing it; exact behaviour in C32_adjoint_transposed_partial."
 },
 "C34": {
  "status": "proved",
  "note": "The condition 'meets no pivot smaller than 1e-6' is gj_clear (SpecGauss.v), a condition on the input in terms of textbook Gauss-Jordan elimination."
 },
 "C35": {
  "status": "partial",
  "note": "REFUTED: C35_inv_of_small_matrices (all sizes but 3) and C35_inv_refuted."
 },
 "C36": {
  "status": "partial",
  "note": "One invertible E is applied to both matrices; elements of the column that are at least 1e-6 become zero, smaller ones stay (C36_gauss_elim_refuted)."
 },
 "C50": {
  "status": "partial",
  "note": "Orthogonality proved when the determinant used is zero or the internal inversion is exact (gj_clear). The zero answer for independent rows is C50_wedge_degenerate_refuted."
 },
 "C37": {
  "status": "proved",
  "note": "Real arithmetic. C37_dependent_columns_refuted: with dependent columns the code divides by a zero norm (float run gives NaN)."
 },
 "C38": {
  "status": "proved",
  "note": "Real arithmetic; every column non-zero."
 },
 "C39": {
  "status": "proved",
  "note": "Real arithmetic. Stated for positive definite matrices (all pivots positive); -EINVAL cases with bounds checks enabled."
 },
 "C40": {
  "status": "proved",
  "note": "Real arithmetic; C40_hessenberg_1x1_refuted: hessenberg on a 1x1 matrix writes out of bounds."
 },
 "C41": {
  "status": "proved",
  "note": "Real arithmetic, every n >= 1."
 },
 "C42": {
  "status": "proved",
  "note": "Real arithmetic, every n >= 1."
 },
 "C43": {
  "status": "proved",
  "note": "Real arithmetic, any number of iterations."
 },
 "C44": {
  "status": "partial",
  "note": "With locals that start at zero every run ends (in exact arithmetic), with a matrix similar by powers of two and balanced to 5 %. Missing because the code refutes it: the locals row/col are used uninitialised, which is undefined (C44_uninitialised_refuted), can loop forever (C44_garbage_refuted) or leave the matrix unbalanced (C44_garbage_unbalanced_refuted)."
 },
 "C45": {
  "status": "partial",
  "note": "With locals that start at zero the computation always answers. Reported values are the diagonal of a matrix similar to the input (exact eigenvalues when that matrix is triangular, in particular for triangular inputs). REFUTED in general: for (0 1; 1 0) the code reports 0, 0 with code 0 for every number of iterations. The limit for symmetric matrices is C138."
 },
 "C46": {
  "status": "partial",
  "note": "REFUTED: any matrix with more columns than rows makes zsl_mtx_svd/zsl_mtx_pinv leave their arrays; zsl_mtx_pinv divides by zero singular values. The positive statements for tall and square matrices are C128."
 },
 "C51": {
  "status": "partial",
  "note": "Means proved; refuted: unequal sizes with fewer weights than data read out of bounds before the check; trimmed mean returns the maximum when one datum is left."
 },
 "C53": {
  "status": "partial",
  "note": "Proved for data whose distinct values (and 0) are at least 1e-5 apart, the sorting tolerance; refuted for closer values."
 },
 "C54": {
  "status": "partial",
  "note": "Refuted for every (separated) vector: p = 0 reads w[-1], p = 100 reads w[n]. Proved for p close to the ends."
 },
 "C93": {
  "status": "partial",
  "note": "Proved with the reciprocals of the weights; refuted with the weights themselves (and the caller's weights are overwritten)."
 },
 "C57": {
  "status": "proved",
  "note": "Real arithmetic. For b <= a the density and cdf return the number -22, which callers can take for a value."
 },
 "C58": {
  "status": "proved",
  "note": "n <= 12, exactly the range in which n! fits int."
 },
 "C59": {
  "status": "partial",
  "note": "False of the code: refuted for every n >= 13 (signed overflow); proved for n <= 12."
 },
 "C60": {
  "status": "partial",
  "note": "n <= 12. pdf, mean, variance and cdf on 0..n proved; above n the cdf is 1 only for p < 1 (p = 1 gives 0 * infinity: refuted); likewise the pdf outside 0..n."
 },
 "C61": {
  "status": "proved",
  "note": "Real arithmetic; the acceptance condition is exact."
 },
 "C62": {
  "status": "partial",
  "note": "Proved for strictly positive probabilities summing to 1; a zero probability passes the checks but gives NaN (refuted). Sums are accepted within 1e-6."
 },
 "C63": {
  "status": "proved",
  "note": "Tables of up to 2^31 entries (unsigned int index sum)."
 },
 "C64": {
  "status": "proved",
  "note": "Ascending tables with gaps of at least 1e-6. Descending tables are found by the search but rejected by the interpolation (theorem C64_descending_refuted); the inverse divides by zero on horizontal segments."
 },
 "C65": {
  "status": "partial",
  "note": "False of the code: the decision point is 1.5*x1, not the midpoint (refuted). Proved: one of the two enclosing ordinates, the nearest one if x3 = 2*x1."
 },
 "C66": {
  "status": "proved",
  "note": "Real arithmetic; three or more strictly ascending points; includes continuity of first and second derivatives and the end conditions."
 },
 "C95": {
  "status": "proved",
  "note": "Real arithmetic with the mathematical erf; the accuracy of the polynomial approximation of the inverse of erf is not covered."
 },
 "C67": {
  "status": "proved",
  "note": "Real arithmetic. Aliasing through an explicit store of quaternion objects."
 },
 "C68": {
  "status": "proved",
  "note": "Real arithmetic."
 },
 "C69": {
  "status": "proved",
  "note": "Real arithmetic."
 },
 "C70": {
  "status": "proved",
  "note": "Real arithmetic. Below magnitude 1e-6 the result is the zero quaternion (C70_tiny_refuted)."
 },
 "C71": {
  "status": "proved",
  "note": "Real arithmetic."
 },
 "C72": {
  "status": "partial",
  "note": "False of the code for half turns about general axes (refuted). Proved when every non-zero vector component c has |4 r c| > 1e-6, from quaternions (round trip) and from every matrix with orthonormal columns and determinant 1; the result is a unit quaternion without that condition."
 },
 "C73": {
  "status": "proved",
  "note": "Real arithmetic."
 },
 "C74": {
  "status": "partial",
  "note": "Unit quaternion and rotation proved for all axes of length at least 1e-6; round trip proved when cos(angle/2) <= 1 - 1e-6. False below that (the axis and angle come back as zero) and for q = -1 (division by zero); both refuted."
 },
 "C75": {
  "status": "partial",
  "note": "Everything proved for slerp; lerp returns the zero quaternion half way between opposite quaternions (refuted), a unit quaternion otherwise."
 },
 "C76": {
  "status": "proved",
  "note": "Real arithmetic. log 0 is not a real (refuted)."
 },
 "C96": {
  "status": "partial",
  "note": "Ranges proved for all unit q. Round trip proved outside the band 1 - 2e-6 < |sin pitch| < 1 around gimbal lock, and at gimbal lock itself."
 },
 "C97": {
  "status": "proved",
  "note": "Real arithmetic."
 },
 "C77": {
  "status": "partial",
  "note": "Proved in real arithmetic: conversion formulas, DMS, tilt, tilt compensation, acceleration angle, heading for fields with y >= 0. Refuted of the code: exact round trip (the two constants are rounded; error bound proved), heading for y < 0 is off by 180 degrees, geographic heading is not wrapped into [0,360), zero acceleration is not rejected by zsl_att_from_accel or zsl_att_accel_angle."
 },
 "C98": {
  "status": "proved",
  "note": "Real arithmetic."
 },
 "C78": {
  "status": "partial",
  "note": "Madgwick, Mahony and complementary filters: any history of feeds keeps a unit quaternion (real arithmetic) under the stated hypotheses on gains; the unrestricted statement is refuted (a correction can cancel the integrated orientation exactly). AQUA: any history with a defined result keeps a unit quaternion. SAAM and Kalman: after any history the orientation is the initial one, a unit quaternion or zero (zero is reached: C101_saam_level_refuted)."
 },
 "C79": {
  "status": "proved",
  "note": "Any history of feeds, for a non-negative limit; real arithmetic."
 },
 "C101": {
  "status": "partial",
  "note": "Proved outside the stated degenerate directions; a level sensor is one of them (refuted)."
 },
 "C102": {
  "status": "partial",
  "note": "Proved whenever the feed has a defined result; undefined exactly in the stated antipodal cases (refuted there). Real arithmetic."
 },
 "C80": {
  "status": "partial",
  "note": "False of the code: the running minimum is reset in every iteration, so for every recording the reported gain is 0 (proved), and it does not minimise the error (refuted by a one-sample recording). Wrong sizes are rejected."
 },
 "C81": {
  "status": "proved",
  "note": "Real arithmetic."
 },
 "C99": {
  "status": "partial",
  "note": "Proved with a known inclination and for the accelerometer-only filter; without an inclination the estimate of the field uses the wrong rotation (refuted)."
 },
 "C100": {
  "status": "partial",
  "note": "The gravity Jacobian is correct for the body-frame prediction; three entries of the field Jacobian are wrong and the residual uses the opposite rotation, so the descent claim is refuted."
 },
 "C104": {
  "status": "partial",
  "note": "Madgwick, Mahony and complementary agree; AQUA turns the opposite way (refuted)."
 },
 "C105": {
  "status": "partial",
  "note": "Accelerometer and magnetometer as stated; Mahony and AQUA overwrite the gyroscope vector (refuted)."
 },
 "C103": {
  "status": "partial",
  "note": "The update is proved exactly, for matrices S on which the inversion threshold does not interfere (gj_clear); the covariance stays symmetric positive semi-definite and S is always invertible for positive variances. The consistency part is refuted: H is the derivative of a different prediction, F of a different integration, and readings that agree with the orientation move it. The hypotheses of C103_update are met in C103_agree_refuted. A refused first feed marks the filter initialised (C103_first_feed_null_refuted). The initial orientation from non-parallel readings is a unit quaternion that takes the z axis to the accelerometer reading (C103_initial_orientation); the filter then predicts the opposite reading (C103_first_prediction_refuted), and parallel first readings have no real result (C103_parallel_start_refuted). Along histories of any length the covariance stays symmetric positive semi-definite (C103_history), under the same condition at every feed."
 },
 "C82": {
  "status": "partial",
  "note": "Proved for non-degenerate colours in real arithmetic. Black and y = 0 divide by zero without an error, and the invalid flags of the source are dropped (refuted)."
 },
 "C83": {
  "status": "partial",
  "note": "The eight-bit output is always in range, the real one with capping enabled; without capping it is not (refuted), and a channel of exactly 1.0 is flagged out of gamut (refuted)."
 },
 "C84": {
  "status": "partial",
  "note": "Proved for both enumerated observers; an observer outside the enumeration reads an indeterminate pointer (refuted). The wavelength is rounded down, not to the nearest sample, and the 2-degree zbar at 380 nm is ten times too small (refuted)."
 },
 "C85": {
  "status": "partial",
  "note": "Interpolation proved for all wavelengths and both functions; the scotopic table is in a different unit (refuted)."
 },
 "C91": {
  "status": "proved",
  "note": "All observer and illuminant values."
 },
 "C106": {
  "status": "partial",
  "note": "Proved for the 13 enumerated matrices; an index outside the enumeration reads outside the table (refuted)."
 },
 "C107": {
  "status": "proved",
  "note": "Real arithmetic."
 },
 "C108": {
  "status": "partial",
  "note": "The nearest-entry search, range test and formulas are proved as coded; the triangular solution is refuted, because the code squares squared distances (C108_attenuated gives the exact factor). The Ohno 2011 method is proved to compute the published formulae wherever its denominators are not zero and its second estimate is positive (C108_ohno2011, C108_bearing); it checks neither, so every colour with v = 0.24 or u = 0.292 gets no number (refuted)."
 },
 "C110": {
  "status": "partial",
  "note": "Planck's law proved for every temperature but 0 and both observers. Hotter is strictly bluer, and temperatures have distinct chromaticities, for every positive temperature (10 degrees) and from 1000 K on (2 degrees). 0 divides by zero, negative temperatures are accepted, unknown observers read an indeterminate pointer (refuted)."
 },
 "C109": {
  "status": "partial",
  "note": "Proved for |Duv| <= 0.09, every positive temperature with the 10-degree observer and every temperature from 1000 K on with the 2-degree observer (its table has a small non-monotone spot that matters only for colder bodies). Zero kelvin and unknown observers are not rejected (refuted)."
 },
 "C86": {
  "status": "partial",
  "note": "Every scalar physics function (135 definitions) is proved to answer 0 with its law exactly on the arguments its guards accept, and -EINVAL with NAN otherwise. The full statement is false where the guards have gaps (division by zero, root/log/arcsine outside its domain, refraction index upside down, negative energy and pressure): refuted."
 },
 "C87": {
  "status": "partial",
  "note": "Momentum, Bernoulli, flow, gas, lever, hydraulic, transformer and Carnot invariants proved, also along chains of calls. zsl_phy_mom_elas answers the velocity that conserves momentum for whatever final velocity the caller states, so kinetic energy is conserved only in the cases C87_elastic characterises (refuted in general)."
 },
 "C88": {
  "status": "partial",
  "note": "Inverse pairs proved. False: the sign of the velocity is lost, negative flight times are reported, range ignores errors, the angle loses the direction (refuted)."
 },
 "C89": {
  "status": "partial",
  "note": "Proved for every number of components, any order; an empty parallel circuit divides by zero (refuted)."
 },
 "C90": {
  "status": "proved",
  "note": ""
 },
 "C112": {
  "status": "proved",
  "note": "Data (and 0) equal or at least 1e-5 apart, the library's own tolerance."
 },
 "C113": {
  "status": "partial",
  "note": "Proved for two or more samples at times at least 1e-5 apart. A single sample passes the checks and gives 0/0 (refuted)."
 },
 "C114": {
  "status": "partial",
  "note": "Proved for data in ascending order. The code sorts the values but not the weights, so for other orders the answer is the weighted median of other pairs (refuted; exact behaviour in C114_weighted_median_unsorted)."
 },
 "C115": {
  "status": "proved",
  "note": "Data and deviations at least 1e-5 apart or equal (sorting tolerance); at most 2^31-1 data."
 },
 "C116": {
  "status": "partial",
  "note": "Proved for positive references; negative references give negative errors, zero divides by zero (refuted)."
 },
 "C117": {
  "status": "proved",
  "note": "binary64, round to nearest, no contraction to fused multiply-add. Proved for the machine-arithmetic instance of the model, with the growth factor bounded by k u/(1-k u)."
 },
 "C118": {
  "status": "proved",
  "note": "binary64, round to nearest, no contraction to fused multiply-add. The refuted companion shows the machine mean of three copies of 0.1 exceeds 0.1."
 },
 "C119": {
  "status": "proved",
  "note": "binary64, round to nearest, no contraction to fused multiply-add. Refuted companions show why the bounds are conditional: the norm of (2^600) overflows although representable, and (0, 2^-600) normalises to the first axis."
 },
 "C120": {
  "status": "proved",
  "note": "binary64, round to nearest, no contraction to fused multiply-add. "
 },
 "C121": {
  "status": "proved",
  "note": "binary64, round to nearest, no contraction to fused multiply-add. No hypothesis on finiteness."
 },
 "C122": {
  "status": "proved",
  "note": "binary64, round to nearest, no contraction to fused multiply-add. "
 },
 "C123": {
  "status": "proved",
  "note": "binary64, round to nearest, no contraction to fused multiply-add. "
 },
 "C124": {
  "status": "partial",
  "note": "Exact data in real arithmetic, under gj_clear (the elimination meets no non-zero number below 1e-6). Refuted: the corrected magnitude is me/sqrt(1 - c^T M c), larger than me whenever the offset is not zero; K is triangular, not symmetric; an ellipsoid that does not contain the origin gives a NaN with code 0. Noisy data: not covered. "
 },
 "C125": {
  "status": "partial",
  "note": "Fixed point on perfect spheres, symmetry of K and rejections; convergence on ellipsoids or noisy data is not proved (the Jacobians in the code are wrong, see DESIGN section 6). One reading divides zero by zero (refuted). "
 },
 "C126": {
  "status": "partial",
  "note": "Proved for every function listed, every size, content and lawful arithmetic. Refuted for zsl_mtx_eigenvectors (out-of-bounds write for eigenvalues closer than 1e-6 in a chain), hence also unproved for SVD and pseudo-inverse, which call it. Balancing and eigenvalues: bounds only, in exact arithmetic they also end (C44_balance_ends, C45_eigenvalues_end), in other arithmetics termination of the scaling loops is not claimed, and the indeterminate locals row and col are taken to hold some number. In exact arithmetic the inversion and the elimination always answer (C126_exact_*)."
 },
 "C127": {
  "status": "partial",
  "note": "Proved for all six filters and both gain searches, for histories of any length, in exact arithmetic and in binary64 with any total acos and asin (the mathematical library is a parameter). Refuted for a second Kalman instance: its covariance matrix is used before it has values (C127_kalman_second_instance_refuted). The NULL cases excluded by hypothesis are refuted in C102. In exact arithmetic, for a positive frequency, every history is answered by the Madgwick, Mahony, complementary and (first readings not parallel) Kalman filters: no division by zero and no root of a negative number (C127_exact_*)."
 },
 "C128": {
  "status": "partial",
  "note": "Proved for r >= c when the eigenvalues reported for m^T m are exact, at least 1e-6 and at least 1e-6 apart and no elimination meets a tiny number (for r > c also: the eigenvectors of m m^T are complete); for diagonal matrices no hypothesis about a run is left. REFUTED for repeated singular values: zsl_mtx_pinv answers diag(1,2,1/4) for diag(1,2,1) and u is not orthogonal, because eigenvalues are paired with eigenvectors of other eigenvalues. Wide matrices and zero singular values: C46."
 },
 "C129": {
  "status": "partial",
  "note": "Proved for every square matrix for which the eigenvalue computation reports n values (code 0; always for a symmetric matrix) and whose eliminations meet no number other than 0 below 1e-6. The order of the columns is proved for eigenvalues that are exact and apart, and REFUTED for repeated ones (C129_order_repeated_refuted). That the reported values are near the eigenvalues is C45's subject; with inexact values the eigenspaces are empty and a non-zero code is answered."
 },
 "C130": {
  "status": "partial",
  "note": "Proved when the counter does not wrap. REFUTED when it does (C130_wrap_refuted): exactly one cycle is lost, because 2^32 - 1 is used for 2^32. Zephyr's conversion of cycles to nanoseconds is not modelled."
 },
 "C131": {
  "status": "proved",
  "note": "For a little-endian target whose compiler allocates bit-fields from the least significant bit, as the header documents."
 },
 "C132": {
  "status": "proved",
  "note": "What is handed to printf; the formatting of a number is the C library's."
 },
 "C133": {
  "status": "partial",
  "note": "strtof is an arbitrary function. The gravity command always ends, and prints the library's gravity exactly for latitudes in (0, 90] and altitudes in [0, 10000]; REFUTED for the equator and the south (C133_south_refuted) and for altitudes in [-500, 0) (C133_below_sea_level_refuted). The colour commands are proved for temperatures in (0, 2^32); above, the conversion to unsigned int is undefined (C133_ct2rgb_hot_refuted)."
 },
 "C134": {
  "status": "partial",
  "note": "In range, but REFUTED: the function stores 0 always (C134_random_refuted)."
 },
 "C135": {
  "status": "partial",
  "note": "Proved for the functions named, every size and content. Functions that sort (percentile, median, quartiles, trimmed mean, data range, medians of deviations) are refuted: a vector of NaNs makes the sort read outside its array (C135_sort_refuted, C135_data_range_refuted; see C15 for finite data). The least-squares calibration with bounds checks uses an indeterminate matrix on every set of readings with a NaN (C135_fast_calibration_nan_refuted); it is safe without checks, and in exact arithmetic. The iterative calibration is safe when the library can sort each axis of the readings."
 },
 "C136": {
  "status": "proved",
  "note": "Everything stated is proved, for all doubles and histories. Beside it: that every finite quaternion of length 1 or more is normalised is refuted (beyond about 1e154 the square overflows and the answer is zero with code 0, C136_overflow_refuted); it is proved for components up to 2^480 (C136_to_unit_regular)."
 },
 "C137": {
  "status": "partial",
  "note": "Refuted for Madgwick, Mahony, complementary, AQUA and an initialised Kalman filter: once one component of the orientation is NaN every accepted feed leaves four NaNs, for every later history (C137_recovery_*_refuted), and a gyroscope reading with a NaN is accepted with code 0 and puts them there (C137_nan_gyroscope_*_refuted). A NaN from the magnetometer does it too, though the filters treat a NaN from the accelerometer as an absent reading (C137_nan_magnetometer_refuted, C137_nan_accelerometer_*). SAAM recovers with the next reading (C137_recovery_saam)."
 },
 "C138": {
  "status": "proved",
  "note": "Real arithmetic, exactly symmetric input, locals of zsl_mtx_balance starting at zero. Proved for every symmetric matrix without opposite non-zero eigenvalues and, without that condition, for every positive semidefinite matrix. The condition is needed: (0 1; 1 0) is C138_opposite_refuted."
 },
 "C139": {
  "status": "partial",
  "note": "False of the code: the correction has the wrong sign for the convention of the prediction. Without integral gain the predicted vertical tends to the opposite of the measured one from every other orientation (C139_opposite_vertical_refuted); with any integral gain the first feed already enlarges the angle; with a magnetometer and the inclination the total agreement falls at every feed. Missing: the limit with an integral gain. Real arithmetic."
 },
 "C140": {
  "status": "proved",
  "note": "Real arithmetic. The gain must differ from 1/2 by 5e-7, because an interpolation of almost opposite quaternions shorter than 1e-6 becomes zero (C78)."
 },
 "C141": {
  "status": "proved",
  "note": "Real arithmetic. With a magnetometer the bound holds as long as the feeds have an outcome (C102 says when). A threshold of 1 makes small tilts stay for ever (C141_stall_refuted)."
 },
 "C142": {
  "status": "partial",
  "note": "False of the code: for every tilted orientation (with the two turned verticals not perpendicular) there is a reading, not the predicted one, at which the filter never moves (C142_stuck_refuted), and the orientation that predicts the reading exactly is left (C142_leaves_refuted). Real arithmetic, accelerometer only."
 },
 "C143": {
  "status": "partial",
  "note": "Proved of AQUA, false of Mahony's and Madgwick's filters, which turn the predictions the other way (C143_mahony_madgwick_refuted). Real arithmetic. Not stated for the complementary filter, which predicts no directions, and the Kalman filter."
 },
 "C144": {
  "status": "partial",
  "note": "Proved whenever no channel of the machine's product is NaN. A NaN channel makes the conversion to uint8_t undefined (C144_nan_refuted); black given as xyY (0, 0, 0) leads there although every call reports success (C144_black_refuted), and so do finite colours above 1e308."
 },
 "C145": {
  "status": "proved",
  "note": "Any memory of quaternions, all aliasings; if the result is not finite nothing is claimed about its value."
 },
 "C146": {
  "status": "proved",
  "note": "The vector is passed as a pure quaternion with scalar part zero."
 },
 "C147": {
  "status": "proved",
  "note": "Any size, by induction on the expansion; the error term is gam(n^2) times the permanent of the absolute values, plus underflow."
 },
 "C148": {
  "status": "partial",
  "note": "Not for zsl_vec_copy and zsl_vec_sum, which never look at the room in their output (C148_copy_refuted, C148_sum_refuted), and zsl_comp_geo_north with an unset variable, which is undefined for a NaN reading in double precision (C148_geo_north_nan_refuted); the theorems for these three ask for the room and the value. Integer overflow in factorials and binomials is the subject of C58."
 },
 "C149": {
  "status": "partial",
  "note": "False with a NaN or an infinity among the data: the value is dropped with return value 0 (C149_nan_refuted), the range then reads an uninitialised element and a lone NaN makes the sort read out of bounds (C149_garbage_refuted). Data closer than 1e-5 are C14's subject."
 },
 "C150": {
  "status": "partial",
  "note": "Finiteness of the factor is a hypothesis, entry by entry: for a matrix that is not positive definite the function returns 0 with entries that are not numbers (C150_indefinite_refuted). C39 is the exact statement."
 },
 "C151": {
  "status": "proved",
  "note": "Quaternions that are neither tiny nor huge are covered after zsl_quat_to_unit (C151_normalised). The function does not normalise itself (C151_scale_refuted)."
 },
 "C152": {
  "status": "proved",
  "note": "Infinite entries are not covered."
 },
 "C153": {
  "status": "proved",
  "note": "The error is relative to |y1| + |y3 - y1|, not to the result, which may cancel."
 },
 "C154": {
  "status": "proved",
  "note": "The conversion of a channel to 8 bits is only proved free of memory errors here; that it stays in range in double precision is C144. Unset \"invalid\" members make a colour temperature query undefined (C154_unset_refuted)."
 },
 "C155": {
  "status": "partial",
  "note": "NaN compares equal to everything, is never counted, counts as non-negative, and off-diagonal NaNs count as symmetric (C155_nan_refuted)."
 },
 "C156": {
  "status": "proved",
  "note": ""
 },
 "C157": {
  "status": "partial",
  "note": "A determinant that is zero in machine arithmetic makes the function answer the identity with code 0, also for invertible matrices such as 1e-110 times the identity (C157_underflow_refuted). Finiteness of the computed determinant and of the entry is a hypothesis."
 },
 "C158": {
  "status": "partial",
  "note": "Holds for the projection written over the direction u. Refuted for the others: the projection over v answers u whatever v was; the inverse in place is the identity for every matrix of size other than 3; the adjoint in place is wrong for 2 x 2 and 3 x 3; the sort in place loses elements. No header comment forbids these calls."
 },
 "C159": {
  "status": "partial",
  "note": "False without the range: an intermediate product may overflow or underflow although the answer is an ordinary number (C159_range_refuted). False for differences: kin_vel may lose all significant digits (C159_cancel_refuted). Functions that call the mathematical library, and the photon and Bohr formulas, whose constants have more than 22 decimals, are not covered."
 },
 "C160": {
  "status": "partial",
  "note": "False for zsl_phy_proj_angle: with a horizontal speed of 0 the vertical speed is not read and a NaN becomes pi/2 (C160_angle_refuted); proved when the horizontal speed is not 0 (C160_angle). The return code does not tell: NaN passes the guards and 0 is returned (C160_code_refuted). For functions that call the mathematical library the theorem assumes what IEEE 754 says of NaN in it (nan_through)."
 },
 "C161": {
  "status": "partial",
  "note": "Proved for the sums. False for the order statistics: the sort drops the NaN; the range then reads memory that was never written (C161_range_refuted) and the median counts a zero that was not among the data (C161_median_refuted)."
 },
 "C162": {
  "status": "partial",
  "note": "Proved for products, determinants of every size and the 3 x 3 inverse, whose nine entries are all NaN; Cholesky with bounds checks refuses such a matrix. False for the general inverse: elimination skips a NaN, because it is neither above nor below the threshold, and the inverse of a 2 x 2 matrix with a NaN is an ordinary matrix with code 0 (C162_inverse_refuted)."
 },
 "C163": {
  "status": "partial",
  "note": "Proved for mean, variance, standard deviation, mean absolute deviation, covariance and regression, both for units and for order. The median follows units when the data are equal or 1e-5 apart (also from 0) in both units; without that it is false: the median of the single datum 1 is 1 and in units a million times larger it is 0 instead of 1e-6 (C163_median_refuted). Exact over reals."
 },
 "C164": {
  "status": "proved",
  "note": "Lists of names and codes read from the headers; the header is the one of C131."
 },
 "C165": {
  "status": "proved",
  "note": "Weights are integers in units of 1e-4, the precision of the table. The lookup is an array access; an index outside 0..118 is undefined behaviour."
 },
 "C166": {
  "status": "partial",
  "note": "Proved for the listed functions, whose only literal is 0.0. Results finite in exact arithmetic can be lost: a vector of length 2^64 has an infinite norm and one of length 2^-76 norm 0 (C166_norm_range_refuted), and sums stop counting at 2^24 (C166_count_refuted). The other functions are not proved in single precision."
 },
 "C167": {
  "status": "partial",
  "note": "A quaternion of length 2^80 (1e24), whose square is no float, is normalised to zero (C167_overflow_refuted); between 1.5e-6 and 2^40 the answer is certainly a unit quaternion (C167_to_unit_regular). Inside the filters the model rounds literals to float where C computes in double; the theorems do not depend on what the filters feed to the normalisation."
 },
 "C168": {
  "status": "partial",
  "note": "C168_sphere_row and C168_ellipsoid_row say exactly which rows are computed, for every input. The sphere's row is the gradient at offset zero (C168_sphere_origin_partial) and has the wrong sign elsewhere (C168_sphere_refuted); the ellipsoid's row holds the derivatives in another order than the parameters (C168_ellipsoid_row, C168_ellipsoid_refuted), all nine of them at the first step (C168_ellipsoid_first_partial), and the offset's are right only while the matrix is the identity (C168_ellipsoid_offset_refuted). Consequences: C168_radius_diverges and C168_two_readings_refuted."
 },
 "C169": {
  "status": "proved",
  "note": "The callback is any function from the matrix and the position to an outcome; one that changes the shape of the matrix while it is visited is not modelled (the loops' limits are those at the start). C169_unary_map, C169_unary_stops and C169_binary_zip say what this means for callbacks that replace their entry."
 },
 "C170": {
  "status": "proved",
  "note": "In real arithmetic with erf the integral of exp(-t^2). The Gauss integral itself is proved (PErf.v, gauss_square)."
 },
 "C171": {
  "status": "partial",
  "note": "C171_increasing_partial: strictly increasing where 4p(1-p) >= exp(-6.125), and outside on either side; C171_increasing_refuted: not where the two polynomials meet. C171_near_partial: for 4p(1-p) >= exp(-23) (p from 3e-11 to 1 - 3e-11) the answer is on the right side of the mean at 0.83 to 1.13 times the right distance; a sharper bound is not proved. C171_tail_refuted: beyond, the answer is wrong by more than 3 deviations. Real arithmetic; fma is modelled as multiplication and addition."
 },
 "C172": {
  "status": "proved",
  "note": "Real arithmetic: the errors are those of the constants, not of rounding."
 },
 "C173": {
  "status": "proved",
  "note": "Any arithmetic. The views are references into a store of objects (MView.v)."
 },
 "C174": {
  "status": "proved",
  "note": "Real arithmetic."
 },
 "C175": {
  "status": "proved",
  "note": "Real arithmetic; probabilities strictly positive (a zero gives NaN, C62)."
 },
 "C176": {
  "status": "proved",
  "note": "Real arithmetic."
 },
 "C177": {
  "status": "proved",
  "note": "Real arithmetic."
 },
 "C178": {
  "status": "proved",
  "note": "Real arithmetic."
 },
 "C179": {
  "status": "proved",
  "note": "Real arithmetic; C153 bounds the rounding."
 },
 "C180": {
  "status": "partial",
  "note": "Speed and reversal proved in real arithmetic. The last sentence is false: replacing b by -b, the same orientation, gives other orientations on the way; the code does not take the shorter way (C180_orientation_refuted)."
 },
 "C181": {
  "status": "proved",
  "note": "Real arithmetic."
 },
 "C182": {
  "status": "proved",
  "note": "Real arithmetic. Below 1e-6 see C70_tiny_refuted."
 },
 "C183": {
  "status": "proved",
  "note": "Real arithmetic."
 }
}