{"id": "C01", "title": "Vector slicing copies exactly the requested range", "statement": "zsl_vec_get_subset(v, offset, len, vsub) returns 0 exactly when offset is not past the end and vsub can hold the (clipped) range; then vsub holds v[offset .. min(offset+len, v.sz)-1] and vsub.sz is that length. Otherwise it returns -EINVAL and vsub is unchanged. Source elements are never modified and no element outside either buffer is touched, including when offset+len overflows size_t.", "quantifier": "all vectors, all offsets and lengths up to SIZE_MAX, all output capacities", "why_tests_cant": "boundary arithmetic on unbounded sizes with size_t wrap-around; tests try a handful of ranges", "anchors": ["src/vectors.c:zsl_vec_get_subset"]}
{"id": "C02", "title": "Element-wise vector arithmetic", "statement": "zsl_vec_add / sub / neg / scalar_add / scalar_mult / scalar_div return 0 and produce, for every index, the sum / difference / negation / scaled value of the operands at that index, leave the operands and any buffer space beyond sz untouched, and return -EINVAL without writing anything when sizes differ (or when dividing by zero).", "quantifier": "all vector sizes, all element values (including NaN/inf), all buffer contents", "why_tests_cant": "a loop bound or index slip shows only at particular sizes; tests use size 3-5", "anchors": ["src/vectors.c:zsl_vec_add", "src/vectors.c:zsl_vec_sub", "src/vectors.c:zsl_vec_neg", "src/vectors.c:zsl_vec_scalar_add", "src/vectors.c:zsl_vec_scalar_mult", "src/vectors.c:zsl_vec_scalar_div"]}
{"id": "C03", "title": "Element-wise operations may be done in place", "statement": "zsl_vec_add(v,w,x) and zsl_vec_sub(v,w,x) give the same result when x is the same vector as v, as w, or as both.", "quantifier": "all sizes and values, every aliasing pattern of the three arguments", "why_tests_cant": "aliasing is a property of memory layout combined with every size", "anchors": ["src/vectors.c:zsl_vec_add", "src/vectors.c:zsl_vec_sub"]}
{"id": "C04", "title": "Dot product", "statement": "zsl_vec_dot returns -EINVAL on unequal sizes without changing the result, otherwise stores the sum of products; in exact arithmetic it is symmetric, bilinear and positive definite.", "quantifier": "all vectors of all sizes", "why_tests_cant": "algebraic laws over all reals and dimensions", "anchors": ["src/vectors.c:zsl_vec_dot"]}
{"id": "C05", "title": "Norm and Cauchy-Schwarz", "statement": "zsl_vec_norm is the square root of zsl_vec_sum_of_sqrs (0 for an empty vector), is never negative, is zero only for the zero vector, is absolutely homogeneous, and |v.w| <= |v||w| and |v+w| <= |v|+|w| in exact arithmetic.", "quantifier": "all real vectors of all sizes", "why_tests_cant": "inequalities over infinitely many vectors", "anchors": ["src/vectors.c:zsl_vec_norm", "src/vectors.c:zsl_vec_sum_of_sqrs", "src/vectors.c:zsl_vec_dot"]}
{"id": "C06", "title": "Distance is a metric", "statement": "zsl_vec_dist of equal-sized vectors is non-negative, symmetric, zero exactly for equal vectors, and satisfies the triangle inequality in exact arithmetic; for different sizes it is NAN.", "quantifier": "all triples of real vectors of any one size", "why_tests_cant": "universally quantified inequality", "anchors": ["src/vectors.c:zsl_vec_dist"]}
{"id": "C07", "title": "Normalising yields a unit vector", "statement": "zsl_vec_to_unit leaves a vector of norm 1 (in exact arithmetic) pointing in the same direction; the zero vector becomes (1,0,...,0). It writes only the vector itself.", "quantifier": "all non-empty vectors", "why_tests_cant": "must hold for every direction and size", "anchors": ["src/vectors.c:zsl_vec_to_unit"]}
{"id": "C08", "title": "Cross product", "statement": "zsl_vec_cross on 3-vectors gives a vector orthogonal to both inputs with squared length |v|^2|w|^2-(v.w)^2, anti-commutative; wrong sizes give -EINVAL and no write.", "quantifier": "all pairs of 3-vectors and every wrong size", "why_tests_cant": "algebraic identity over all reals", "anchors": ["src/vectors.c:zsl_vec_cross"]}
{"id": "C09", "title": "Cross product in place", "statement": "zsl_vec_cross(v,w,c) gives the cross product even when c is the same vector as v or w.", "quantifier": "all 3-vectors, all aliasings", "why_tests_cant": "aliasing; tests always use distinct outputs", "anchors": ["src/vectors.c:zsl_vec_cross"]}
{"id": "C10", "title": "Projection", "statement": "zsl_vec_project(u,v,w) stores in w the orthogonal projection of v onto u: w is a multiple of u and v-w is orthogonal to u, whenever u is not zero; unequal sizes give -EINVAL.", "quantifier": "all vectors of any common size with u non-zero", "why_tests_cant": "geometric property over all reals and dimensions", "anchors": ["src/vectors.c:zsl_vec_project"]}
{"id": "C11", "title": "Reversal", "statement": "zsl_vec_rev reverses the first sz elements in place, leaves the rest, touches nothing outside the vector, and applying it twice restores the vector.", "quantifier": "all vectors of all sizes (including empty and odd)", "why_tests_cant": "two-index loop whose bound depends on size parity and on size_t arithmetic", "anchors": ["src/vectors.c:zsl_vec_rev"]}
{"id": "C12", "title": "Zeros to end", "statement": "zsl_vec_zte moves every zero value (|x| < 1e-6) to the end as 0 and keeps the remaining values in order.", "quantifier": "all vectors", "why_tests_cant": "stable partition for every pattern of zeros, signs and sizes", "anchors": ["src/vectors.c:zsl_vec_zte"]}
{"id": "C13", "title": "Tolerance comparison and counting", "statement": "zsl_vec_is_equal returns true exactly for vectors of equal size whose elements all differ by less than eps; zsl_vec_contains returns exactly the number of elements within eps of the value; zsl_vec_is_nonneg is true exactly when no element is negative.", "quantifier": "all vectors, values and tolerances", "why_tests_cant": "iff over all inputs", "anchors": ["src/vectors.c:zsl_vec_is_equal", "src/vectors.c:zsl_vec_contains", "src/vectors.c:zsl_vec_is_nonneg"]}
{"id": "C14", "title": "Sorting", "statement": "zsl_vec_sort stores into the output a permutation of the input in non-decreasing order, for every input whose distinct values are at least 1e-5 apart (and at least 1e-5 away from 0), and terminates.", "quantifier": "all real vectors of size >= 1 with the stated separation", "why_tests_cant": "recursion terminates and sorts for every size and order; tests sort a few vectors", "anchors": ["src/vectors.c:zsl_vec_sort", "src/vectors.c:zsl_vec_quicksort"]}
{"id": "C15", "title": "Sorting stays inside its buffers", "statement": "For every input vector, zsl_vec_sort reads and writes only elements of its input and output.", "quantifier": "all vectors, including near-duplicate values and empty vectors", "why_tests_cant": "memory safety over all value patterns", "anchors": ["src/vectors.c:zsl_vec_sort", "src/vectors.c:zsl_vec_quicksort"]}
{"id": "C16", "title": "Component-wise sum and mean of a set of vectors", "statement": "zsl_vec_sum(v, n, w) stores the component-wise sum of the n vectors in w, zsl_vec_mean their mean; sets of unequal sizes or n = 0 give -EINVAL.", "quantifier": "any number of vectors of any size and any previous contents of w", "why_tests_cant": "depends on prior output contents and on every n and size", "anchors": ["src/vectors.c:zsl_vec_sum", "src/vectors.c:zsl_vec_mean"]}
{"id": "C17", "title": "Copying and loading vectors and matrices", "statement": "zsl_vec_init, zsl_vec_from_arr, zsl_vec_copy, zsl_mtx_from_arr and zsl_mtx_copy reproduce exactly the source elements; a copy into a buffer at least as large as the source never touches memory outside it and a mismatching matrix copy is rejected without effect.", "quantifier": "all sizes and contents", "why_tests_cant": "sizes are unbounded", "anchors": ["src/vectors.c:zsl_vec_init", "src/vectors.c:zsl_vec_from_arr", "src/vectors.c:zsl_vec_copy", "src/matrices.c:zsl_mtx_from_arr", "src/matrices.c:zsl_mtx_copy"]}
{"id": "C18", "title": "Vector functions are memory safe and total on valid vectors", "statement": "For vectors whose sz does not exceed their buffer and (where needed) is at least 1, add, sub, dot, norm, dist, sum_of_sqrs, ar_mean, rev, zte, to_unit, is_equal, is_nonneg, contains terminate without reading uninitialised elements or accessing outside the buffers, for any element values including NaN.", "quantifier": "all sizes, all values of any floating type", "why_tests_cant": "absence of out-of-bounds access for all sizes", "anchors": ["src/vectors.c:zsl_vec_rev", "src/vectors.c:zsl_vec_zte", "src/vectors.c:zsl_vec_to_unit", "src/vectors.c:zsl_vec_norm"]}
{"id": "C19", "title": "Matrix element access", "statement": "zsl_mtx_get after zsl_mtx_set at the same (i,j) returns the stored value, at any other position the old value; with bounds checks on, any i >= rows or j >= cols gives -EINVAL and changes nothing and never accesses memory.", "quantifier": "all shapes, all positions, all values", "why_tests_cant": "row-major indexing for every non-square shape", "anchors": ["src/matrices.c:zsl_mtx_get", "src/matrices.c:zsl_mtx_set"]}
{"id": "C20", "title": "Row and column access", "statement": "zsl_mtx_set_row / set_col replace exactly that row / column, zsl_mtx_get_row / get_col return exactly it, all other elements are unchanged, and out-of-range indices give -EINVAL without effect when bounds checks are on.", "quantifier": "all shapes and indices", "why_tests_cant": "stride arithmetic for all shapes", "anchors": ["src/matrices.c:zsl_mtx_get_row", "src/matrices.c:zsl_mtx_set_row", "src/matrices.c:zsl_mtx_get_col", "src/matrices.c:zsl_mtx_set_col"]}
{"id": "C21", "title": "Initialisation", "statement": "zsl_mtx_init fills every element by the entry function; with no function the matrix is all zero; with zsl_mtx_entry_fn_identity the matrix is 1 on the diagonal and 0 elsewhere for any shape.", "quantifier": "all shapes", "why_tests_cant": "all shapes", "anchors": ["src/matrices.c:zsl_mtx_init", "src/matrices.c:zsl_mtx_entry_fn_identity", "src/matrices.c:zsl_mtx_entry_fn_empty"]}
{"id": "C22", "title": "Element-wise matrix operations", "statement": "zsl_mtx_add, sub and binary_op(ADD, SUB, MULT, DIV) combine elements position by position (division by a zero element giving 0), reject any shape mismatch with -EINVAL and no write when bounds checks are on, and are correct in place; zsl_mtx_unary_op applies its operation to every element; an unsupported op returns -ENOSYS.", "quantifier": "all shapes, values, operations and aliasings", "why_tests_cant": "all shapes and opcodes", "anchors": ["src/matrices.c:zsl_mtx_add", "src/matrices.c:zsl_mtx_add_d", "src/matrices.c:zsl_mtx_sub", "src/matrices.c:zsl_mtx_sub_d", "src/matrices.c:zsl_mtx_binary_op", "src/matrices.c:zsl_mtx_unary_op"]}
{"id": "C23", "title": "Unsupported binary operations leave the output alone", "statement": "zsl_mtx_binary_op with an operation it does not implement returns -ENOSYS and leaves the output matrix unchanged.", "quantifier": "all opcodes and matrices", "why_tests_cant": "fall-through in a switch", "anchors": ["src/matrices.c:zsl_mtx_binary_op"]}
{"id": "C24", "title": "Matrix product", "statement": "zsl_mtx_mult stores the matrix product, is associative and compatible with identity and transpose, rejects incompatible shapes with -EINVAL and no write, and is correct when the output is one of the inputs (zsl_mtx_mult_d).", "quantifier": "all shapes, all values, all aliasings", "why_tests_cant": "triple loop over unbounded shapes", "anchors": ["src/matrices.c:zsl_mtx_mult", "src/matrices.c:zsl_mtx_mult_d"]}
{"id": "C25", "title": "Transpose", "statement": "zsl_mtx_trans stores element (j,i) at (i,j); transposing twice gives the original; wrong output shape is -EINVAL with no write.", "quantifier": "all shapes", "why_tests_cant": "all non-square shapes", "anchors": ["src/matrices.c:zsl_mtx_trans"]}
{"id": "C26", "title": "Transposing in place", "statement": "zsl_mtx_trans(m, m) transposes a square matrix in place.", "quantifier": "all square matrices", "why_tests_cant": "aliasing", "anchors": ["src/matrices.c:zsl_mtx_trans"]}
{"id": "C27", "title": "Row operations", "statement": "zsl_mtx_sum_rows_d(m,i,j) replaces row i by row i + row j and changes nothing else; zsl_mtx_sum_rows_scaled_d adds s times row j; zsl_mtx_scalar_mult_row_d and scalar_mult_d scale exactly one row / all elements; row indices outside the matrix give -EINVAL without effect and every valid row index is accepted.", "quantifier": "all shapes, rows and scalars", "why_tests_cant": "bounds logic confuses rows and columns for non-square shapes", "anchors": ["src/matrices.c:zsl_mtx_sum_rows_d", "src/matrices.c:zsl_mtx_sum_rows_scaled_d", "src/matrices.c:zsl_mtx_scalar_mult_row_d", "src/matrices.c:zsl_mtx_scalar_mult_d"]}
{"id": "C28", "title": "Minor extraction", "statement": "zsl_mtx_reduce(m, mr, i, j) on a square matrix stores the matrix with row i and column j removed, for every i, j; a wrong output shape is -EINVAL.", "quantifier": "all square sizes >= 1 and all i, j", "why_tests_cant": "all sizes and positions", "anchors": ["src/matrices.c:zsl_mtx_reduce"]}
{"id": "C29", "title": "Determinant", "statement": "zsl_mtx_deter of any square matrix of size >= 1 returns its determinant (the signed sum over all permutations), and -EINVAL for non-square shapes; hence it is multiplicative, invariant under transposition and zero exactly for singular matrices.", "quantifier": "all sizes >= 1 and all real entries", "why_tests_cant": "recursion over unbounded dimension; n! terms", "anchors": ["src/matrices.c:zsl_mtx_deter", "src/matrices.c:zsl_mtx_deter_3x3"]}
{"id": "C30", "title": "Determinant rejects non-square input safely", "statement": "zsl_mtx_deter called with any non-square matrix returns -EINVAL without accessing memory outside the matrix.", "quantifier": "all non-square shapes", "why_tests_cant": "shapes near the 1x1/2x2 shortcuts", "anchors": ["src/matrices.c:zsl_mtx_deter"]}
{"id": "C31", "title": "Adjoint of a 3x3 matrix", "statement": "For every 3x3 matrix m, zsl_mtx_adjoint gives A with m*A = A*m = det(m)*I.", "quantifier": "all 3x3 real matrices", "why_tests_cant": "polynomial identity", "anchors": ["src/matrices.c:zsl_mtx_adjoint_3x3", "src/matrices.c:zsl_mtx_adjoint"]}
{"id": "C32", "title": "Adjoint of any square matrix", "statement": "For every n >= 2 square matrix m, zsl_mtx_adjoint gives A with m*A = det(m)*I.", "quantifier": "all sizes", "why_tests_cant": "the convention differs between sizes", "anchors": ["src/matrices.c:zsl_mtx_adjoint"]}
{"id": "C33", "title": "3x3 inverse", "statement": "zsl_mtx_inv of a 3x3 matrix with non-zero determinant is its two-sided inverse; a singular one yields the identity matrix.", "quantifier": "all 3x3 real matrices", "why_tests_cant": "identity over all reals", "anchors": ["src/matrices.c:zsl_mtx_inv_3x3", "src/matrices.c:zsl_mtx_inv"]}
{"id": "C34", "title": "General inverse", "statement": "zsl_mtx_inv of an invertible n x n matrix, whenever Gauss-Jordan elimination meets no pivot smaller than 1e-6, yields its two-sided inverse; non-square inputs or output shapes give -EINVAL.", "quantifier": "all sizes and invertible matrices", "why_tests_cant": "unbounded elimination steps", "anchors": ["src/matrices.c:zsl_mtx_inv", "src/matrices.c:zsl_mtx_gauss_reduc", "src/matrices.c:zsl_mtx_gauss_elim"]}
{"id": "C35", "title": "Inverse of every invertible matrix", "statement": "zsl_mtx_inv returns the inverse for every invertible matrix (no hidden magnitude threshold).", "quantifier": "all invertible matrices", "why_tests_cant": "thresholds hit only by small entries", "anchors": ["src/matrices.c:zsl_mtx_inv", "src/matrices.c:zsl_mtx_gauss_elim"]}
{"id": "C36", "title": "Gaussian elimination of a column", "statement": "zsl_mtx_gauss_elim(m, mg, mi, i, j) makes every element of column j other than (i,j) zero by row operations, records the same operations in mi (so mi_new = E*mi and mg = E*m for one and the same E), when |m(i,j)| >= 1e-6; otherwise mg = m and mi is unchanged.", "quantifier": "all shapes and positions", "why_tests_cant": "loop invariant over rows", "anchors": ["src/matrices.c:zsl_mtx_gauss_elim", "src/matrices.c:zsl_mtx_norm_elem"]}
{"id": "C37", "title": "Gram-Schmidt", "statement": "zsl_mtx_gram_schmidt of a matrix with linearly independent columns gives a matrix whose columns are pairwise orthogonal and whose k-th column differs from the k-th input column by a combination of the earlier columns.", "quantifier": "all shapes and full-column-rank matrices", "why_tests_cant": "induction over columns", "anchors": ["src/matrices.c:zsl_mtx_gram_schmidt"]}
{"id": "C38", "title": "Column normalisation", "statement": "zsl_mtx_cols_norm scales every non-zero column to norm one.", "quantifier": "all matrices with non-zero columns", "why_tests_cant": "all shapes", "anchors": ["src/matrices.c:zsl_mtx_cols_norm"]}
{"id": "C39", "title": "Cholesky decomposition", "statement": "zsl_mtx_cholesky of a symmetric matrix whose successive pivots are positive yields a lower-triangular L with L*L^T = M and non-negative diagonal; a non-square or non-symmetric input, or an output of other shape, gives -EINVAL without effect.", "quantifier": "all sizes and all such matrices", "why_tests_cant": "nested loops over unbounded dimension; positive-definiteness", "anchors": ["src/matrices.c:zsl_mtx_cholesky"]}
{"id": "C40", "title": "Householder reflection", "statement": "zsl_mtx_householder returns a symmetric orthogonal matrix that maps the selected column onto a multiple of the first unit vector.", "quantifier": "all matrices with >= 1 rows", "why_tests_cant": "orthogonality over all reals and sizes", "anchors": ["src/matrices.c:zsl_mtx_householder"]}
{"id": "C41", "title": "QR decomposition", "statement": "zsl_mtx_qrd(m, q, r, false) of a square matrix gives q orthogonal, r upper triangular with q*r = m.", "quantifier": "all sizes >= 1 and all real square matrices", "why_tests_cant": "n-1 dependent reflections", "anchors": ["src/matrices.c:zsl_mtx_qrd"]}
{"id": "C42", "title": "Hessenberg reduction", "statement": "zsl_mtx_qrd(m, q, r, true) gives q orthogonal and r upper Hessenberg with q*r*q^T = m.", "quantifier": "all sizes >= 1 and all real square matrices", "why_tests_cant": "as above", "anchors": ["src/matrices.c:zsl_mtx_qrd"]}
{"id": "C43", "title": "QR iteration preserves the spectrum", "statement": "zsl_mtx_qrd_iter(m, mout, iter) yields, for any number of iterations, a matrix orthogonally similar to m: same characteristic polynomial, trace and determinant.", "quantifier": "all sizes, matrices and iteration counts", "why_tests_cant": "unbounded iteration", "anchors": ["src/matrices.c:zsl_mtx_qrd_iter"]}
{"id": "C44", "title": "Balancing", "statement": "zsl_mtx_balance always ends, and produces a matrix diagonally similar to the input (the scale factors are powers of two) in which no scaling of one row and column by a power of two would lower the sum of their absolute values by more than 5 %.", "quantifier": "all square matrices", "why_tests_cant": "data-dependent unbounded loop and initialisation order", "anchors": ["src/matrices.c:zsl_mtx_balance"]}
{"id": "C45", "title": "Eigenvalues of triangular matrices", "statement": "zsl_mtx_eigenvalues always ends; it returns -ECOMPLEXVAL or the eigenvalues; the multiset it returns has the matrix's eigenvalues when the iterated matrix is triangular.", "quantifier": "all square matrices and iteration counts", "why_tests_cant": "convergence and unbounded iteration", "anchors": ["src/matrices.c:zsl_mtx_eigenvalues"]}
{"id": "C46", "title": "SVD and pseudo-inverse stay inside their buffers", "statement": "zsl_mtx_svd and zsl_mtx_pinv accept any shape without out-of-bounds access.", "quantifier": "all shapes", "why_tests_cant": "shape-dependent overflow", "anchors": ["src/matrices.c:zsl_mtx_svd", "src/matrices.c:zsl_mtx_pinv"]}
{"id": "C47", "title": "Matrix extrema", "statement": "zsl_mtx_min / max return the least / greatest element; zsl_mtx_min_idx / max_idx return the first (row-major) position holding it, always inside the matrix.", "quantifier": "all non-empty matrices over ordered values", "why_tests_cant": "all sizes and tie patterns", "anchors": ["src/matrices.c:zsl_mtx_min", "src/matrices.c:zsl_mtx_max", "src/matrices.c:zsl_mtx_min_idx", "src/matrices.c:zsl_mtx_max_idx"]}
{"id": "C48", "title": "Matrix equality", "statement": "zsl_mtx_is_equal returns true exactly when the two matrices have the same shape and identical elements.", "quantifier": "all pairs of matrices", "why_tests_cant": "a wrong byte count passes every small test", "anchors": ["src/matrices.c:zsl_mtx_is_equal"]}
{"id": "C49", "title": "Symmetry and sign predicates", "statement": "zsl_mtx_is_sym on a square matrix is true exactly when m(i,j) = m(j,i) for all i,j (within its tolerance); zsl_mtx_is_notneg is true exactly when no element is negative.", "quantifier": "all matrices", "why_tests_cant": "iff over all inputs", "anchors": ["src/matrices.c:zsl_mtx_is_sym", "src/matrices.c:zsl_mtx_is_notneg"]}
{"id": "C50", "title": "Wedge product", "statement": "zsl_mtx_vec_wedge of n-1 row vectors in dimension n >= 4 yields the vector of their signed maximal minors, which is orthogonal to all of them; wrong shapes give -EINVAL without effect.", "quantifier": "all n >= 4 and all row sets", "why_tests_cant": "determinant identity in unbounded dimension", "anchors": ["src/matrices.c:zsl_mtx_vec_wedge"]}
{"id": "C51", "title": "Mean, trimmed and weighted means", "statement": "zsl_sta_mean is the arithmetic mean and lies between the least and greatest value; zsl_sta_weighted_mean rejects negative weights, all-zero weights and unequal sizes with -EINVAL and otherwise lies between the least and greatest value; equal weights give the plain mean.", "quantifier": "all data and weights of all sizes", "why_tests_cant": "convexity over all inputs", "anchors": ["src/statistics.c:zsl_sta_mean", "src/statistics.c:zsl_sta_weighted_mean", "src/vectors.c:zsl_vec_ar_mean"]}
{"id": "C52", "title": "Demeaning", "statement": "zsl_sta_demean subtracts the mean from each value; the results sum to zero.", "quantifier": "all vectors of size >= 1", "why_tests_cant": "all sizes", "anchors": ["src/statistics.c:zsl_sta_demean"]}
{"id": "C53", "title": "Percentile, median and quartiles", "statement": "zsl_sta_percentile/median/quart/iqr return order statistics between the least and greatest element for any p in (0,100), the median of an odd-sized vector being the middle element of the sorted vector.", "quantifier": "all vectors (separated values) and all p", "why_tests_cant": "index arithmetic on all sizes and p", "anchors": ["src/statistics.c:zsl_sta_percentile", "src/statistics.c:zsl_sta_median", "src/statistics.c:zsl_sta_quart", "src/statistics.c:zsl_sta_quart_range"]}
{"id": "C54", "title": "Percentile at the ends", "statement": "zsl_sta_percentile with p = 0 or p = 100 returns the least or greatest element without accessing outside the vector.", "quantifier": "all vectors", "why_tests_cant": "end-point indices", "anchors": ["src/statistics.c:zsl_sta_percentile"]}
{"id": "C55", "title": "Variance and covariance", "statement": "zsl_sta_var is non-negative and zero exactly for constant data, zsl_sta_std_dev its root, zsl_sta_covar symmetric with covar(v,v)=var(v) and covar(v,w)^2 <= var(v)var(w); unequal sizes give -EINVAL; zsl_sta_covar_mtx is symmetric.", "quantifier": "all data of size >= 2", "why_tests_cant": "inequalities over all inputs", "anchors": ["src/statistics.c:zsl_sta_var", "src/statistics.c:zsl_sta_covar", "src/statistics.c:zsl_sta_covar_mtx", "src/statistics.c:zsl_sta_sta_dev"]}
{"id": "C56", "title": "Linear regression is least squares", "statement": "zsl_sta_linear_reg returns the slope and intercept minimising the sum of squared residuals whenever the x values are not all equal, with correlation in [-1,1]; unequal sizes give -EINVAL.", "quantifier": "all data sets with non-constant x", "why_tests_cant": "minimality over all competing lines", "anchors": ["src/statistics.c:zsl_sta_linear_reg"]}
{"id": "C57", "title": "Uniform distribution", "statement": "zsl_prob_uni_cdf is non-decreasing from 0 to 1, consistent with zsl_prob_uni_pdf and mean/variance formulas for every a < b.", "quantifier": "all a < b and x", "why_tests_cant": "monotonicity over all reals", "anchors": ["src/probability.c:zsl_prob_uni_pdf", "src/probability.c:zsl_prob_uni_cdf", "src/probability.c:zsl_prob_uni_mean", "src/probability.c:zsl_prob_uni_var"]}
{"id": "C58", "title": "Binomial coefficients and factorials", "statement": "zsl_prob_factorial(n) = n! for 0 <= n <= 12 (negative gives -EINVAL) and zsl_prob_binomial_coef(n,k) = n choose k for n <= 12, 0 for k outside 0..n.", "quantifier": "all int arguments", "why_tests_cant": "overflow boundary", "anchors": ["src/probability.c:zsl_prob_factorial", "src/probability.c:zsl_prob_binomial_coef"]}
{"id": "C59", "title": "Factorials never overflow", "statement": "zsl_prob_factorial does not overflow int for any argument.", "quantifier": "all int arguments", "why_tests_cant": "overflow", "anchors": ["src/probability.c:zsl_prob_factorial"]}
{"id": "C60", "title": "Binomial distribution", "statement": "zsl_prob_binomial_pdf is non-negative and sums to 1 over 0..n; the cdf is non-decreasing and reaches 1; the mean and variance functions agree with these probabilities.", "quantifier": "all n <= 12, p in [0,1]", "why_tests_cant": "sum identity over all p", "anchors": ["src/probability.c:zsl_prob_binomial_pdf", "src/probability.c:zsl_prob_binomial_cdf"]}
{"id": "C61", "title": "Bayes' rule", "statement": "zsl_prob_bayes returns 0 with a probability in [0,1] equal to P(B|A)P(A)/P(B) or -EINVAL for inconsistent inputs.", "quantifier": "all real inputs", "why_tests_cant": "decision boundary for all reals", "anchors": ["src/probability.c:zsl_prob_bayes"]}
{"id": "C62", "title": "Entropy", "statement": "zsl_prob_entropy rejects vectors that are not probability vectors and is non-negative and at most log2(n) otherwise.", "quantifier": "all vectors", "why_tests_cant": "Jensen inequality", "anchors": ["src/probability.c:zsl_prob_entropy"]}
{"id": "C63", "title": "Interpolation search brackets the argument", "statement": "zsl_interp_find_x returns 0 and the index i of a segment containing x for ascending or descending tables, and -EINVAL with index n past the last entry and -1 before the first one; it terminates and stays inside the table for every table, sorted or not.", "quantifier": "all tables of any length, all x", "why_tests_cant": "binary search invariant", "anchors": ["src/interp.c:zsl_interp_find_x"]}
{"id": "C64", "title": "Linear interpolation", "statement": "zsl_interp_lin_y and lin_y_arr pass through the table points, lie on the line between the neighbouring points (hence between their ordinates), and return -EINVAL and NAN outside the table.", "quantifier": "all ascending tables and all x", "why_tests_cant": "all tables and x", "anchors": ["src/interp.c:zsl_interp_lin_y", "src/interp.c:zsl_interp_lin_y_arr", "src/interp.c:zsl_interp_lerp"]}
{"id": "C65", "title": "Nearest neighbour interpolation", "statement": "zsl_interp_nn_arr returns the ordinate of the table point nearest to x.", "quantifier": "all tables and x", "why_tests_cant": "threshold uses a ratio rather than the midpoint", "anchors": ["src/interp.c:zsl_interp_nn", "src/interp.c:zsl_interp_nn_arr"]}
{"id": "C66", "title": "Cubic spline hits its knots", "statement": "After zsl_interp_cubic_calc, zsl_interp_cubic_arr at every knot returns that knot's ordinate and the spline has continuous second derivative data; fewer than the minimum points gives -EINVAL.", "quantifier": "all tables of any length", "why_tests_cant": "tridiagonal elimination over unbounded length", "anchors": ["src/interp.c:zsl_interp_cubic_calc", "src/interp.c:zsl_interp_cubic_arr"]}
{"id": "C67", "title": "Quaternion product", "statement": "zsl_quat_mult is the Hamilton product: associative, identity (1,0,0,0), norm-multiplicative, correct when the output aliases an input.", "quantifier": "all quaternions and aliasings", "why_tests_cant": "identities over all reals plus aliasing", "anchors": ["src/orientation/quaternions.c:zsl_quat_mult", "src/orientation/quaternions.c:zsl_quat_mult_d"]}
{"id": "C68", "title": "Quaternion inverse and conjugate", "statement": "zsl_quat_inv(q) * q = q * zsl_quat_inv(q) = 1 for every q with magnitude at least 1e-6; conjugation is an involution and reverses products.", "quantifier": "all quaternions", "why_tests_cant": "all reals", "anchors": ["src/orientation/quaternions.c:zsl_quat_inv", "src/orientation/quaternions.c:zsl_quat_conj"]}
{"id": "C69", "title": "Quaternion normalisation", "statement": "zsl_quat_to_unit gives magnitude 1 or, for magnitude < 1e-6, the zero quaternion; zsl_quat_is_unit and is_equal decide their predicates.", "quantifier": "all quaternions", "why_tests_cant": "all reals", "anchors": ["src/orientation/quaternions.c:zsl_quat_to_unit", "src/orientation/quaternions.c:zsl_quat_is_unit", "src/orientation/quaternions.c:zsl_quat_magn"]}
{"id": "C70", "title": "Rotating by a quaternion preserves length", "statement": "zsl_quat_rot by any quaternion of magnitude at least 1e-6 maps a pure quaternion to a pure quaternion of the same norm and equals applying zsl_quat_to_rot_mtx of the normalised quaternion; rotating by a product is rotating twice; a non-pure input is rejected with -EINVAL.", "quantifier": "all quaternions and vectors", "why_tests_cant": "identity over all reals", "anchors": ["src/orientation/quaternions.c:zsl_quat_rot", "src/orientation/quaternions.c:zsl_quat_to_rot_mtx"]}
{"id": "C71", "title": "Rotation matrices", "statement": "zsl_quat_to_rot_mtx of a unit quaternion is orthogonal with determinant 1.", "quantifier": "all unit quaternions", "why_tests_cant": "polynomial identity under constraint", "anchors": ["src/orientation/quaternions.c:zsl_quat_to_rot_mtx"]}
{"id": "C72", "title": "Rotation matrix round trip", "statement": "zsl_quat_from_rot_mtx(zsl_quat_to_rot_mtx(q)) is q or -q for every unit q.", "quantifier": "all unit quaternions", "why_tests_cant": "180-degree rotations lose signs", "anchors": ["src/orientation/quaternions.c:zsl_quat_from_rot_mtx", "src/orientation/quaternions.c:zsl_quat_to_rot_mtx"]}
{"id": "C73", "title": "Euler angles give unit quaternions", "statement": "zsl_quat_from_euler returns a unit quaternion equal to the z-y-x composition of elementary rotations.", "quantifier": "all angles", "why_tests_cant": "trigonometric identity", "anchors": ["src/orientation/quaternions.c:zsl_quat_from_euler"]}
{"id": "C74", "title": "Axis-angle round trip", "statement": "zsl_quat_from_axis_angle gives a unit quaternion; converting back returns the axis and angle for angles in (0, 2pi).", "quantifier": "all axes and angles", "why_tests_cant": "trigonometric inverse ranges", "anchors": ["src/orientation/quaternions.c:zsl_quat_from_axis_angle", "src/orientation/quaternions.c:zsl_quat_to_axis_angle"]}
{"id": "C75", "title": "Quaternion interpolation", "statement": "zsl_quat_lerp / slerp return unit quaternions, the end points at t=0 and t=1, and -EINVAL for t outside [0,1].", "quantifier": "all unit quaternions and t", "why_tests_cant": "all t and all pairs", "anchors": ["src/orientation/quaternions.c:zsl_quat_lerp", "src/orientation/quaternions.c:zsl_quat_slerp"]}
{"id": "C76", "title": "Quaternion exponential, logarithm and power", "statement": "zsl_quat_exp(zsl_quat_log(q)) = q for every non-zero q; powers multiply the angle and raise the magnitude, exponents add, and natural powers are repeated products.", "quantifier": "all quaternions", "why_tests_cant": "trigonometric identities", "anchors": ["src/orientation/quaternions.c:zsl_quat_exp", "src/orientation/quaternions.c:zsl_quat_log", "src/orientation/quaternions.c:zsl_quat_pow"]}
{"id": "C77", "title": "AHRS and compass helpers", "statement": "Converting an attitude to Euler angles and back gives the same attitude; degrees/minutes/seconds conversion gives d + m/60 + s/3600 with the sign of d and rejects values out of range; the compass heading is the direction of the horizontal field in [0,360), also after adding the declination; the tilt computed from a static accelerometer is the device's roll and pitch, and the tilt compensated field is the field turned back to horizontal; the angle between two accelerations is their geometric angle; wrong sizes and zero-magnitude inputs are rejected.", "quantifier": "all angles and field vectors", "why_tests_cant": "all reals", "anchors": ["src/orientation/ahrs.c:zsl_att_to_euler", "src/orientation/ahrs.c:zsl_att_from_accel", "src/orientation/ahrs.c:zsl_att_from_accelmag", "src/orientation/ahrs.c:zsl_att_accel_angle", "src/orientation/compass.c:zsl_comp_magn_north", "src/orientation/compass.c:zsl_comp_geo_north", "src/orientation/compass.c:zsl_comp_dms_to_dd"]}
{"id": "C78", "title": "Fusion filters keep the orientation a unit quaternion", "statement": "After any history of successful Madgwick / Mahony / complementary feeds, the orientation is a unit quaternion; invalid sensor vectors are rejected with -EINVAL.", "quantifier": "all histories of sensor samples", "why_tests_cant": "invariant over unbounded histories", "anchors": ["src/orientation/fusion/madgwick.c:zsl_fus_madg_feed", "src/orientation/fusion/mahony.c:zsl_fus_mahn_feed", "src/orientation/fusion/complementary.c:zsl_fus_comp_feed"]}
{"id": "C79", "title": "Mahony integral feedback is clamped", "statement": "After any history of feeds each component of the integral feedback stays within the configured limit.", "quantifier": "all histories of samples and limits >= 0", "why_tests_cant": "invariant over unbounded histories", "anchors": ["src/orientation/fusion/mahony.c:zsl_fus_mahn_feed"]}
{"id": "C80", "title": "Calibration finds the best filter gain", "statement": "zsl_fus_cal_madg / cal_mahn return the gain minimising the recorded error over the searched values.", "quantifier": "all recorded histories", "why_tests_cant": "running minimum initialised wrongly", "anchors": ["src/orientation/fusion/calibration.c:zsl_fus_cal_madg", "src/orientation/fusion/calibration.c:zsl_fus_cal_mahn"]}
{"id": "C81", "title": "Calibration corrections are affine maps", "statement": "zsl_fus_cal_corr_scalar gives k*(d+b), zsl_fus_cal_corr_vec gives K(v+b), rejecting wrong sizes; rotations preserve length.", "quantifier": "all samples", "why_tests_cant": "all inputs", "anchors": ["src/orientation/fusion/calibration.c:zsl_fus_cal_corr_vec", "src/orientation/fusion/calibration.c:zsl_fus_cal_corr_scalar"]}
{"id": "C82", "title": "Colour space conversions invert each other", "statement": "xyY<->XYZ, CIE 1960 uv <-> xy and 1960 uv <-> 1976 u'v' conversions are mutually inverse on non-degenerate colours.", "quantifier": "all colours with non-zero denominators", "why_tests_cant": "rational identities", "anchors": ["src/colorimetry/conv.c:zsl_clr_conv_xyy_xyz", "src/colorimetry/conv.c:zsl_clr_conv_xyz_xyy", "src/colorimetry/conv.c:zsl_clr_conv_xyy_uv60"]}
{"id": "C83", "title": "RGB output is always in range", "statement": "zsl_clr_conv_xyz_rgbf / rgb8 produce channels in [0,1] / 0..255 for every input, flagging out-of-gamut inputs as invalid when capping is enabled.", "quantifier": "all XYZ values and matrices", "why_tests_cant": "clamping for all reals", "anchors": ["src/colorimetry/conv.c:zsl_clr_conv_xyz_rgbf", "src/colorimetry/conv.c:zsl_clr_conv_xyz_rgb8"]}
{"id": "C84", "title": "Spectral lookup never leaves the table", "statement": "zsl_clr_conv_spd_xyz and zsl_clr_conv_ct_xyz access only existing observer samples for every wavelength list; spectra with no usable wavelength give -EINVAL.", "quantifier": "all spectra and wavelengths", "why_tests_cant": "index arithmetic for all inputs", "anchors": ["src/colorimetry/conv.c:zsl_clr_conv_spd_xyz", "src/colorimetry/conv.c:zsl_clr_conv_ct_xyz", "src/colorimetry/lumeff.c:zsl_clr_lef_lerp"]}
{"id": "C85", "title": "Luminous efficiency interpolation", "statement": "zsl_clr_lef_lerp returns 0 outside the table, the tabulated value on a sample, and a value between its neighbours otherwise, without leaving the table.", "quantifier": "all wavelengths (unsigned int) and both functions", "why_tests_cant": "all wavelengths", "anchors": ["src/colorimetry/lumeff.c:zsl_clr_lef_lerp", "src/colorimetry/lumeff.c:zsl_clr_lef_get"]}
{"id": "C86", "title": "Physics guards", "statement": "Every physics function rejects exactly its documented invalid arguments with -EINVAL and NAN, and returns 0 with the documented formula otherwise; on a successful return no division by zero or root of a negative number occurred.", "quantifier": "all real arguments of every function", "why_tests_cant": "decision boundaries over all reals", "anchors": ["src/physics/*.c"]}
{"id": "C87", "title": "Conservation laws", "statement": "Elastic and inelastic collision helpers conserve momentum (and elastic ones kinetic energy); Bernoulli, flow-rate, Boyle, Charles and lever helpers preserve their invariants.", "quantifier": "all admissible arguments", "why_tests_cant": "algebraic identities", "anchors": ["src/physics/momentum.c", "src/physics/energy.c", "src/physics/fluids.c", "src/physics/gases.c"]}
{"id": "C88", "title": "Kinematics helpers invert each other", "statement": "initial position/velocity helpers invert displacement/velocity helpers, and projectile time-of-flight solves the height equation.", "quantifier": "all admissible arguments", "why_tests_cant": "identities over reals", "anchors": ["src/physics/kinematics.c", "src/physics/projectiles.c"]}
{"id": "C89", "title": "Centre of mass and parallel/series combination", "statement": "zsl_phy_mass_center lies between the extreme positions, series resistance is the sum and parallel resistance is positive and at most the smallest resistor, for any number of components.", "quantifier": "any number of components", "why_tests_cant": "unbounded lists", "anchors": ["src/physics/mass.c", "src/physics/eleccomp.c"]}
{"id": "C90", "title": "Temperature conversions", "statement": "Celsius/Fahrenheit/Kelvin helpers are mutually inverse and strictly increasing.", "quantifier": "all temperatures", "why_tests_cant": "all reals", "anchors": ["src/physics/thermo.c"]}
{"id": "C91", "title": "Illuminant lookup", "statement": "zsl_clr_illum_get returns 0 and the first table entry with exactly the requested illuminant and observer, or -EINVAL and leaves the output pointer alone when there is none.", "quantifier": "all observer and illuminant values", "why_tests_cant": "all enum values, including out-of-range ones", "anchors": ["src/colorimetry/illuminants.c:zsl_clr_illum_get"]}
{"id": "C92", "title": "Multiple linear regression", "statement": "zsl_sta_mult_linear_reg returns coefficients (intercept first) minimising the sum of squared residuals over all coefficient vectors, together with the coefficient of determination; collinear data (|det X'X| < 1e-6) and wrong shapes give -EINVAL and leave the output unchanged.", "quantifier": "all data matrices, any number of observations and regressors, elimination clear of the 1e-6 tolerance", "why_tests_cant": "minimality over all competing coefficient vectors", "anchors": ["src/statistics.c:zsl_sta_mult_linear_reg"]}
{"id": "C93", "title": "Weighted multiple linear regression", "statement": "zsl_sta_weighted_mult_linear_reg returns coefficients minimising the sum of squared residuals weighted with the weights passed in; weights of magnitude below 1e-6 and wrong shapes give -EINVAL.", "quantifier": "all data and all weights", "why_tests_cant": "minimality over all competing coefficient vectors", "anchors": ["src/statistics.c:zsl_sta_weighted_mult_linear_reg"]}
{"id": "C94", "title": "Quadric fitting", "statement": "zsl_sta_quad_fit returns the nine coefficients of the quadric Ax^2+By^2+Cz^2+2Dxy+2Exz+2Fyz+2Gx+2Hy+2Iz=1 with the least sum of squared residuals at the given points; wrong shapes give -EINVAL.", "quantifier": "all point sets whose normal matrix is invertible and clear of the 1e-6 tolerance", "why_tests_cant": "minimality over all competing quadrics", "anchors": ["src/statistics.c:zsl_sta_quad_fit"]}
{"id": "C95", "title": "Normal distribution", "statement": "zsl_prob_normal_cdf is 1/2 at the mean, symmetric about it, strictly increasing and has the Gaussian density as derivative; zsl_prob_normal_pdf is positive, symmetric and decreasing away from the mean; zsl_prob_normal_cdf_inv is symmetric and rejects arguments outside (0,1).", "quantifier": "all means, all positive deviations, all arguments", "why_tests_cant": "The claims relate values at infinitely many arguments (monotonicity, symmetry, derivative).", "anchors": ["src/probability.c: zsl_prob_normal_pdf, zsl_prob_normal_cdf, zsl_prob_normal_cdf_inv, zsl_prob_erf_inv"]}
{"id": "C96", "title": "Euler angles and back", "statement": "For every unit q, zsl_quat_from_euler(zsl_quat_to_euler(q)) is q or -q, zsl_quat_to_euler returns angles in the principal ranges, and zsl_quat_to_euler(zsl_quat_from_euler(e)) = e for principal angles away from gimbal lock.", "quantifier": "all unit quaternions and angles", "why_tests_cant": "quadrant and gimbal-lock cases over all reals", "anchors": ["src/orientation/quaternions.c:zsl_quat_to_euler", "src/orientation/quaternions.c:zsl_quat_from_euler"]}
{"id": "C97", "title": "Integrating angular velocity and momentum", "statement": "zsl_quat_from_ang_vel returns a unit quaternion in the direction of (1 + t/2 w) q for every w, t >= 0 and q of magnitude at least 1e-6; zero angular velocity only normalises q; zsl_quat_from_ang_mom is the same with w = l / i; bad sizes, negative times and non-positive inertia are rejected.", "quantifier": "all angular velocities, times and orientations", "why_tests_cant": "all reals, including large time steps", "anchors": ["src/orientation/quaternions.c:zsl_quat_from_ang_vel", "src/orientation/quaternions.c:zsl_quat_from_ang_mom"]}
{"id": "C98", "title": "Gravity by latitude and altitude", "statement": "zsl_grav_lat_alt rejects negative altitudes and latitudes outside [-90,90] (and nothing else) with -EINVAL; otherwise gravity at sea level is between 9.78 and 9.84, is the same north and south, does not decrease from the equator to 89.999 degrees and falls linearly with altitude.", "quantifier": "all latitudes and altitudes", "why_tests_cant": "monotonicity and range over all reals", "anchors": ["src/orientation/gravity.c:zsl_grav_lat_alt"]}
{"id": "C99", "title": "Mahony corrections vanish on consistent readings", "statement": "When the accelerometer and magnetometer readings are exactly those the current orientation predicts, zsl_fus_mahn_feed leaves the integral feedback unchanged and the new orientation is the pure integration of the angular velocity plus that feedback.", "quantifier": "all unit orientations, readings of any length above 1e-6, gains, sampling rates and angular velocities", "why_tests_cant": "universally quantified equilibrium property of a nonlinear filter", "anchors": ["src/orientation/fusion/mahony.c:zsl_fus_mahn_feed", "src/orientation/fusion/mahony.c:zsl_fus_mahony"]}
{"id": "C100", "title": "Madgwick corrections are gradient steps", "statement": "The correction zsl_fus_madg_feed subtracts is the normalised gradient, with respect to the orientation, of half the squared misalignment of the readings.", "quantifier": "all orientations, readings and gains", "why_tests_cant": "statement about a derivative at every point", "anchors": ["src/orientation/fusion/madgwick.c:zsl_fus_madg_imu_feed", "src/orientation/fusion/madgwick.c:zsl_fus_madgwick"]}
{"id": "C101", "title": "SAAM aligns both readings", "statement": "zsl_fus_saam_feed returns a unit quaternion that turns the measured gravity onto the vertical and the measured field into the north-vertical plane.", "quantifier": "all pairs of accelerometer and magnetometer readings outside the degenerate directions", "why_tests_cant": "algebraic identity over all readings", "anchors": ["src/orientation/fusion/saam.c:zsl_fus_saam_feed", "src/orientation/fusion/saam.c:zsl_fus_saam"]}
{"id": "C102", "title": "AQUA moves the orientation towards the readings", "statement": "zsl_fus_aqua_feed keeps a unit orientation; its accelerometer correction turns the predicted gravity towards the vertical (all the way for alpha 1, not at all for alpha 0) and its magnetometer correction turns the predicted field towards north without disturbing the predicted gravity; gains outside [0,1] are rejected.", "quantifier": "all orientations, readings, rates, gains and sampling frequencies", "why_tests_cant": "geometric property over a continuum of states", "anchors": ["src/orientation/fusion/aqua.c:zsl_fus_aqua_feed", "src/orientation/fusion/aqua.c:zsl_fus_aqua"]}
{"id": "C103", "title": "Kalman feed is the extended Kalman filter update", "statement": "zsl_fus_kalm_feed propagates the covariance as F P F^t plus process noise, forms the gain K = P H^t S^-1 with S = H P H^t + R, adds K times the innovation to the predicted orientation, normalises it, and leaves (1 - K H) P in the caller's configuration; the predicted covariance stays symmetric positive semi-definite; H is the derivative of the measurement prediction, so that a reading that agrees with the predicted orientation leaves it alone. The orientation the filter starts from agrees with the first readings.", "quantifier": "all orientations, covariances, variances, readings and sampling frequencies for which S is invertible", "why_tests_cant": "matrix identities over all states; consistency of a Jacobian with its function", "anchors": ["src/orientation/fusion/kalman.c:zsl_fus_kalman", "src/orientation/fusion/kalman.c:zsl_fus_kalm_feed", "src/orientation/fusion/kalman.c:zsl_fus_kalm_P_init", "src/orientation/fusion/kalman.c:zsl_fus_kalm_quat_init"]}
{"id": "C104", "title": "Filters agree when only the gyroscope speaks", "statement": "When the accelerometer and magnetometer readings are absent or zero, the Madgwick, Mahony, complementary and AQUA filters all return the same orientation: the old one turned by the measured rate over one sample period.", "quantifier": "all orientations, rates, gains and sampling frequencies", "why_tests_cant": "equality of four programs on every input", "anchors": ["src/orientation/fusion/madgwick.c:zsl_fus_madg_feed", "src/orientation/fusion/mahony.c:zsl_fus_mahn_feed", "src/orientation/fusion/complementary.c:zsl_fus_comp_feed", "src/orientation/fusion/aqua.c:zsl_fus_aqua_feed"]}
{"id": "C105", "title": "A feed only normalises the caller's readings", "statement": "After a feed of any filter the caller's accelerometer and magnetometer vectors hold either the values passed in or those values scaled to unit length, and the gyroscope vector is unchanged.", "quantifier": "all readings and states", "why_tests_cant": "frame condition over all inputs and branches", "anchors": ["src/orientation/fusion/madgwick.c:zsl_fus_madg_feed", "src/orientation/fusion/mahony.c:zsl_fus_mahn_feed", "src/orientation/fusion/complementary.c:zsl_fus_comp_feed", "src/orientation/fusion/aqua.c:zsl_fus_aqua_feed"]}
{"id": "C106", "title": "RGB matrices keep colours apart", "statement": "zsl_clr_rgbccm_get answers, for every enumerated colour space, a 3 x 3 matrix that maps different tristimulus values to different linear RGB triples, and the sRGB matrix sends the D65 white point to equal channels near 1.", "quantifier": "all enumerated matrices and all pairs of tristimulus values", "why_tests_cant": "injectivity over all reals", "anchors": ["src/colorimetry/rgbccm.c:zsl_clr_rgbccm_get"]}
{"id": "C107", "title": "Spectrum normalisation", "statement": "zsl_clr_conv_norm_spd rejects an all-zero spectrum, scales every other one so that its largest component is 1, preserves the ratios of the components and is idempotent.", "quantifier": "all spectra of any length", "why_tests_cant": "unbounded lists of reals", "anchors": ["src/colorimetry/conv.c:zsl_clr_conv_norm_spd"]}
{"id": "C108", "title": "Correlated colour temperature", "statement": "zsl_clr_conv_uv60_cct answers for every (u, v) with valid flags: -EINVAL out of the table's range, otherwise the temperature of the perpendicular foot on the chord between the neighbours of the nearest entry (Ohno 2014) or McCamy's cubic; colours flagged invalid are always rejected.", "quantifier": "all chromaticities, flags and methods", "why_tests_cant": "nearest-entry search and formulas over all reals", "anchors": ["src/colorimetry/conv.c:zsl_clr_conv_uv60_cct", "src/colorimetry/conv.c:zsl_clr_conv_uv60_cct_ohno2014", "src/colorimetry/conv.c:zsl_clr_conv_uv60_cct_mccamy"]}
{"id": "C109", "title": "Colour at a distance from the black-body locus", "statement": "zsl_clr_conv_cct_xyy answers the chromaticity at distance |Duv| from the black body's (u, v), on the normal to the locus, on the side given by the sign of Duv.", "quantifier": "all temperatures, small Duv and both observers", "why_tests_cant": "geometry over all reals", "anchors": ["src/colorimetry/conv.c:zsl_clr_conv_cct_xyy"]}
{"id": "C110", "title": "Black-body colours", "statement": "zsl_clr_conv_ct_xyz integrates Planck's law against the observer's colour matching functions, scaled to luminance 1; hotter black bodies are strictly bluer, so different temperatures give different chromaticities.", "quantifier": "all temperatures and observers", "why_tests_cant": "monotonicity of transcendental sums over all temperatures", "anchors": ["src/colorimetry/conv.c:zsl_clr_conv_ct_xyz", "src/colorimetry/conv.c:zsl_clr_conv_ct_uv60", "src/colorimetry/conv.c:zsl_clr_conv_bbody"]}
{"id": "C111", "title": "Transients and decay", "statement": "The RC charging/discharging, RL current and radioactive decay helpers report, at every time, the solution of their differential equation: initial value, rate of change, bounds, limit at infinity, Kirchhoff's voltage law between charge and current, and decaying in two steps equals decaying in one.", "quantifier": "all component values and all times t >= 0", "why_tests_cant": "derivatives, limits and identities over all real times", "anchors": ["src/physics/eleccomp.c:zsl_phy_ecmp_rc_charg_q", "src/physics/eleccomp.c:zsl_phy_ecmp_rc_charg_i", "src/physics/eleccomp.c:zsl_phy_ecmp_rc_discharg_q", "src/physics/eleccomp.c:zsl_phy_ecmp_rc_discharg_i", "src/physics/eleccomp.c:zsl_phy_ecmp_rl_current", "src/physics/atomic.c:zsl_phy_atom_rad_decay"]}
{"id": "C112", "title": "Modes", "statement": "zsl_sta_mode writes exactly the most frequent values of the data, each once, and sets the size of the output to their number.", "quantifier": "all data vectors of any length whose distinct values are resolvable", "why_tests_cant": "unbounded lists and ties", "anchors": ["src/statistics.c:zsl_sta_mode"]}
{"id": "C113", "title": "Time-weighted mean", "statement": "zsl_sta_time_weighted_mean is the area below the polygon through the samples divided by the duration, independent of the order in which the samples are given, and lies between the least and greatest sample; sizes that differ, negative samples and repeated times are rejected.", "quantifier": "all numbers and orders of samples", "why_tests_cant": "all permutations of unbounded lists", "anchors": ["src/statistics.c:zsl_sta_time_weighted_mean"]}
{"id": "C114", "title": "Weighted median", "statement": "zsl_sta_weighted_median returns a value such that at most half of the weight belongs to smaller data and at most half to larger data; bad sizes and weights are rejected.", "quantifier": "all data and weights", "why_tests_cant": "unbounded lists in any order", "anchors": ["src/statistics.c:zsl_sta_weighted_median"]}
{"id": "C115", "title": "Median absolute deviation", "statement": "zsl_sta_median_abs_dev is the median of the absolute deviations from the median, and is non-negative.", "quantifier": "all data vectors", "why_tests_cant": "unbounded lists", "anchors": ["src/statistics.c:zsl_sta_median_abs_dev"]}
{"id": "C116", "title": "Absolute and relative error", "statement": "zsl_sta_abs_err is symmetric, non-negative and zero only for equal values; zsl_sta_rel_err is the non-negative percentage of deviation from the reference, whatever the unit.", "quantifier": "all pairs of reals", "why_tests_cant": "all reals", "anchors": ["src/statistics.c:zsl_sta_abs_err", "src/statistics.c:zsl_sta_rel_err"]}
{"id": "C117", "title": "Dot product: rounding error", "statement": "When the double-precision result of zsl_vec_dot is finite, every input was finite and the result differs from the exact dot product by at most ((1+2^-53)^(n+1)-1) times the sum of |v_i w_i| plus a bounded underflow term.", "quantifier": "all pairs of vectors of doubles of any length", "why_tests_cant": "the bound must hold for every bit pattern and every length", "anchors": ["src/vectors.c:zsl_vec_dot"]}
{"id": "C118", "title": "Arithmetic mean: rounding error", "statement": "When the double-precision result of zsl_vec_ar_mean or zsl_sta_mean is finite it differs from the exact mean by at most ((1+2^-53)^(n+1)-1) times the mean of the absolute values, plus 2^-1075; it may nevertheless leave the range of the data.", "quantifier": "all non-empty vectors of doubles shorter than 2^53", "why_tests_cant": "all bit patterns, all lengths", "anchors": ["src/vectors.c:zsl_vec_ar_mean", "src/statistics.c:zsl_sta_mean"]}
{"id": "C119", "title": "Norm, distance, normalisation: rounding error", "statement": "Finite double-precision results of zsl_vec_norm and zsl_vec_dist are within a relative error of about (n+3) 2^-53 (plus underflow) of the exact values; zsl_vec_to_unit of a vector with finite norm above 2^-400 yields finite components each within (n+6) 2^-53 relative of the exact direction.", "quantifier": "all vectors of doubles (normalisation: up to 2^20 elements)", "why_tests_cant": "all bit patterns, all lengths", "anchors": ["src/vectors.c:zsl_vec_norm", "src/vectors.c:zsl_vec_dist", "src/vectors.c:zsl_vec_to_unit"]}
{"id": "C120", "title": "Matrix product: rounding error", "statement": "Every finite element of the double-precision product computed by zsl_mtx_mult comes from finite elements and is within ((1+2^-53)^(n+1)-1) * sum |a_ik b_kj| (plus underflow) of the exact element.", "quantifier": "all shapes and all elements", "why_tests_cant": "all shapes and bit patterns", "anchors": ["src/matrices.c:zsl_mtx_mult"]}
{"id": "C121", "title": "Symmetries that survive rounding", "statement": "In double precision, bit for bit: dot(v,w) = dot(w,v), dist(v,w) = dist(w,v), and the product of the transposes in reverse order is the transpose of the product.", "quantifier": "all doubles including infinities and NaN", "why_tests_cant": "all bit patterns", "anchors": ["src/vectors.c:zsl_vec_dot", "src/vectors.c:zsl_vec_dist", "src/matrices.c:zsl_mtx_mult"]}
{"id": "C122", "title": "Linear interpolation in double precision", "statement": "zsl_interp_lerp at t = 0 and t = 1 returns exactly the end points, and for t between it is within three roundings of the exact interpolation.", "quantifier": "all finite doubles, all t in [0,1]", "why_tests_cant": "all bit patterns", "anchors": ["src/interp.c:zsl_interp_lerp"]}
{"id": "C123", "title": "Variance in double precision", "statement": "The double-precision sample variance is never negative when finite, the standard deviation is then a finite number within one rounding of its square root, and the error of the variance is relative to the variance itself: a large common offset enters only through the square of the error of the mean.", "quantifier": "all vectors of 2 to 2^53 doubles", "why_tests_cant": "all bit patterns, all lengths", "anchors": ["src/statistics.c:zsl_sta_var", "src/statistics.c:zsl_sta_std_dev"]}
{"id": "C124", "title": "Least-squares magnetometer calibration", "statement": "When the readings lie on an ellipsoid around the origin, the fast magnetometer calibration returns exactly minus the centre of the ellipsoid as hard-iron correction, and the correction function with the returned matrix and offset maps every point of that ellipsoid (not only the readings) to a vector of one and the same magnitude; unsuitable shapes and negative field strengths are refused without touching the outputs. The documented magnitude and symmetry of the matrix do not hold.", "quantifier": "all ellipsoids, all numbers of readings that determine them, all field strengths, all points of the ellipsoid", "why_tests_cant": "a continuum of ellipsoids and readings; the claim is about every point of the surface", "anchors": ["src/orientation/fusion/calibration.c:zsl_fus_cal_magn_fast", "src/orientation/fusion/calibration.c:zsl_fus_cal_corr_vec"]}
{"id": "C125", "title": "Levenberg-Marquardt magnetometer calibration", "statement": "The iterative magnetometer calibration is a fixed point on perfect data: readings on a sphere that include its ends on each axis are answered with minus the centre and the identity matrix, so that corrected readings keep the radius as magnitude, and the damping parameter ends multiplied by mu for every reading after the first. Whatever the readings and the arithmetic, an accepted call answers a symmetric matrix; wrong shapes or mu < 1 are refused without touching the outputs.", "quantifier": "all spheres, all numbers of readings, all damping parameters; for symmetry all readings and all arithmetics", "why_tests_cant": "unbounded numbers of readings and iterations over a continuum", "anchors": ["src/orientation/fusion/calibration.c:zsl_fus_cal_magn"]}
{"id": "C126", "title": "Memory safety of the matrix functions in every arithmetic", "statement": "Whatever numbers the operands hold (infinities, NaNs, singular matrices included) and in whatever arithmetic, the matrix functions given filled operands and output memory of the documented size never touch memory outside their operands or use an indeterminate value, always end, and leave outputs all of whose elements are set: copy, product, transpose, determinant, adjoint, Gaussian elimination and reduction, inverse, wedge, Gram-Schmidt, column normalisation, Cholesky, Householder, QR and QR iteration. In binary64 the calls always return. Balancing and eigenvalues never go out of bounds. The eigenvectors do not have this property: close eigenvalues overflow the caller's buffer.", "quantifier": "all matrix sizes, all contents, all arithmetics in which division and square root answer a number or nothing, bounds checks on or off", "why_tests_cant": "all sizes and all bit patterns; an overflow shows only for particular contents", "anchors": ["src/matrices.c:zsl_mtx_inv", "src/matrices.c:zsl_mtx_qrd", "src/matrices.c:zsl_mtx_gauss_reduc", "src/matrices.c:zsl_mtx_deter", "src/matrices.c:zsl_mtx_eigenvalues", "src/matrices.c:zsl_mtx_eigenvectors"]}
{"id": "C127", "title": "Memory safety of the fusion filters for every history of readings", "statement": "Whatever readings are fed to the Madgwick, Mahony, complementary, SAAM, AQUA and Kalman filters, one after the other and without end (infinities, NaNs, zero vectors, absent optional readings), with whatever gains and initial orientation, no feed touches memory outside its operands, dereferences NULL or uses an indeterminate value; in binary64, with any mathematical library, every feed returns. The same for the searches for the Madgwick and Mahony gains over recordings of any length. SAAM, and the first feed of AQUA, need their readings present when bounds checks are on; a second Kalman instance with its own covariance matrix does not have the property. In exact arithmetic no feed of the Madgwick, Mahony, complementary and initialised Kalman filters divides by zero or takes the root of a negative number.", "quantifier": "all finite histories of readings of any contents, all gains, frequencies and states; bounds checks on or off", "why_tests_cant": "unbounded histories over all bit patterns; a NaN from one feed is the state of the next", "anchors": ["src/orientation/fusion/madgwick.c:zsl_fus_madg_feed", "src/orientation/fusion/mahony.c:zsl_fus_mahn_feed", "src/orientation/fusion/complementary.c:zsl_fus_comp_feed", "src/orientation/fusion/saam.c:zsl_fus_saam_feed", "src/orientation/fusion/aqua.c:zsl_fus_aqua_feed", "src/orientation/fusion/kalman.c:zsl_fus_kalm_feed", "src/orientation/fusion/calibration.c:zsl_fus_cal_madg"]}
{"id": "C128", "title": "Singular value decomposition and pseudo-inverse", "statement": "For a matrix with at least as many rows as columns, the singular value decomposition answers u, e and v with m = u e v^T, e diagonal holding the square roots of the eigenvalues of m^T m, v orthogonal and the columns of u orthonormal; the pseudo-inverse answered satisfies the four Penrose equations, so it inverts an invertible matrix.", "quantifier": "all matrices of all sizes with r >= c > 0, all numbers of iterations, all buffers with room", "why_tests_cant": "unbounded sizes and a continuum of contents; the pairing of eigenvalues with eigenvectors depends on which eigenvalues coincide", "anchors": ["src/matrices.c:zsl_mtx_svd", "src/matrices.c:zsl_mtx_pinv"]}
{"id": "C129", "title": "Eigenvectors", "statement": "The columns answered by the eigenvector computation are linearly independent eigenvectors for the reported eigenvalues, as many as the eigenspaces of the different reported values have dimensions together, with return code 0 exactly when there are n of them; unit vectors on request, orthonormal for a symmetric matrix; column j belongs to the j-th reported eigenvalue. The Gauss-Jordan reduction it relies on keeps the solutions of every square system, singular or not, and answers a reduced form.", "quantifier": "all square matrices of all sizes whose eliminations meet no number other than 0 below 1e-6, all numbers of iterations", "why_tests_cant": "unbounded sizes and a continuum of contents, including all singular and defective matrices", "anchors": ["src/matrices.c:zsl_mtx_eigenvectors", "src/matrices.c:zsl_mtx_gauss_reduc", "src/matrices.c:zsl_mtx_eigenvalues"]}
{"id": "C130", "title": "Execution time", "statement": "Between the start and the stop macros of the instrumentation header, with a 32-bit cycle counter that advances by d < 2^32 cycles in between, the time reported is that of d cycles, also when the counter wraps.", "quantifier": "all start values and all elapsed cycles", "why_tests_cant": "the wrap-around happens once in 2^32 cycles; every start value counts", "anchors": ["include/zsl/instrumentation.h:ZSL_INSTR_START", "include/zsl/instrumentation.h:ZSL_INSTR_STOP"]}
{"id": "C131", "title": "Measurement header", "statement": "The members of the measurement header and its three 32-bit words determine each other: writing the members and reading the words, or the reverse, loses nothing, no two members share a bit, and the scale factor keeps its sign.", "quantifier": "all values of all members within their widths and all 2^96 contents of the words", "why_tests_cant": "2^96 contents", "anchors": ["include/zsl/measurement/measurement.h:zsl_mes_header"]}
{"id": "C132", "title": "Printing", "statement": "Printing a vector, a matrix, a quaternion or Euler angles hands every element to printf exactly once, in order (matrices row by row, a newline after each row), returns 0 and reads nothing but the operand.", "quantifier": "all sizes and shapes, all contents, every arithmetic", "why_tests_cant": "unbounded sizes", "anchors": ["src/vectors.c:zsl_vec_print", "src/matrices.c:zsl_mtx_print", "src/orientation/quaternions.c:zsl_quat_print", "src/orientation/euler.c:zsl_eul_print"]}
{"id": "C133", "title": "Shell commands", "statement": "Whatever words follow them, the gravity and colour temperature shell commands end with code 0 or -EINVAL without reading a word that is not there; for a latitude between -90 and 90 and an altitude from -500 m to 10000 m the gravity command prints the library's gravity, and for a positive colour temperature the colour commands print the library's colour for sRGB, every channel from 0 to 255.", "quantifier": "all argument lists, all conversions of text to numbers", "why_tests_cant": "unbounded inputs", "anchors": ["src/orientation/shell.c:zsl_orient_shell_cmd_lat2g", "src/colorimetry/shell.c:zsl_clr_shell_cmd_ct2rgb", "src/colorimetry/shell.c:zsl_clr_shell_cmd_ct2rgbf"]}
{"id": "C134", "title": "Random initialisation", "statement": "Initialising a matrix with the random entry function stores random numbers between -1.0 and 1.0.", "quantifier": "all shapes", "why_tests_cant": "all shapes, and randomness", "anchors": ["src/matrices.c:zsl_mtx_entry_fn_random", "src/matrices.c:zsl_mtx_init"]}
{"id": "C135", "title": "Memory safety of interpolation, statistics and magnetometer calibration", "statement": "Whatever the numbers are (infinities and NaNs included), the interpolation functions, the means, spreads, covariances, regressions, mode and quadric fit, and the magnetometer calibrations read and write only inside their operands and never use an indeterminate value; the search in a table always ends, sorted or not, and answers an interval of the table; with an arithmetic in which division and square root always answer (IEEE 754), every such call returns.", "quantifier": "every lawful arithmetic (exact reals and doubles included), every table, vector and matrix size, every content, with or without bounds checks", "why_tests_cant": "all sizes and all contents, including unsorted tables, NaNs and infinities; memory errors need not show in a test run", "anchors": ["src/interp.c:zsl_interp_find_x", "src/interp.c:zsl_interp_lin_y_arr", "src/interp.c:zsl_interp_cubic_calc", "src/interp.c:zsl_interp_cubic_arr", "src/statistics.c:zsl_sta_mode", "src/statistics.c:zsl_sta_covar_mtx", "src/statistics.c:zsl_sta_mult_linear_reg", "src/statistics.c:zsl_sta_quad_fit", "src/orientation/fusion/calibration.c:zsl_fus_cal_magn", "src/orientation/fusion/calibration.c:zsl_fus_cal_magn_fast"]}
{"id": "C136", "title": "Orientations keep unit length in double precision", "statement": "In IEEE 754 double precision zsl_quat_to_unit always answers, and an answer whose components are finite is zero or has a squared length within 9*2^-53 of 1. Hence after any history of readings the orientation kept by the Madgwick, Mahony, complementary, SAAM, AQUA and Kalman filters is the one it started from, or a unit quaternion up to that error, or zero, or not finite: rounding errors never accumulate in its length. When only the gyroscope speaks and its rates are finite, the orientation of the Madgwick, Mahony and complementary filters stays a unit quaternion for ever.", "quantifier": "all double quaternions; all histories of readings of any length, infinities and NaNs included, all gains, frequencies and mathematical libraries; for the gyroscope, all rates up to 2^200", "why_tests_cant": "drift only shows after arbitrarily long histories, and the inputs near overflow, underflow and the 1e-6 threshold form sets no test suite enumerates", "anchors": ["src/orientation/quaternions.c: zsl_quat_to_unit, zsl_quat_from_ang_vel", "src/orientation/fusion/madgwick.c: zsl_fus_madg_feed", "src/orientation/fusion/mahony.c: zsl_fus_mahn_feed", "src/orientation/fusion/complementary.c: zsl_fus_comp_feed", "src/orientation/fusion/saam.c: zsl_fus_saam_feed", "src/orientation/fusion/aqua.c: zsl_fus_aqua_feed", "src/orientation/fusion/kalman.c: zsl_fus_kalm_feed"]}
{"id": "C137", "title": "Recovery of the fusion filters from a reading that is not a number", "statement": "A reading with a NaN should cost at most one feed: the filter refuses it, or treats the sensor as absent, or recovers with the next good readings.", "quantifier": "all histories of double readings before and after the bad one, all gains, frequencies and mathematical libraries", "why_tests_cant": "whether a filter ever recovers is a statement about all later histories, of any length", "anchors": ["src/orientation/fusion/madgwick.c: zsl_fus_madg_feed", "src/orientation/fusion/mahony.c: zsl_fus_mahn_feed", "src/orientation/fusion/complementary.c: zsl_fus_comp_feed", "src/orientation/fusion/saam.c: zsl_fus_saam_feed", "src/orientation/fusion/aqua.c: zsl_fus_aqua_feed", "src/orientation/fusion/kalman.c: zsl_fus_kalm_feed"]}
{"id": "C138", "title": "Eigenvalues of symmetric matrices converge", "statement": "For a symmetric matrix whose non-zero eigenvalues are never opposite to each other (in particular every positive semidefinite matrix, and m^T m for every m), the values zsl_mtx_eigenvalues reports converge, as the number of iterations grows, to the eigenvalues with their multiplicities, and zsl_mtx_qrd_iter converges to the diagonal matrix of them. With an opposite pair the reported values need not converge to the eigenvalues.", "quantifier": "all sizes, all symmetric real matrices of the stated kinds, all numbers of iterations (limit)", "why_tests_cant": "A limit over the number of iterations, for matrices of any size, including repeated eigenvalues where textbook convergence proofs do not apply.", "anchors": ["src/matrices.c:zsl_mtx_eigenvalues", "src/matrices.c:zsl_mtx_qrd_iter", "src/matrices.c:zsl_mtx_qrd", "src/matrices.c:zsl_mtx_svd"]}
{"id": "C139", "title": "Mahony's filter at rest settles on the measured vertical", "statement": "Fed again and again with the same accelerometer reading (and magnetometer reading, when there is one) and a zero angular velocity, zsl_fus_mahn_feed brings the direction its orientation predicts for the accelerometer towards the measured one.", "quantifier": "all unit orientations, readings above 1e-6, positive gains within the stability limit, sampling frequencies and numbers of feeds (limit)", "why_tests_cant": "a limit over an unbounded number of feeds from a continuum of initial orientations; the unit tests make one feed", "anchors": ["src/orientation/fusion/mahony.c: zsl_fus_mahn_feed", "src/orientation/fusion/mahony.c: zsl_fus_mahony_imu", "src/orientation/fusion/mahony.c: zsl_fus_mahony"]}
{"id": "C140", "title": "The complementary filter at rest settles on the accelerometer-magnetometer orientation", "statement": "Fed again and again with the same accelerometer and magnetometer readings and a zero angular velocity, zsl_fus_comp_feed makes the orientation tend to the one zsl_att_from_accelmag gives for those readings, unless it starts at exactly its opposite.", "quantifier": "all unit orientations, readings above 1e-6, gains in (0,1] not within 5e-7 of 1/2, sampling frequencies and numbers of feeds (limit)", "why_tests_cant": "a limit over an unbounded number of feeds", "anchors": ["src/orientation/fusion/complementary.c: zsl_fus_comp_feed", "src/orientation/fusion/complementary.c: zsl_fus_comp"]}
{"id": "C141", "title": "AQUA at rest settles on the measured vertical", "statement": "Fed again and again with the same accelerometer reading and a zero angular velocity, zsl_fus_aqua_feed reduces 1 - cos of the angle between the measured and the predicted vertical at least by the factor 1 - alpha^2 per feed, with or without a magnetometer, so the angle tends to zero.", "quantifier": "all unit orientations that are not exactly upside down, readings above 1e-6, gains, thresholds below 1 - 1e-6, sampling frequencies and numbers of feeds", "why_tests_cant": "a rate of convergence over an unbounded number of feeds from a continuum of orientations", "anchors": ["src/orientation/fusion/aqua.c: zsl_fus_aqua_feed", "src/orientation/fusion/aqua.c: zsl_fus_aqua"]}
{"id": "C142", "title": "Madgwick's filter at rest settles on the measured vertical", "statement": "Fed again and again with the same accelerometer reading and a zero angular velocity, zsl_fus_madg_feed moves its orientation until it predicts the measured direction, and stays there.", "quantifier": "all unit orientations, readings above 1e-6, gains and sampling frequencies, numbers of feeds", "why_tests_cant": "a limit over an unbounded number of feeds from a continuum of orientations", "anchors": ["src/orientation/fusion/madgwick.c: zsl_fus_madg_feed", "src/orientation/fusion/madgwick.c: zsl_fus_madgwick_imu"]}
{"id": "C143", "title": "Gyroscope readings turn the predicted directions as a turning body sees them", "statement": "A feed with a gyroscope reading only turns every direction the orientation predicts by the opposite of the reported turn (angular velocity times period), as a body that makes this turn sees its surroundings, up to the third order of the angle.", "quantifier": "all unit orientations, axes, rates, sampling frequencies and fixed directions", "why_tests_cant": "a geometric identity over a continuum of orientations, rates and directions", "anchors": ["src/orientation/fusion/aqua.c: zsl_fus_aqua_feed", "src/orientation/fusion/mahony.c: zsl_fus_mahn_feed", "src/orientation/fusion/madgwick.c: zsl_fus_madg_feed", "src/orientation/quaternions.c: zsl_quat_from_ang_vel"]}
{"id": "C144", "title": "Eight-bit colours in double precision", "statement": "zsl_clr_conv_xyz_rgb8 in double precision stores, for every colour and matrix, three bytes that are the exact linear channel values limited to [0, 1], scaled to 255 and rounded down, up to the rounding errors of the matrix product, saturates when a channel overflows, and flags every channel outside [0, 1).", "quantifier": "all double tristimulus values (also infinite and NaN), 3x3 matrices and both cap settings, every processor conversion to integers that follows C's rule", "why_tests_cant": "the double inputs are too many to enumerate and the failing ones (NaN, overflow) come from other conversions that report success", "anchors": ["src/colorimetry/conv.c: zsl_clr_conv_xyz_rgb8", "src/colorimetry/conv.c: zsl_clr_conv_xyz_rgbf", "src/colorimetry/conv.c: zsl_clr_conv_xyy_xyz"]}
{"id": "C145", "title": "Quaternion and cross products in double precision", "statement": "A finite result of zsl_quat_mult in double precision is within 2*gam(4)*|p||q| plus ten underflow units of the exact Hamilton product, whichever of the arguments the result overwrites and with no other quaternion changed; every finite component of zsl_vec_cross is within two roundings of the exact component, relative to the two products it subtracts.", "quantifier": "all double quaternions and 3-vectors, including zeros, subnormals, infinities and NaN as inputs, all aliasings of the quaternions", "why_tests_cant": "a bound for all doubles, including cancellation and underflow, cannot be sampled", "anchors": ["src/orientation/quaternions.c: zsl_quat_mult", "src/vectors.c: zsl_vec_cross"]}
{"id": "C146", "title": "Rotating a vector in double precision", "statement": "zsl_quat_rot in double precision returns, for any finite quaternion that is not tiny or huge (it need not be a unit quaternion) and any vector of length between 2^-400 and 2^400, a finite vector within 43*2^-53 of its length of the exactly rotated vector; lengths change by at most 86*2^-53 relatively.", "quantifier": "all finite double quaternions with squared norm at least 2e-12 and components up to 2^480, all double vectors of length 2^-400 to 2^400, with and without bounds checks", "why_tests_cant": "the bound covers every rounding of a normalisation, an inversion and two products for all doubles in range", "anchors": ["src/orientation/quaternions.c: zsl_quat_rot", "src/orientation/quaternions.c: zsl_quat_to_unit", "src/orientation/quaternions.c: zsl_quat_inv"]}
{"id": "C147", "title": "Determinant in double precision", "statement": "A finite determinant computed by zsl_mtx_deter in double precision differs from the exact determinant by at most n^2 roundings relative to the sum of the absolute values of all n! products, plus an underflow term.", "quantifier": "all n >= 1 and all n x n double matrices, also with infinite and NaN elements (then the result is not finite)", "why_tests_cant": "unbounded size, and cancellation among n! products is worst at inputs no test picks", "anchors": ["src/matrices.c: zsl_mtx_deter", "src/matrices.c: zsl_mtx_deter_3x3", "src/matrices.c: zsl_mtx_reduce"]}
{"id": "C148", "title": "Memory safety of vectors, quaternions, attitudes, probabilities and circuits in every arithmetic", "statement": "The vector, quaternion, attitude, compass, probability and circuit functions never touch memory outside their operands and never use an indeterminate value, whatever the numbers are (infinities and NaN included), and in double precision they always return; with bounds checks on, arguments of any size are accepted or refused with -EINVAL and an unchanged output.", "quantifier": "all vectors of any size with values in all elements, all memories of quaternions with any aliasing, all numbers, both settings of CONFIG_ZSL_BOUNDS_CHECKS, every arithmetic whose division and square root have no side effects", "why_tests_cant": "all sizes, all bit patterns and any mathematical library; an overrun or an indeterminate read need not fail a test", "anchors": ["src/vectors.c: zsl_vec_add", "src/vectors.c: zsl_vec_sum", "src/vectors.c: zsl_vec_copy", "src/orientation/quaternions.c: zsl_quat_to_unit", "src/orientation/quaternions.c: zsl_quat_from_rot_mtx", "src/orientation/ahrs.c: zsl_att_from_accelmag", "src/orientation/compass.c: zsl_comp_geo_north", "src/probability.c: zsl_prob_entropy", "src/physics/electricity.c: zsl_phy_elcty_res_parallel", "src/physics/mass.c: zsl_phy_mass_center"]}
{"id": "C149", "title": "Sorting, range, median and quartiles of double-precision data", "statement": "Sorting finite doubles (any two of which, and zero, are equal or at least 1e-5 apart) yields a permutation of them in ascending order exactly, even when differences formed on the way overflow; the median and quartiles are those of the exact data, exactly when the number of data is odd and with two roundings otherwise; the range is the largest minus the smallest with one rounding.", "quantifier": "all vectors of any length of finite doubles with that separation, whatever lies behind the scratch array, every mathematical library whose floor and integer conversion are exact below 2^31", "why_tests_cant": "all lengths, orders and bit patterns, including values whose differences overflow", "anchors": ["src/vectors.c: zsl_vec_sort", "src/statistics.c: zsl_sta_percentile", "src/statistics.c: zsl_sta_median", "src/statistics.c: zsl_sta_quart", "src/statistics.c: zsl_sta_data_range"]}
{"id": "C150", "title": "Cholesky decomposition in double precision", "statement": "A symmetric matrix of finite doubles is always accepted and the result is lower triangular; wherever the computed factor L is finite, L times its transpose differs from the given matrix by at most about (n + 2) 2^-53 of |L| times |L| transposed, entry by entry, plus underflow, whatever the condition of the matrix.", "quantifier": "all sizes, all symmetric matrices of finite doubles, both settings of CONFIG_ZSL_BOUNDS_CHECKS", "why_tests_cant": "a backward error bound for every matrix of every size; tests compare a few well conditioned examples", "anchors": ["src/matrices.c: zsl_mtx_cholesky"]}
{"id": "C151", "title": "Rotation matrices in double precision", "statement": "The matrix of a quaternion of unit length up to rounding (what normalising and the fusion filters leave) consists of finite doubles, each within 31 * 2^-53 of the exact rotation matrix of the quaternion's direction, so its columns are orthonormal up to 187 * 2^-53.", "quantifier": "all quaternions of doubles whose squared length is 1 up to 9 * 2^-53, all 3 x 3 destinations, both settings of CONFIG_ZSL_BOUNDS_CHECKS", "why_tests_cant": "an error bound for every unit quaternion; tests compare a few matrices with a tolerance", "anchors": ["src/orientation/quaternions.c: zsl_quat_to_rot_mtx", "src/orientation/quaternions.c: zsl_quat_to_unit"]}
{"id": "C152", "title": "Searching and extrema in double precision", "statement": "In double precision the table search and the extrema of a matrix are exact. The search makes the run it would make on the real values: it finds an interval that holds the argument in a table sorted either way, and refuses an argument outside. The minimum and maximum of a matrix are entries that no entry which is a number beats, and their index is the first such entry in row-major order, provided the first entry is a number. A NaN in the first place is returned instead, and a NaN argument of the search is accepted with index 0.", "quantifier": "all tables of finite doubles of any length from 2 to 2^31, all finite arguments; all matrices of any size whose entries are finite or NaN", "why_tests_cant": "comparisons of doubles for every table and every matrix, and every position of a NaN", "anchors": ["src/interp.c: zsl_interp_find_x", "src/matrices.c: zsl_mtx_min, zsl_mtx_max, zsl_mtx_min_idx, zsl_mtx_max_idx"]}
{"id": "C153", "title": "Table interpolation in double precision", "statement": "Interpolating linearly in a table of doubles whose neighbouring abscissae are more than 1.001e-6 apart finds the interval that holds the argument and returns the ordinate of the straight line there up to about 6 * 2^-53 times the size of the ordinates. Every entry of the table but the last is reproduced exactly; the last one need not be.", "quantifier": "all ascending tables of any length from 2 to 2^31 with coordinates of at most 2^400, all finite arguments between the first and last abscissa", "why_tests_cant": "an error bound for every table and argument; tests compare a few values with a tolerance", "anchors": ["src/interp.c: zsl_interp_lin_y, zsl_interp_lin_y_arr, zsl_interp_find_x"]}
{"id": "C154", "title": "Memory safety of the colour functions in every arithmetic", "statement": "Whatever the numbers, infinities and NaNs included, the colour functions read nothing outside their tables, the caller's spectrum or the caller's matrix and use no indeterminate value, provided the observer is one of the two known ones, the spectrum has the memory its size announces, the matrix is a 3 x 3 matrix with values, and the \"invalid\" members of a uv coordinate given to a colour temperature query have values. With IEEE arithmetic every one of them returns (8-bit conversion aside, for which see C144).", "quantifier": "all inputs of any arithmetic, double precision in particular; all spectra of any length; all wavelengths; both settings of CONFIG_ZSL_BOUNDS_CHECKS and CONFIG_ZSL_CLR_RGBF_BOUND_CAP", "why_tests_cant": "absence of out-of-bounds and uninitialised reads for every input, including NaN comparisons in the table search", "anchors": ["src/colorimetry/conv.c", "src/colorimetry/lumeff.c: zsl_clr_lef_lerp", "src/colorimetry/norm.c: zsl_clr_norm_spd", "src/colorimetry/observers.c: zsl_clr_obs_get"]}
{"id": "C155", "title": "Comparisons within a tolerance in double precision", "statement": "For finite numbers of any size, comparing two vectors within a tolerance, counting the entries near a value, and testing a matrix for symmetry give no false positives although the difference is rounded (and may overflow) before it is compared: a positive answer means that the exact distances are below the tolerance. Only a pair whose exact distance is within one unit roundoff of the tolerance may be turned down. The sign tests are exact.", "quantifier": "all vectors, matrices, values and non-negative tolerances of finite doubles, with no bound on their magnitude; both settings of CONFIG_ZSL_BOUNDS_CHECKS", "why_tests_cant": "rounding and overflow in every difference, and all distances around the tolerance", "anchors": ["src/vectors.c: zsl_vec_is_equal, zsl_vec_contains, zsl_vec_is_nonneg", "src/matrices.c: zsl_mtx_is_sym, zsl_mtx_is_notneg"]}
{"id": "C156", "title": "Element-wise arithmetic in double precision", "statement": "Adding, subtracting, negating and scaling vectors and matrices, and multiplying or dividing matrices element by element, makes exactly one rounding per entry: every finite entry of the result is the double closest to the exact value (no other double is closer), it is finite unless the exact value exceeds 2^1000, and negation is exact. Dividing by a zero scalar is refused and leaves the vector as it was; dividing by a zero matrix element gives zero.", "quantifier": "all vectors and matrices of finite doubles, of every size; all scalars; every sharing of the buffers of zsl_mtx_binary_op; both settings of CONFIG_ZSL_BOUNDS_CHECKS", "why_tests_cant": "closeness to the exact value against every other double, for every entry", "anchors": ["src/vectors.c: zsl_vec_add, zsl_vec_sub, zsl_vec_neg, zsl_vec_scalar_add, zsl_vec_scalar_mult, zsl_vec_scalar_div", "src/matrices.c: zsl_mtx_add, zsl_mtx_add_d, zsl_mtx_sub, zsl_mtx_sub_d, zsl_mtx_scalar_mult_d, zsl_mtx_binary_op"]}
{"id": "C157", "title": "Inverse of a 3 x 3 matrix in double precision", "statement": "When the determinant of a 3 x 3 matrix exceeds the rounding error of its own computation, every finite entry zsl_mtx_inv answers is within an explicit bound of the entry of the exact inverse: four roundings and the relative error of the determinant, times the two products that make the entry of the adjoint, plus the effect of underflow.", "quantifier": "all 3 x 3 matrices of doubles; both settings of CONFIG_ZSL_BOUNDS_CHECKS", "why_tests_cant": "an error bound for all matrices, over every combination of roundings", "anchors": ["src/matrices.c: zsl_mtx_inv, zsl_mtx_inv_3x3, zsl_mtx_adjoint_3x3, zsl_mtx_deter_3x3"]}
{"id": "C158", "title": "Results written over an operand", "statement": "Passing an operand as the output object gives the same answer as a separate output would. True of zsl_vec_project(u,v,u); false of zsl_vec_project(u,v,v), zsl_vec_sort(v,v), zsl_mtx_adjoint(m,m) and zsl_mtx_inv(m,m), which answer 0 with a wrong result.", "quantifier": "all vectors, all square matrices, all placements of the operands in memory; both settings of CONFIG_ZSL_BOUNDS_CHECKS", "why_tests_cant": "aliasing: the order of reads and writes decides the answer, and tests always pass a separate output", "anchors": ["src/vectors.c: zsl_vec_project, zsl_vec_sort", "src/matrices.c: zsl_mtx_inv, zsl_mtx_inv_3x3, zsl_mtx_adjoint, zsl_mtx_adjoint_3x3"]}
{"id": "C159", "title": "Physics formulas in double precision", "statement": "For arguments between 2^-100 and 2^100 in magnitude, every physics helper that is a product, quotient, square root or sum of positive terms answers 0 and stores its formula up to a stated number of roundings, at most twelve: a relative error of at most 1.4e-15.", "quantifier": "all moderate doubles the guards accept, 78 functions of src/physics", "why_tests_cant": "an error bound for every argument, over every combination of roundings", "anchors": ["src/physics/kinematics.c", "src/physics/energy.c", "src/physics/rotation.c", "src/physics/gravitation.c", "src/physics/fluids.c", "src/physics/gases.c", "src/physics/thermo.c", "src/physics/sound.c", "src/physics/optics.c", "src/physics/electric.c", "src/physics/electricity.c", "src/physics/eleccomp.c"]}
{"id": "C160", "title": "Not a number in, not a number out", "statement": "When one argument of a physics helper is NaN, what the helper stores is NaN: either because the guard rejects the call or because the arithmetic carries it through. A lost measurement never becomes an ordinary number.", "quantifier": "all doubles for the other arguments, every vector length, every function of src/physics with a floating-point argument", "why_tests_cant": "NaN in any position, against every value of the other arguments and every path through the guards", "anchors": ["src/physics/kinematics.c", "src/physics/projectiles.c", "src/physics/momentum.c", "src/physics/energy.c", "src/physics/work.c", "src/physics/dynamics.c", "src/physics/rotation.c", "src/physics/gravitation.c", "src/physics/fluids.c", "src/physics/gases.c", "src/physics/thermo.c", "src/physics/sound.c", "src/physics/optics.c", "src/physics/photons.c", "src/physics/atomic.c", "src/physics/electric.c", "src/physics/electricity.c", "src/physics/eleccomp.c", "src/physics/magnetics.c", "src/physics/mass.c"]}
{"id": "C161", "title": "Statistics of data with a NaN among them", "statement": "When one of the data is NaN, the dot product, norm, distance, direction, mean, weighted mean, deviations, variance, standard deviation, covariance, and the slope, intercept and correlation of a linear regression are all NaN; no summary of incomplete data looks like an ordinary number.", "quantifier": "all vectors of doubles of any length, NaN anywhere among them, bounds checks on or off", "why_tests_cant": "NaN in any position of data of any length", "anchors": ["src/vectors.c: zsl_vec_dot, zsl_vec_norm, zsl_vec_dist, zsl_vec_to_unit, zsl_vec_sort", "src/statistics.c: zsl_sta_mean, zsl_sta_weighted_mean, zsl_sta_demean, zsl_sta_var, zsl_sta_std_dev, zsl_sta_covar, zsl_sta_linear_reg, zsl_sta_mean_abs_dev, zsl_sta_data_range, zsl_sta_median"]}
{"id": "C162", "title": "Matrices with a NaN entry", "statement": "A NaN entry spoils exactly what depends on it: the row or column of a product it belongs to is NaN, the determinant of any size is NaN, and the inverse of the matrix is not an ordinary matrix.", "quantifier": "all matrices of doubles, any size, NaN at any place", "why_tests_cant": "NaN at any place of matrices of any size", "anchors": ["src/matrices.c: zsl_mtx_mult, zsl_mtx_deter, zsl_mtx_inv, zsl_mtx_inv_3x3, zsl_mtx_gauss_reduc, zsl_mtx_gauss_elim"]}
{"id": "C163", "title": "Statistics, change of units and order of the data", "statement": "Expressing the data in other units (x becomes a x + b) changes the statistics as the quantities they measure: mean to a m + b, median to a m + b for positive a, variance by the square of a, standard deviation and mean absolute deviation by |a|, covariance by the product of both factors, the regression line to the same line in the new units, and correlation only in sign. None of them depends on the order in which the data are stored.", "quantifier": "all data of any length, all factors and offsets, all permutations of the data", "why_tests_cant": "every factor, offset and permutation, on data of any length", "anchors": ["src/statistics.c: zsl_sta_mean, zsl_sta_median, zsl_sta_var, zsl_sta_std_dev, zsl_sta_mean_abs_dev, zsl_sta_covar, zsl_sta_linear_reg"]}
{"id": "C164", "title": "Measurement codes", "statement": "Every published code of a measurement (type, extended type, unit, data type, scale, format, encoding, compression, timestamp, fragment) lies in its documented range, fits its member of the header, and two different names never share a code, so that two measurements with equal headers have the same type, unit, representation and scale.", "quantifier": "all headers filled with published codes and any length, sample count and source", "why_tests_cant": "all combinations of some hundred codes with every length, sample count and source", "anchors": ["include/zsl/measurement/base.h: zsl_mes_type", "include/zsl/measurement/unit.h: zsl_mes_unit_ctype, zsl_mes_unit_si, zsl_mes_si_scale", "include/zsl/measurement/ext_color.h, ext_light.h, ext_temperature.h", "include/zsl/measurement/measurement.h: zsl_mes_header, zsl_mes_format, zsl_mes_encoding, zsl_mes_compression, zsl_mes_fragment, zsl_mes_timestamp"]}
{"id": "C165", "title": "Table of atomic weights", "statement": "The published element names number the elements 1 to 118 without gap or repetition; looking up any of them stays inside the table of atomic weights and gives a positive weight exactly up to plutonium and 0 above; weights increase with the number except at the five known inversions, and lie between 1.98 and 2.61 times the number from helium on.", "quantifier": "all elements; all indices for the bounds", "why_tests_cant": "every index, not only the listed elements", "anchors": ["include/zsl/chemistry.h: zsl_chem_elements", "src/chemistry.c: zsl_chem_atom_weight"]}
{"id": "C166", "title": "Single precision", "statement": "With the library configured for single precision, dot product, mean, norm, distance, matrix product and element-wise arithmetic are as close to the exact results as float allows: relative errors grow like n 2^-24 with the number of terms, plus a term for underflow, as long as nothing overflows.", "quantifier": "all vectors and matrices of floats of any size", "why_tests_cant": "every float of every component, at any length", "anchors": ["include/zsl/zsl.h: CONFIG_ZSL_SINGLE_PRECISION, ZSL_SQRT", "src/vectors.c: zsl_vec_dot, zsl_vec_norm, zsl_vec_dist, zsl_vec_ar_mean, zsl_vec_add, zsl_vec_sub, zsl_vec_scalar_mult", "src/matrices.c: zsl_mtx_mult", "src/statistics.c: zsl_sta_mean"]}
{"id": "C167", "title": "Orientations keep unit length in single precision", "statement": "With the library configured for single precision, normalising a quaternion gives zero, a quaternion whose squared length is 1 up to 9*2^-24, or one that is not made of numbers; so does any sequence of readings fed to any of the six fusion filters, unless nothing was accepted. No loss of length accumulates.", "quantifier": "all quaternions of floats; all sequences of readings of any length, gains and libraries of elementary functions", "why_tests_cant": "any number of roundings in any history", "anchors": ["include/zsl/zsl.h: CONFIG_ZSL_SINGLE_PRECISION", "src/orientation/quaternions.c: zsl_quat_to_unit, zsl_quat_magn", "src/orientation/fusion/madgwick.c: zsl_fus_madg_feed", "src/orientation/fusion/mahony.c: zsl_fus_mahn_feed", "src/orientation/fusion/complementary.c: zsl_fus_comp_feed", "src/orientation/fusion/saam.c: zsl_fus_saam_feed", "src/orientation/fusion/aqua.c: zsl_fus_aqua_feed", "src/orientation/fusion/kalman.c: zsl_fus_kalm_feed"]}
{"id": "C168", "title": "Derivatives used by the iterative magnetometer calibration", "statement": "Each step of zsl_fus_cal_magn moves the parameters along the derivative of the misfit it minimises: the row it computes for the sphere is the gradient of the summed distance misfit with respect to radius and offset, the row for the ellipsoid that with respect to its nine parameters in the order in which they are stored.", "quantifier": "all readings, current radii, offsets and soft-iron matrices", "why_tests_cant": "the derivative is a limit, at every point of a nine-dimensional space", "anchors": ["src/orientation/fusion/calibration.c: zsl_fus_cal_magn, zsl_fus_cal_magn_f_shp, zsl_fus_cal_magn_f_elli"]}
{"id": "C169", "title": "Functions called for each entry of a matrix", "statement": "zsl_mtx_unary_func, zsl_mtx_binary_func and zsl_mtx_init call the function they are given for every entry exactly once, row after row; at the first answer other than 0 they stop and give that answer, with what was done before kept and nothing more done. Without a function zsl_mtx_unary_func and zsl_mtx_binary_func do nothing. zsl_mtx_binary_func refuses matrices of different shapes with -EINVAL before any call when bounds checks are on.", "quantifier": "all shapes, contents, functions and answers of the function", "why_tests_cant": "the function is arbitrary: any number of states and failures", "anchors": ["src/matrices.c: zsl_mtx_unary_func, zsl_mtx_binary_func, zsl_mtx_init", "include/zsl/matrices.h: zsl_mtx_unary_fn_t, zsl_mtx_binary_fn_t, zsl_mtx_init_entry_fn_t"]}
{"id": "C170", "title": "The normal distribution has total probability one", "statement": "For every mean and positive deviation zsl_prob_normal_cdf lies strictly between 0 and 1, tends to 0 on the left and to 1 on the right, differs between two points by the integral of the Gaussian density, and exceeds 1 - exp(-k^2/2)/2 at k deviations above the mean.", "quantifier": "all means, positive deviations and arguments", "why_tests_cant": "limits and integrals over an unbounded range", "anchors": ["src/probability.c: zsl_prob_normal_cdf"]}
{"id": "C171", "title": "Quantiles of the normal distribution", "statement": "zsl_prob_normal_cdf_inv is the inverse of zsl_prob_normal_cdf: it increases with the probability, and fed with the probability of a point it gives back that point, up to the accuracy of its polynomials.", "quantifier": "all means, positive deviations and probabilities", "why_tests_cant": "the claims relate values at infinitely many probabilities; the failures sit in a window of width 1e-8 and beyond the tenth nine", "anchors": ["src/probability.c: zsl_prob_normal_cdf_inv, zsl_prob_erf_inv, zsl_prob_normal_cdf"]}
{"id": "C172", "title": "Accuracy of the normal density", "statement": "zsl_prob_normal_pdf is the Gaussian density with the given mean and deviation: at z deviations from the mean the relative error caused by the library's decimal constants pi and e is between -1e-13 and exp(2e-12 z^2) - 1, below 3e-6 within 1000 deviations.", "quantifier": "all means, positive deviations and arguments", "why_tests_cant": "a bound at every real argument", "anchors": ["src/probability.c: zsl_prob_normal_pdf", "include/zsl/consts.h: ZSL_PI, ZSL_E"]}
{"id": "C173", "title": "Vector views of attitudes and Euler angles", "statement": "A vector made by zsl_att_to_vec or zsl_eul_to_vec is not a copy: it has three elements, roll, pitch, yaw or x, y, z, and after any history of vector operations through such views (negate, add a number, scale, reverse, add and subtract with any of the objects coinciding) every call answered 0 and the fields of every object are what the same operations on triples give. Objects not written keep their angles. Scaling by the library's constant is the conversion to radians.", "quantifier": "all numbers of objects, all angles in every arithmetic, all histories of any length", "why_tests_cant": "histories of unbounded length with every pattern of aliasing", "anchors": ["src/orientation/ahrs.c: zsl_att_to_vec", "src/orientation/euler.c: zsl_eul_to_vec", "src/vectors.c: zsl_vec_add, zsl_vec_sub, zsl_vec_neg, zsl_vec_scalar_add, zsl_vec_scalar_mult, zsl_vec_rev"]}
{"id": "C174", "title": "Symmetry and units of the normal quantiles", "statement": "zsl_prob_erf_inv is odd and has the sign of its argument. zsl_prob_normal_cdf_inv answers quantiles of p and 1 - p at the same distance on either side of the mean, above it exactly for p > 1/2, and the mean for p = 1/2. A change of units a + k x of mean and deviation changes the quantile the same way. A p outside (0,1) is answered -22 with bounds checks, which is also an ordinary quantile.", "quantifier": "all means, deviations, probabilities and changes of units", "why_tests_cant": "a statement about every real probability and unit", "anchors": ["src/probability.c: zsl_prob_erf_inv, zsl_prob_normal_cdf_inv"]}
{"id": "C175", "title": "Laws of entropy", "statement": "The answers of zsl_prob_entropy obey the laws of Shannon's entropy: the entropy of a two-stage experiment is that of its first stage plus the mean of the second stages' (chain rule), entropies of independent experiments add, the order of the outcomes does not matter, and the largest value log2 n is answered for equally likely outcomes and for no others.", "quantifier": "all distributions of any size without impossible outcomes, all families of second stages", "why_tests_cant": "all sizes and real probabilities", "anchors": ["src/probability.c: zsl_prob_entropy"]}
{"id": "C176", "title": "Statistics of combined data", "statement": "Mean and variance of two sets of data together follow from the means, variances and sizes of the two sets as answered by zsl_sta_mean and zsl_sta_var. With the sums of zsl_vec_add, the variance of a sum of two quantities is the sum of their variances plus twice zsl_sta_covar, and covariance is additive. Of n data at most (n-1)/k^2 lie k or more standard deviations (zsl_sta_std_dev) from the mean (Chebyshev).", "quantifier": "all data of any size from two on, all k", "why_tests_cant": "all sizes and real data", "anchors": ["src/statistics.c: zsl_sta_mean, zsl_sta_var, zsl_sta_covar, zsl_sta_std_dev", "src/vectors.c: zsl_vec_add"]}
{"id": "C177", "title": "Splines reproduce cubic polynomials", "statement": "If the table given to zsl_interp_cubic_calc lies on a cubic polynomial and the end conditions are true of it (its slopes at the ends, or no slope where its curvature is zero), zsl_interp_cubic_arr answers that polynomial's value at every argument, inside and outside the table. In particular data on a straight line with no slopes give the line.", "quantifier": "all tables of three or more increasing abscissae, all cubic polynomials, all arguments", "why_tests_cant": "all sizes, coefficients and real arguments", "anchors": ["src/interp.c: zsl_interp_cubic_calc, zsl_interp_cubic_arr"]}
{"id": "C178", "title": "Splines bend least", "statement": "The function computed by zsl_interp_cubic_calc and zsl_interp_cubic_arr has the least bending energy: the integral of its squared second derivative over the table is at most that of any twice continuously differentiable function through the same points, with the given slopes at the ends where slopes are given (Holladay).", "quantifier": "all tables of three or more increasing abscissae, all end conditions, all competing functions", "why_tests_cant": "ranges over all smooth functions", "anchors": ["src/interp.c: zsl_interp_cubic_calc, zsl_interp_cubic_arr"]}
{"id": "C179", "title": "Error of linear interpolation", "statement": "In a table of a twice differentiable function g the answer of zsl_interp_lin_y_arr differs from g by at most M h^2 / 8, where M bounds |g''| and h the spacing; for a convex g the answer is never below g.", "quantifier": "all tables with spacing from 1e-6 on, all functions, all arguments in the table", "why_tests_cant": "ranges over all smooth functions and real arguments", "anchors": ["src/interp.c: zsl_interp_lin_y_arr, zsl_interp_lin_y, zsl_interp_find_x"]}
{"id": "C180", "title": "Spherical interpolation at constant speed", "statement": "zsl_quat_slerp moves at constant speed: the angle between its answers for s and t is |t - s| times the angle between the end points. From b to a it goes the same way backwards. Its answers depend only on the orientations of its end points.", "quantifier": "all quaternions with magnitude at least 1e-6 that are not equal or opposite up to 1e-6, all s and t in (0,1)", "why_tests_cant": "all real parameters and quaternions", "anchors": ["src/orientation/quaternions.c: zsl_quat_slerp"]}
{"id": "C181", "title": "Covariance of combined measurements", "statement": "For measurements X (one row each) and any weights A, the covariance matrix that zsl_sta_covar_mtx gives for the combined measurements X A (zsl_mtx_mult) is the table that zsl_mtx_mult and zsl_mtx_trans give for A^t G A, where G is the covariance matrix of X. The quadratic form of G at any weights is the variance (zsl_sta_var) of the combination with these weights. So it is never negative, and it is zero exactly when the combination is the same in every measurement.", "quantifier": "all data matrices with two or more rows, all numbers of columns, all weight matrices and vectors, both settings of the bounds checks", "why_tests_cant": "all sizes and real data", "anchors": ["src/statistics.c: zsl_sta_covar_mtx, zsl_sta_var", "src/matrices.c: zsl_mtx_mult, zsl_mtx_trans"]}
{"id": "C182", "title": "Rotating by a quaternion keeps the geometry", "statement": "For every quaternion of magnitude at least 1e-6, zsl_quat_rot keeps the dot products of zsl_vec_dot, and commutes with the sums of zsl_vec_add and the cross products of zsl_vec_cross, so it keeps angles, lengths and handedness. The conjugate (zsl_quat_conj) rotates back. Vectors along the quaternion's own axis stay where they are. Multiplying the quaternion by any factor (zsl_quat_scale), also a negative one, that leaves the magnitude at least 1e-6 does not change the rotation.", "quantifier": "all quaternions of magnitude at least 1e-6, all vectors and factors, both settings of the bounds checks", "why_tests_cant": "all real quaternions and vectors", "anchors": ["src/orientation/quaternions.c: zsl_quat_rot, zsl_quat_conj, zsl_quat_scale", "src/vectors.c: zsl_vec_dot, zsl_vec_add, zsl_vec_cross"]}
{"id": "C183", "title": "Slopes of the table interpolation", "statement": "If every segment of a table rises by at least lo and at most hi per unit, the answers of zsl_interp_lin_y_arr at any two arguments inside the table differ by at least lo and at most hi times the distance of the arguments. So a table that never falls gives answers that never fall, a table that always rises gives answers that always rise, and there are no jumps, also not at the points of the table.", "quantifier": "all tables with abscissae at least 1e-6 apart, all pairs of arguments inside the table", "why_tests_cant": "all tables and pairs of real arguments", "anchors": ["src/interp.c: zsl_interp_lin_y_arr, zsl_interp_find_x, zsl_interp_lin_y"]}
