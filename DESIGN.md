# Formal model of zscilib in Rocq (Coq 8.16.1)

This directory holds a machine-checked model of the C library in /repo and
theorems about it.  `properties.jsonl` lists the properties in English,
`MANIFEST.json` maps each one to theorem names, `rocq/theories` holds the model
and the proofs, `seeded/LOG.jsonl` records wrong-program experiments.

## 1. Modelling decisions

* **Outcome monad.**  Every C function is a total Gallina function into
  `outcome A = Ok a | UB reason | NotReal | OutOfFuel`.
  `UB` is C undefined behaviour: out-of-bounds access, read of an
  uninitialised element, NULL dereference, signed overflow.
  `NotReal` exists only for the exact-arithmetic instance: division by zero or
  square root of a negative number, where the machine would produce inf/NaN.
  `OutOfFuel` is used for unbounded C loops/recursion modelled with fuel;
  theorems state `= Ok ...`, so this outcome is always excluded explicitly.
* **Numbers.**  Code is polymorphic in a class `Num T` of the C operations
  (`+ - * / sqrt fabs < <= ==`, decimal literals, int conversion) and `NumM T`
  (libm).  Two instances: Coq's `R` (ideal arithmetic) and Coq's primitive
  IEEE-754 binary64 floats (what the code runs on with the default Kconfig).
  Structural properties (which element goes where, error codes, memory
  safety, termination) are proved for *every* instance, hence for floats
  including NaN.  Algebraic and analytic properties are proved for `R`:
  rounding error is not modelled there.  C117-C123 bound the distance between
  the two instances for sums, dot and matrix products, norms, normalisation,
  interpolation and variance, assuming that the compiler rounds every operation
  to binary64 (no extended precision, no contraction to fused multiply-add).
  Refutations are witnessed with executable floats by `vm_compute`.
* **Memory.**  A buffer is a list of cells `option T` (None = indeterminate);
  its length is its capacity.  `struct zsl_vec` is `{sz; data}`, `struct zsl_mtx`
  is `{rows; cols; data}`.  Output parameters are taken (old contents matter)
  and returned.  Functions that are or may be called with overlapping
  arguments are additionally modelled over a store of named buffers, where two
  parameters may name the same buffer.
* **Sizes.**  `size_t` is `nat`; every place where C subtracts below zero is an
  explicit case in the model (nothing is silently truncated).
  Additions/multiplications of sizes are not wrapped, except in
  `zsl_vec_get_subset` where the caller supplies arbitrary numbers.
* **Configuration.**  `CONFIG_ZSL_BOUNDS_CHECKS` is a boolean parameter.
  Double precision, no ARM assembly, no `*_INLINE` are the defaults modelled.
* **Not modelled:** see section 5.

## 2. Plan per property

(theorem names are in MANIFEST.json; files in section 4)

| id | modelled / proof |
|---|---|
| C01 | `vec_get_subset` with size_t wrap on Z; case analysis on the guards, copy loop lemma |
| C02 | loops as `for_`; one generic lemma "loop writing f(i) at i", any Num |
| C03 | same loops over a store with possibly equal names; invariant "processed prefix new, rest old" |
| C04-C06 | exact sums over R; Cauchy-Schwarz/Minkowski by induction |
| C07-C10 | R; norm algebra, `field`/`nra` |
| C11-C13 | any Num; list specifications (`rev`, filter, Forall2, count) |
| C14,C15 | quicksort with fuel; sorted+permutation over R under separation; refutation for chains of near duplicates |
| C16,C17 | fold of additions; refutation for dirty output; copy loops |
| C18 | corollaries: outcome is `Ok` for all inputs in any Num |
| C19-C22 | row-major index arithmetic, any Num |
| C23 | unsupported opcodes: refutation |
| C24-C28 | sums of products, store model for aliasing; minor extraction counting lemma |
| C29-C31 | Laplace expansion equals mathcomp `\det` over R (mathcomp matrices as specification) |
| C32 | refutation for n=4 + cofactor characterisation |
| C33-C36 | 3x3 by ring/field; elimination invariant `mi*M = mg` |
| C37-C43 | mathcomp matrices over R as specification; induction over columns/iterations |
| C44-C46 | balancing ends: each scaling lowers the sum of absolute values by a twentieth of the row and column it touches, and while only a set of indices is scaled some entry of it stays above a bound (well-founded induction on the set); refutations: uninitialised reads, buffer overflow by shape, `1/0` |
| C47-C50 | generic order laws; refutation for is_equal; determinant identity |
| C51-C56 | R; convexity, sums, order statistics of the sorted list, normal equations |
| C57-C62 | R and Z; explicit int overflow |
| C63-C66 | binary search invariant with fuel; R; spline system solved row by row |
| C67-C76 | R; quaternion ring identities, trigonometry of the standard library; aliasing by a store of quaternion objects |
| C77 | R; conversions and heading by `atan2` case analysis |
| C78, C79 | fusion filters as state transformers; invariants over lists of samples |
| C80, C81 | calibration loops (fold over the recording); affine maps by `ring` |
| C82, C83 | R; rational identities between colour spaces, clamping |
| C84, C85, C91 | tables transcribed by `tools/tables.py`; bounds for every index by computation over the finite table |
| C86-C90 | physics helpers transcribed by `tools/phys.py`; each one is proved to answer its law exactly on the accepted arguments (`answers`, SpecPhys.v); identities on top of that |
| C92-C94 | normal equations, mathcomp matrices for the Gram matrix; least squares by completing the square |
| C95 | normal distribution through the mathematical erf (ErfR.v) |
| C96, C97 | Euler angles from trigonometry; integration of angular velocity |
| C98 | gravity model; monotonicity and bounds |
| C99-C105 | fixed points and derivatives of the filter steps; Kalman algebra with 4x4 matrices |
| C106-C110 | colour matrices (determinants by computation), correlated colour temperature, Planck's law by sums over the table, monotonicity by the sign of a double sum |
| C111 | derivatives and limits with Coquelicot |
| C112-C116 | further statistics; counting and permutations |
| C124 | least-squares calibration: the ellipsoid's quadric solves the normal equations (C94), Cholesky (C39) of the scaled shape, uniqueness of the centre |
| C125 | iterative calibration: residual 0 is a fixed point of every step; the inversion always answers over R |
| C126 | memory safety in every arithmetic: weakest preconditions over the outcome monad, invariants "all elements set" for every loop |
| C127 | histories of feeds of every fusion filter: the same logic, with an invariant on what a filter keeps; the comparisons the filters rely on proved for binary64 with Flocq; exact arithmetic with a total division (PRTotal.v) has the same runs, so these are answered |
| C128 | singular values: eigenvectors of m^T m (C129), u = m v / s; Penrose equations by matrix algebra |
| C129 | eigenvectors: Gauss-Jordan of a possibly singular matrix as a function on reals (SpecReduc.v), kernel vectors read off the reduced form, independence of eigenspaces (mathcomp) |
| C130 | the two macros over Z modulo 2^32 |
| C131 | members and words as integers, division with remainder |
| C132 | the list of what is handed to printf, induction over rows and columns, every arithmetic |
| C133 | argv as a list of strings, strtof arbitrary; C98 for gravity, C83/C110 for colours |
| C134 | the initialisation theorem of C21 |
| C135 | the weakest preconditions of C126; the table search by an invariant on the interval that needs no order in the table; NaN is absorbed by sums and products, so one NaN reading reaches every coefficient |
| C136 | error bounds of C119 for four squares, a root and a quotient give unit length up to 9 * 2^-53 for any answer that is finite; every feed, in any arithmetic, ends with zsl_quat_to_unit or leaves the orientation alone (inversion of the code), so histories follow by induction; the gyroscope step has exact length sqrt(1 + h^2 w^2) >= 1, far above its rounding error |
| C137 | NaN is absorbed by +, -, *, /, sqrt and fails every comparison, so it survives normalisation and the integration step; induction over histories |
| C138 | A_k = QR, A_{k+1} = RQ give A_k^2 = R^T R, A_{k+1}^2 = R R^T for symmetric A_k, so leading traces of A_k^2 grow by the squares of R's elements right of the block and converge: A_k^2 tends to a diagonal matrix. Semidefinite: a trace inequality bounds the off-diagonal of A_k by that of A_k^2. Otherwise A_k is a fixed polynomial of A_k^2 (symmetric, no opposite eigenvalues). Continuity of determinants identifies the limit with the characteristic polynomial |
| C139 | one feed turns the predicted vertical v about a x v away from a (exact new cosine); the cosines decrease and their limit is a fixed point, hence -1; with a magnetometer a Lyapunov function |
| C140 | the inner product with the target obeys a scalar recursion that grows, limit by continuity of the square root |
| C141 | the correction is x + y D with y at least alpha (concavity of the sine for the spherical branch), so 1 - cos shrinks by x^2 <= 1 - alpha^2; induction over feeds |
| C142 | the gradient of the code at a misalignment along the vertical turned the other way is a multiple of the orientation, so normalisation undoes the step |
| C143 | one integration step is a rotation by 2 atan(r t / 2) about the axis (Rodrigues), compared with the turn by mean value theorem |
| C144 | rounding bound of the three-term product (C117), limiting is 1-Lipschitz, scaling by 255 cannot exceed 255; NaN passes every comparison of the limiter |
| C145 | PPoly: any expression of sums, differences and products errs by gam(roundings) times its value with all terms positive, plus underflow; applied to the four components, then Cauchy-Schwarz |
| C146 | error of normalising (4.1 uu), of inverting (17.3 uu) and of two products (C145) put together in the quaternion norm; the exact sandwich product is the rotation (C70) |
| C147 | the library's expansion written as such an expression by recursion on n; its number of roundings is at most n^2 and its size is the permanent of the absolute values |
| C148 | weakest preconditions as for C126, in an arbitrary arithmetic and mathematical library that answer or have no real value; refutations by computation |
| C149 | simulation: the run on doubles and the run on the reals they stand for take the same branches, because a rounded difference keeps its sign and its side of 1e-5 on separated data; rounding errors of the final arithmetic; refutations by computation |
| C150 | the loops compute columns of a function on doubles; each rounded operation is inverted (exact operand = result times one rounding), sums of products by induction |
| C151 | PPoly (C145) for the nine entries; an expression of numbers below 2 is finite; the exact matrix of q / |q| differs from that polynomial by the defect of the length |
| C152 | comparisons of finite doubles agree with those of their values; the search is then the search of C63, run for run; the scan keeps the best of the numbers seen so far |
| C153 | error of each operation (PFlt, PFltChol); the interval from C152; at the left end of an interval the first factor is an exact zero |
| C154 | the logic of C126; the nearest entry of Ohno's table is an index below 304, and its two ends are refused because their temperatures lie outside those of their neighbours, a comparison of literals |
| C155 | rounding is monotone and fixes the tolerance, so a difference that reaches the tolerance still does once rounded; an infinite difference compares as a far one |
| C156 | C02, C22 and C27 hold in every arithmetic; each operation rounds its exact result to the nearest double (Flocq) |
| C157 | the adjoint and the determinant are polynomial expressions (C147); the exact inverse is the adjoint divided by the determinant; errors of quotient and product are combined |
| C158 | the functions are modelled again with one object read and written (MAlias.v); the elimination of the identity is computed for every n |
| C159 | a calculus of relative errors: rounding multiplies by a factor between 1/(1+u) and 1+u away from underflow; products, quotients, roots and positive sums combine the factors |
| C160 | each argument in turn, each path through the guards, one lemma per operation; loops by an invariant |
| C161 | closed forms of the loops as folds; NaN is absorbing for addition and multiplication |
| C162 | closed form of the determinant as an expression; induction on the size through a minor that keeps the entry |
| C163 | sums of deviations scale; permutations keep sums; sorted data stay sorted under an increasing map |
| C164 | lists of codes checked for duplicates and ranges, then C131 for the header |
| C165 | case analysis over the table, lifted to all elements |
| C166 | Flocq's binary32; the induction on the terms of C117-C120 with 2^-24 |
| C167 | the argument of C136 with the constants of binary32; the histories of PUnitised.v are generic in the arithmetic |
| C168 | rows as closed sums; derivatives with Coquelicot's is_derive; counterexamples with one or two readings |
| C169 | the nested loops equal a fold over list_prod of the indices |
| C170 | (int_0^x exp(-t^2))^2 + int_0^1 exp(-x^2(1+t^2))/(1+t^2) dt is constant, by differentiation under the integral; bounds of the second term |
| C171 | Bernstein coefficients of the polynomials and their derivatives; Polya's bounds of erf from the Gauss integral |
| C172 | bounds of pi and e; the logarithm of the library's e is 1 - 4e-12 at least |
| C173 | a store of objects, views as references; induction over the history |
| C174 | both polynomials depend on 1 - x^2 only, and are positive (C171) |
| C175 | induction over the outcomes; ln x < x - 1 for x other than 1 |
| C176 | sum of products of deviations as rdot minus the product of sums over n; induction over the data |
| C177 | the spline equations have one solution (largest element argument); the polynomial's second derivatives are a solution |
| C178 | integration by parts on every segment; the boundary terms telescope because neighbouring segments share slopes (C66) |
| C179 | mean value theorem; g + M t^2/2 and -g + M t^2/2 are convex |
| C180 | addition theorems for sines; a counterexample with orthogonal end points |
| C181 | covariance of columns as finite sums, bilinear by exchanging the sums; a sum of squares is zero only when every term is |
| C182 | polynomial identities modulo unit length of the normalised quaternion |
| C183 | split at the points of the table between the two arguments, induction over them |
| C117-C123 | rounding in binary64: Flocq's correctness of the primitive operations, induction over the summation loops |

Where the faithful model makes the English statement false, the manifest says
`partial`, a theorem with suffix `_refuted` proves the counterexample, and the
true part is proved under the weakest hypotheses found.

## 3. Trusted base

* Coq 8.16.1 kernel (and its VM for `vm_compute`), `coqchk`.
* Axioms: ASSUMPTIONS.md lists, for every theorem of the manifest, exactly what
  `Print Assumptions` prints (regenerate with `tools/assumptions.py` after a
  build).  Only axioms of the Coq distribution occur:
  - `ClassicalDedekindReals.sig_forall_dec`, `ClassicalDedekindReals.sig_not_dec`,
    `FunctionalExtensionality.functional_extensionality_dep`: construction of the
    real numbers in the standard library;
  - `Classical_Prop.classic`: standard library analysis (limits, integrals,
    Coquelicot, which adds no axiom itself);
  - `ClassicalEpsilon.constructive_indefinite_description`: mathcomp structure
    on R built in RField.v (choice of a witness);
  - `PrimFloat.*`, `PrimInt63.*`, `Uint63.*`: primitive floats and integers, used by the
    float counterexamples and by C117-C123; the latter also use `FloatAxioms.*` (the
    standard library's specification of the primitive operations), through Flocq,
    which adds no axiom itself.
  No axiom, Variable or Hypothesis outside a section, or Parameter is declared
  by this development; there are no functors or module types.
* The reading of the C code: each definition of an `M*.v` file cites file and
  lines.  Two generators transcribe mechanically: `tools/tables.py` (colour and
  spectral tables, MColorTab.v) and `tools/phys.py` (scalar physics functions,
  MPhys.v); their output was compared with the C text by hand.
* Real arithmetic.  Theorems over `R` idealise `double`; section 1 says which
  theorems hold for every arithmetic.

## 4. Files (rocq/theories)

| files | content |
|---|---|
| Base, BaseFacts | outcome monad, buffers, loops, class `Num`; lemmas about them |
| NumR, NumF, NumS, Libm, LibmR, ErfR, Out | instances R, binary64 and binary32, libm class and its real instance, output parameters |
| RTac, RField, RPi, RE, RAtan2, PMx, SpecMx | tactics and facts about R, bounds on pi and e, atan2, bridge to mathcomp matrices |
| MVec, MMtx, MDecomp, MStat, MProb, MInterp, MQuat, MAhrs, MFusion, MCal, MColorTab, MColor, MPhys, MPhysVec, MMisc, MAlias, MCodes, MView | the model |
| SpecVec, SpecReal, SpecMtx, SpecGauss, SpecReduc, SpecDecomp, SpecSvd, SpecEig, SpecStat, SpecProb, SpecInterp, SpecQuat, SpecFusion, SpecColor, SpecPhys, SpecCal, SpecMagnJac, SpecCallback, SpecView, SpecFlt*, SpecSgl, SpecSglQuat, SpecSafe* | specification vocabulary, independent of the model |
| P*.v (not Prop) | proofs about the model |
| Prop*.v | the property theorems C01... with non-vacuity examples and `Print Assumptions` |

## 5. What is modelled and what is not

Modelled, function by function:

* src/vectors.c: all functions.  The platform variants of
  include/zsl/asm/arm/asm_arm_vectors.h:20-86 are C functions with the same bodies as
  those of vectors.c and share their definitions.
* src/matrices.c: all functions.  `zsl_mtx_add`, `_sub`, `_mult` and the
  in-place `_d` variants share one definition each.
* src/statistics.c, src/probability.c, src/interp.c: all functions.
* src/orientation: quaternions.c, euler.c, gravity.c, ahrs.c, compass.c and the
  fusion directory, except the `*_error` callbacks (empty bodies).
* src/colorimetry: all functions and tables; src/physics: all functions
  (misc.c, relativity.c and waves.c hold none).
* include/zsl/instrumentation.h; the header structure of
  include/zsl/measurement/measurement.h; the shell commands (src/shell.c,
  src/orientation/shell.c, src/colorimetry/shell.c) without their help texts.
* src/chemistry.c, include/zsl/chemistry.h and the enumerations of
  include/zsl/measurement: the tables (MCodes.v).
* Not modelled: libc's printf and strtof, Zephyr's shell and clock,
  single precision (`CONFIG_ZSL_SINGLE_PRECISION`) beyond C166, C167 and the
  theorems about every arithmetic, floating-point
  exceptions and rounding modes, stack use of VLAs, wrap-around of size_t in
  places other than `zsl_vec_get_subset` and the index arithmetic of statistics.c.

Simplifications, also stated at the definitions: `int` counters that are bounded
by vector sizes are `nat`; static `initialised` flags of the filters are explicit
state; recursion and `while` loops carry fuel, and theorems give a fuel that
suffices, show that one exists (balancing, C44_balance_ends) or quantify over
runs that end.

## 6. Findings: behaviour of the code that contradicts its documentation

Each item has a `_refuted` theorem unless marked (read).

* Vectors: `zsl_vec_cross_product` in place is wrong; `zsl_vec_rev` of an empty
  vector and `zsl_vec_to_unit` of size 0 leave the buffer; `zsl_vec_sum`
  adds to the old contents; sorting merges values closer than 1e-5 and chains of near
  duplicates overflow its buffers; `zsl_vec_zte` ignores tiny negatives; NaN compares equal;
  norms overflow or vanish for representable values (squares are not scaled), so a tiny
  vector normalises to the first axis; the machine mean can exceed the maximum.
* Matrices: `zsl_mtx_trans` in place; `zsl_mtx_adjoint` not transposed except 3x3;
  `zsl_mtx_is_equal` compares rows+cols elements; `zsl_mtx_sum_rows_scaled_d` checks the
  wrong bound; unsupported binary operations clobber element (0,0); determinants of 2x1,
  1x2, 2x3 accepted; `zsl_mtx_inv` refuses small matrices (threshold 1e-6); balancing reads
  uninitialised locals; eigenvalues of (0 1; 1 0) reported as 0, 0; SVD and pseudo-inverse of
  wide matrices leave their arrays; Hessenberg of 1x1 writes out of bounds; `zsl_mtx_eigenvectors`
  writes past the caller's matrix when three eigenvalues lie within 1e-6 of their neighbours
  (diag(1, 1+9e-7, 1+1.8e-6) makes four columns).
* Statistics: percentile 0 reads w[-1], percentile 100 reads w[n]; trimmed mean can return
  the maximum; weighted mean reads the weights before comparing sizes; weighted regression uses
  reciprocals and overwrites the caller's weights; weighted median does not permute the weights;
  time-weighted mean of one sample is 0/0; relative error negative for negative references.
* Probability: factorial overflows from 13 on; binomial with p = 0 or 1 outside 0..n is not a
  real; entropy with a zero probability is NaN; `zsl_prob_uni_*` return -22 as if it were a value.
* Interpolation: descending tables rejected; `lin_x` divides by zero on flat segments; nearest
  neighbour compares with 1.5*x1 instead of the midpoint.
* Quaternions: documentation of `zsl_quat_rot` gives the inverse rotation (read); magnitude below
  1e-6 collapses to zero; matrix conversion loses signs for half turns; axis-angle of -1 divides by
  zero; lerp of opposite quaternions is zero with status 0; log 0; gimbal-lock band.
* AHRS/compass: heading for y < 0 off by 180 degrees and may exceed 360; geographic heading not
  wrapped; zero acceleration accepted.
* Fusion: Madgwick residual and Jacobian use opposite rotations and three Jacobian entries are
  wrong; Mahony and Madgwick without inclination estimate the field with the wrong rotation; SAAM
  dereferences before its NULL check and is degenerate for a level sensor; calibration always
  reports gain 0; AQUA spins opposite and negates the caller's gyroscope vector; Mahony overwrites it;
  Kalman measurement Jacobian belongs to another prediction, so agreeing readings move the state;
  the `initialised` flag of the Kalman filter is shared by all instances, so a second instance uses
  its indeterminate covariance (C127), and a first feed refused for a missing reading still sets it, so
  the orientation is never initialised (C103); a first feed whose accelerometer and magnetometer
  readings are parallel (or whose magnetometer reads zero) takes the root of a negative number, so the
  orientation becomes a NaN (C103); the initial orientation predicts the opposite of the accelerometer
  reading it was taken from (C103).
* Fusion at rest: Mahony's filter predicts the accelerometer with q k q^-1, integrates with w q, and adds
  kp a x v to the rate, which turns the prediction away from the reading: a motionless sensor settles
  exactly upside down (C139); Madgwick's filter has wrong rest points for every tilted orientation and
  leaves the right one (C142); both turn the predictions the opposite way to the gyroscope (C143); AQUA
  with a threshold of 1 never corrects tilts below 0.08 degrees (C141).
* Black in xyY divides 0 by 0 with status 0, and the eight-bit conversion of that NaN is undefined (C144).
* A NaN in the second component of a magnetometer reading: zsl_comp_magn_north
  returns 0 without writing its output, and zsl_comp_geo_north adds the
  declination to the caller's unset variable (C148_geo_north_nan_refuted).
* zsl_vec_copy and zsl_vec_sum overrun an output shorter than their input, with
  bounds checks too (C148_copy_refuted, C148_sum_refuted).
* A NaN or an infinity among the data: zsl_vec_sort drops it, returns 0 and leaves
  the last elements of the output as they were (C149_nan_refuted).  The range of
  such data is computed from uninitialised memory, and sorting a lone NaN reads
  outside the arrays (C149_garbage_refuted).
* A symmetric matrix that is not positive definite: zsl_mtx_cholesky returns 0
  with NaN in the result in double precision (C150_indefinite_refuted); over the
  reals the square root has no value (C39).
- C152: zsl_mtx_min and zsl_mtx_max ignore a NaN unless it is the first entry, in which case they return it (C152_first_nan_refuted). zsl_interp_find_x accepts a NaN argument and reports interval 0 with code 0 (C152_search_nan_refuted).
- C153: zsl_interp_lin_y_arr does not reproduce the last entry of a table: for (0, -1), (1, 1e-17) the value at 1 is 0 (C153_last_refuted).
- NaN passes for equal: vectors of NaN are "equal" to any vector within any tolerance, "non-negative", and a matrix with NaN off its diagonal is "symmetric", because the tests look for a difference instead of for closeness (`C155_nan_refuted`).
- A 3 x 3 matrix whose determinant underflows is "inverted" to the identity with return value 0: 1e-110 times the identity, for example (`C157_underflow_refuted`).
- `zsl_mtx_inv(m, m)` answers 0 and the identity for every matrix that is not 3 x 3, and a wrong matrix for 3 x 3 (`C158_inverse_in_place_refuted`, `C158_inverse3_in_place_refuted`).
- `zsl_vec_project(u, v, v)` copies u to v whatever v was (`C158_project_over_v_refuted`).
- `zsl_vec_sort(v, v)` overwrites elements before it counts them: (3, 1, 2) becomes (1, 1, 2) (`C158_sort_in_place_refuted`).
- `zsl_mtx_adjoint(m, m)` computes later entries from entries it has already replaced (`C158_adjoint2_in_place_refuted`, `C158_adjoint3_in_place_refuted`).
- The physics helpers multiply before they divide: Boyle's law with 1e200, 1e200, 1e300 stores infinity with return value 0, and with 1e-200, 1e-200, 1e-300 stores 0 (`C159_range_refuted`).
- `zsl_phy_proj_angle(0, NaN)` stores pi/2 and returns 0 (`C160_angle_refuted`); it is the only physics helper that turns NaN into an ordinary number.
- A NaN argument passes every `x < 0` guard of the physics helpers: the result is NaN but the return value is 0 (`C160_code_refuted`).
- `zsl_sta_data_range` of {1, 3, NaN} reads an uninitialised array element, because the sort dropped the NaN (`C161_range_refuted`).
- `zsl_sta_median` of {1, 3, NaN} is 3 with return value 0: the dropped NaN is replaced by a zero behind the sorted values (`C161_median_refuted`).
- `zsl_mtx_inv` of the matrix with rows (2, 1) and (NaN, 2) is the ordinary matrix (0.5, -0.25; 0, 0.5) with return value 0 (`C162_inverse_refuted`).
- `zsl_sta_median` is not invariant under units: the datum 1 in units a million times larger has median 0, not 1e-6 (`C163_median_refuted`).
* (read) `zsl_chem_atom_weight` is documented to hold 0.0 for elements without a
  standard atomic weight, but holds the mass number of an isotope for technetium,
  promethium, polonium to actinium, neptunium and plutonium.
- Single precision: `zsl_vec_norm` of a vector of length 2^64 (1.8e19) is infinite and of one of length 2^-76 is 0 (`C166_norm_range_refuted`); a count kept in float stops at 2^24 (`C166_count_refuted`).
- Single precision: `zsl_quat_to_unit` turns a quaternion of length 2^80 into zero (`C167_overflow_refuted`).
- `zsl_fus_cal_magn` computes its derivatives wrongly: the one with respect to the
  sphere's offset has the sign of |h - b| although the misfit uses |h + b|
  (`C168_sphere_refuted`), the ellipsoid's entries come in the order K00 K11 K22 K01
  K02 K12 although the parameters are stored K00 K01 K02 K11 K12 K22
  (`C168_ellipsoid_refuted`), and the offset's are right only while K is the
  identity (`C168_ellipsoid_offset_refuted`).
- When a derivative vanishes the normal matrix is singular, `zsl_mtx_inv` answers the
  identity, and the error of the radius is multiplied by 1 - n for every one of n
  readings (`C168_radius_diverges`).  The readings (3,0,0) and (-3,0,0) are answered
  with return code 0 and the correction diag(181,1,1), which takes them to
  magnitude 543 instead of 1 (`C168_two_readings_refuted`).
- `zsl_prob_erf_inv` uses polynomials made for single precision in every configuration.
  Where they meet, at 1 - x^2 = exp(-6.125), the answer jumps down by 1.5e-7, so
  that a larger probability can have a smaller quantile (`C171_increasing_refuted`);
  in double precision, beyond 1 - x^2 = exp(-23), the answers run away: a
  probability that 7.8 deviations suffice for is answered with more than 11
  (`C171_tail_refuted`).
* `zsl_quat_slerp` does not take the shorter way: to b and to -b, the same orientation,
  it goes through different orientations (C180).
* Repeated eigenvalues: zsl_mtx_eigenvectors groups its columns by different eigenvalues (zero last),
  while zsl_mtx_eigenvalues lists them in order of the diagonal, so zsl_mtx_svd divides columns by the
  wrong singular value: zsl_mtx_pinv of diag(1, 2, 1) is diag(1, 2, 1/4) with code 0, and u is not
  orthogonal (C128, C129).
* Around the numerics: the execution time loses a cycle when the counter wraps (C130); the gravity
  command refuses the equator and the south, and fails with "unexpected return code" for the altitudes
  below sea level its own check admits (C133); the colour commands convert temperatures from 2^32 on to
  an unsigned int that cannot hold them (C133); the random entry function stores 0 (C134).
* Magnetometer calibration: the fast variant's corrected readings have magnitude
  me/sqrt(1 - c^T M c), its K is upper triangular though documented symmetric, and an offset larger
  than the field takes the root of a negative number with code 0; result codes of the fit, the
  factorisation and the inversion are ignored (read).  The iterative variant divides 0 by 0 on one
  reading; its sphere Jacobian has H - b where the residual has H + b, its ellipsoid Jacobian lists
  the diagonal first where the parameters are row-major, its damping matrix keeps the last inverse off
  the diagonal, *l is left changed, and mu = 1 is accepted (read).
* NaNs: a vector of NaNs makes zsl_vec_sort call quicksort with a last index of SIZE_MAX, so medians,
  percentiles and ranges of NaNs read outside the array; one NaN reading makes zsl_fus_cal_magn_fast
  (bounds checks on) use a factor it never computed, with code 0 (C135).
* NaNs in the fusion filters: a gyroscope or magnetometer reading with a NaN is accepted with code 0
  and makes the orientation four NaNs for ever (all filters but SAAM); an accelerometer reading with a
  NaN is treated as absent, because its test is written the other way round (C137).  A quaternion
  longer than 1e154 is normalised to zero (C136).
* Colorimetry: 2-degree zbar at 380 nm ten times too small; scotopic table in another unit;
  observers and matrices outside the enumerations read indeterminate pointers; black and y = 0
  divide by zero without error; 1.0 flagged out of gamut; 0 K divides by zero and negative
  temperatures pass; Ohno 2014 squares squared distances; Ohno 2011
  takes the logarithm of a negative estimate for every colour with v = 0.24 and divides by zero for u = 0.292
  (`C108_ohno2011_level_refuted`, `C108_ohno2011_line_refuted`); invalid flags dropped.
* Physics: guards with gaps (orbital functions for negative masses, Bohr n = 0, sound level of
  silence, shock wave below Mach 1, parallel circuit of nothing); refraction index upside down;
  negative flight times and energies with status 0; range ignores errors; angle loses direction.

## 7. Wrong-program experiments

`tools/seed.py` applies edits from a JSON list to a scratch copy, rebuilds what
depends on the edited file and logs which theorems fail; results are in
seeded/LOG.jsonl.  `tools/automut.py` draws such edits at random (an operator,
a constant, an index or an argument of one definition).  Theorems tightened as a result are named there.
