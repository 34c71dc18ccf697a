# Formal model of py-matrix-algorithms: design

Source modelled: `/repo/src/wai/ma` (Python, numpy).  All file/line references in
the Coq files are relative to `/repo/src/wai/ma`.

## 1. Modelling approach

* **Shallow, total, executable Gallina functions** that follow the Python code branch
  by branch.  A method that may raise returns `res A` (`Ok a` / `Err exn`), a method
  that changes its object takes and returns the object's state.
* **Numbers.**  Element types are given by a record `Num` of operations
  (`Num.v`): zero, one, + - * /, negation, sqrt, <, ==, conversion from Z.
  Two instances are used:
  * `NumR` - exact real numbers (Coq `R`), for algebraic laws.  Rounding is *not* modelled
    by these theorems; Coq's total division (`x/0 = 0`) is never relied on: every theorem that
    divides carries an explicit non-zero hypothesis, and what happens at zero is either excluded in the
    property's text or stated separately over binary64 (e.g. C37, C55).
  * `NumF` - IEEE-754 binary64 in the form of `Coq.Floats.SpecFloat` with precision 53 and
    emax 1024 (pure Gallina, no axioms), for statements about NaN, infinities, division by
    zero, comparisons; these are bit-exact for + - * / sqrt and comparisons.
  Structural theorems (shapes, selection, aliasing, caching, serialisation, life cycles) are
  proved for every `Num`, hence in particular for binary64.
* **Matrices** are a record of row count, column count and a list of rows (`Mat.v`), with the
  well-formedness predicate `wf` (numpy arrays are rectangular).  Row/column counts
  are explicit because numpy distinguishes shapes (0,n) and (n,0).
* **Integers** given as indices are `Z`, with numpy's negative wrap-around; sizes are `nat`.
* **External solvers and libraries** (numpy eig / svd / lstsq / pinv / random, scikit-learn,
  number formatting and parsing) are universally quantified functions (section variables turned
  into ordinary arguments); where a theorem needs their contract it is an explicit hypothesis of
  that theorem, and an instance satisfying the contract is shown.
* **Histories** (caches, configure-once, training life cycle) are state machines folded over lists
  of operations.
* **Objects and aliasing**: a heap of matrix objects addressed by number (`Heap.v`).

## 2. Files (under rocq/theories)

| file | contents |
|---|---|
| Base.v, Num.v, Mat.v, M_Loop.v | exceptions, numbers, matrix values and numpy primitives, for-loops with exceptions |
| M_Matrix, M_Factory, M_Helper, M_Heap | core/matrix: values, constructors, helper functions, objects with caches and aliasing |
| M_Utils, M_Serial, M_Linalg | core/utils.py, core/_Serialisable.py, np.linalg.solve / inv as Gaussian elimination with partial pivoting |
| M_Transform, M_SavGol, M_FFT, M_MSC, M_Kernel | filters, transformations, kernels |
| M_Distance | helper.euclidean_distance and row_norms |
| M_Wrappers | parameters of RobustScaler, QuantileTransformer and PowerTransformer and their assignment |
| M_Publish | get_matrix, get_matrix_names and get_loadings of the PLS classes |
| M_PLSBase, M_PLS, M_PLS2 | PLS base classes (assignment, life cycle, preprocessing) and the ten PLS algorithms |
| M_GLSW, M_PCA, M_CCAFilter, M_FastICA | the remaining algorithms |
| S_Matrix, S_Serial | independent specifications used in theorem statements |
| L_*.v | lemmas: L_Alg (symbolic execution of matrix code on tables), L_Deflate / L_Krylov / L_Span (PLS algebra), L_Public (base-class life cycle from the outside), L_Linalg (elimination), L_Sort / L_Sort2 (quicksort), L_Batch (row-wise functions), L_Perm (runs on reordered rows), L_Float (binary64 subtraction, via Flocq's theorems), L_Fuel (step budgets suffice), L_Spectral (spectral theorem, singular value decomposition), ... |
| P_*.v | property theorems `Cxx_...`, an example `Cxx_ex...` meeting the hypotheses, `Print Assumptions` |

## 3. Properties: what is modelled and how it is proved

A property marked R is false for the code as it stands: `Cxx_..._refuted` is the counterexample, the
other theorems say exactly what does hold (see section 5 and the notes in MANIFEST.json).

| id | method |
|---|---|
| C01, C02, C04-C08, C10, C25 | value model of the matrix class over lists; full characterisation (result, shape, exception) by list induction and entry-wise extensionality, for every number type (multi_concat along the rows and with negative axes: P_Concat) |
| C03, C09, C27, C62 | finite sums over R; guards and exceptions for every number type |
| C11 | case analysis over R and over binary64 comparison |
| C12 R, C13 R, C14 R | exact characterisation over R and binary64, counterexamples with NaN / inf |
| C15, C16, C17 R | byte lists; independent decoder as specification; inverse law |
| C18 R | stream with a position |
| C19 R | one matrix with caches as a state machine; invariant over all histories without the three offending operations |
| C20, C63 | heap of objects holding possibly shared buffers; frame theorem by case analysis and induction over histories; every method call refines the value model |
| C21, C22 | contract of the solver (universally quantified function), stable sort |
| C23, C24 R | list constructions; random stream as an oracle |
| C26 | text model (lists of characters); the parser inverts the printer |
| C28, C29 R, C30, C31 R | fuelled quicksort: permutation, partition, enough fuel; quadratic form for the regression |
| C32-C34 | index arithmetic, convex combinations, fold laws |
| C35-C39 (C37 R, C38 R) | transformation state machines; algebra over R; binary64 counterexamples |
| C40, C41 R | the window solution is a linear filter satisfying the moment conditions (from the normal equations) |
| C42 R, C43 | discrete Fourier sums over R (cos / sin), inversion theorem, packing bijection |
| C44, C58 R | least-squares corollary; five-point stencil algebra |
| C45 R | entry-wise formulas, for every kernel state |
| C46, C47 R, C48 R | one state machine for all PLS classes, parameterised by an arbitrary class description; `lawful` descriptions; instances for each algorithm; separate machines for GLSW, PCA, CCAFilter, FastICA |
| C49 R, C50 R, C53 R | model of the pre-/postprocessing around an arbitrary core algorithm |
| C51 | loop invariant over the component loop; deflation algebra (L_Deflate) |
| C52 R | order statistics of the sorted permutation |
| C54 R, C55 R | loop models with step budgets; exact iteration traces |
| C56 R | counting argument on cumulative sums; spectral algebra from the solver's contract |
| C57 R, C65 R | filter matrices from the solver's contract |
| C59 R, C60 R | loop invariants over the component loops |
| C61 | correctness and completeness of Gaussian elimination with partial pivoting |
| C64 | no loop runs out of its step budget, whatever the numbers (including NaN) |
| C66 R, C67 R | CCAFilter and FastICA: loop invariants, whitening algebra, life cycles over all histories |
| C68-C70 | SIMPLS, NIPALS and PLS1 are reduced to the same recursion of directions (L_Krylov); uniqueness of the regression vector in the Krylov space (L_Span) |
| C71, C72, C73 R, C74 R, C75 R | KernelPLS component loop over an arbitrary kernel; linear kernel reduced to L_Krylov |
| C78, C79 R | generalised Rayleigh quotient of a pencil with a basis of eigenvectors; PLS1 loop with arbitrary weights |
| C80, C81, C82 R, C83 R | DIPLS component loop as an invariant over all rounds (L_DIPLS); with equal covariances the penalty matrix stays the identity and the loop is L_Krylov's recursion (L_DIPLS2) |
| C84 | sorting of the entries; median as the middle of the sorted list (P_Median) |
| C85, C86 R, C88 R | one PRM pass in closed form (L_PRM), lifted over the while loop; SIMPLS through its own theorems (C68, C69); wide data reduced to the tall case |
| C87 R | Weiszfeld step: decrease by the inequality 2ab <= a^2+b^2 for every row, sub-gradient bound at the stop |
| C89, C90 R | SparsePLS rounds as an invariant over the loop; NIPALS with one response needs one inner pass, so tol and max_iter drop out (P_Sparse2) |
| C91, C92 R | a small calculus of row-wise functions (`rowwise`, L_Batch), closed under composition, product from the right, broadcasting and the row loops; invariants of reachable objects (`reach_laws`) for the classes that keep a Center or Standardize (P_Batch) |
| C93 | the same calculus; closed forms from C32, C33, C40 for the filters (P_Batch2) |
| C94, C95 R | the sizes of every matrix through the training loops (`shaped`, kept by every step), for all numbers and solvers; what reset, a refusal and an assignment leave (P_Publish) |
| C96 | two runs side by side: matrices with one row per sample are related by the permutation, all others are equal (`rrel`, `pr` in L_Perm), kept by every matrix call and every step of the training loops; sums over the samples do not depend on their order (P_Perm) |
| C97 | as C96; the entries of the correlation matrix of PCA and its set of varying columns do not depend on the order, and its row loop treats all rows alike (P_Perm2) |
| C98 | standardised data does not depend on the units, so both runs train on the same matrices; predictions are converted back with the means and deviations in the new units (P_Units) |
| C99 | PLS1's loop on a response multiplied by a positive number: weights are normalised and stay, b_hat is multiplied (`sc`, `scr`, kept by every step, P_Units2) |
| C100 R | helper.euclidean_distance with row_norms as a parameter (M_Distance), by shape analysis and algebra of squares (P_Small) |
| C101 | fold of concatenations as an invariant over the list (P_Small) |
| C102 R | the three `__setattr__` methods over an arbitrary scikit-learn (M_Wrappers), case analysis over all states (P_Wrappers) |
| C103 | both classes in terms of the directions of L_Krylov: a component subtracts G_k / tau_k > 0 from the sum of squares, directions do not depend on the number of components (P_Geometry) |
| C104 | the residuals of X Q are those of X times Q, by induction over the components, so covariances, scores and directions correspond (P_Geometry) |
| C105 | normal equations: what the fit leaves of y is correlated with column j as much as the deflated column is; p orthonormal weights span the space (L_Spectral), so after p steps nothing is left; sums of centred columns vanish (P_OLS) |
| C106 | combinators for functions that map weighted means to weighted means (L_Affine), one row through PLS1's components carried for three rows at once, then each class on every reachable object as for C91 (P_Affine) |
| C107 | the combinators of C106, their linear variant, and what each call history leaves configured (P_Affine2) |
| C108 | on m copies of the rows all covariances are m times as large, weights and loadings the same (residual by residual); standardised copies are smaller by a common factor that cancels against the deviation of the response (P_Repeat) |
| C109 | units at training: the preprocessed matrices of (X2, Y2) and (X, Y) are equal, so every class trains on the same input (`init_pre` describes initialize for both arities); mapping back differs by the unit of the first response column, also when a class predicts more columns than it was trained on (both raise IndexError) (P_Units3) |
| C110 | centring removes the translation, the rotation keeps all products of rows, and the three kernels are functions of these products (loop by loop for the RBF kernel, including the latching of gamma); training then runs on the same kernel matrix (P_Geometry2) |
| C111 | simulation of the two trainings: the kernel matrices, t, w and u agree, Y and B_RHS of the second are those of the first times Q, q and the loadings those of the first times Q^T on the left; Y q is h times as long and normalising removes h; centring removes and prediction restores the translation (P_Geometry3) |
| C112 | simulation of the two trainings: the columns of X, and the rows of the weights, loadings, rotations and coefficients, are in the other order, everything else is equal, including every stopping test (P_Order) |
| C113 | the same simulation as C112 for the loops of PLS1 and of OPLS, whose cleaned data again have the columns in the other order, so that the claim for the base object applies (P_Order2) |
| C76 R, C77 | closed form of the y-gradient covariance; uniqueness of the sorted order |

## 4. Trusted base

* Coq 8.16.1's kernel (including its virtual machine, used by `vm_compute` for the concrete runs).
* Axioms: `Print Assumptions` after every theorem lists at most the standard library's
  `ClassicalDedekindReals.sig_not_dec`, `ClassicalDedekindReals.sig_forall_dec`,
  `FunctionalExtensionality.functional_extensionality_dep` (all three from Coq's real numbers),
  `Classical_Prop.classic` (theorems that mention exp, ln, atan or powers of real numbers, go through Flocq's lemmas on binary64, L_Float.v, or through the
  standard library's maximum theorem, L_Spectral.v) and, in two existence theorems only,
  `IndefiniteDescription.constructive_indefinite_description`.  No axiom is added here; Flocq adds none.
  What is listed for each theorem is in section 7.
* The faithfulness of the model to the Python text.  Every definition cites its lines.  The deviations are:
  * **Numbers.**  Theorems over R ignore rounding.  Sums in the binary64 instance are taken left to right;
    numpy may associate differently, so binary64 statements with sums of three or more terms are only used for
    concrete counterexamples whose sums are exact or whose conclusion is a NaN / sign / shape
    (C91 and C92 hold in every instance, but with this one order; BLAS may round a row of a product differently in batches of different size).
    Transcendental functions exist over R only.  Overflow of `np.power` is not modelled.
  * **Integers** are unbounded (numpy's int64 does not occur in the modelled arithmetic except for indices).
  * **Python's recursion limit** is not modelled (utils.sort recurses); nor are memory errors, keyboard
    interrupts, threads and logging output.
  * **LAPACK.**  solve / inv are Gaussian elimination with partial pivoting over the number type.  eig, svd, lstsq,
    pinv, randn and argsort are arbitrary functions; each theorem lists the contract it uses (eigen-equation and
    orthonormality, singular factorisation, `A A+ A = A` with `A A+` symmetric, shape n x 1 for randn, ...), and an
    instance meeting the contract is shown.  P_Spectral.v proves that for matrices of every size there are functions
    meeting all eig and svd contracts at once (C21_eig_exists, C22_svd_exists, C21_contracts).  Complex answers of eig are not modelled.
  * **NaN in sorts.**  np.argsort and sorted() place NaN in implementation-defined ways: the y-gradient
    theorems are over R, PCA takes any ascending argsort; utils.sort is modelled literally, so its theorems include NaN.
  * **Aliasing.**  Object identity and sharing are modelled for the matrix class (M_Heap.v).  Algorithms and
    transformations are modelled on matrix values: a caller who changes a matrix in place after handing it to an
    algorithm, or who changes the base object inside OPLS from outside, is not modelled (C20 shows the algorithms' own
    matrix calls, which are the non-mutating ones plus writes to fresh matrices, do not alias their inputs).
* Not modelled: QuantileTransformer, PowerTransformer, RobustScaler beyond what the properties about
  transformations say (they delegate to scikit-learn), `core/java`, `meta`, file system effects other than the bytes
  written by save_state and the CSV functions.

## 5. Findings: properties the code does not have

C12, C13, C14, C17, C18, C19, C24, C29, C31, C37, C38, C41, C42, C45, C47, C48, C49, C50, C52, C53, C54, C55, C56,
C57, C58, C59, C60, C65, C66, C67, C73, C74, C75, C76, C79, C82, C83, C86, C87, C88, C90, C92, C95, C100, C102.  Each has a machine-checked counterexample
(`..._refuted`) and its MANIFEST.json note says in one sentence what the code does instead.  Some more remarks:

* KernelPLS.get_loadings returns the scores T.
* NIPALS with canonical deflation and one response extracts at most one component: the response
  is deflated to zero by its own score.
* NIPALS and CCARegression cannot be trained on two or more responses (C53), so their multi-response code is dead.
* VCPLS: validate_lambda_ accepts negative values, for which the second score vanishes on every data set (C79).
* DIPLS: semi-supervised training takes the first 2*ns rows for the labelled ones and so raises unless nt = ns (C82); the
  covariance of the target then includes the unlabelled rows but is divided by nt - 1; transform of the training rows
  differs from the scores T from the second component on (C83).
* PRM: besides the inverted loop condition (C55), the residual weights mix the weighted response with unweighted
  predictions (C86), wide data is reduced with vh instead of its transpose and transform always raises afterwards (C88).
* SparsePLS.transform: the scores of a row depend on the other rows of the batch; alone, only the first can be non-zero (C92).
* SIMPLS.reset() does not clear Q: an object that is not trained still publishes it; PRM.get_matrix('W') raises before training instead of returning None (C95).
* helper.euclidean_distance always raises; apart from the missing row_norms, its additions only accept single rows (C100).
* RobustScaler, QuantileTransformer, PowerTransformer: parameters without a validator are ignored once the object is configured (C102).
* SparsePLS: lambda_ >= 1 is accepted but makes every training raise IndexError (C90); tol and max_iter have no effect (C89).
* A start vector orthogonal to the first covariance direction makes KernelPLS stop early (C72's note).

## 6. Tests of the theorems against wrong programs (seeded/LOG.jsonl)

* A row is one edit of the model, rebuilt outside /verif.  Some edits were chosen by hand against a named claim; the rows
  "automatic edit in the line" changed one token at a random place (44 further automatic edits did not type-check and are not listed).
* "killed" means that the build stopped.  `proof_that_fails_first` is where; a proof script that fails does not by itself show
  that the statement became false.  `theorems_failed` lists theorems of the claim that could not be rebuilt because of it; it is
  empty when the build stopped earlier, in a file that does not contain the claim.
* "survived" means that everything that was rebuilt still proved.  The `note` says what was added or why no claim became false;
  the judgement that an edit is harmless is by reading, not proved.

## 7. Axioms per theorem (output of Print Assumptions)

**None ("Closed under the global context")** (275):
C01_get_sub_matrix, C01_get_rows, C01_get_columns, C01_get_row_column, C01_get, C01_head, C02_transpose, C03_mul, C03_scalar, C04_elementwise, C04_scalar, C05_by_vector, C05_scale_by_row_vector, C05_scale_by_column_vector, C06_set, C06_set_row, C06_set_column, C06_history, C07_concat_columns, C07_concat_rows, C07_split, C07_assoc, C07_multi_concat, C07_multi_concat_rows, C07_multi_concat_axis, C08_flatten, C10_which, C10_where_vector, C10_row_check, C11_clip, C11_clip_one_sided, C11_nan, C12_contains_NaN_always_false, C12_characterisation, C12_refuted, C13_refuted, C14_equal_f64, C14_refuted, C15_layout_and_decoding, C15_f64_round_trip, C15_injective, C15_failures, C16_int, C16_float, C16_str, C16_str_surrogate, C16_other, C16_injective, C17_characterisation_partial, C17_too_large, C17_refuted, C17_smallest_failures, C18_always_empty, C18_refuted, C18_characterisation_partial, C18_save_state, C18_parameter_states, C18_log_state, C18_log_state_fails, C19_eigen_current_partial, C19_singular_current_partial, C20_frame, C20_history, C20_results_are_new, C20_no_shared_storage, C21_empty, C23_zeros, C23_filled, C23_eye, C23_like, C23_range, C23_diag, C23_from_lists, C23_constructor, C24_seed_determines, C24_randn_ignores_parameters, C24_like, C25_delete_cols, C25_delete_col, C26_round_trip, C26_read_any, C26_split_join, C28_sort, C28_sort_float64, C28_sort_nan, C29_returns_permutation, C29_short_partial, C29_refuted, C29_refuted_python_floats, C31_always_one, C31_characterisation_partial, C31_refuted, C32_downsample, C32_other_parameters, C33_total, C33_rejected, C34_empty, C34_cons, C34_nesting, C34_nesting_assoc, C35_center, C35_standardize, C35_pass_through, C35_wrappers, C35_quick_apply, C36_wrong_width, C37_wrong_width, C37_zero_deviation_columns, C37_refuted, C40_window, C40_shift_equivariant, C40_illegal_assignment, C40_legal_assignment, C40_no_inverse, C40_sg2, C41_refuted_one_point, C43_mode_codes, C44_no_inverse, C45_degree, C46_cca_filter, C46_fastica, C46_pca, C46_pca_assignment, C46_assignment, C46_parameters_of_trained, C46_pls1, C46_vcpls, C46_simpls, C46_nipals, C46_cca_regression, C46_sparse_pls, C46_prm, C46_kernel_pls, C46_dipls, C46_opls, C46_tolerances, C46_constants, C47_trained_iff, C47_untrained_raises, C47_failed_initialize, C47_half_missing, C47_refuted, C48_cca_filter_stale_partial, C48_cca_filter_defaults, C48_cca_filter_refuted, C48_fastica_stale_partial, C48_fastica_initialize, C48_fastica_refuted, C48_fastica_num_components_partial, C48_glsw, C48_pca, C48_same_parameters, C48_retraining, C48_pls1, C48_vcpls, C48_simpls, C48_nipals, C48_cca_regression, C48_sparse_pls, C48_prm, C48_kernel_pls, C48_opls_pls1, C48_opls, C48_refuted_dipls, C48_refuted_kernel_pls, C49_refuted, C50_refuted, C52_slim_partial, C52_training, C52_refuted, C53_check, C53_declarations, C53_nipals_refuted, C53_declarations_more, C54_terminates_partial, C54_refuted, C55_iterations_partial, C55_refuted_always, C55_weights_refuted, C55_refuted, C57_rejects, C57_epo_refuted, C58_no_inverse, C59_refuted, C60_features, C60_refuted, C63_results, C63_effects, C64_any_numbers, C64_sorting_float64, C64_opls, C65_refuted, C66_life_cycle, C66_training, C66_more_targets_refuted, C67_life_cycle, C67_reconstruct_refuted, C67_max_iter_refuted, C73_refuted, C79_nan_refuted, C84_median_nan, C90_default_refuted, C91_pls1, C91_vcpls, C91_simpls, C91_prm, C91_opls, C91_nipals, C91_cca_regression, C91_dipls, C91_sparse_pls, C91_kernel_pls_linear, C91_kernel_pls_poly, C91_kernel_pls_rbf, C92_pls1_partial, C92_vcpls_partial, C92_simpls_partial, C92_prm_partial, C92_opls_partial, C92_nipals_partial, C92_cca_regression_partial, C92_dipls_partial, C92_kernel_pls_linear_partial, C92_kernel_pls_poly_partial, C92_kernel_pls_rbf_partial, C92_refuted, C93_center, C93_standardize, C93_pass_through, C93_rownorm, C93_savitzky_golay, C93_downsample, C93_equidistance, C93_glsw, C93_cca_filter, C94_pls1, C94_vcpls, C94_simpls, C94_nipals, C94_cca_regression, C94_kernel_pls, C94_opls, C94_sparse_pls, C94_dipls, C94_prm, C94_kept_pls1, C94_kept_vcpls, C94_kept_simpls, C94_kept_prm, C94_kept_opls, C94_kept_nipals, C94_kept_cca_regression, C94_kept_kernel_pls, C94_kept_sparse_pls, C94_kept_dipls, C94_used_simpls, C94_used_prm, C94_used_opls, C94_used_dipls, C95_pls1_partial, C95_vcpls_partial, C95_opls_partial, C95_nipals_partial, C95_cca_regression_partial, C95_kernel_pls_partial, C95_sparse_pls_partial, C95_dipls_partial, C95_simpls_partial, C95_prm_partial, C95_refuted, C100_refuted, C101_matrix, C101_rejected, C102_robust_scaler_partial, C102_quantile_transformer_partial, C102_power_transformer_partial, C102_refuted.

**`ClassicalDedekindReals.sig_forall_dec`, `ClassicalDedekindReals.sig_not_dec`, `FunctionalExtensionality.functional_extensionality_dep`** (190):
C03_mul_real, C03_assoc, C03_distr, C03_unit, C03_transpose, C09_sum, C09_mean, C09_trace, C11_clip_real, C11_sign_abs, C13_real, C14_equal_real, C19_refuted, C21_sorted_pairs, C21_dominant, C21_diagonal, C21_contracts, C22_recombine, C22_rows_are_singular_vectors, C22_transposed_product_differs, C22_empty, C24_refuted, C24_characterisation, C27_means, C27_mean_stdev, C27_laws, C28_sort_reals, C30_least_squares, C30_collinear, C33_interpolation, C33_consequences, C35_msc, C36_center, C36_zero_means, C37_round_trip_partial, C37_statistics, C38_transform, C38_inverse_is_identity, C38_round_trip_partial, C38_refuted, C38_latched_after_inverse, C40_linear, C41_exists, C41_taylor_coefficient, C41_smoothing_and_slope, C41_refuted, C43_not_invertible, C44_correct, C44_reference, C44_transform, C45_linear, C45_poly, C45_rbf, C45_single_argument, C45_gamma_latched, C45_width, C45_fresh, C49_training_partial, C50_single, C50_multi_partial, C50_no_preprocessing, C51_training, C51_public, C52_largest, C52_refuted_always, C54_one_repetition_partial, C55_weights_partial, C56_selection, C56_scores, C56_loadings_refuted, C57_symmetric, C57_glsw_matrix, C57_epo_partial, C57_epo_too_many, C58_derivative_partial, C58_refuted, C58_rows, C59_correction_partial, C59_one_component, C60_direction_partial, C60_length_partial, C61_solve, C61_inverse, C61_inverse_rectangular, C62_norm1, C62_norm2, C62_normalized, C64_sorting_reals, C66_projections_partial, C66_canonical_refuted, C67_deflation, C67_symmetric_decorrelation, C67_parallel, C67_sources, C67_unwhitened_refuted, C67_succeeds, C68_simpls, C69_pls1_simpls, C70_nipals, C71_kernel_pls, C71_residuals, C72_linear_kernel, C73_partial, C73_linear, C74_refuted, C75_refuted, C77_sample_order, C78_vcpls, C79_refuted, C80_unsupervised, C80_supervised, C80_semisupervised, C81_unsupervised, C81_supervised, C81_shift, C82_raises, C82_refuted, C83_training_rows_partial, C83_differ, C83_refuted, C84_median, C84_median_splits, C84_median_minimises, C84_median_order, C84_max, C85_prm, C85_trains, C85_pls1, C86_weights_partial, C86_refuted, C87_descent_partial, C87_refuted, C88_wide_partial, C88_trains, C88_transform_refuted, C88_refuted, C89_sparse_pls, C90_nothing_selected, C90_lambda_refuted, C90_trains_partial, C92_sparse_one_row, C96_pls1, C96_vcpls, C96_simpls, C96_nipals, C96_sparse_pls, C96_opls, C97_center, C97_standardize, C97_glsw_epo, C97_cca_filter, C97_pca, C98_nipals, C98_cca_regression, C98_sparse_pls, C99_pls1, C100_body_partial, C103_pls1, C103_simpls, C104_pls1, C104_simpls, C104_columns, C104_columns_simpls, C105_pls1, C105_simpls, C106_pls1, C106_vcpls, C106_simpls, C106_prm, C106_opls, C106_nipals, C106_cca_regression, C106_dipls, C106_sparse_pls, C106_kernel_pls_linear, C107_center, C107_standardize, C107_savitzky_golay, C107_downsample, C107_equidistance, C107_glsw, C107_cca_filter, C108_pls1, C108_simpls, C109_units_at_training, C110_kernel_pls, C111_kernel_pls, C112_nipals, C113_pls1, C113_opls.

**`ClassicalDedekindReals.sig_forall_dec`, `ClassicalDedekindReals.sig_not_dec`, `Classical_Prop.classic`, `FunctionalExtensionality.functional_extensionality_dep`** (21):
C13_eq, C13_copy, C13_sym_trans, C21_symmetric_answer, C22_svd_answer, C35_log, C39_transform, C39_parameters, C39_base_always_valid, C42_rows_partial, C42_single_row, C42_rows_refuted, C42_no_columns, C43_round_trip, C45_rbf_range, C45_rbf_formula_refuted, C65_weights_partial, C76_covariance_partial, C76_refuted, C78_basis_answer, C93_log.

**`ClassicalDedekindReals.sig_forall_dec`, `ClassicalDedekindReals.sig_not_dec`, `Classical_Prop.classic`, `FunctionalExtensionality.functional_extensionality_dep`, `IndefiniteDescription.constructive_indefinite_description`** (2):
C21_eig_exists, C22_svd_exists.
