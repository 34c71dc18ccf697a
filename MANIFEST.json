{
 "claims": [
  {
   "property": "C01",
   "status": "proved",
   "theorems": [
    "C01_get_sub_matrix",
    "C01_get_rows",
    "C01_get_columns",
    "C01_get_row_column",
    "C01_get",
    "C01_head"
   ],
   "note": ""
  },
  {
   "property": "C02",
   "status": "proved",
   "theorems": [
    "C02_transpose"
   ],
   "note": ""
  },
  {
   "property": "C03",
   "status": "proved",
   "theorems": [
    "C03_mul",
    "C03_mul_real",
    "C03_assoc",
    "C03_distr",
    "C03_unit",
    "C03_transpose",
    "C03_scalar"
   ],
   "note": ""
  },
  {
   "property": "C04",
   "status": "proved",
   "theorems": [
    "C04_elementwise",
    "C04_scalar"
   ],
   "note": ""
  },
  {
   "property": "C05",
   "status": "proved",
   "theorems": [
    "C05_by_vector",
    "C05_scale_by_row_vector",
    "C05_scale_by_column_vector"
   ],
   "note": ""
  },
  {
   "property": "C06",
   "status": "proved",
   "theorems": [
    "C06_set",
    "C06_set_row",
    "C06_set_column",
    "C06_history"
   ],
   "note": ""
  },
  {
   "property": "C07",
   "status": "proved",
   "theorems": [
    "C07_multi_concat_rows",
    "C07_multi_concat_axis",
    "C07_concat_columns",
    "C07_concat_rows",
    "C07_split",
    "C07_assoc",
    "C07_multi_concat"
   ],
   "note": ""
  },
  {
   "property": "C08",
   "status": "proved",
   "theorems": [
    "C08_flatten"
   ],
   "note": ""
  },
  {
   "property": "C09",
   "status": "proved",
   "theorems": [
    "C09_sum",
    "C09_mean",
    "C09_trace"
   ],
   "note": ""
  },
  {
   "property": "C10",
   "status": "proved",
   "theorems": [
    "C10_which",
    "C10_where_vector",
    "C10_row_check"
   ],
   "note": ""
  },
  {
   "property": "C11",
   "status": "proved",
   "theorems": [
    "C11_clip",
    "C11_clip_real",
    "C11_clip_one_sided",
    "C11_nan",
    "C11_sign_abs"
   ],
   "note": ""
  },
  {
   "property": "C12",
   "status": "partial",
   "theorems": [
    "C12_contains_NaN_always_false",
    "C12_characterisation",
    "C12_refuted"
   ],
   "note": "REFUTED: contains_NaN compares with == NAN, which is never true, so it answers False for every matrix; C12_refuted gives a witness and C12_characterisation the exact set of matrices on which the property holds."
  },
  {
   "property": "C13",
   "status": "partial",
   "theorems": [
    "C13_eq",
    "C13_copy",
    "C13_sym_trans",
    "C13_real",
    "C13_refuted"
   ],
   "note": "REFUTED for binary64: a matrix with NaN or infinite entries differs from its own copy (inf - inf is NaN). Proved exactly for matrices of reals, and for finite binary64 entries; symmetry and transitivity and absence of exceptions hold for all."
  },
  {
   "property": "C14",
   "status": "partial",
   "theorems": [
    "C14_equal_real",
    "C14_equal_f64",
    "C14_refuted"
   ],
   "note": "REFUTED for binary64: a NaN difference passes the > comparison so NaN entries count as equal. Proved over the reals; exact binary64 characterisation in C14_equal_f64."
  },
  {
   "property": "C15",
   "status": "proved",
   "theorems": [
    "C15_layout_and_decoding",
    "C15_f64_round_trip",
    "C15_injective",
    "C15_failures"
   ],
   "note": ""
  },
  {
   "property": "C16",
   "status": "proved",
   "theorems": [
    "C16_int",
    "C16_float",
    "C16_str",
    "C16_str_surrogate",
    "C16_other",
    "C16_injective"
   ],
   "note": ""
  },
  {
   "property": "C17",
   "status": "partial",
   "theorems": [
    "C17_characterisation_partial",
    "C17_too_large",
    "C17_refuted",
    "C17_smallest_failures"
   ],
   "note": "REFUTED: serialise_big_int raises OverflowError exactly for the integers in [2^(8k-1),2^(8k)) and (-2^(8k),-2^(8k-1)), k>=1 (e.g. 128, 255, -129); all others below the prefix limit round-trip (C17_characterisation_partial)."
  },
  {
   "property": "C18",
   "status": "partial",
   "theorems": [
    "C18_always_empty",
    "C18_refuted",
    "C18_characterisation_partial",
    "C18_save_state",
    "C18_parameter_states",
    "C18_log_state",
    "C18_log_state_fails"
   ],
   "note": "REFUTED: get_serialised_state reads the stream at its end and returns b'' for every object (C18_always_empty, C18_refuted). save_state writes exactly the serialised bytes (C18_save_state), but a bare file name raises FileNotFoundError."
  },
  {
   "property": "C19",
   "status": "partial",
   "theorems": [
    "C19_eigen_current_partial",
    "C19_singular_current_partial",
    "C19_refuted"
   ],
   "note": "REFUTED: *_by_vector_modify and fill_diagonal do not drop the cache and get_eigenvalue_decomposition_V hands out the cached matrix, so eigenvalues, eigenvectors and get_singular_values go stale (C19_refuted, four witnesses). Proved: after creation or after a successful set/set_row/set_column/reset_cache, and as long as those three things do not happen, every report is that of the current contents, over all histories (C19_eigen_current_partial, C19_singular_current_partial)."
  },
  {
   "property": "C20",
   "status": "proved",
   "theorems": [
    "C20_frame",
    "C20_history",
    "C20_results_are_new",
    "C20_no_shared_storage"
   ],
   "note": ""
  },
  {
   "property": "C21",
   "status": "proved",
   "theorems": [
    "C21_sorted_pairs",
    "C21_dominant",
    "C21_empty",
    "C21_diagonal",
    "C21_symmetric_answer",
    "C21_eig_exists",
    "C21_contracts"
   ],
   "note": ""
  },
  {
   "property": "C22",
   "status": "proved",
   "theorems": [
    "C22_recombine",
    "C22_rows_are_singular_vectors",
    "C22_transposed_product_differs",
    "C22_empty",
    "C22_svd_answer",
    "C22_svd_exists"
   ],
   "note": ""
  },
  {
   "property": "C23",
   "status": "proved",
   "theorems": [
    "C23_zeros",
    "C23_filled",
    "C23_eye",
    "C23_like",
    "C23_range",
    "C23_diag",
    "C23_from_lists",
    "C23_constructor"
   ],
   "note": ""
  },
  {
   "property": "C24",
   "status": "partial",
   "theorems": [
    "C24_seed_determines",
    "C24_randn_ignores_parameters",
    "C24_refuted",
    "C24_characterisation",
    "C24_like"
   ],
   "note": "REFUTED: randn discards its mean and std arguments (C24_randn_ignores_parameters, C24_refuted); the determinism clause is proved."
  },
  {
   "property": "C25",
   "status": "proved",
   "theorems": [
    "C25_delete_cols",
    "C25_delete_col"
   ],
   "note": ""
  },
  {
   "property": "C26",
   "status": "proved",
   "theorems": [
    "C26_round_trip",
    "C26_read_any",
    "C26_split_join"
   ],
   "note": ""
  },
  {
   "property": "C27",
   "status": "proved",
   "theorems": [
    "C27_means",
    "C27_mean_stdev",
    "C27_laws"
   ],
   "note": ""
  },
  {
   "property": "C28",
   "status": "proved",
   "theorems": [
    "C28_sort",
    "C28_sort_float64",
    "C28_sort_reals",
    "C28_sort_nan"
   ],
   "note": ""
  },
  {
   "property": "C29",
   "status": "partial",
   "theorems": [
    "C29_returns_permutation",
    "C29_short_partial",
    "C29_refuted",
    "C29_refuted_python_floats"
   ],
   "note": "REFUTED: the integer branch (also taken for plain Python floats) returns unsorted permutations or raises IndexError already on four elements (C29_refuted, C29_refuted_python_floats). Proved: any returned list is a permutation; arrays of at most three elements are sorted."
  },
  {
   "property": "C30",
   "status": "proved",
   "theorems": [
    "C30_least_squares",
    "C30_collinear"
   ],
   "note": ""
  },
  {
   "property": "C31",
   "status": "partial",
   "theorems": [
    "C31_always_one",
    "C31_characterisation_partial",
    "C31_refuted"
   ],
   "note": "REFUTED: max_index returns 1 for every non-empty array (C31_always_one); right exactly when element 1 exists and is a maximum (C31_characterisation_partial)."
  },
  {
   "property": "C32",
   "status": "proved",
   "theorems": [
    "C32_downsample",
    "C32_other_parameters"
   ],
   "note": ""
  },
  {
   "property": "C33",
   "status": "proved",
   "theorems": [
    "C33_total",
    "C33_rejected",
    "C33_interpolation",
    "C33_consequences"
   ],
   "note": ""
  },
  {
   "property": "C34",
   "status": "proved",
   "theorems": [
    "C34_empty",
    "C34_cons",
    "C34_nesting",
    "C34_nesting_assoc"
   ],
   "note": ""
  },
  {
   "property": "C35",
   "status": "proved",
   "theorems": [
    "C35_msc",
    "C35_center",
    "C35_standardize",
    "C35_pass_through",
    "C35_log",
    "C35_wrappers",
    "C35_quick_apply"
   ],
   "note": ""
  },
  {
   "property": "C36",
   "status": "proved",
   "theorems": [
    "C36_center",
    "C36_zero_means",
    "C36_wrong_width"
   ],
   "note": ""
  },
  {
   "property": "C37",
   "status": "partial",
   "theorems": [
    "C37_round_trip_partial",
    "C37_statistics",
    "C37_wrong_width",
    "C37_zero_deviation_columns",
    "C37_refuted"
   ],
   "note": "REFUTED: only the standard deviation of column 0 is guarded against zero, so any other constant column is turned into NaN/inf and the round trip returns NaN (C37_refuted, C37_zero_deviation_columns, binary64). Proved over the reals when only column 0 may be constant."
  },
  {
   "property": "C38",
   "status": "partial",
   "theorems": [
    "C38_transform",
    "C38_inverse_is_identity",
    "C38_round_trip_partial",
    "C38_refuted",
    "C38_latched_after_inverse"
   ],
   "note": "REFUTED: transform never marks the object configured, so the following inverse_transform re-configures on its argument and returns it unchanged (C38_inverse_is_identity, C38_refuted); the round trip holds exactly for already normalised matrices (C38_round_trip_partial). The transform itself is proved correct (C38_transform)."
  },
  {
   "property": "C39",
   "status": "proved",
   "theorems": [
    "C39_transform",
    "C39_parameters",
    "C39_base_always_valid"
   ],
   "note": ""
  },
  {
   "property": "C40",
   "status": "proved",
   "theorems": [
    "C40_window",
    "C40_linear",
    "C40_shift_equivariant",
    "C40_illegal_assignment",
    "C40_legal_assignment",
    "C40_no_inverse",
    "C40_sg2"
   ],
   "note": ""
  },
  {
   "property": "C41",
   "status": "partial",
   "theorems": [
    "C41_exists",
    "C41_taylor_coefficient",
    "C41_smoothing_and_slope",
    "C41_refuted",
    "C41_refuted_one_point"
   ],
   "note": "REFUTED for derivative order d >= 2 (the factor d! is missing, C41_refuted: on x^d the output is 1 instead of d!) and for the one-point window (always copies the input). Proved for all orders: d! * output is the d-th derivative of every polynomial of degree <= polynomial_order, hence exact for d = 0, 1."
  },
  {
   "property": "C42",
   "status": "partial",
   "theorems": [
    "C42_rows_partial",
    "C42_single_row",
    "C42_rows_refuted",
    "C42_no_columns"
   ],
   "note": "REFUTED for two or more rows: np.fft.fftshift is applied to all axes, so output row r is the transform of input row (r - rows//2) mod rows (C42_rows_refuted, exact for every output mode in C42_rows_partial). The claim holds for one row (C42_single_row)."
  },
  {
   "property": "C43",
   "status": "proved",
   "theorems": [
    "C43_round_trip",
    "C43_not_invertible",
    "C43_mode_codes"
   ],
   "note": ""
  },
  {
   "property": "C44",
   "status": "proved",
   "theorems": [
    "C44_correct",
    "C44_reference",
    "C44_transform",
    "C44_no_inverse"
   ],
   "note": ""
  },
  {
   "property": "C45",
   "status": "partial",
   "theorems": [
    "C45_linear",
    "C45_poly",
    "C45_rbf",
    "C45_single_argument",
    "C45_rbf_range",
    "C45_rbf_formula_refuted",
    "C45_gamma_latched",
    "C45_degree",
    "C45_width",
    "C45_fresh"
   ],
   "note": "REFUTED in one clause: the RBF kernel computes exp(-gamma*||x-y||), without squaring the distance (C45_rbf_formula_refuted; exact formula in C45_rbf). All other clauses are proved for every kernel state."
  },
  {
   "property": "C46",
   "status": "proved",
   "theorems": [
    "C46_cca_filter",
    "C46_fastica",
    "C46_pca",
    "C46_pca_assignment",
    "C46_assignment",
    "C46_parameters_of_trained",
    "C46_pls1",
    "C46_vcpls",
    "C46_simpls",
    "C46_nipals",
    "C46_cca_regression",
    "C46_sparse_pls",
    "C46_prm",
    "C46_kernel_pls",
    "C46_dipls",
    "C46_opls",
    "C46_tolerances",
    "C46_constants"
   ],
   "note": "For every PLS class and for FastICA (C46_fastica) with the parameters their sources validate. NIPALS.norm_Y_weights / deflation_mode, the DIPLS strategy counters and FastICA's fun / algorithm have no validator in the source, so every value is valid for them."
  },
  {
   "property": "C47",
   "status": "partial",
   "theorems": [
    "C47_trained_iff",
    "C47_untrained_raises",
    "C47_failed_initialize",
    "C47_half_missing",
    "C47_refuted"
   ],
   "note": "REFUTED in one clause: initialize with exactly one of predictors/response None returns an error message but leaves an already trained model trained (C47_half_missing, C47_refuted). Everything else is proved for all histories. Inputs are values in this model."
  },
  {
   "property": "C48",
   "status": "partial",
   "theorems": [
    "C48_cca_filter_stale_partial",
    "C48_cca_filter_defaults",
    "C48_cca_filter_refuted",
    "C48_fastica_stale_partial",
    "C48_fastica_initialize",
    "C48_fastica_refuted",
    "C48_fastica_num_components_partial",
    "C48_glsw",
    "C48_pca",
    "C48_same_parameters",
    "C48_retraining",
    "C48_pls1",
    "C48_vcpls",
    "C48_simpls",
    "C48_nipals",
    "C48_cca_regression",
    "C48_sparse_pls",
    "C48_prm",
    "C48_kernel_pls",
    "C48_opls_pls1",
    "C48_opls",
    "C48_refuted_dipls",
    "C48_refuted_kernel_pls"
   ],
   "note": "REFUTED for DIPLS (source/target centers survive reset), KernelPLS with a PolyKernel (the kernel fixes gamma on first use), CCAFilter (the centers survive reset: C48_cca_filter_refuted; C48_cca_filter_stale_partial: every later training centres with the first means and raises for another number of columns; C48_cca_filter_defaults: initialize() without arguments forgets everything) and FastICA (C48_fastica_refuted; C48_fastica_stale_partial: the first means are used for ever; C48_fastica_num_components_partial: the lowered number of components stays; C48_fastica_initialize: after initialize() the object is like new). Proved for PLS1, VCPLS, SIMPLS, NIPALS, CCARegression, SparsePLS, PRM, OPLS, GLSW and its subclasses, PCA and KernelPLS with other kernels."
  },
  {
   "property": "C49",
   "status": "partial",
   "theorems": [
    "C49_training_partial",
    "C49_refuted"
   ],
   "note": "REFUTED: do_predict never applies the predictor transformation, so predictions change by shift*coefficient (C49_refuted). Training itself is shift invariant for every class (C49_training_partial)."
  },
  {
   "property": "C50",
   "status": "partial",
   "theorems": [
    "C50_single",
    "C50_multi_partial",
    "C50_no_preprocessing",
    "C50_refuted"
   ],
   "note": "REFUTED: all columns are mapped back with mean and deviation of column 0 (C50_refuted; exact value C50_multi_partial). Proved for single-response classes, column 0, and preprocessing NONE."
  },
  {
   "property": "C51",
   "status": "proved",
   "theorems": [
    "C51_training",
    "C51_public"
   ],
   "note": "Over the reals, for every training set whose weights, scores and inverse exist (no_breakdown), any number of components; np.linalg.inv through its contract (inverse_pair), for the core loop and for the public initialize / transform / predict."
  },
  {
   "property": "C52",
   "status": "partial",
   "theorems": [
    "C52_slim_partial",
    "C52_training",
    "C52_largest",
    "C52_refuted_always",
    "C52_refuted"
   ],
   "note": "REFUTED: the cut-off is the (k+1)-th largest magnitude and the test is >=, so k+1 (or more with ties) coefficients survive (C52_refuted_always, C52_refuted). C52_slim_partial gives the exact survivors: entries with at most k strictly larger in magnitude; k <= 0 and k >= size keep all."
  },
  {
   "property": "C53",
   "status": "partial",
   "theorems": [
    "C53_check",
    "C53_declarations",
    "C53_nipals_refuted",
    "C53_declarations_more"
   ],
   "note": "REFUTED in the last clause: NIPALS and CCARegression declare a minimum of one response column but training raises for every response with two or more columns and the model stays untrained (C53_nipals_refuted). The check itself and the declarations of every class are proved."
  },
  {
   "property": "C54",
   "status": "partial",
   "theorems": [
    "C54_terminates_partial",
    "C54_one_repetition_partial",
    "C54_refuted"
   ],
   "note": "REFUTED in the fixed point clause: y_score is never updated inside the loop, so every pass recomputes the weights of the first response column (C54_terminates_partial, C54_one_repetition_partial) and they are not a fixed point of the alternating update (C54_refuted). Termination within max_iter is proved for every number type."
  },
  {
   "property": "C55",
   "status": "partial",
   "theorems": [
    "C55_iterations_partial",
    "C55_refuted_always",
    "C55_weights_partial",
    "C55_weights_refuted",
    "C55_refuted"
   ],
   "note": "REFUTED: the loop condition is inverted, it goes on while the change is BELOW tol and stops as soon as the change reaches tol (C55_refuted_always, C55_refuted; exact trace C55_iterations_partial). In binary64 weights leave (0,1] (become NaN or 0) when a median distance is 0 (C55_weights_refuted). Proved: termination, exact iteration trace, weights in (0,1] over the reals (C55_weights_partial)."
  },
  {
   "property": "C56",
   "status": "partial",
   "theorems": [
    "C56_selection",
    "C56_scores",
    "C56_loadings_refuted"
   ],
   "note": "REFUTED in the last clause: the loadings matrix has one row per kept column and looks the row number up among the original indices of the kept columns, so when a constant column is dropped loadings are lost or moved (C56_loadings_refuted; the exact contents are in C56_selection). Everything else is proved for all data with a varying column, all thresholds and limits, every eigen-decomposition with orthonormal vectors and every ascending argsort: number of components, order, scores (C56_selection), zero mean and no correlation (C56_scores)."
  },
  {
   "property": "C57",
   "status": "partial",
   "theorems": [
    "C57_symmetric",
    "C57_rejects",
    "C57_glsw_matrix",
    "C57_epo_partial",
    "C57_epo_too_many",
    "C57_epo_refuted"
   ],
   "note": "REFUTED in the EPO clause: EPO's matrix is V V^T instead of I - V V^T, so the filtered data keep exactly the interference directions and lose everything else (C57_epo_refuted; exact effect C57_epo_partial); N larger than the number of columns raises ValueError (C57_epo_too_many). Proved: symmetry and X*G over all histories of the four classes, rejection of unequal shapes, the closed form of GLSW's matrix."
  },
  {
   "property": "C58",
   "status": "partial",
   "theorems": [
    "C58_derivative_partial",
    "C58_refuted",
    "C58_rows",
    "C58_no_inverse"
   ],
   "note": "REFUTED: the filter returns minus the derivative (C58_refuted; C58_derivative_partial proves the exact value -(b + 2 c i) on every interior row of every quadratic). Row count proved (C58_rows)."
  },
  {
   "property": "C59",
   "status": "partial",
   "theorems": [
    "C59_correction_partial",
    "C59_one_component",
    "C59_refuted"
   ],
   "note": "REFUTED in the last clause from two components on: transform uses X*W_orth*P_orth^T instead of the sequential scores (C59_refuted; exact difference C59_correction_partial). Proved over the reals for every training set: orthogonality of W_orth to X^T y, X_osc = X - T_orth P_orth^T, and the full claim for one component (C59_one_component)."
  },
  {
   "property": "C60",
   "status": "partial",
   "theorems": [
    "C60_features",
    "C60_direction_partial",
    "C60_length_partial",
    "C60_refuted"
   ],
   "note": "REFUTED: the direction vector is c/||c||^2 instead of c/||c|| (C60_refuted; exact C60_direction_partial, C60_length_partial: ||w||*||c|| = 1). The feature clause is proved for every number type (C60_features)."
  },
  {
   "property": "C61",
   "status": "proved",
   "theorems": [
    "C61_solve",
    "C61_inverse",
    "C61_inverse_rectangular"
   ],
   "note": ""
  },
  {
   "property": "C62",
   "status": "proved",
   "theorems": [
    "C62_norm1",
    "C62_norm2",
    "C62_normalized"
   ],
   "note": ""
  },
  {
   "property": "C63",
   "status": "proved",
   "theorems": [
    "C63_results",
    "C63_effects"
   ],
   "note": ""
  },
  {
   "property": "C64",
   "status": "proved",
   "theorems": [
    "C64_any_numbers",
    "C64_sorting_reals",
    "C64_sorting_float64",
    "C64_opls"
   ],
   "note": "PLS1, VCPLS, NIPALS, CCARegression, SparsePLS, DIPLS, KernelPLS for every number type; SIMPLS and PRM (which use utils.sort) for the reals and for binary64 including NaN; OPLS over any base class that ends. External LAPACK routines are assumed to return or raise."
  },
  {
   "property": "C65",
   "status": "partial",
   "theorems": [
    "C65_weights_partial",
    "C65_refuted"
   ],
   "note": "REFUTED: eigenvectors come in the solver's order, singular values in decreasing order, and they are paired by position (C65_refuted: the direction with no difference is damped, the interference is left alone). C65_weights_partial: the exact scaling, and the claim holds iff |lambda_k| = s_k for every k."
  },
  {
   "property": "C66",
   "status": "partial",
   "theorems": [
    "C66_projections_partial",
    "C66_canonical_refuted",
    "C66_life_cycle",
    "C66_training",
    "C66_more_targets_refuted"
   ],
   "note": "REFUTED in two clauses: the columns of the right singular factor are used where its rows belong, so pairs are correlated across components and the first pair is not the canonical one (C66_canonical_refuted, exact cross products in C66_projections_partial); with more targets than features training always raises (C66_more_targets_refuted). Proved: whitening of both projections, transform, message, life cycle over all histories. lambda has no validator: the theorem needs lambda > 0."
  },
  {
   "property": "C67",
   "status": "partial",
   "theorems": [
    "C67_deflation",
    "C67_symmetric_decorrelation",
    "C67_parallel",
    "C67_sources",
    "C67_life_cycle",
    "C67_reconstruct_refuted",
    "C67_unwhitened_refuted",
    "C67_max_iter_refuted",
    "C67_succeeds"
   ],
   "note": "REFUTED in the reconstruction clause: with whitening reconstruct raises ValueError whenever samples and features differ, after any history, for every number type (C67_reconstruct_refuted); without whitening it adds to every entry the mean of its sample (C67_unwhitened_refuted). REFUTED in the whiteness clause for max_iter = 0, which the validator accepts (C67_max_iter_refuted). Proved over the reals: sources, zero means, whiteness, recovery of the centred data from sources and mixing (C67_sources), orthonormal rows of both algorithms (C67_deflation, C67_parallel, C67_symmetric_decorrelation), success for fewer components than features (C67_succeeds), life cycle over all histories (C67_life_cycle)."
  },
  {
   "property": "C68",
   "status": "proved",
   "theorems": [
    "C68_simpls"
   ],
   "note": "Over the reals, through the public methods, for every preprocessing type with usable statistics. The eigen-solver is any function that answers 1 x 1 matrices with a non-zero entry. A breakdown (no residual column correlated with the response) is excluded: there the source divides by zero."
  },
  {
   "property": "C69",
   "status": "proved",
   "theorems": [
    "C69_pls1_simpls"
   ],
   "note": "Over the reals, through the public methods, same hypotheses as C68. Both recursions are reduced to the same directions (dir in L_Krylov.v)."
  },
  {
   "property": "C70",
   "status": "proved",
   "theorems": [
    "C70_nipals"
   ],
   "note": "Over the reals, through the public methods. pinv is any function with A A+ A = A and A A+ symmetric (instance pinv_R: Greville's recursion). Hypotheses: no constant column, and at every component whose remaining response is not negligible (>= 1e-10) the covariances are not either (squared norm >= 1e-16 times the squared remaining response) - below that the source adds 1e-16 to every weight. Canonical deflation for norm_Y_weights = False only."
  },
  {
   "property": "C71",
   "status": "proved",
   "theorems": [
    "C71_kernel_pls",
    "C71_residuals"
   ],
   "note": "Over the reals, through the public methods. Only hypotheses: shapes, no preprocessing, initialize returned None. randn(n, 1, seed) is any function returning n x 1 matrices. For the residuals the kernel must answer apply_matrix(X, X) as apply_matrix(X) (proved for the three kernels of the package)."
  },
  {
   "property": "C72",
   "status": "proved",
   "theorems": [
    "C72_linear_kernel"
   ],
   "note": "Over the reals, through the public methods. A start is usable when it is not orthogonal to the first covariance direction and not within tol of the converged vector or its negative (otherwise the loop stops after one pass; with the code's normal starts this has probability zero)."
  },
  {
   "property": "C73",
   "status": "partial",
   "theorems": [
    "C73_partial",
    "C73_linear",
    "C73_refuted"
   ],
   "note": "REFUTED (C73_refuted, polynomial kernel: predictions average 6.64, responses 4): at prediction the kernel matrix is centred with the already centred training kernel, whose column means are zero. C73_partial: holds when all columns of the raw kernel matrix have the same sum; C73_linear: always holds for the linear kernel."
  },
  {
   "property": "C74",
   "status": "partial",
   "theorems": [
    "C74_refuted"
   ],
   "note": "REFUTED for every successful training with every kernel: P is computed after the deflation and is the zero matrix, while the kernel matrix applied to any score is not zero (C74_refuted). The example C74_ex is an actual run."
  },
  {
   "property": "C75",
   "status": "partial",
   "theorems": [
    "C75_refuted"
   ],
   "note": "REFUTED: with tol = 0 or max_iter = 0 every training on any data with any kernel raises LinAlgError (C75_refuted), because the inner loop is not entered. Positive values can train (k_run in C72_ex)."
  },
  {
   "property": "C76",
   "status": "partial",
   "theorems": [
    "C76_covariance_partial",
    "C76_refuted"
   ],
   "note": "REFUTED: the gradient filter has the wrong sign (C58), so the weights are 2^(+y'_i/s) and grow with the gradient (C76_refuted: more than 100000 instead of less than 1 on three samples). Everything else of the formula is proved (C76_covariance_partial): order, ties, gradients with repeated ends, standard deviation, squared weights."
  },
  {
   "property": "C77",
   "status": "proved",
   "theorems": [
    "C77_sample_order"
   ],
   "note": "Over the reals, for the objects reached by any history (any state s), through initialize; transform multiplies by the resulting matrix (C57)."
  },
  {
   "property": "C78",
   "status": "proved",
   "theorems": [
    "C78_basis_answer",
    "C78_vcpls"
   ],
   "note": "Over the reals, through the public methods. The eigen-solver is any function that answers every matrix symmetric with respect to some scalar product with its real eigenvalues and a basis of unit-length eigenvectors (eig_basis; such functions exist for every size: C78_basis_answer, C21_eig_exists; executable instance eig2 for 2 x 2)."
  },
  {
   "property": "C79",
   "status": "partial",
   "theorems": [
    "C79_refuted",
    "C79_nan_refuted"
   ],
   "note": "REFUTED: validate_lambda_ accepts every value; with lambda_ < -1e-7 |y|^2 the second score is the zero vector on every training set with independent columns (C79_refuted) and the model predicts NaN (C79_nan_refuted, binary64, public methods). lambda_ > 0 is fine (C78)."
  },
  {
   "property": "C80",
   "status": "proved",
   "theorems": [
    "C80_unsupervised",
    "C80_supervised",
    "C80_semisupervised"
   ],
   "note": "Over the reals, through the public methods, no preprocessing, on an object whose centring is fresh (retraining keeps the old centring: C48_refuted_dipls). Hypothesis: training returned None. In semi-supervised mode the target covariance includes the unlabelled rows but is divided by nt - 1; that mode needs nt = ns (C82)."
  },
  {
   "property": "C81",
   "status": "proved",
   "theorems": [
    "C81_unsupervised",
    "C81_supervised",
    "C81_shift"
   ],
   "note": "Over the reals, through the public methods. Unsupervised: training succeeds if PLS1 on the centred source data does not break down; supervised: whenever DIPLS training returned None."
  },
  {
   "property": "C82",
   "status": "partial",
   "theorems": [
    "C82_raises",
    "C82_refuted"
   ],
   "note": "REFUTED (C82_refuted): the labelled rows are taken as the first 2*ns rows instead of ns+nt. C82_raises: for every data set with nt <> ns it raises ValueError (IndexError if nt + nu < ns). nt = ns is covered by C80_semisupervised."
  },
  {
   "property": "C83",
   "status": "partial",
   "theorems": [
    "C83_training_rows_partial",
    "C83_differ",
    "C83_refuted"
   ],
   "note": "REFUTED (C83_refuted; C83_differ: for every data set with equal covariance matrices and two or more components). C83_training_rows_partial: transform(training rows) = T P^T W, i.e. each column is its score plus multiples of the earlier ones; equality holds for one component."
  },
  {
   "property": "C84",
   "status": "proved",
   "theorems": [
    "C84_median",
    "C84_median_splits",
    "C84_median_minimises",
    "C84_median_order",
    "C84_median_nan",
    "C84_max"
   ],
   "note": "Over the reals; the NaN clause in binary64."
  },
  {
   "property": "C85",
   "status": "proved",
   "theorems": [
    "C85_prm",
    "C85_trains",
    "C85_pls1"
   ],
   "note": "Over the reals, through the public methods, no preprocessing, at least two rows and one column. C85_prm: what every successful training computed; C85_trains: when it succeeds; C85_pls1: equality with PLS1 on the last weighted rows (num_SIMPLS_coefficients <= 0, which keeps all coefficients; the 1 x 1 eigen-solver contract eig_one). Example C85_ex is in P_PRM3.v."
  },
  {
   "property": "C86",
   "status": "partial",
   "theorems": [
    "C86_weights_partial",
    "C86_refuted"
   ],
   "note": "REFUTED (C86_refuted: X=(1,2,3), y=(0,1,3), C=1: weight (22/71)^2 instead of 1/16): the code calls update_residual_weights(X_p, y_p) with the weighted response but the estimate from the unweighted scores, so it weights sqrt(w_i) y_i - prediction_i. C86_weights_partial: exactly that for all data, with the leverage clause as claimed; the claim holds where the last weights were 1."
  },
  {
   "property": "C87",
   "status": "partial",
   "theorems": [
    "C87_descent_partial",
    "C87_refuted"
   ],
   "note": "REFUTED (C87_refuted): a row closer than 1e-10 to the iterate gets weight 10 instead of a large one, so the result can be worse than the mean it starts from. C87_descent_partial: the claim for all data whose iterates stay at least 1e-10 away from every row."
  },
  {
   "property": "C88",
   "status": "partial",
   "theorems": [
    "C88_wide_partial",
    "C88_trains",
    "C88_transform_refuted",
    "C88_refuted"
   ],
   "note": "REFUTED (C88_refuted, C88_transform_refuted): svd_V() returns vh, not its transpose, so training uses -vh diag(s), which is not a rotation of the rows (predictions differ); transform multiplies p columns with an n-row matrix and raises ValueError after every wide training. C88_wide_partial: what is computed instead, and that the claim holds when vh is symmetric; C88_trains: when training succeeds."
  },
  {
   "property": "C89",
   "status": "proved",
   "theorems": [
    "C89_sparse_pls"
   ],
   "note": "Over the reals, through the public methods, no preprocessing, columns and response not constant; one theorem."
  },
  {
   "property": "C90",
   "status": "partial",
   "theorems": [
    "C90_nothing_selected",
    "C90_lambda_refuted",
    "C90_trains_partial",
    "C90_default_refuted"
   ],
   "note": "REFUTED: for every lambda_ >= 1 and all data nothing is selected, NIPALS is trained on a matrix without columns and IndexError is raised (C90_lambda_refuted, C90_nothing_selected); with the default lambda_ in binary64 on data where half of the covariances are 0, although NIPALS trains on it (C90_default_refuted). C90_trains_partial: with one component, one selected feature with correlation at least 1e-8 is enough for training to succeed."
  },
  {
   "property": "C91",
   "status": "proved",
   "theorems": [
    "C91_pls1",
    "C91_vcpls",
    "C91_simpls",
    "C91_prm",
    "C91_opls",
    "C91_nipals",
    "C91_cca_regression",
    "C91_dipls",
    "C91_sparse_pls",
    "C91_kernel_pls_linear",
    "C91_kernel_pls_poly",
    "C91_kernel_pls_rbf"
   ],
   "note": "For every Num instance, every solver and every history of calls. Products are summed in one order; numpy's BLAS may round differently for different batch sizes."
  },
  {
   "property": "C92",
   "status": "partial",
   "theorems": [
    "C92_pls1_partial",
    "C92_vcpls_partial",
    "C92_simpls_partial",
    "C92_prm_partial",
    "C92_opls_partial",
    "C92_nipals_partial",
    "C92_cca_regression_partial",
    "C92_dipls_partial",
    "C92_kernel_pls_linear_partial",
    "C92_kernel_pls_poly_partial",
    "C92_kernel_pls_rbf_partial",
    "C92_sparse_one_row",
    "C92_refuted"
   ],
   "note": "REFUTED for SparsePLS: transform deflates with the batch's own loadings, so in a batch of one row all scores after a non-zero first one are 0 (C92_sparse_one_row, all data over the reals; C92_refuted, binary64). The other classes satisfy it (C92_..._partial), PLS1 and VCPLS for num_components other than -1, which makes zeros() return a square matrix."
  },
  {
   "property": "C93",
   "status": "proved",
   "theorems": [
    "C93_center",
    "C93_standardize",
    "C93_pass_through",
    "C93_rownorm",
    "C93_savitzky_golay",
    "C93_downsample",
    "C93_equidistance",
    "C93_glsw",
    "C93_cca_filter",
    "C93_log"
   ],
   "note": "One theorem per class, for every Num instance (Log over the reals). FFT is the exception, see C42; PCA, FastICA and unconfigured transformations fit themselves to each batch."
  },
  {
   "property": "C94",
   "status": "proved",
   "theorems": [
    "C94_pls1",
    "C94_vcpls",
    "C94_simpls",
    "C94_nipals",
    "C94_cca_regression",
    "C94_kernel_pls",
    "C94_opls",
    "C94_sparse_pls",
    "C94_dipls",
    "C94_prm",
    "C94_kept_pls1",
    "C94_kept_vcpls",
    "C94_kept_simpls",
    "C94_kept_prm",
    "C94_kept_opls",
    "C94_kept_nipals",
    "C94_kept_cca_regression",
    "C94_kept_kernel_pls",
    "C94_kept_sparse_pls",
    "C94_kept_dipls",
    "C94_used_simpls",
    "C94_used_prm",
    "C94_used_opls",
    "C94_used_dipls"
   ],
   "note": "For every Num instance and every solver; PRM for an svd that answers in numpy's documented sizes. The hypotheses on rows, columns and components exclude empty data, for which zeros() returns other sizes."
  },
  {
   "property": "C95",
   "status": "partial",
   "theorems": [
    "C95_pls1_partial",
    "C95_vcpls_partial",
    "C95_opls_partial",
    "C95_nipals_partial",
    "C95_cca_regression_partial",
    "C95_kernel_pls_partial",
    "C95_sparse_pls_partial",
    "C95_dipls_partial",
    "C95_simpls_partial",
    "C95_prm_partial",
    "C95_refuted"
   ],
   "note": "REFUTED: SIMPLS.reset() does not clear Q (C95_refuted, binary64; C95_simpls_partial: the Q of the last training stays, the rest is cleared), PRM.get_matrix('W') raises AttributeError on an untrained object (C95_prm_partial). The other classes satisfy it. A training that raises half-way is not covered."
  },
  {
   "property": "C96",
   "status": "proved",
   "theorems": [
    "C96_pls1",
    "C96_vcpls",
    "C96_simpls",
    "C96_nipals",
    "C96_sparse_pls",
    "C96_opls"
   ],
   "note": "Over the reals (in binary64 the order of a sum matters to rounding). For all solvers, which see the same matrices in both runs. CCARegression (pseudo-inverts the data itself), KernelPLS (random start), PRM and DIPLS are not covered."
  },
  {
   "property": "C97",
   "status": "proved",
   "theorems": [
    "C97_center",
    "C97_standardize",
    "C97_glsw_epo",
    "C97_cca_filter",
    "C97_pca"
   ],
   "note": "Over the reals, for all solvers. The y-gradient filters are the subject of C77."
  },
  {
   "property": "C98",
   "status": "proved",
   "theorems": [
    "C98_nipals",
    "C98_cca_regression",
    "C98_sparse_pls"
   ],
   "note": "Over the reals, for all lstsq and pinv (both runs call them with the same matrices). The scores of SparsePLS do depend on the units: its transform works on the raw predictors."
  },
  {
   "property": "C99",
   "status": "proved",
   "theorems": [
    "C99_pls1"
   ],
   "note": "Over the reals; one theorem, through the public methods."
  },
  {
   "property": "C100",
   "status": "partial",
   "theorems": [
    "C100_refuted",
    "C100_body_partial"
   ],
   "note": "REFUTED for every input (C100_refuted): row_norms raises NotImplementedError. C100_body_partial: with a row_norms that returns the squared norms as a column, the rest is right for two single rows and raises InvalidShapeError for all other shapes."
  },
  {
   "property": "C101",
   "status": "proved",
   "theorems": [
    "C101_matrix",
    "C101_rejected"
   ],
   "note": "For every Num instance. That the wave numbers of the other spectra are ignored (not compared) is part of the statement."
  },
  {
   "property": "C102",
   "status": "partial",
   "theorems": [
    "C102_robust_scaler_partial",
    "C102_quantile_transformer_partial",
    "C102_power_transformer_partial",
    "C102_refuted"
   ],
   "note": "REFUTED (C102_refuted): a configured object ignores assignments to with_centering, with_scaling, n_quantiles, ignore_implicit_zeroes, subsample, random_state and standardise, because only validated attributes reset it. C102_..._partial: exactly which assignments take effect, for all states and all scikit-learn functions."
  },
  {
   "property": "C103",
   "status": "proved",
   "theorems": [
    "C103_pls1",
    "C103_simpls"
   ],
   "note": "Over the reals. Predict does not preprocess its argument (C49), so the training error is that of the preprocessed training predictors. For SIMPLS with num_coefficients <= 0 (no weights dropped) and an eig that answers 1x1 matrices with a normalised vector."
  },
  {
   "property": "C104",
   "status": "proved",
   "theorems": [
    "C104_pls1",
    "C104_simpls",
    "C104_columns",
    "C104_columns_simpls"
   ],
   "note": "Over the reals; SIMPLS under the assumptions of C103. With preprocessing standardize the basis matters, only permutations of the features are covered."
  },
  {
   "property": "C105",
   "status": "proved",
   "theorems": [
    "C105_pls1",
    "C105_simpls"
   ],
   "note": "Over the reals; SIMPLS under the assumptions of C103. Predict does not preprocess its argument (C49), so the coefficients are those for preprocessed predictors."
  },
  {
   "property": "C106",
   "status": "proved",
   "theorems": [
    "C106_pls1",
    "C106_vcpls",
    "C106_simpls",
    "C106_prm",
    "C106_opls",
    "C106_nipals",
    "C106_cca_regression",
    "C106_dipls",
    "C106_sparse_pls",
    "C106_kernel_pls_linear"
   ],
   "note": "Over the reals. Scores of PLS1 and VCPLS for num_components other than -1 (zeros(n, -1) makes a square matrix). OPLS over its default base class PLS1. CCARegression as NIPALS. SparsePLS: predictions only, as stated."
  },
  {
   "property": "C107",
   "status": "proved",
   "theorems": [
    "C107_center",
    "C107_standardize",
    "C107_savitzky_golay",
    "C107_downsample",
    "C107_equidistance",
    "C107_glsw",
    "C107_cca_filter"
   ],
   "note": "Over the reals. PCA reconfigures itself on every transform, so the claim does not concern it. The nonlinear transformations are not claimed."
  },
  {
   "property": "C108",
   "status": "proved",
   "theorems": [
    "C108_pls1",
    "C108_simpls"
   ],
   "note": "Over the reals; SIMPLS under the assumptions of C103. Predict does not preprocess its argument (C49)."
  },
  {
   "property": "C109",
   "status": "proved",
   "theorems": [
    "C109_units_at_training"
   ],
   "note": "For the ten classes over R, every state and every solver. The predictions compared are for the same rows Z: preprocessing is not applied to the rows given to predict (C49). Success of training is not assumed: both trainings succeed, refuse or raise together."
  },
  {
   "property": "C110",
   "status": "proved",
   "theorems": [
    "C110_kernel_pls"
   ],
   "note": "Over R, for every power and exponential function used by the kernels. Success of training is not assumed: both trainings succeed, refuse or raise together."
  },
  {
   "property": "C111",
   "status": "proved",
   "theorems": [
    "C111_kernel_pls"
   ],
   "note": "Over R, for every kernel function with state. The random start vector of a component is the same in both trainings (rnd is a function of the component and the number of rows). Success of training is not assumed: both trainings succeed or raise together."
  },
  {
   "property": "C112",
   "status": "proved",
   "theorems": [
    "C112_nipals"
   ],
   "note": "Over R. Success of training is not assumed: both trainings succeed, refuse or raise together. A constant feature is excluded because Standardize treats a constant first column differently from a constant later column (C37)."
  },
  {
   "property": "C113",
   "status": "proved",
   "theorems": [
    "C113_pls1",
    "C113_opls"
   ],
   "note": "Over R. Success of training is not assumed: both trainings succeed, refuse or raise together. The base object of OPLS is PLS1 with preprocessing none or center; a standardizing base is not covered, because the cleaned data may have a constant column. The OPLS example has no orthogonal component."
  }
 ]
}