{
 "claims": [
  {
   "property": "C01",
   "status": "proved",
   "theorems": [
    "C01_unfold_kolda",
    "C01_unfold_every_cell"
   ],
   "note": "any order, mode and scalar type; the mode axis must be non-empty (else the call raises, C03)"
  },
  {
   "property": "C02",
   "status": "proved",
   "theorems": [
    "C02_fold_unfold",
    "C02_unfold_fold"
   ],
   "note": ""
  },
  {
   "property": "C03",
   "status": "proved",
   "theorems": [
    "C03_unfold_domain",
    "C03_fold_domain"
   ],
   "note": "exact domain of both functions"
  },
  {
   "property": "C04",
   "status": "proved",
   "theorems": [
    "C04_t2mat_lists",
    "C04_t2mat_tuples",
    "C04_t2mat_int_row",
    "C04_t2mat_int_col",
    "C04_t2mat_int_int",
    "C04_t2mat_rest"
   ],
   "note": ""
  },
  {
   "property": "C05",
   "status": "partial",
   "theorems": [
    "C05_t2mat_post",
    "C05_t2mat_args_unchanged_partial",
    "C05_t2mat_args_unchanged_refuted"
   ],
   "note": "the code violates the property for a list r_axis with an int c_axis: the caller's list grows (refuted by witness); proved in all other cases, exact post-state proved"
  },
  {
   "property": "C06",
   "status": "proved",
   "theorems": [
    "C06_unfold_is_t2mat",
    "C06_lmv"
   ],
   "note": ""
  },
  {
   "property": "C07",
   "status": "proved",
   "theorems": [
    "C07_vectorize",
    "C07_vec_to_tensor"
   ],
   "note": ""
  },
  {
   "property": "C08",
   "status": "proved",
   "theorems": [
    "C08_mul_contraction",
    "C08_merge_spec",
    "C08_mul_int",
    "C08_mul_mismatch"
   ],
   "note": "Over any commutative ring; size mismatch in the element count raises ValueError."
  },
  {
   "property": "C09",
   "status": "partial",
   "theorems": [
    "C09_mul_matrix_product_partial",
    "C09_mul_01_is_transpose",
    "C09_mul_01_documented_refuted"
   ],
   "note": "mul(A,B,1,0)=AB proved; the documented mul(A,B,0,1)=BA is false: it is the transpose of BA."
  },
  {
   "property": "C10",
   "status": "partial",
   "theorems": [
    "C10_mul_tuple_raises",
    "C10_mul_tuple_refuted"
   ],
   "note": "The property is false: every tuple axis raises TypeError (exact behaviour proved for all in-range axes)."
  },
  {
   "property": "C11",
   "status": "proved",
   "theorems": [
    "C11_ttm",
    "C11_ttm_default",
    "C11_ttm_skip",
    "C11_ttm_any_order"
   ],
   "note": "Over any commutative ring."
  },
  {
   "property": "C12",
   "status": "proved",
   "theorems": [
    "C12_ttm_order"
   ],
   "note": "Any permutation of the pair list, orders up to 13."
  },
  {
   "property": "C13",
   "status": "partial",
   "theorems": [
    "C13_ttm_both",
    "C13_ttm_rejects",
    "C13_ttm_axis_range",
    "C13_ttm_domain_partial",
    "C13_ttm_every_order_refuted"
   ],
   "note": "Rejection proved for all orders; exact domain for order <= 13; \"works for every order\" is false: at order 14 a consistent call returns a wrong tensor because einsum labels collide."
  },
  {
   "property": "C14",
   "status": "proved",
   "theorems": [
    "C14_inner",
    "C14_inner_symmetric",
    "C14_inner_bilinear",
    "C14_inner_positive",
    "C14_inner_shapes"
   ],
   "note": "Ring laws; positivity over the reals."
  },
  {
   "property": "C15",
   "status": "proved",
   "theorems": [
    "C15_hadamard",
    "C15_hadamard_order",
    "C15_hadamard_empty"
   ],
   "note": ""
  },
  {
   "property": "C16",
   "status": "proved",
   "theorems": [
    "C16_kron",
    "C16_kron_reverse",
    "C16_kron_limits"
   ],
   "note": ""
  },
  {
   "property": "C17",
   "status": "proved",
   "theorems": [
    "C17_kron_mixed",
    "C17_kron_identity",
    "C17_kron_associative"
   ],
   "note": "Mixed product for lists of any accepted length."
  },
  {
   "property": "C18",
   "status": "proved",
   "theorems": [
    "C18_khatri",
    "C18_khatri_reverse",
    "C18_khatri_limits",
    "C18_khatri_columns"
   ],
   "note": ""
  },
  {
   "property": "C19",
   "status": "proved",
   "theorems": [
    "C19_khatri_gram"
   ],
   "note": ""
  },
  {
   "property": "C20",
   "status": "proved",
   "theorems": [
    "C20_skip",
    "C20_without_spec"
   ],
   "note": ""
  },
  {
   "property": "C21",
   "status": "proved",
   "theorems": [
    "C21_max_single_value",
    "C21_lipschitz"
   ],
   "note": "The SVD is an oracle; the Lipschitz part assumes each matrix stretches vectors by at most the largest value returned for it."
  },
  {
   "property": "C22",
   "status": "proved",
   "theorems": [
    "C22_xcb"
   ],
   "note": "Over any commutative ring whose == decides zero."
  },
  {
   "property": "C23",
   "status": "partial",
   "theorems": [
    "C23_dtensor_unfold_exact",
    "C23_dtensor_unfold_partial",
    "C23_dtensor_unfold_refuted"
   ],
   "note": "False: the first unfolding ever computed is cached for every mode. Exact behaviour for every history proved; the property holds when all earlier successful unfoldings were of the same mode."
  },
  {
   "property": "C24",
   "status": "proved",
   "theorems": [
    "C24_dtensor_unchanged",
    "C24_dtensor_ops",
    "C24_dtensor_arith",
    "C24_dtensor_getitem"
   ],
   "note": "mul with a bare tf.Tensor operand raises AttributeError in the model and is not claimed; slices are not modelled."
  },
  {
   "property": "C25",
   "status": "proved",
   "theorems": [
    "C25_ktensor_extract",
    "C25_ktensor_extract_ndarray"
   ],
   "note": "Over any commutative ring. More than 25 factors raise ValueError (einsum letters), stated in the theorem."
  },
  {
   "property": "C26",
   "status": "partial",
   "theorems": [
    "C26_ktensor_dtype_mismatch",
    "C26_ktensor_ndarray_partial",
    "C26_ktensor_float64_ndarray_refuted",
    "C26_ktensor_float64_default_refuted"
   ],
   "note": "False for float64: ndarray factors become float32 while the weights keep float64, and default weights are always float32; both raise TypeError. Exact rule proved."
  },
  {
   "property": "C27",
   "status": "proved",
   "theorems": [
    "C27_cp_matricization"
   ],
   "note": "Order >= 2 (khatri of an empty list raises) and a non-empty mode (unfold raises otherwise, C03)."
  },
  {
   "property": "C28",
   "status": "proved",
   "theorems": [
    "C28_ttensor_extract"
   ],
   "note": ""
  },
  {
   "property": "C29",
   "status": "proved",
   "theorems": [
    "C29_tucker_matricization"
   ],
   "note": "Order 2 to 13: for order 1 kron of no matrices raises."
  },
  {
   "property": "C30",
   "status": "proved",
   "theorems": [
    "C30_l2",
    "C30_l2_broadcast",
    "C30_rmse",
    "C30_rmse_shapes",
    "C30_distances"
   ],
   "note": "Over the real numbers; the metric facts for non-empty tensors (an empty one divides by zero)."
  },
  {
   "property": "C31",
   "status": "proved",
   "theorems": [
    "C31_rmse_ignore_zero",
    "C31_ignores_zeros",
    "C31_shapes",
    "C31_all_zero",
    "C31_binary32_nan"
   ],
   "note": "Exact arithmetic (reals, or any ring). In binary32 a NaN or infinity of B at a zero of A does spread (C31_binary32_nan), because the mask multiplies."
  },
  {
   "property": "C32",
   "status": "proved",
   "theorems": [
    "C32_read_inferred_shape",
    "C32_read_distinct",
    "C32_read_row_order",
    "C32_read_blank_rows"
   ],
   "note": "A file is the list of rows csv.reader yields; int()/float() are parameters. At least one coordinate per row."
  },
  {
   "property": "C33",
   "status": "proved",
   "theorems": [
    "C33_read_last_row_wins",
    "C33_read_out_of_range",
    "C33_read_negative"
   ],
   "note": ""
  },
  {
   "property": "C34",
   "status": "partial",
   "theorems": [
    "C34_short_row_partial",
    "C34_long_row_misread",
    "C34_missing_value_misread",
    "C34_malformed_rows_refuted"
   ],
   "note": "False: longer rows and rows lacking the value are silently misread; proved for rows at least two fields short."
  },
  {
   "property": "C35",
   "status": "proved",
   "theorems": [
    "C35_file_type",
    "C35_empty_file",
    "C35_extension_unique"
   ],
   "note": "A path without any dot counts as its own extension (path \"csv\" is read)."
  },
  {
   "property": "C36",
   "status": "proved",
   "theorems": [
    "C36_cp_history",
    "C36_hooi_history",
    "C36_ncp_history",
    "C36_ntucker_history",
    "C36_measured"
   ],
   "note": "The RMSE entry is the code's rmse_ignore_zero: root mean square over the non-zero entries of X. C36_measured is over the reals."
  },
  {
   "property": "C37",
   "status": "proved",
   "theorems": [
    "C37_ncp_stopping",
    "C37_ntucker_stopping",
    "C37_best_is_minimum"
   ],
   "note": ""
  },
  {
   "property": "C38",
   "status": "partial",
   "theorems": [
    "C38_cp_stopping_partial",
    "C38_hooi_stopping_partial",
    "C38_stopping_refuted"
   ],
   "note": "False as stated: CP and HOOI never update the reference objective, so every step is compared with (first objective + 1). Exact rule proved, counterexample by a converged CP run."
  },
  {
   "property": "C39",
   "status": "partial",
   "theorems": [
    "C39_cp_full_partial",
    "C39_hooi_full_partial",
    "C39_ncp_full_partial",
    "C39_ntucker_full_partial",
    "C39_hosvd_full",
    "C39_cp_exact_partial",
    "C39_cp_full_refuted",
    "C39_ncp_full_refuted",
    "C39_ntucker_full_refuted"
   ],
   "note": "False when training stops early at a step that does not validate: full is then the one of the last validated step. Proved whenever the last step validates (all steps used, verbose, or a multiple of validation_internal); HOSVD always."
  },
  {
   "property": "C40",
   "status": "partial",
   "theorems": [
    "C40_train_finish",
    "C40_hooi_train_finish_partial",
    "C40_hooi_train_finish_refuted"
   ],
   "note": "Proved for CP, NCP, NTucker and HOSVD. False for HOOI, whose train does not reset the flag: there it says that some train call completed."
  },
  {
   "property": "C41",
   "status": "proved",
   "theorems": [
    "C41_cp",
    "C41_hooi",
    "C41_ncp",
    "C41_ntucker"
   ],
   "note": "HOOI leaves train_finish unchanged, the others set it to False."
  },
  {
   "property": "C42",
   "status": "partial",
   "theorems": [
    "C42_predict_partial",
    "C42_predict_out_of_range_partial",
    "C42_predict_arity_partial",
    "C42_predict_flat_partial",
    "C42_predict_checked_partial",
    "C42_predict_untrained_partial",
    "C42_predict_refuted"
   ],
   "note": "HOOI/HOSVD predict reads the entry (one index: the flat position; IndexError and ValueError otherwise) but an untrained one raises AttributeError; CP/NCP/NTucker raise TensorErr before training but ValueError after training (truth value of an array) unless full has one entry."
  },
  {
   "property": "C43",
   "status": "proved",
   "theorems": [
    "C43_train_independent"
   ],
   "note": ""
  },
  {
   "property": "C44",
   "status": "proved",
   "theorems": [
    "C44_cp_step",
    "C44_cp_run",
    "C44_cp_train",
    "C44_zero_column_nan",
    "C44_cp_step_succeeds",
    "C44_cp_step_fails",
    "C44_cp_train_succeeds"
   ],
   "note": "pinv is an oracle assumed to return the Moore-Penrose inverse (which exists: penrose_exists). Stated where no update has a zero column, which the code divides by zero (C44_zero_column_nan). No bound on the order: a step succeeds exactly for orders 2..25 and positive sizes."
  },
  {
   "property": "C45",
   "status": "proved",
   "theorems": [
    "C45_cp_step",
    "C45_cp_train"
   ],
   "note": "Same assumption on pinv. A column whose maximum is zero is divided by zero, so reconstruction is stated for non-zero weights."
  },
  {
   "property": "C46",
   "status": "proved",
   "theorems": [
    "C46_cp_step",
    "C46_cp_no_failure",
    "C46_cp_exists",
    "C46_cp_session"
   ],
   "note": "Reference variables: a kernel sees the buffer while it runs (Sched.v). Graph rewriting by the runtime is not modelled. Factors are matrices, one per mode, and stay so (C46_cp_session)."
  },
  {
   "property": "C47",
   "status": "proved",
   "theorems": [
    "C47_ncp_factors",
    "C47_ncp_factors_every_step",
    "C47_ncp_reconstruction",
    "C47_ncp_reconstruction_every_step"
   ],
   "note": "Any number type in which 0 < 0 is false (binary32 and the reals); a NaN is not < 0. Reconstruction over the reals."
  },
  {
   "property": "C48",
   "status": "proved",
   "theorems": [
    "C48_ncp_weights",
    "C48_ntucker_weights",
    "C48_ncp_extrapolation",
    "C48_nt_extrapolation",
    "C48_accepted_decrease"
   ],
   "note": "Exact arithmetic (reals); a zero Lipschitz constant divides by zero, for which the real model still gives a weight in [0,1)."
  },
  {
   "property": "C49",
   "status": "proved",
   "theorems": [
    "C49_ncp_step",
    "C49_ncp_no_failure",
    "C49_ncp_exists",
    "C49_ncp_accept",
    "C49_ncp_reject",
    "C49_ncp_init",
    "C49_ncp_session",
    "C49_nt_core",
    "C49_nt_fact",
    "C49_nt_accept",
    "C49_nt_reject",
    "C49_nt_init",
    "C49_nt_session"
   ],
   "note": "Reference variables: a kernel sees the buffer while it runs (Sched.v). Graph rewriting by the runtime is not modelled. Both update groups and initialisation included; the scratch variables Bsq and Grad_g are ignored."
  },
  {
   "property": "C50",
   "status": "proved",
   "theorems": [
    "C50_ncp_step",
    "C50_ncp_every_step",
    "C50_ncp_descends",
    "C50_ncp_better",
    "C50_zero_constant_nan",
    "C50_ncp_step_succeeds",
    "C50_ncp_step_fails",
    "C50_ncp_train_succeeds"
   ],
   "note": "The largest singular value is an oracle assumed to be the spectral norm (spectral_exists). The update is stated for a non-zero constant, which a start better than the zero tensor guarantees (C50_ncp_better); a zero Gram matrix makes the code divide by zero (C50_zero_constant_nan). No bound on the order: a step succeeds exactly for orders 2..25 and positive sizes."
  },
  {
   "property": "C51",
   "status": "proved",
   "theorems": [
    "C51_ntucker_not_negative",
    "C51_ntucker_every_step",
    "C51_ntucker_reconstruction"
   ],
   "note": "Any number type in which 0 < 0 is false."
  },
  {
   "property": "C52",
   "status": "proved",
   "theorems": [
    "C52_ntucker_lipschitz"
   ],
   "note": "The SVD is an oracle."
  },
  {
   "property": "C53",
   "status": "proved",
   "theorems": [
    "C53_nt_step",
    "C53_nt_reachable",
    "C53_nt_descends",
    "C53_nt_better",
    "C53_zero_constant_nan",
    "C53_nt_step_succeeds",
    "C53_nt_step_fails",
    "C53_core_alone_order14",
    "C53_nt_train_succeeds"
   ],
   "note": "The largest singular value is an oracle assumed to be the spectral norm (spectral_exists). The update is stated for non-zero constants, which a start better than the zero tensor guarantees (C53_nt_better); a zero constant makes the code divide by zero (C53_zero_constant_nan). No bound on the order: a step runs exactly for orders 2..13 and positive sizes."
  },
  {
   "property": "C54",
   "status": "proved",
   "theorems": [
    "C54_hosvd_factors",
    "C54_hosvd_succeeds",
    "C54_hosvd_train",
    "C54_hooi_init_rejects",
    "C54_hooi_step_rejects",
    "C54_hooi_fits",
    "C54_hooi_step",
    "C54_hooi_train",
    "C54_hooi_train_succeeds"
   ],
   "note": "Given that tf.svd returns the left factor of a reduced SVD (left_svd; it exists: SvdExists.v). Positive sizes. Success and step rejection for orders up to 13, the rest at every order."
  },
  {
   "property": "C55",
   "status": "partial",
   "theorems": [
    "C55_hosvd_error_partial",
    "C55_hooi_error",
    "C55_hosvd_order14_refuted",
    "C55_order14_refuted"
   ],
   "note": "HOOI: every step that runs (orders 2..13 only, C57_hooi_step_fails). HOSVD: orders 1..13; at order 14 the einsum letters collide and HOSVD returns wrong values (C55_hosvd_order14_refuted) or raises ValueError."
  },
  {
   "property": "C56",
   "status": "partial",
   "theorems": [
    "C56_hosvd_exact_partial",
    "C56_hooi_exact",
    "C55_hosvd_order14_refuted"
   ],
   "note": "HOOI: every step that runs. HOSVD: orders 1..13; at order 14 full ranks can give the zero tensor."
  },
  {
   "property": "C57",
   "status": "proved",
   "theorems": [
    "C57_hooi_step",
    "C57_hooi_run",
    "C57_hooi_train",
    "C57_hooi_step_fails"
   ],
   "note": "One step, a whole run and the history train records. No bound on the order: a step runs exactly for orders 2..13 and positive sizes (C54_hooi_step)."
  },
  {
   "property": "C58",
   "status": "partial",
   "theorems": [
    "C58_hosvd_bound_partial",
    "C58_hosvd_order14_refuted"
   ],
   "note": "Orders 1..13; at order 14 the einsum letters collide and the error can be positive with nothing discarded."
  },
  {
   "property": "C59",
   "status": "proved",
   "theorems": [
    "C59_centralization",
    "C59_centralization_linear"
   ],
   "note": "Exact arithmetic (reals)."
  },
  {
   "property": "C60",
   "status": "partial",
   "theorems": [
    "C60_adjoint_partial",
    "C60_adjoint_unit_partial",
    "C60_adjoint_values",
    "C60_adjoint_refuted",
    "C60_adjoint_scale_refuted"
   ],
   "note": "False: adjoint_operator overwrites repeated samples instead of adding them, and omits the 1/sqrt(n_o) of Pomega_mat. The exact identity with that factor is proved for samples without a repeated position."
  },
  {
   "property": "C61",
   "status": "partial",
   "theorems": [
    "C61_shrink_numpy",
    "C61_shrink_numpy_complicated",
    "C61_shrink_tensorflow_partial",
    "C61_shrink_tensorflow_refuted"
   ],
   "note": "Proved for the NumPy version (the SVD routine is an oracle assumed to decompose its argument). False for the TensorFlow version, which multiplies by V instead of its transpose."
  },
  {
   "property": "C62",
   "status": "partial",
   "theorems": [
    "C62_cone_projection_numpy",
    "C62_distance",
    "C62_cone_projection_tensorflow_refuted"
   ],
   "note": "Proved for the NumPy version, reading its (0, 0) as the zero vector. The TensorFlow version always raises TypeError (Python if on a tensor)."
  },
  {
   "property": "C63",
   "status": "partial",
   "theorems": [
    "C63_exact_recovery",
    "C63_train_partial",
    "C63_train_refuted",
    "C63_exact_recovery_zero_freedom"
   ],
   "note": "Proved for PITF_np. False for PITF.train: the sample is a random op and is redrawn in every session run; the recurrence holds with the draw of each run. train returns nothing."
  },
  {
   "property": "C64",
   "status": "proved",
   "theorems": [
    "C64_subspace_BC",
    "C64_subspace_A"
   ],
   "note": "Mode A for non-empty matrices."
  },
  {
   "property": "C65",
   "status": "partial",
   "theorems": [
    "C65_synthetic_cp_partial",
    "C65_synthetic_cp_refuted",
    "C65_synthetic_tucker_partial",
    "C65_synthetic_tucker_refuted"
   ],
   "note": "Proved for 1..25 modes (CP) and 1..13 modes (Tucker); beyond, the einsum letters run out: ValueError for every CP call with more than 25 modes, and a Tucker call of order 14."
  },
  {
   "property": "C66",
   "status": "partial",
   "theorems": [
    "C66_full_refuted",
    "C66_full_unchanged",
    "C66_full_unchanged_numpy"
   ],
   "note": "False: no code assigns _full; full() returns what it returned before training (None for a new object)."
  },
  {
   "property": "C67",
   "status": "partial",
   "theorems": [
    "C67_alone_partial",
    "C67_shared_graph_refuted",
    "C67_two_models_refuted"
   ],
   "note": "False: merge_all_summaries collects the summaries of every model in the default graph, so train of either model raises."
  },
  {
   "property": "C68",
   "status": "partial",
   "theorems": [
    "C68_default_environment_refuted",
    "C67_alone_partial"
   ],
   "note": "False: FileWriter(None) raises TypeError for every built model."
  },
  {
   "property": "C69",
   "status": "partial",
   "theorems": [
    "C08_mul_mismatch",
    "C69_mul_sizes_refuted"
   ],
   "note": "Only the products of the contracted sizes are compared; (2,3) against (3,2) is accepted."
  },
  {
   "property": "C70",
   "status": "partial",
   "theorems": [
    "C12_ttm_order",
    "C70_ttm_repeated_axis_refuted"
   ],
   "note": "False: a repeated axis silently multiplies the two matrices entrywise."
  },
  {
   "property": "C71",
   "status": "proved",
   "theorems": [
    "C71_hooi_step",
    "C71_hooi_no_failure",
    "C71_hooi_exists",
    "C71_hooi_session"
   ],
   "note": "Reference variables: a kernel sees the buffer while it runs (Sched.v). Graph rewriting by the runtime is not modelled. "
  },
  {
   "property": "C72",
   "status": "partial",
   "theorems": [
    "C72_ncp_retry_point_partial",
    "C72_nt_retry_point_partial",
    "C72_ncp_restored_partial",
    "C72_nt_restored_partial",
    "C72_ncp_second_step_partial",
    "C72_nt_second_step_partial",
    "C72_ncp_retry_refuted",
    "C72_nt_retry_refuted"
   ],
   "note": "The code violates the statement: after a rejected step only the extrapolation point is reset to the last accepted factors; the factors and core that enter the Gram matrices and the other modes stay those of the rejected step, so the retry can be worse than the last accepted step (refuted in binary32 with computed singular values). Proved: what the next step starts from, exactly; with the factors restored too the statement would hold; the second step always satisfies it."
  },
  {
   "property": "C73",
   "status": "partial",
   "theorems": [
    "C73_ncp_publishes_last_partial",
    "C73_nt_publishes_last_partial",
    "C73_last_accepted_partial",
    "C73_ncp_refuted",
    "C73_nt_refuted"
   ],
   "note": "The code violates the statement: train always publishes the last step, accepted or not. Proved: that this is what it publishes, and that it is the best step when it was accepted."
  },
  {
   "property": "C74",
   "status": "proved",
   "theorems": [
    "C74_ncp_step",
    "C74_nt_step",
    "C74_ncp_train",
    "C74_nt_train",
    "C74_cp_step",
    "C74_hooi_step"
   ],
   "note": "NCP/NTucker: non-negative, not extrapolated, non-zero data. CP: under the guard of C44 (no zero normalisation); HOOI: core the projection of the data."
  },
  {
   "property": "C75",
   "status": "proved",
   "theorems": [
    "C75_hooi_run",
    "C75_train",
    "C75_hooi_starts_at_hosvd"
   ],
   "note": "Same oracle for the SVD as C54. No bound on the order: HOOI runs exactly for orders 2..13."
  },
  {
   "property": "C76",
   "status": "partial",
   "theorems": [
    "C76_lower_bound",
    "C76_hosvd_partial",
    "C76_hooi_run",
    "C76_hooi_train",
    "C76_hosvd_order14_refuted"
   ],
   "note": "HOOI: every step that runs. HOSVD: orders 1..13; false at order 14, where the einsum letters collide. The lower bound holds at every order."
  },
  {
   "property": "C77",
   "status": "partial",
   "theorems": [
    "C77_hosvd_core_partial",
    "C77_hooi_core",
    "C77_hooi_mode",
    "C77_hooi_last",
    "C77_hosvd_order14_refuted"
   ],
   "note": "HOOI: every step that runs. HOSVD: orders 1..13; false at order 14."
  },
  {
   "property": "C78",
   "status": "partial",
   "theorems": [
    "C78_hosvd_partial",
    "C78_hosvd_train_partial",
    "C78_hooi_run",
    "C78_hooi_train",
    "C78_hosvd_order14_refuted"
   ],
   "note": "HOOI: every step that runs. HOSVD: orders 1..13; false at order 14."
  },
  {
   "property": "C79",
   "status": "proved",
   "theorems": [
    "C79_tucker_data",
    "C79_cp_data",
    "C79_hosvd_tucker",
    "C79_hosvd_cp",
    "C79_hooi_tucker",
    "C79_hooi_cp"
   ],
   "note": "Random draws are inputs; the conversion of the drawn numbers to float32 may be any function. Exact arithmetic otherwise."
  },
  {
   "property": "C80",
   "status": "proved",
   "theorems": [
    "C80_cp_step",
    "C80_cp_step_positive",
    "C80_cp_train",
    "C80_cp_synthetic"
   ],
   "note": "Same oracle for the pseudo-inverse as C44. A zero maximum is divided by (C44_zero_column_nan), hence the condition in the statement. C80_cp_synthetic: noise-free rank-one data of synthetic_data_cp."
  },
  {
   "property": "C81",
   "status": "proved",
   "theorems": [
    "C81_ncp_init",
    "C81_nt_init",
    "C81_ncp_model",
    "C81_nt_model",
    "C81_ncp_first_step",
    "C81_nt_first_step",
    "C81_ncp_zero_draw_nan",
    "C81_nt_zero_draw_nan"
   ],
   "note": "pow takes roots (oracle for tf.pow). The first-step bound needs non-zero Lipschitz constants (see C50, C53). A draw without positive entry becomes NaN in binary32."
  },
  {
   "property": "C82",
   "status": "partial",
   "theorems": [
    "C82_random_matrices_partial",
    "C82_random_sample",
    "C82_rank_refuted"
   ],
   "note": "The code violates the statement: the mean term subspace adds to A can raise its rank to ra + 1 (refuted with ra = 1). Proved: everything else, and rank ra + 1 for A. Random draws are inputs."
  },
  {
   "property": "C83",
   "status": "proved",
   "theorems": [
    "C83_isometry",
    "C83_unique",
    "C83_runs",
    "C83_recovery"
   ],
   "note": "The SVD is an oracle that returns a full SVD of every matrix (exists: full_svd_exists). Exact arithmetic."
  },
  {
   "property": "C84",
   "status": "proved",
   "theorems": [
    "C84_minimiser",
    "C84_penalty_defined",
    "C84_nonexpansive"
   ],
   "note": "Same oracle as C83. The NumPy version of shrink."
  },
  {
   "property": "C85",
   "status": "proved",
   "theorems": [
    "C85_converges",
    "C85_losses",
    "C85_large_step_refuted"
   ],
   "note": "Same oracle as C83. C85_large_step_refuted: with a larger step the loss can stay constant. The rank enters only the recorded degrees of freedom."
  },
  {
   "property": "C86",
   "status": "partial",
   "theorems": [
    "C86_shrinkage_value_partial",
    "C86_shrinkage_guess_partial",
    "C86_shrinkage_large_guess",
    "C86_shrinkageA_value_partial",
    "C86_shrinkageA_zero_partial",
    "C86_shrinkage_rank_refuted",
    "C86_shrinkage_rows_refuted",
    "C86_shrinkageA_refuted"
   ],
   "note": "The code violates the statement in three ways: the last singular value above the threshold is dropped when the guess is below it, rows of U are taken for its columns, and shrinkageA thresholds the sum of the entries instead of the sum over the root of the size. Proved: the exact result for every guess (IndexError beyond the number of singular values), and agreement with shrink for a right guess and symmetric U (shrinkageA: tau = 0)."
  },
  {
   "property": "C87",
   "status": "proved",
   "theorems": [
    "C87_ncp_length",
    "C87_ntucker_length",
    "C87_cp_length",
    "C87_hooi_length",
    "C87_hooi_no_stall"
   ],
   "note": "Exact arithmetic, X not zero. That residuals do not rise is C57 for HOOI and C44 (non-zero columns) for CP_ALS."
  },
  {
   "property": "C88",
   "status": "proved",
   "theorems": [
    "C88_ncp_kkt",
    "C88_ncp_minimal",
    "C88_ncp_decrease",
    "C88_ncp_strict",
    "C88_nt_kkt",
    "C88_nt_minimal",
    "C88_nt_decrease",
    "C88_nt_strict"
   ],
   "note": "Exact arithmetic; same oracle for the singular values as C50. The code extrapolates from the third step on, and after a rejected step keeps the rejected factors (C72), so this is about single steps."
  },
  {
   "property": "C89",
   "status": "proved",
   "theorems": [
    "C89_hosvd_bound",
    "C89_hosvd_slices",
    "C89_hosvd_train",
    "C89_truncated_refuted",
    "C89_hooi_last_mode",
    "C89_hooi_train"
   ],
   "note": "Same oracle for the SVD as C54. C89_truncated_refuted shows that exactness is needed for orthogonality. From order 14 on HOSVD is wrong or fails (C55) and HOOI fails."
  },
  {
   "property": "C90",
   "status": "proved",
   "theorems": [
    "C90_step",
    "C90_no_failure",
    "C90_exists",
    "C90_train",
    "C90_train_exists"
   ],
   "note": "Executions as in C46. A run is described for the sample its random nodes draw; each index vector is one node. The oracle for tf.svd inside shrink is any function."
  },
  {
   "property": "C91",
   "status": "proved",
   "theorems": [
    "C91_cp_normal",
    "C91_cp_fixed",
    "C91_cp_stationary",
    "C91_cp_strict",
    "C91_cp_no_progress",
    "C91_hooi_fixed",
    "C91_hooi_no_progress"
   ],
   "note": "Exact arithmetic; oracles as in C44 and C54. The CP theorems about given steps need non-zero column maxima, as C44 does (a zero maximum is divided by). Whether iterates approach fixed points is C92."
  },
  {
   "property": "C92",
   "status": "proved",
   "theorems": [
    "C92_cp_run",
    "C92_cp_limit",
    "C92_cp_normalised",
    "C92_cp_stationary",
    "C92_hooi_run",
    "C92_hooi_exists",
    "C92_hooi_limit",
    "C92_hooi_matrix"
   ],
   "note": "Exact arithmetic; oracles as in C44 and C54. Non-zero (for the normalised and stationary theorems: positive) column maxima along the run as in C44. CP limit points need not exist (the normalisation bounds columns from above only), so their existence is a hypothesis."
  },
  {
   "property": "C93",
   "status": "proved",
   "theorems": [
    "C93_rows",
    "C93_rows_total",
    "C93_int",
    "C93_read_given_shape",
    "C93_read_inferred_shape",
    "C93_round_trip",
    "C93_header",
    "C93_bad_value",
    "C93_bad_row",
    "C93_type",
    "C93_null"
   ],
   "note": "ASCII files; csv.reader and int are modelled after CPython 3.6-3.10 (Modules/_csv.c with the default dialect, PyLong_FromString), without the limit of 131072 characters per field; float is a parameter. ex_C93_unnoticed shows mistakes that are not noticed (decimal comma, unclosed quote)."
  },
  {
   "property": "C94",
   "status": "proved",
   "theorems": [
    "C94_operations",
    "C94_program",
    "C94_depth",
    "C94_inner",
    "C94_mul",
    "C94_ktensor",
    "C94_any_order",
    "C94_moves",
    "C94_terms"
   ],
   "note": "Overflow is excluded entry by entry (finite results). Operations that compare entries (xcb, rmse_ignore_zero) or take roots (rmse, norm) are not part of the expressions."
  },
  {
   "property": "C95",
   "status": "proved",
   "theorems": [
    "C95_integers",
    "C95_any_order",
    "C95_inner",
    "C95_sharp"
   ],
   "note": "The entries below the bound are recognised by running the expression on integers with a flag."
  },
  {
   "property": "C96",
   "status": "partial",
   "theorems": [
    "C96_cp_step",
    "C96_hosvd",
    "C96_hooi_step",
    "C96_same_vectors",
    "C96_cp_train_partial",
    "C96_hooi_train_partial",
    "C96_ncp_train_partial",
    "C96_nt_train_partial",
    "C96_cp_exact",
    "C96_hooi_exact",
    "C96_ncp_exact",
    "C96_nt_exact",
    "C96_cp_refuted",
    "C96_hooi_refuted",
    "C96_ncp_refuted",
    "C96_nt_refuted"
   ],
   "note": "Exact arithmetic. Every step is equivariant; the number of steps is not, because the stopping rule compares |obj - obj0| with tol * (obj0 + 1) (refuted by binary32 runs on data scaled by a power of two). The _partial theorems compare the steps both runs make; with tol <= 0 the runs agree to the end (C96_*_exact). For HOSVD and HOOI the decompositions used on the two inputs are assumed to return the same singular vectors (C96_same_vectors: possible for every decomposition); C102_hosvd_units and C102_hooi_units drop that assumption when there is a gap after the kept singular values."
  },
  {
   "property": "C97",
   "status": "proved",
   "theorems": [
    "C97_own_graphs",
    "C97_demo",
    "C97_build_outside",
    "C97_nested",
    "C97_stale",
    "C97_reset_inside"
   ],
   "note": "Scripts are straight-line programs over graphs, objects, build_model and train (Process.v). C97_demo is over the real numbers. C97_build_outside: a model built outside the graph it is trained in raises ValueError. C97_nested, C97_stale, C97_reset_inside: nested with blocks, training again in another graph, resetting inside a block."
  },
  {
   "property": "C98",
   "status": "partial",
   "theorems": [
    "C98_reset_partial",
    "C98_default_graph",
    "C98_refuted"
   ],
   "note": "Refuted: the second train of a script in the default graph always raises, because the merged summaries contain those of the first model, whose placeholder is not fed (C98_default_graph, for all decompositions; C98_refuted for tucker_test.py). With tf.reset_default_graph() after each decomposition the property holds (C98_reset_partial)."
  },
  {
   "property": "C99",
   "status": "partial",
   "theorems": [
    "C99_test_gen_perm",
    "C99_test_unfold",
    "C99_test_fold",
    "C99_test_t2mat",
    "C99_test_ttm",
    "C99_test_vectorize",
    "C99_test_mul",
    "C99_test_inner",
    "C99_test_hadamard",
    "C99_test_kron",
    "C99_test_khatri",
    "C99_test_max_single_value_mul",
    "C99_test_xcb",
    "C99_test_d_mul",
    "C99_test_d_dot",
    "C99_test_d_sub",
    "C99_test_d_add",
    "C99_test_d_get_item",
    "C99_test_ttensor_extract",
    "C99_test_ktensor_high_order",
    "C99_test_ktensor_extract_raises",
    "C99_test_ktensor_extract_refuted"
   ],
   "note": "Exact arithmetic (the tests compare to six decimals). All test methods hold except ktensor_test.test_extract, which raises TypeError on every float64 svd: ndarray factors become float32 and the weights stay float64. pitf_ops_test.py asserts nothing."
  },
  {
   "property": "C100",
   "status": "partial",
   "theorems": [
    "C100_guide_matrices",
    "C100_guide_tensors",
    "C100_docstrings",
    "C100_hadamard",
    "C100_khatri",
    "C100_kolda",
    "C100_ttm_range",
    "C100_ttm",
    "C100_contraction",
    "C100_mul_matrices",
    "C100_ktensor",
    "C100_ttensor",
    "C100_kron_reverse_refuted",
    "C100_mul_shapes",
    "C100_mul_shape_refuted",
    "C100_ktensor_svd"
   ],
   "note": "Refuted statements of the documentation: kron(matrices, reverse=True) is said to be X_1 x ... x X_N (C100_kron_reverse_refuted); a shape in the docstring of mul (C100_mul_shape_refuted; C100_mul_shapes gives the right one); the KTensor of an svd is printed with float64 factors and its extract as the original array, while the factors are float32 and extract raises (C100_ktensor_svd). Also wrong: mul(A,B,0,1) in the docstring (C09), tuple axes (C10), a list r_axis that grows (C05). Examples with random operands are proved for all operands of the shapes. The dtypes of the operands of ops are not modelled: examples that mix int32 and float64 arrays (guide_basic_ops.rst:79-81, 227-237) are about the values only."
  },
  {
   "property": "C101",
   "status": "proved",
   "theorems": [
    "C101_cp_step",
    "C101_cp_train",
    "C101_ncp_train",
    "C101_nt_train"
   ],
   "note": "Over the real numbers, for the pseudo-inverse satisfying the Penrose equations (CP); any singular value routine (NCP, NTucker). Non-empty modes, orders for which training runs."
  },
  {
   "property": "C102",
   "status": "proved",
   "theorems": [
    "C102_leading",
    "C102_hosvd_choice",
    "C102_hosvd",
    "C102_gap_needed",
    "C102_hosvd_train",
    "C102_hooi_step",
    "C102_hooi_train",
    "C102_hosvd_units",
    "C102_hooi_units"
   ],
   "note": "Over the reals. hosvd_gaps, sweep_gaps and hooi_gaps are the gap conditions, on the unfoldings the program decomposes; same_span compares the projectors onto the column spaces, which for orthonormal factors determines them. C102_gap_needed: two correct decompositions of the identity give different rank-(1,1) models. Examples: diag(2,1) with ranks 1,1 meets every gap condition for every decomposition and every step count."
  },
  {
   "property": "C103",
   "status": "proved",
   "theorems": [
    "C103_first_step",
    "C103_first_train",
    "C103_rescaled_step",
    "C103_rescaled_train",
    "C103_ncp_scale",
    "C103_nt_scale",
    "C103_cp_step",
    "C103_cp_train",
    "C103_ncp_train",
    "C103_nt_train"
   ],
   "note": "Over the real numbers except the first two theorems (any arithmetic); pseudo-inverse satisfying the Penrose equations (CP), singular values whose first is the spectral norm (order of components in NCP, NTucker); non-empty modes, orders for which training runs."
  },
  {
   "property": "C104",
   "status": "proved",
   "theorems": [
    "C104_ops",
    "C104_hosvd",
    "C104_hosvd_train",
    "C104_hooi_step",
    "C104_hooi_train",
    "C104_cp_step",
    "C104_cp_train",
    "C104_ncp_step",
    "C104_ncp_train",
    "C104_nt_step",
    "C104_nt_train",
    "C104_zero_data"
   ],
   "note": "NumX is the arithmetic with undefined numbers (SpecDef.v); def embeds the real results. The CP, NCP and NTucker training theorems ask for clean steps only before the given number of steps. That starts better than the zero tensor are clean is C50/C53/C81; a zero column maximum in CP_ALS is excluded by hypothesis; C105 shows what happens there."
  },
  {
   "property": "C105",
   "status": "proved",
   "theorems": [
    "C105_mode",
    "C105_step",
    "C105_max",
    "C105_nonpositive",
    "C105_defined_refuted"
   ],
   "note": "Sharpness of the CP part of C104. C105_defined_refuted is the counterexample to: data with a non-zero entry and a positive start give a defined step. In binary32 the undefined entries are NaN and infinities. The reconstruction and the loss of such a step are not described."
  },
  {
   "property": "C106",
   "status": "proved",
   "theorems": [
    "C106_cp_step",
    "C106_exact",
    "C106_total",
    "C106_monotone_refuted"
   ],
   "note": "cutoff (SpecCut.v): on a symmetric matrix M = M1 + M2 with M1 M2 = 0, both symmetric and M2 at most t, the routine returns the Moore-Penrose inverse of M1; for rcond the threshold is rcond times the largest singular value. Exact arithmetic; the column maxima must not be zero as in C44. C106_monotone_refuted shows that C44 itself needs the exact pseudo-inverse."
  },
  {
   "property": "C107",
   "status": "proved",
   "theorems": [
    "C107_hosvd",
    "C107_transpose",
    "C107_hooi_refuted"
   ],
   "note": "reordered (SpecModes.v) relates the entries of the two data tensors directly; C107_transpose shows that tf.transpose produces such data. The gap at the cut is needed as in C102 (C102_gap_needed). Exact arithmetic. C107_hooi_refuted is the last sentence of the statement: 2 x 2 symmetric data."
  },
  {
   "property": "C108",
   "status": "partial",
   "theorems": [
    "C108_array",
    "C108_calls",
    "C108_data",
    "C108_list",
    "C108_build_fails",
    "C108_base",
    "C108_pitf",
    "C108_documented_refuted"
   ],
   "note": "The statement is false in the two places: with the documented return type (a tf.Tensor) every training raises TypeError, because a feed cannot be a tf.Tensor (C108_documented_refuted, for all inputs), and PITF needs exactly that type, so no value suits both (C108_pitf; the PITF script of the guide raises AttributeError). Everything else is proved. The theorems are for any body of train, so for the five classes of Train.v alike. Trusted: how TensorFlow checks a feed (Provide.v, feed)."
  },
  {
   "property": "C109",
   "status": "partial",
   "theorems": [
    "C109_cp_partial",
    "C109_hooi_partial",
    "C109_ncp_partial",
    "C109_ntucker_partial",
    "C109_fit_refuted"
   ],
   "note": "The last sentence of the statement is false: coordinates without a row are fitted as zeros. C109_fit_refuted: a 2 x 2 file with two ratings which a rank 1 model fits exactly, while the loss of every iterate of CP_ALS with rank 1 is at least 1/2. Everything else is proved (the suffix _partial only records the refuted sentence). rating_file, reports and scores (SpecRatings.v) are stated over the rows of the file, not over tensors. Exact arithmetic; what the file system returns and how the values are parsed (py_float) are parameters."
  },
  {
   "property": "C110",
   "status": "proved",
   "theorems": [
    "C110_hosvd",
    "C110_hosvd_train",
    "C110_hooi_step",
    "C110_hooi_train",
    "C110_loss_refuted"
   ],
   "note": "Exact arithmetic. turned_span compares the projectors onto the column spaces: A' A'^T = Q A A^T Q^T. The gap at the cut is needed as in C102 (C102_gap_needed). C110_loss_refuted is the last sentence of the statement: diag(2, 1), first mode turned."
  },
  {
   "property": "C111",
   "status": "partial",
   "theorems": [
    "C111_cp",
    "C111_ncp",
    "C111_ntucker",
    "C111_tucker",
    "C111_tucker_bound",
    "C111_tucker_rejects",
    "C111_tucker_partial",
    "C111_tucker_refuted"
   ],
   "note": "The last sentence of the statement is false of tucker_ex.py, which passes no noise argument and so uses the default 0.04 although the other three scripts pass 0. C111_tucker_refuted: 2x2x2 draws for which every line reports a positive error. C111_tucker_partial proves it for the same script with noise 0; C111_tucker_bound bounds every line with the noise. Everything else of the statement is proved in full. Exact arithmetic; cast is any conversion to binary32 that keeps non-negative numbers non-negative; the random draws, the starting factors and the numerical routines are inputs. output_about (SpecExp.v) describes lines without reference to the program."
  },
  {
   "property": "C112",
   "status": "proved",
   "theorems": [
    "C112_hosvd",
    "C112_train",
    "C112_hooi"
   ],
   "note": "Exact arithmetic, the same left singular vectors in both calls. first_columns, corner and energy_outside are in SpecTrunc.v. Ranks larger than a size are cut to the size by the program, which the statements allow. Order 14 and above is excluded as in C55 (C55_hosvd_order14_refuted)."
  },
  {
   "property": "C113",
   "status": "proved",
   "theorems": [
    "C113_cp",
    "C113_ncp",
    "C113_ntucker",
    "C113_tucker"
   ],
   "note": "The sizes, ranks, noise, intervals and step numbers are those of the scripts. Exact arithmetic; cast is any conversion to binary32 that keeps non-negative numbers non-negative; the random draws, the starting factors and the numerical routines are inputs. In exact arithmetic a division by a zero column maximum is defined (C104, C105)."
  }
 ]
}