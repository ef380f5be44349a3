# TensorD in Rocq: design

## Approach

* Scalars are a type class `Num T` of operations without laws, so one executable
  model serves integers (for computing examples), IEEE-754 binary32
  (`SpecFloat`, for statements that must survive NaN and infinities) and the real
  numbers `R` (for the mathematical guarantees).  Laws are hypotheses
  (`ring_theory`) or come from the instance `R`.
* A tensor is what TensorFlow stores: a shape and a row-major buffer.
  `tf.reshape`, `tf.transpose`, `tf.matmul`, `tf.einsum`, broadcasting
  arithmetic, reductions, `tf.sparse_tensor_to_dense` are modelled once (TF.v),
  each with its error branch; the repository's Python functions are modelled on
  top of them line by line.
* Python exceptions are values (`res A := Ok a | Raise e`).
* SVD, pseudo-inverse, `pow` and random numbers are oracles (function arguments);
  what a theorem assumes of them is written in the theorem, and is shown to be
  satisfiable (SvdExists.v, SpectralExists.v, `penrose_exists`).
* The training loops are state machines over an abstract session state, proved for
  every sequence of metric values (including NaN).
* A TensorFlow session run is modelled as execution of a dependency graph in any
  order, with any overlap and any interruption the dependencies allow (Sched.v), so
  that "independent of the schedule" is a theorem.
* `Spec*.v` hold the mathematics and vocabulary the theorems are stated in (index
  formulas, sums, norms, orthonormality, histories of calls, sessions), written
  without using the model's helpers.

## Files (rocq/theories)

| file | content |
|---|---|
| Num, Py, Tensor, TF | model: scalars, Python conventions, tensors, TensorFlow primitives |
| Ops, Types, Loss, Reader, Csv, PitfOps, DataGen | model of base/ops.py, base/type.py, loss.py, dataproc/reader.py (rows; text of the file), the PITF files, demo/DataGenerator.py |
| TProg | model: expressions made of the operations of Ops, Types, Loss |
| Fact, Train | model: numerical steps and training drivers of factorization/*.py |
| Process | model: scripts with several graphs and objects |
| Experiment | ex/cp_ex.py, ncp_ex.py, ntucker_ex.py, tucker_ex.py: synthetic data, one decomposition in a new process, the pairs of numbers written; file handling and printing are left out |
| Demo | demo/cp_demo.py, ncp_demo.py, ntucker_demo.py, tucker_demo.py: the same up to the attributes read at the end |
| Provide | model: data providers, Environment.full_data/full_shape, feeding, arrays as references |
| Sched, Graphs, PitfGraph | model: session runs; the graphs CP_ALS, HOOI, NCP_BCU, NTUCKER_BCU, PITF build |
| Spec, SpecR, SpecTypes, SpecReader, SpecTrain, SpecBcu, SpecPitf, SpecTucker, SpecCp, SpecProx, SpecSched, SpecRetry, SpecData, SpecInit, SpecRecover, SpecKkt, SpecSlice, SpecPitfSched, SpecFix, SpecCsv, SpecRound, SpecScale, SpecProc, SpecTest, SpecSym, SpecGauge, SpecOrder, SpecDef, SpecCut, SpecModes, SpecProvide, SpecRatings, SpecRot, SpecExp, SpecTrunc | specification vocabulary |
| TensorFacts, TFFacts, LayoutFacts, EinsumFacts, SpecFacts, MulFacts, KronFacts, KronAlg, TtmFacts, TtmOrder, SkipFacts, XcbFacts, OpsLemmas, TtmLemmas | lemmas on ops.py |
| Sums, RSums, MatR, MultiR, MaxR, NormFacts | sums, matrices, maxima over rings and the reals |
| Matricize, TypeFacts, LossFacts, ReaderFacts, PitfFacts, DataFacts | lemmas on the other modules |
| TrainFacts, TrainLemmas, TrainWit, BcuFacts, ZeroWit | training loops, witnesses in binary32 |
| Spectral, SpectralExists, SvdFacts, SvdExists | spectral theorem, SVD, Ky Fan inequality |
| TuckerFacts, TuckerRun, TuckerLemmas, Order14, QuasiOpt, QuasiEx, SliceFacts, SliceEx | HOSVD, HOOI |
| CpFacts, AlsFacts, AlsLemmas, RankOne | CP_ALS |
| FixFacts, FixEx | fixed points of CP_ALS and HOOI |
| CsvFacts, CsvLemmas | the csv.reader state machine and int against their grammars; whole files |
| FloatFacts, ParamFacts, RoundFacts | rounding of one operation; relational parametricity of the operations; errors of expressions |
| ScaleFacts, ScaleAls, ScaleBcu, ScaleNt, ScaleEx, ScaleWit | operations, steps and loops of the algorithms on data in other units; stopping-rule witnesses |
| ProcFacts, ProcEx | scripts with several decompositions; the demo and the Tucker test script |
| TestFacts | the unit tests of tensorD/base/test against their NumPy references |
| DocFacts | the examples of guide_basic_ops.rst, guide_data.rst and the docstrings of ops.py |
| SymFacts, SymTrain, SymBcu | relabelled tensors: sums, distances, the updates and the training loops |
| GaugeAlg, GaugeFacts, GaugeRun, GaugeEx, GaugeUnits | uniqueness of the projector onto leading eigenvectors; HOSVD, HOOI steps and training with another SVD and relabelled data (C102) |
| OrderAlg, OrderTrain, OrderBcu | pseudo-inverse and spectral norm of a reordered or rescaled Gram matrix; simulation of the three training loops from reordered or rescaled starts (C103) |
| DefFacts, DefSteps, DefTrain, DefBcu, DefAls | arithmetic with undefined numbers: the operations, steps and training loops give the defined real results (C104) |
| DefCp | a zero column maximum in CP_ALS (C105) |
| CutFacts, CutWit | least squares with a truncated pseudo-inverse, CP steps with it, a step that increases the error (C106) |
| ModesFacts, ModesWit | HOSVD of data with the modes in another order, a HOOI step that depends on the order (C107) |
| ProvideFacts | scripts with a data provider (C108) |
| RatingFacts, RatingWit | the errors over the rows of a ratings file (C109) |
| RotFacts, RotRun, RotWit | HOSVD and HOOI of data with every mode turned by an orthogonal matrix (C110) |
| ExpFacts, ExpRun, ExpWit | the experiment scripts from the draws to the written lines (C111) |
| DemoRun | the demo scripts (C113) |
| TruncFacts, TruncWit | HOSVD with smaller ranks as a truncation of HOSVD with larger ranks (C112) |
| LimFacts, LimLemmas, LimEx | limits of the models; limit points of CP_ALS and HOOI runs |
| DataRecover, SynthEx | decompositions of synthetic data |
| PitfMore | model: random matrices and samples, the unused shrinkage functions of the PITF files |
| NucFacts, ShrinkFacts, RecoverFacts, DualAscent, ConvFacts, RecoverEx, MoreFacts | nuclear norm, shrink as proximal operator, convergence of exact recovery |
| InitFacts, InitEx | starting points of NCP and NTucker |
| Prox, NcpFacts, NcpLemmas, NtFacts, NtLemmas, NonZero | projected gradient steps of NCP_BCU, NTUCKER_BCU |
| RetryWit, Retry, Exact, ExactEx, TermFacts, KktFacts | rejected steps, published model, exact factorizations, lengths of runs, fixed points |
| SchedFacts, SchedLists, SchedCp, SchedHooi, SchedNcp, SchedNt, SchedBcu, SchedLemmas, SchedPitf | schedule independence |
| Props* | only the property theorems, each closed by `exact`, with `Print Assumptions` and examples |

## Plan per property

| id | what is modelled | how it is proved |
|---|---|---|
| C01-C03 | ops.unfold/fold over reshape/transpose | mixed-radix (ravel) lemmas, arbitrary order |
| C04-C06 | ops.t2mat with list/int/tuple arguments and the aliasing of r_axis | same; C05 refuted by a witness, exact post-state otherwise |
| C07 | reshape | direct |
| C08-C10 | ops.mul | t2mat lemma + matmul sum; C09 doc claim and C10 refuted by witness |
| C11-C13, C69, C70 | ops.ttm with its einsum label strings | einsum semantics over label environments; limits from 26 letters |
| C14, C15 | inner, hadamard | list sums, broadcasting on equal shapes |
| C16-C19 | kron, khatri | einsum without summed labels; mixed radix; Gram by sum exchange |
| C20 | _skip | list lemma, all callers |
| C21 | max_single_value_mul | product; PSD Lipschitz bound over R |
| C22 | xcb | sum over JK with 0/1 mask |
| C23, C24 | DTensor object with cache | state machine over call histories; C23 refuted + exact behaviour |
| C25-C29 | KTensor/TTensor, dtypes | matmul/khatri and ttm lemmas; C26 refuted |
| C30, C31 | losses | R: Cauchy-Schwarz, Minkowski |
| C32-C35 | TensorReader on rows of tokens | sparse writes; C34 refuted |
| C36-C43, C66-C68 | training loops, objects, default graph | induction on steps/histories; C38-C40, C42, C66-C68 refuted in part with exact behaviour proved |
| C44, C45 | CP sweep over R | least squares via the Penrose equations |
| C46, C49, C71, C90 | session runs as graphs | race freedom implies schedule independence; instance graphs for every order |
| C47, C48, C51, C52 | NCP/NTucker runs | invariants; sign for any Num, t-sequence over R |
| C81 | NCP/NTucker initialisation | Cauchy-Schwarz: a Kruskal or Tucker tensor is no longer than the product of its parts |
| C87 | stopping rules over whole runs | counting rejected and stalled steps against the objective |
| C88 | projected gradient step | first-order conditions of a convex quadratic over non-negative matrices |
| C91 | CP_ALS and HOOI steps | least squares solutions are the solutions of the normal equations; a chain of inequalities through the modes |
| C92 | endless CP_ALS and HOOI runs | continuity of the models; monotone distances; a stability bound for the least squares solutions; Bolzano-Weierstrass for orthonormal factors |
| C93 | TensorReader on the text of a file | state machine on the stream of characters against the grammar of the text; groups of digits; then C32/C33 |
| C94, C95 | expressions over the tensor operations, IEEE arithmetic of any format | one operation: rounding by shifts against the real value; then the operations are parametric in the scalars, with the relations "within this error", "at most this many roundings", "exact below 2^p" |
| C96 | steps and train of the four algorithms and HOSVD on scale c X | the operations respect the relation b = c a entry by entry; a simulation of the loops up to the first stop; with tol <= 0 to the end; binary32 runs refute equal stopping |
| C97 | scripts of Process.v, one graph per decomposition; multigraph_demo.py | induction over the decompositions with the invariant that the entered graph is new; arange(60) + c is a Tucker tensor of ranks (2, 2, 2), so C54 and C78 apply |
| C98 | the same in the default graph | the second placeholder finds the first in the merged summaries, so every train of it raises; with resets the invariant of C97 |
| C99 | the repository's unit tests for all inputs | each test method from the index-level theorems of C01-C28; ktensor_test.test_extract by C26 |
| C100 | the documentation's worked examples | printed arrays by computation; random operands by the index-level theorems; wrong statements by witness |
| C101 | relabelled data | sums over permuted indices; each update commutes with row permutations; simulation of the loops |
| C102 | choice of singular vectors | gap at the cut => the projectors, full tensor, loss and history do not depend on the SVD; equivariance under relabelling |
| C103 | starting point | mode 0 is overwritten before it is read; columns scaled by d give solutions scaled by 1/d, undone by the normalisation; pinv(PGP') = P pinv(G) P' |
| C104 | everything above over option R, undefined = None | relational lemmas of ParamFacts for the relation b = Some a; every division and root on the way shown to be defined; invariants of the loops |
| C105 | cp_mode, cp_step over option R | the relational lemmas of C104 up to the division, then None; the first factor is not touched by later modes; signs of sums for rank one |
| C106 | cp_mode, cp_step with a pseudo-inverse that drops small singular values | the residual is orthogonal to the kept directions; the dropped part of the old factor is at most sqrt(t) times its length; sweep over the modes; 2 x 2 witness |
| C107 | hosvd, hooi_step, tf_transpose | equal Gram matrices of the unfoldings and the gap give equal projectors; the full tensor as a sum over all entries, re-indexed; 2 x 2 witness for HOOI |
| C108 | Provider, Environment, build_model's first lines, feeding | simulation of the scripts of C36-C43; what a build stores is kept by every script without builds |
| C109 | the path of the scripts ex/ml_*.py: reader, training, returned errors | C93 for the file, the run theorems for the iterates; sums over the tensor regrouped into sums over the rows |
| C110 | hosvd, hooi_step, hosvd_train, hooi_train | the unfoldings of turned data have turned Gram matrices, so with a gap turned projectors; distances are kept by orthogonal matrices; witness diag(2, 1) for the loss |
| C111 | the experiment scripts on synthetic data | C79 for the data, invariants along the runs for the kind of the model, C76 for the error bound; a 2x2x2 draw with noise for the refutation |
| C112 | hosvd, hosvd_train, hooi_train with two lists of ranks | the same singular vectors are cut at different columns; sums over a corner of an index box; C55 for the distances, C75 for HOOI |
| C113 | the demo scripts and the attributes they read | invariants along the runs as in C111, the published values of the last run; C45 for the last factor, C76 for the error bound |
| C50, C53 | projected gradient step | Lipschitz inequality over R |
| C54-C58, C75-C78 | HOSVD/HOOI | orthonormality from SVD oracle; Ky Fan trace inequality; projections are best approximations |
| C89 | HOSVD/HOOI cores | slices through the unfolding and the SVD; orthonormal factors in the other modes keep inner products; truncation refuted by witness |
| C79 | DataGen, HOSVD, HOOI | data = model + noise entrywise; a Kruskal tensor is a Tucker tensor with a superdiagonal core; C76, C78 |
| C80 | CP_ALS with rank 1 | every solution is a multiple of the true vector; the last least squares problem has residual 0 |
| C59-C64 | PITF operators | sums over R; C60-C63 partly refuted |
| C82 | generate, sample_rule4mat, sample3D_rule | sums; rank refuted by witness |
| C83-C85 | shrink, exact_recovery (NumPy) | nuclear norm duality; shrink minimises; exact recovery is dual ascent: firm non-expansiveness, descent of the dual, compactness, convergence of the sequence |
| C86 | shrinkageBorC, shrinkageA | induction over the loops; refuted by witness |
| C65 | DataGenerator | non-negativity of sums of products |

A property that fails for the code is handled by `…_refuted` (a concrete witness) and by
`…_partial` theorems stating what does hold; MANIFEST.json says which is which.

## Trusted base

1. The Coq 8.16.1 kernel (with `vm_compute`, used for evaluating closed witnesses).
2. Axioms: only those of the standard library below.  The repository adds none.
3. The correspondence between /repo and the model files, as described next.

### What `Print Assumptions` lists

`sig_forall_dec`, `sig_not_dec` (ClassicalDedekindReals) and `functional_extensionality_dep`
come with the library of real numbers. `classic` enters where the existence of a singular
value decomposition or a convergent subsequence is used inside a proof (C76 to C79, C84, C85
and examples);
`constructive_indefinite_description` only where an SVD, a pseudo-inverse or a spectral norm (or, in C85, a dual solution)
is exhibited as a function (C85, one other refutation and examples).

* **none (closed under the global context)**: C44_zero_column_nan, C47_ncp_factors, C47_ncp_factors_every_step, C51_ntucker_not_negative, C51_ntucker_every_step, C52_ntucker_lipschitz, C93_rows, C93_rows_total, C93_int, C93_read_given_shape, C93_read_inferred_shape, C93_round_trip, C93_header, C93_bad_value, C93_bad_row, C93_type, C93_null, C100_guide_matrices, C100_guide_tensors, C100_docstrings, C100_hadamard, C100_khatri, C100_kolda, C100_ttm_range, C100_ttm, C100_contraction, C100_mul_matrices, C100_ktensor, C100_ttensor, C100_kron_reverse_refuted, C100_mul_shapes, C100_mul_shape_refuted, C100_ktensor_svd, C81_ncp_zero_draw_nan, C81_nt_zero_draw_nan, C01_unfold_kolda, C01_unfold_every_cell, C02_fold_unfold, C02_unfold_fold, C03_unfold_domain, C03_fold_domain, C04_t2mat_lists, C04_t2mat_tuples, C04_t2mat_int_row, C04_t2mat_int_col, C04_t2mat_int_int, C04_t2mat_rest, C05_t2mat_post, C05_t2mat_args_unchanged_partial, C05_t2mat_args_unchanged_refuted, C06_unfold_is_t2mat, C06_lmv, C07_vectorize, C07_vec_to_tensor, C30_rmse_shapes, C31_ignores_zeros, C31_shapes, C31_all_zero, C31_binary32_nan, C53_zero_constant_nan, C08_mul_contraction, C08_merge_spec, C08_mul_int, C08_mul_mismatch, C69_mul_sizes_refuted, C09_mul_matrix_product_partial, C09_mul_01_is_transpose, C09_mul_01_documented_refuted, C10_mul_tuple_raises, C10_mul_tuple_refuted, C14_inner, C14_inner_symmetric, C14_inner_bilinear, C14_inner_shapes, C15_hadamard, C15_hadamard_order, C15_hadamard_empty, C16_kron, C16_kron_reverse, C16_kron_limits, C17_kron_mixed, C17_kron_identity, C17_kron_associative, C18_khatri, C18_khatri_reverse, C18_khatri_limits, C18_khatri_columns, C19_khatri_gram, C20_skip, C20_without_spec, C22_xcb, C103_first_step, C103_first_train, C60_adjoint_values, C63_exact_recovery, C63_train_partial, C63_exact_recovery_zero_freedom, C66_full_unchanged, C66_full_unchanged_numpy, C90_step, C90_no_failure, C90_exists, C90_train, C90_train_exists, C97_own_graphs, C97_build_outside, C97_nested, C97_stale, C97_reset_inside, C98_reset_partial, C98_default_graph, C108_array, C108_calls, C108_data, C108_documented_refuted, C108_pitf, C108_base, C108_build_fails, C108_list, C50_zero_constant_nan, C75_hooi_starts_at_hosvd, C33_read_last_row_wins, C32_read_inferred_shape, C32_read_distinct, C32_read_row_order, C32_read_blank_rows, C33_read_out_of_range, C33_read_negative, C34_short_row_partial, C34_long_row_misread, C34_missing_value_misread, C34_malformed_rows_refuted, C35_file_type, C35_empty_file, C35_extension_unique, C82_random_sample, C72_ncp_retry_point_partial, C72_nt_retry_point_partial, C72_ncp_retry_refuted, C72_nt_retry_refuted, C73_ncp_publishes_last_partial, C73_nt_publishes_last_partial, C73_ncp_refuted, C73_nt_refuted, C94_moves, C94_terms, C96_cp_refuted, C96_hooi_refuted, C96_ncp_refuted, C96_nt_refuted, C46_cp_step, C46_cp_no_failure, C46_cp_exists, C46_cp_session, C71_hooi_step, C71_hooi_no_failure, C71_hooi_exists, C71_hooi_session, C49_ncp_step, C49_ncp_no_failure, C49_ncp_exists, C49_ncp_accept, C49_ncp_reject, C49_ncp_init, C49_ncp_session, C49_nt_core, C49_nt_fact, C49_nt_accept, C49_nt_reject, C49_nt_init, C49_nt_session, C99_test_gen_perm, C99_test_unfold, C99_test_fold, C99_test_t2mat, C99_test_ttm, C99_test_vectorize, C99_test_mul, C99_test_inner, C99_test_hadamard, C99_test_kron, C99_test_khatri, C99_test_xcb, C99_test_d_mul, C99_test_d_dot, C99_test_d_sub, C99_test_d_add, C99_test_d_get_item, C99_test_ttensor_extract, C99_test_ktensor_high_order, C99_test_ktensor_extract_raises, C99_test_ktensor_extract_refuted, C36_cp_history, C36_hooi_history, C36_ncp_history, C36_ntucker_history, C37_ncp_stopping, C37_ntucker_stopping, C38_cp_stopping_partial, C38_hooi_stopping_partial, C38_stopping_refuted, C39_cp_full_partial, C39_hooi_full_partial, C39_ncp_full_partial, C39_ntucker_full_partial, C39_hosvd_full, C39_cp_exact_partial, C39_cp_full_refuted, C39_ncp_full_refuted, C39_ntucker_full_refuted, C40_train_finish, C40_hooi_train_finish_partial, C40_hooi_train_finish_refuted, C41_cp, C41_hooi, C41_ncp, C41_ntucker, C42_predict_partial, C42_predict_out_of_range_partial, C42_predict_arity_partial, C42_predict_flat_partial, C42_predict_checked_partial, C42_predict_untrained_partial, C42_predict_refuted, C43_train_independent, C67_alone_partial, C67_shared_graph_refuted, C67_two_models_refuted, C68_default_environment_refuted, C11_ttm, C11_ttm_default, C11_ttm_skip, C11_ttm_any_order, C12_ttm_order, C13_ttm_both, C13_ttm_rejects, C13_ttm_axis_range, C13_ttm_domain_partial, C13_ttm_every_order_refuted, C70_ttm_repeated_axis_refuted, C23_dtensor_unfold_exact, C23_dtensor_unfold_partial, C23_dtensor_unfold_refuted, C24_dtensor_unchanged, C24_dtensor_ops, C24_dtensor_arith, C24_dtensor_getitem, C25_ktensor_extract, C25_ktensor_extract_ndarray, C26_ktensor_dtype_mismatch, C26_ktensor_ndarray_partial, C26_ktensor_float64_ndarray_refuted, C26_ktensor_float64_default_refuted, C27_cp_matricization, C28_ttensor_extract, C29_tucker_matricization; and 75 examples
* **`sig_forall_dec`**: no theorem; examples ex_C104_routines, ex_C107_transpose, ex_C65, ex_C82, ex_C96_scale, ex_C101_swap
* **`sig_forall_dec`, `functional_extensionality_dep`**: C94_any_order, C95_integers, C95_any_order, C95_inner, C95_sharp; examples ex_C104_data, ex_C103_scale, ex_C94_inner, ex_C95
* **`sig_forall_dec`, `sig_not_dec`, `functional_extensionality_dep`**: C44_cp_step, C44_cp_run, C44_cp_train, C44_cp_step_succeeds, C44_cp_step_fails, C44_cp_train_succeeds, C45_cp_step, C45_cp_train, C47_ncp_reconstruction, C47_ncp_reconstruction_every_step, C48_ncp_weights, C48_ntucker_weights, C48_ncp_extrapolation, C48_nt_extrapolation, C48_accepted_decrease, C51_ntucker_reconstruction, C106_cp_step, C106_exact, C106_total, C104_ops, C104_hosvd, C104_hosvd_train, C104_hooi_step, C104_hooi_train, C104_cp_step, C104_cp_train, C104_ncp_step, C104_ncp_train, C104_nt_step, C104_nt_train, C104_zero_data, C105_mode, C105_step, C105_max, C105_nonpositive, C105_defined_refuted, C113_cp, C113_ncp, C113_ntucker, C111_cp, C111_ncp, C111_ntucker, C111_tucker, C111_tucker_rejects, C91_cp_fixed, C91_cp_stationary, C91_cp_strict, C91_cp_no_progress, C102_leading, C102_hosvd_choice, C102_hosvd, C102_hosvd_train, C102_hooi_step, C102_hooi_train, C102_hosvd_units, C102_hooi_units, C81_ncp_init, C81_nt_init, C81_ncp_model, C81_nt_model, C81_ncp_first_step, C81_nt_first_step, C88_ncp_kkt, C88_ncp_minimal, C88_ncp_decrease, C88_ncp_strict, C88_nt_kkt, C88_nt_minimal, C88_nt_decrease, C88_nt_strict, C92_cp_run, C92_cp_limit, C92_cp_normalised, C92_hooi_run, C30_l2, C30_l2_broadcast, C30_rmse, C30_distances, C31_rmse_ignore_zero, C107_hosvd, C107_transpose, C53_nt_step, C53_nt_reachable, C53_nt_descends, C53_nt_better, C53_nt_step_succeeds, C53_nt_step_fails, C53_core_alone_order14, C53_nt_train_succeeds, C14_inner_positive, C21_max_single_value, C21_lipschitz, C103_rescaled_step, C103_rescaled_train, C103_ncp_scale, C103_nt_scale, C103_cp_step, C103_cp_train, C103_ncp_train, C103_nt_train, C59_centralization, C59_centralization_linear, C60_adjoint_partial, C60_adjoint_unit_partial, C60_adjoint_refuted, C60_adjoint_scale_refuted, C61_shrink_numpy, C61_shrink_numpy_complicated, C61_shrink_tensorflow_partial, C61_shrink_tensorflow_refuted, C62_cone_projection_numpy, C62_distance, C62_cone_projection_tensorflow_refuted, C63_train_refuted, C64_subspace_BC, C64_subspace_A, C65_synthetic_cp_partial, C65_synthetic_cp_refuted, C65_synthetic_tucker_partial, C65_synthetic_tucker_refuted, C66_full_refuted, C50_ncp_step, C50_ncp_every_step, C50_ncp_descends, C50_ncp_better, C50_ncp_step_succeeds, C50_ncp_step_fails, C50_ncp_train_succeeds, C75_hooi_run, C75_train, C76_hosvd_order14_refuted, C77_hosvd_core_partial, C77_hosvd_order14_refuted, C77_hooi_core, C109_cp_partial, C109_hooi_partial, C109_ncp_partial, C109_ntucker_partial, C82_random_matrices_partial, C82_rank_refuted, C83_isometry, C83_unique, C83_runs, C83_recovery, C84_minimiser, C84_nonexpansive, C85_losses, C86_shrinkage_value_partial, C86_shrinkage_guess_partial, C86_shrinkage_rank_refuted, C86_shrinkage_rows_refuted, C86_shrinkage_large_guess, C86_shrinkageA_value_partial, C86_shrinkageA_zero_partial, C86_shrinkageA_refuted, C72_ncp_restored_partial, C72_nt_restored_partial, C72_ncp_second_step_partial, C72_nt_second_step_partial, C73_last_accepted_partial, C74_ncp_step, C74_nt_step, C74_ncp_train, C74_nt_train, C74_cp_step, C74_hooi_step, C110_hosvd, C110_hosvd_train, C110_hooi_step, C110_hooi_train, C94_operations, C94_program, C94_depth, C94_inner, C94_mul, C94_ktensor, C96_cp_step, C96_hosvd, C96_hooi_step, C96_same_vectors, C96_cp_train_partial, C96_hooi_train_partial, C96_ncp_train_partial, C96_nt_train_partial, C96_cp_exact, C96_hooi_exact, C96_ncp_exact, C96_nt_exact, C89_hosvd_bound, C89_hosvd_slices, C89_hosvd_train, C89_truncated_refuted, C89_hooi_last_mode, C89_hooi_train, C101_cp_step, C101_cp_train, C101_ncp_train, C101_nt_train, C79_tucker_data, C79_cp_data, C80_cp_step, C80_cp_step_positive, C80_cp_train, C80_cp_synthetic, C87_ncp_length, C87_ntucker_length, C87_cp_length, C87_hooi_length, C87_hooi_no_stall, C99_test_max_single_value_mul, C36_measured, C37_best_is_minimum, C112_hosvd, C112_train, C112_hooi, C54_hosvd_factors, C54_hosvd_succeeds, C54_hosvd_train, C54_hooi_init_rejects, C54_hooi_step_rejects, C54_hooi_fits, C54_hooi_step, C54_hooi_train, C54_hooi_train_succeeds, C55_hosvd_error_partial, C55_hooi_error, C55_hosvd_order14_refuted, C55_order14_refuted, C56_hosvd_exact_partial, C56_hooi_exact, C57_hooi_step, C57_hooi_run, C57_hooi_train, C57_hooi_step_fails, C58_hosvd_bound_partial, C58_hosvd_order14_refuted; and 23 examples
* **`sig_forall_dec`, `sig_not_dec`, `classic`, `functional_extensionality_dep`**: C113_tucker, C111_tucker_bound, C111_tucker_partial, C91_hooi_fixed, C91_hooi_no_progress, C92_hooi_limit, C97_demo, C76_lower_bound, C76_hosvd_partial, C76_hooi_run, C76_hooi_train, C77_hooi_mode, C77_hooi_last, C78_hosvd_partial, C78_hosvd_train_partial, C78_hooi_run, C78_hooi_train, C84_penalty_defined, C79_hosvd_tucker, C79_hosvd_cp, C79_hooi_tucker, C79_hooi_cp
* **`sig_forall_dec`, `sig_not_dec`, `functional_extensionality_dep`, `constructive_indefinite_description`**: no theorem; and 14 examples
* **`sig_forall_dec`, `sig_not_dec`, `classic`, `functional_extensionality_dep`, `constructive_indefinite_description`**: C106_monotone_refuted, C111_tucker_refuted, C91_cp_normal, C102_gap_needed, C92_cp_stationary, C92_hooi_exists, C92_hooi_matrix, C107_hooi_refuted, C97_ex_trained, C97_ex, C98_refuted, C98_ex, C78_hosvd_order14_refuted, C109_fit_refuted, C85_converges, C85_large_step_refuted, C110_loss_refuted; and 50 examples

### What is modelled

* base/ops.py: all functions; base/type.py: DTensor, KTensor, TTensor (values, caches,
  dtypes, arithmetic); loss.py: all functions.
* dataproc/reader.py: read on rows of tokens, full_data, sparse_data; Csv.v adds the text of
  the file (universal newlines, the csv.reader state machine for the default dialect, int();
  ASCII only, no limit on field lengths; float() is an oracle).
* factorization/: cp.py, tucker.py, ncp.py, ntucker.py — build_model as the values one
  session run computes and as graphs, train as a loop over session runs with the history,
  the stopping rule, verbose output decisions, the published results and the object state;
  env.py/factorization.py as far as train uses them (data provider, summary path, FileWriter).
* pitf.py, pitf_numpy.py, base/pitf_ops.py, base/pitf_ops_numpy.py: operators, exact
  recovery and training recurrences.
* demo/DataGenerator.py: synthetic data; demo/multigraph_demo.py and test/tucker_test.py as
  scripts (Process.v: graphs, with-blocks, resets, build_model and train of several objects).

### What is not modelled, or simplified

* Rounding.  Theorems for every `Num T` hold for binary32 as they stand; theorems over `R`
  are about exact arithmetic.  C94 and C95 bound the rounding of the tensor operations in
  any IEEE format, with the model's order of summation and (C94_any_order, C95_any_order)
  for single sums in any order; the rounding of whole training steps is not bounded.
* Over `R` Coq's division gives x / 0 = 0 where the program computes an infinity or NaN.
  Theorems in which this matters carry a non-zero hypothesis; C104 redoes the operations,
  steps and trainings in an arithmetic with undefined numbers and shows which hypotheses
  exclude them.
* NumPy evaluates the stopping test (`obj + 1`, `abs(obj - obj0) / (obj0 + 1)`) in double
  precision, because the Python integer promotes a float32 scalar; the model uses the scalar
  type of the tensors.  Over `R` there is no difference.
* The numerical routines behind SVD, `pinv` and `pow`.  NumPy's `pinv` drops singular values
  below `rcond` times the largest; the theorems assume the exact pseudo-inverse, except C106,
  which bounds the effect of the threshold on a CP_ALS step.
* TensorFlow's printing, TensorBoard summaries (only: which summaries a session run merges),
  session and device configuration, dtype promotion beyond the float32/float64 distinction
  made in Types.v.
* Errors raised while the graph is built are reported by the run of the step that would
  use the node (the outcome of train is the same exception).
* Sched.v: no rewriting of the graph by the runtime, one session run at a time, variables
  are TensorFlow 1 reference variables (a kernel sees the buffer at the time it runs).
* provider.py's data_queue and batch_size (abstract, never called), logger, file system, the documentation beyond C100's examples, the other tests and demos (pitf_ops_test.py asserts nothing),
  setup.py; the scripts in ex/ are modelled up to the pairs of numbers they write, not the output
  files themselves.
