{"id": "C01", "title": "unfold is Kolda's mode-n matricization", "statement": "For every tensor X of any order and shape and every mode n < order, unfold(X,n) is a matrix of I_n rows and prod_{k!=n} I_k columns, and the entry X[i_0..i_{N-1}] is found at row i_n and column sum_{k!=n} i_k * prod_{m<k, m!=n} I_m.", "quantifier": "all orders, shapes with no zero-sized axis, modes, element values and multi-indices", "why_tests_cant": "a test fixes one shape; the index arithmetic must be right for every order, shape, mode and position", "anchors": ["tensorD/base/ops.py:unfold", "tensorD/base/ops.py:_gen_perm"]}
{"id": "C02", "title": "fold and unfold are inverse", "statement": "fold(unfold(X,n),n,shape(X)) == X for every X and n, and unfold(fold(M,n,s),n) == M for every matrix M of the matching size.", "quantifier": "all tensors / matrices, shapes, modes", "why_tests_cant": "round trips must hold for every shape and mode, not sampled ones", "anchors": ["tensorD/base/ops.py:fold", "tensorD/base/ops.py:unfold"]}
{"id": "C03", "title": "out-of-range modes are rejected", "statement": "unfold and fold called with a mode that is negative or >= order raise ValueError and return no tensor; unfold along a zero-sized axis raises; every other call succeeds.", "quantifier": "all orders, shapes and integer modes", "why_tests_cant": "infinitely many bad modes; the claim is that none of them is silently accepted", "anchors": ["tensorD/base/ops.py:_gen_perm", "tensorD/base/ops.py:unfold", "tensorD/base/ops.py:fold"]}
{"id": "C04", "title": "t2mat places every entry by mixed-radix row/column index", "statement": "For row axes r and column axes c that together list every axis once (in any order), t2mat(X,r,c) has prod I_r rows, prod I_c columns and X[i] sits at the row-major position of (i_r) and (i_c); a bare int axis means the one-element list; c_axis=-1 means all remaining axes in ascending order.", "quantifier": "all tensors, all ordered splits of the axes, all multi-indices", "why_tests_cant": "exponentially many axis splits per order", "anchors": ["tensorD/base/ops.py:t2mat"]}
{"id": "C05", "title": "t2mat does not modify its arguments", "statement": "Calling t2mat leaves the axis lists passed by the caller unchanged, so that a second call with the same list objects returns the same matrix.", "quantifier": "all tensors and axis arguments, all call histories", "why_tests_cant": "aliasing: the damage is only visible to a later use of the caller's list", "anchors": ["tensorD/base/ops.py:t2mat"]}
{"id": "C06", "title": "unfold is a special case of t2mat", "statement": "t2mat(X, n, [N-1,...,0] without n) == unfold(X,n) for every X and n (documented as Kolda-type unfolding), and t2mat(X, n, -1) is the LMV-type unfolding.", "quantifier": "all tensors and modes", "why_tests_cant": "equality of two code paths for every shape", "anchors": ["tensorD/base/ops.py:t2mat", "tensorD/base/ops.py:unfold"]}
{"id": "C07", "title": "vectorize / vec_to_tensor round trip", "statement": "vectorize lists the entries in row-major order; vec_to_tensor(vectorize(X), shape(X)) == X, vectorize(vec_to_tensor(v,s)) == v, and vec_to_tensor raises when the element count does not match the shape.", "quantifier": "all tensors, vectors and shapes", "why_tests_cant": "must hold for every shape", "anchors": ["tensorD/base/ops.py:vectorize", "tensorD/base/ops.py:vec_to_tensor"]}
{"id": "C08", "title": "mul is tensor contraction", "statement": "mul(A,B,a,b) has shape (free axes of A, free axes of B) and entry sum over the contracted multi-index of A[...]*B[...], for equal-length lists of distinct axes with matching sizes.", "quantifier": "all tensors, all axis lists", "why_tests_cant": "all orders, axis choices and data", "anchors": ["tensorD/base/ops.py:mul", "tensorD/base/ops.py:t2mat"]}
{"id": "C09", "title": "mul on matrices", "statement": "mul(A,B,1,0) is the matrix product AB for all A,B; the documentation says mul(A,B,0,1) is the same as BA.", "quantifier": "all matrices", "why_tests_cant": "the doc example uses random square-compatible data and never checks the result", "anchors": ["tensorD/base/ops.py:mul"]}
{"id": "C10", "title": "mul accepts tuple axes", "statement": "As documented, a_axis / b_axis may be tuples with the same meaning as the corresponding list.", "quantifier": "all tensors and axis tuples", "why_tests_cant": "quantifies over all tuples", "anchors": ["tensorD/base/ops.py:mul", "tensorD/base/ops.py:t2mat"]}
{"id": "C11", "title": "ttm is the sequence of n-mode products", "statement": "For a tensor of order <= 13 and distinct in-range axes, ttm(X, mats, axis) == X x_{axis0} M_0 x_{axis1} M_1 ...; with transpose=True every matrix is transposed; without axis the axes are 0,1,2,...; with skip_matrices_index=k the k-th factor is left out and mode k is untouched.", "quantifier": "all tensors of order <= 13, all matrices, axes, skips", "why_tests_cant": "all orders, axis subsets and data", "anchors": ["tensorD/base/ops.py:ttm", "tensorD/base/ops.py:_skip"]}
{"id": "C12", "title": "ttm does not depend on the listing order", "statement": "Listing the (matrix, axis) pairs in another order gives the same tensor.", "quantifier": "all tensors, matrices and permutations of the pair list", "why_tests_cant": "n! orders per call", "anchors": ["tensorD/base/ops.py:ttm"]}
{"id": "C13", "title": "ttm rejects inconsistent calls", "statement": "ttm raises ValueError when axis and skip_matrices_index are both given, when the number of matrices differs from the number of axes, and when a matrix does not fit its axis; it never returns a tensor for such a call.  ttm is also expected to work for every order.", "quantifier": "all calls", "why_tests_cant": "unbounded family of bad calls; orders above 13 are never tested", "anchors": ["tensorD/base/ops.py:ttm"]}
{"id": "C14", "title": "inner is the Frobenius inner product", "statement": "inner(A,B) is the sum of products of corresponding entries; symmetric; bilinear; inner(A,A) >= 0 with equality only for the zero tensor; unequal shapes raise ValueError.", "quantifier": "all tensors", "why_tests_cant": "algebraic law over all data", "anchors": ["tensorD/base/ops.py:inner"]}
{"id": "C15", "title": "hadamard is the entrywise product", "statement": "hadamard(mats) has the common shape and entry prod_k M_k[i,j]; the order of the list is irrelevant; an empty (or entirely skipped) list raises TypeError.", "quantifier": "all lists of equally shaped matrices", "why_tests_cant": "all list lengths and data", "anchors": ["tensorD/base/ops.py:hadamard"]}
{"id": "C16", "title": "kron is the Kronecker product of the list", "statement": "For up to 13 matrices, kron has prod rows x prod columns and the entry at row (i_1..i_m) and column (j_1..j_m) in mixed radix is prod_k M_k[i_k,j_k]; reverse=True is kron of the reversed list; for more than 13 matrices it raises and returns nothing.", "quantifier": "all lists of matrices", "why_tests_cant": "all lengths, shapes and positions", "anchors": ["tensorD/base/ops.py:kron"]}
{"id": "C17", "title": "Kronecker mixed-product rule", "statement": "kron([A,B]) kron([C,D]) == kron([AC, BD]), kron of identities is the identity, and kron([A,B,C]) == kron([kron([A,B]),C]).", "quantifier": "all conformable matrices", "why_tests_cant": "algebraic law", "anchors": ["tensorD/base/ops.py:kron"]}
{"id": "C18", "title": "khatri is the column-wise Kronecker product", "statement": "For up to 25 matrices with equal column count, khatri has prod rows and entry at (i_1..i_m), r equal to prod_k M_k[i_k,r]; reverse=True reverses the list; more than 25 matrices raise.", "quantifier": "all lists of matrices", "why_tests_cant": "all lengths, shapes, positions", "anchors": ["tensorD/base/ops.py:khatri"]}
{"id": "C19", "title": "Gram matrix of a Khatri-Rao product", "statement": "khatri(mats)^T khatri(mats) == hadamard of the Gram matrices M_k^T M_k (the identity CP_ALS and NCP rely on).", "quantifier": "all lists of matrices with equal column count", "why_tests_cant": "algebraic law", "anchors": ["tensorD/base/ops.py:khatri", "tensorD/base/ops.py:hadamard"]}
{"id": "C20", "title": "skip_matrices_index removes exactly the named positions", "statement": "hadamard, kron, khatri, max_single_value_mul and ttm with a skip index (int or list) give the result of the call on the list with exactly those positions removed, in the original order; indices outside 0..len-1 (including negative ones) remove nothing.", "quantifier": "all lists and skip sets", "why_tests_cant": "all subsets", "anchors": ["tensorD/base/ops.py:_skip"]}
{"id": "C21", "title": "max_single_value_mul is the product of spectral norms", "statement": "It returns the product over the kept matrices of the largest value returned by the SVD; it is a Lipschitz bound for the Kronecker product of symmetric PSD matrices' quadratic form.", "quantifier": "all matrix lists and all SVD outcomes", "why_tests_cant": "all data", "anchors": ["tensorD/base/ops.py:max_single_value_mul"]}
{"id": "C22", "title": "xcb is the mode-0 MTTKRP", "statement": "xcb(X,C,B) == unfold(X,0) * khatri([C,B]) for every X, C, B with matching sizes, zeros in X included.", "quantifier": "all tensors and factors", "why_tests_cant": "the test compares one random dense case with no zeros", "anchors": ["tensorD/base/ops.py:xcb"]}
{"id": "C23", "title": "DTensor.unfold returns the requested mode", "statement": "d.unfold(n) returns the mode-n unfolding of d whatever was called on d before.", "quantifier": "all call histories on one object", "why_tests_cant": "depends on the history of earlier calls", "anchors": ["tensorD/base/type.py:DTensor.unfold"]}
{"id": "C24", "title": "DTensor operations agree with ops and do not change the tensor", "statement": "mul, t2mat, vectorize, kron, khatri, fold, +, -, * on DTensors give the corresponding function of the wrapped tensors (with broadcasting), and no sequence of calls changes d.T.", "quantifier": "all operation histories", "why_tests_cant": "all histories", "anchors": ["tensorD/base/type.py:DTensor"]}
{"id": "C25", "title": "KTensor.extract is the weighted sum of rank-one tensors", "statement": "KTensor(U,lam).extract()[i] == sum_r lam_r prod_k U_k[i_k,r]; omitted lam means all ones; a 1-D lam and an (R,1) lam mean the same.", "quantifier": "all factor lists, weights and indices", "why_tests_cant": "all orders and data", "anchors": ["tensorD/base/type.py:KTensor.extract"]}
{"id": "C26", "title": "KTensor accepts numpy factors and weights", "statement": "KTensor(factors, lambdas).extract() type-checks for ndarray factors and ndarray weights of the same dtype, and for tf.Tensor factors of any float dtype with default weights.", "quantifier": "all dtype combinations", "why_tests_cant": "tests use one combination each", "anchors": ["tensorD/base/type.py:KTensor.__init__"]}
{"id": "C27", "title": "CP matricization identity", "statement": "unfold(KTensor(U,lam).extract(), n) == U_n diag(lam) khatri(U, skip n, reverse=True)^T for every mode n.", "quantifier": "all factor lists, weights, modes", "why_tests_cant": "links three functions' index conventions for all orders", "anchors": ["tensorD/base/type.py:KTensor.extract", "tensorD/base/ops.py:unfold", "tensorD/base/ops.py:khatri"]}
{"id": "C28", "title": "TTensor.extract is the Tucker reconstruction", "statement": "TTensor(G,U).extract()[i] == sum_j G[j] prod_k U_k[i_k,j_k].", "quantifier": "all cores and factors of order <= 13", "why_tests_cant": "all orders and data", "anchors": ["tensorD/base/type.py:TTensor.extract"]}
{"id": "C29", "title": "Tucker matricization identity", "statement": "unfold(TTensor(G,U).extract(), n) == U_n unfold(G,n) kron(U, skip n, reverse=True)^T.", "quantifier": "all cores, factors (order <= 13), modes", "why_tests_cant": "links index conventions", "anchors": ["tensorD/base/type.py:TTensor.extract", "tensorD/base/ops.py:unfold", "tensorD/base/ops.py:kron"]}
{"id": "C30", "title": "l2 and rmse are (scaled) Euclidean distances", "statement": "l2(A,B) = 1/2 sum (A-B)^2, rmse(A,B) = sqrt(sum (A-B)^2 / count); both are >= 0, symmetric, zero exactly when A == B, rmse satisfies the triangle inequality and l2 = count*rmse^2/2; rmse raises TensorErr on unequal shapes.", "quantifier": "all pairs of tensors", "why_tests_cant": "metric laws over all data", "anchors": ["tensorD/loss.py:l2", "tensorD/loss.py:rmse"]}
{"id": "C31", "title": "rmse_ignore_zero looks only at the non-zero entries of A", "statement": "rmse_ignore_zero(A,B) = sqrt(mean over positions with A != 0 of (A-B)^2); the values of B where A is zero have no influence; unequal shapes raise TensorErr; for an all-zero A it is 0/0.", "quantifier": "all pairs of tensors", "why_tests_cant": "non-interference over all data", "anchors": ["tensorD/loss.py:rmse_ignore_zero"]}
{"id": "C32", "title": "TensorReader.read builds the tensor the file lists", "statement": "For a file whose rows hold distinct coordinates, full_data[coord] is the listed value, every other entry is 0, and without full_shape the shape is (max coordinate + 1) in every mode; blank rows are ignored; the order of the rows is irrelevant.", "quantifier": "all files", "why_tests_cant": "all files", "anchors": ["tensorD/dataproc/reader.py:TensorReader.read"]}
{"id": "C33", "title": "TensorReader duplicate and out-of-range coordinates", "statement": "If a coordinate is listed twice the last row wins; a negative coordinate or one outside full_shape makes evaluation of full_data fail and never writes another cell.", "quantifier": "all files and shapes", "why_tests_cant": "all files", "anchors": ["tensorD/dataproc/reader.py:TensorReader.read"]}
{"id": "C34", "title": "TensorReader rejects malformed rows", "statement": "A row whose number of fields differs from the first row's raises instead of being misread.", "quantifier": "all files", "why_tests_cant": "all malformed files", "anchors": ["tensorD/dataproc/reader.py:TensorReader.read"]}
{"id": "C35", "title": "TensorReader file-type dispatch", "statement": "Exactly the paths whose text after the last '.' is csv or txt are read; every other path raises ArgumentError; an empty file raises IndexError.", "quantifier": "all paths", "why_tests_cant": "all strings", "anchors": ["tensorD/dataproc/reader.py:TensorReader.__init__", "tensorD/dataproc/reader.py:TensorReader.read"]}
{"id": "C36", "title": "train history", "statement": "For steps >= 1, the list returned by CP_ALS/HOOI/NCP_BCU/NTUCKER_BCU.train has between 1 and steps entries, its k-th entry is (RMSE, relative residual) measured at step k, and it is shorter than steps only if the stopping rule fired at its last step and at no earlier one.", "quantifier": "all step counts, tolerances and metric sequences (including NaN)", "why_tests_cant": "all numerical histories", "anchors": ["tensorD/factorization/cp.py:CP_ALS.train", "tensorD/factorization/tucker.py:HOOI.train", "tensorD/factorization/ncp.py:NCP_BCU.train", "tensorD/factorization/ntucker.py:NTUCKER_BCU.train"]}
{"id": "C37", "title": "early stopping rule, NCP/NTucker", "statement": "NCP_BCU and NTUCKER_BCU stop at the first step where the relative residual is below tol or three consecutive steps changed the objective by less than tol relative to the best accepted objective so far.", "quantifier": "all metric sequences", "why_tests_cant": "all numerical histories", "anchors": ["tensorD/factorization/ncp.py:NCP_BCU.train", "tensorD/factorization/ntucker.py:NTUCKER_BCU.train"]}
{"id": "C38", "title": "early stopping rule, CP/HOOI", "statement": "CP_ALS and HOOI stop when three consecutive steps change the objective by less than tol relative to the previous step (as NCP and NTucker do), or the relative residual is below tol.", "quantifier": "all metric sequences", "why_tests_cant": "needs a long converged run to notice; holds or fails per numerical history", "anchors": ["tensorD/factorization/cp.py:CP_ALS.train", "tensorD/factorization/tucker.py:HOOI.train"]}
{"id": "C39", "title": "full matches factors after train", "statement": "After a successful train, the `full` tensor is the reconstruction from the `factors` (and lambdas/core) the object exposes.", "quantifier": "all runs: step counts, validation intervals, stop steps", "why_tests_cant": "depends on the stop step relative to the validation interval", "anchors": ["tensorD/factorization/cp.py:CP_ALS.full", "tensorD/factorization/ncp.py:NCP_BCU.full", "tensorD/factorization/tucker.py:HOOI.full", "tensorD/factorization/ntucker.py:NTUCKER_BCU.full"]}
{"id": "C40", "title": "train_finish reports completion", "statement": "train_finish is True iff the most recent train call completed without raising, for every history of build/train/predict calls.", "quantifier": "all call histories", "why_tests_cant": "all histories, including failing calls", "anchors": ["tensorD/factorization/cp.py:CP_ALS.train_finish", "tensorD/factorization/tucker.py:HOOI.train", "tensorD/factorization/ncp.py:NCP_BCU.train", "tensorD/factorization/ntucker.py:NTUCKER_BCU.train", "tensorD/factorization/tucker.py:HOSVD.train"]}
{"id": "C41", "title": "invalid training arguments raise", "statement": "train(steps) with steps <= 0 raises; validation_internal = 0 raises unless verbose or the run ends by step 2; a model that has not been built raises; in all these cases train_finish is not set.", "quantifier": "all arguments", "why_tests_cant": "all arguments", "anchors": ["tensorD/factorization/cp.py:CP_ALS.train", "tensorD/factorization/ncp.py:NCP_BCU.train", "tensorD/factorization/tucker.py:HOOI.train", "tensorD/factorization/ntucker.py:NTUCKER_BCU.train"]}
{"id": "C42", "title": "predict returns the entry of the reconstruction", "statement": "After a successful train, predict(i,j,k) == full[i,j,k]; before training it raises TensorErr.", "quantifier": "all trained states and keys", "why_tests_cant": "all trained states", "anchors": ["tensorD/factorization/cp.py:CP_ALS.predict", "tensorD/factorization/ncp.py:NCP_BCU.predict", "tensorD/factorization/ntucker.py:NTUCKER_BCU.predict", "tensorD/factorization/tucker.py:HOSVD.predict", "tensorD/factorization/tucker.py:HOOI.predict"]}
{"id": "C43", "title": "train does not depend on earlier calls", "statement": "Given the same built model and the same random initialisation, train returns the same history, factors and full tensor whatever was trained before with the object.", "quantifier": "all call histories", "why_tests_cant": "all histories", "anchors": ["tensorD/factorization/env.py:Environment.sess", "tensorD/factorization/cp.py:CP_ALS.train"]}
{"id": "C44", "title": "CP_ALS objective never increases", "statement": "In exact arithmetic, one CP_ALS step never increases 1/2||X - full||^2, for every tensor, rank and factor state, provided the normalising column maxima are non-zero.", "quantifier": "all tensors, orders >= 2, ranks, factor states", "why_tests_cant": "a mathematical guarantee over all data; ties unfold, khatri, hadamard and pinv together", "anchors": ["tensorD/factorization/cp.py:CP_ALS.build_model"]}
{"id": "C45", "title": "CP_ALS normalisation", "statement": "After a step, every factor column is its least-squares solution divided by its maximum entry: a column with positive maximum has maximum exactly 1; and the exposed (factors, lambdas) reconstruct the unnormalised last-mode solution.", "quantifier": "all states", "why_tests_cant": "all data", "anchors": ["tensorD/factorization/cp.py:CP_ALS.build_model"]}
{"id": "C46", "title": "CP_ALS step is independent of TensorFlow's execution order", "statement": "Whatever order the runtime executes the kernels of one training step in (respecting data and control dependencies), the variables and fetched values are those of the sequential mode-by-mode sweep.", "quantifier": "all schedules, orders, data", "why_tests_cant": "schedules cannot be enumerated by tests", "anchors": ["tensorD/factorization/cp.py:CP_ALS.build_model"]}
{"id": "C47", "title": "NCP factors are non-negative", "statement": "Every factor entry exposed by NCP_BCU, at every step of every run, is not negative (in IEEE arithmetic: is never < 0), and in exact arithmetic the reconstruction is non-negative.", "quantifier": "all data, all steps, all branches taken", "why_tests_cant": "all histories", "anchors": ["tensorD/factorization/ncp.py:NCP_BCU.build_model"]}
{"id": "C48", "title": "NCP/NTucker extrapolation weights", "statement": "At every step of every run, t >= t0 >= 1, the extrapolation weight satisfies 0 <= w < 1, and the accepted objective values are strictly decreasing.", "quantifier": "all runs", "why_tests_cant": "all numerical histories", "anchors": ["tensorD/factorization/ncp.py:NCP_BCU.build_model", "tensorD/factorization/ntucker.py:NTUCKER_BCU.build_model"]}
{"id": "C49", "title": "NCP and NTucker steps are independent of execution order", "statement": "As C46 for the NCP and NTucker training runs and update groups.", "quantifier": "all schedules, orders, data", "why_tests_cant": "schedules cannot be enumerated", "anchors": ["tensorD/factorization/ncp.py:NCP_BCU.build_model", "tensorD/factorization/ntucker.py:NTUCKER_BCU.build_model"]}
{"id": "C50", "title": "NCP update is a descent step", "statement": "In exact arithmetic the per-mode NCP update from a non-negative point does not increase 1/2||X_(n) - A K^T||^2, given the true spectral norm of the Gram matrix; its direction is the true gradient.", "quantifier": "all data", "why_tests_cant": "a mathematical guarantee over all data", "anchors": ["tensorD/factorization/ncp.py:NCP_BCU.build_model"]}
{"id": "C51", "title": "NTucker core and factors are non-negative", "statement": "Every entry of core and factors exposed by NTUCKER_BCU at every step is not negative.", "quantifier": "all data, steps, branches", "why_tests_cant": "all histories", "anchors": ["tensorD/factorization/ntucker.py:NTUCKER_BCU.build_model"]}
{"id": "C52", "title": "NTucker tracks every Lipschitz constant", "statement": "In every training step the previous-constant variables L0[k] of all modes k (the last one included) and of the core receive the old L[k], and L[k] the new one.", "quantifier": "all orders and states", "why_tests_cant": "the group lists only modes 0..order-2", "anchors": ["tensorD/factorization/ntucker.py:NTUCKER_BCU.build_model"]}
{"id": "C53", "title": "NTucker updates are descent steps", "statement": "In exact arithmetic the core update and each factor update from a non-negative point do not increase the objective (given true spectral norms).", "quantifier": "all data", "why_tests_cant": "mathematical guarantee", "anchors": ["tensorD/factorization/ntucker.py:NTUCKER_BCU.build_model"]}
{"id": "C54", "title": "HOSVD/HOOI factors are orthonormal and correctly sized", "statement": "Every exposed factor has orthonormal columns; HOSVD factor n has min(rank_n, I_n, prod others) columns; HOOI rejects ranks that do not fit.", "quantifier": "all tensors, ranks", "why_tests_cant": "all data", "anchors": ["tensorD/factorization/tucker.py:HOSVD.build_model", "tensorD/factorization/tucker.py:HOOI.build_model"]}
{"id": "C55", "title": "HOSVD/HOOI error is determined by the core", "statement": "||X - full||^2 == ||X||^2 - ||core||^2 and core == X x_n U_n^T.", "quantifier": "all tensors, ranks", "why_tests_cant": "all data", "anchors": ["tensorD/factorization/tucker.py:HOSVD.build_model", "tensorD/factorization/tucker.py:HOOI.build_model"]}
{"id": "C56", "title": "full-rank Tucker is exact", "statement": "With ranks equal to the shape (square orthogonal factors) HOSVD and HOOI reconstruct X exactly.", "quantifier": "all tensors", "why_tests_cant": "all data", "anchors": ["tensorD/factorization/tucker.py:HOSVD.build_model"]}
{"id": "C57", "title": "HOOI objective never increases", "statement": "In exact arithmetic a HOOI step never increases 1/2||X - full||^2.", "quantifier": "all tensors, ranks, factor states", "why_tests_cant": "mathematical guarantee; needs Ky Fan's principle", "anchors": ["tensorD/factorization/tucker.py:HOOI.build_model"]}
{"id": "C58", "title": "HOSVD error bound", "statement": "||X - full||^2 <= sum over modes of the discarded squared singular values of the unfoldings.", "quantifier": "all tensors, ranks", "why_tests_cant": "mathematical guarantee", "anchors": ["tensorD/factorization/tucker.py:HOSVD.build_model"]}
{"id": "C59", "title": "centralization", "statement": "centralization(M) subtracts from each entry its column mean; the result has zero column sums; it is idempotent, linear and leaves centred matrices unchanged.", "quantifier": "all matrices", "why_tests_cant": "all data", "anchors": ["tensorD/base/pitf_ops.py:centralization", "tensorD/base/pitf_ops_numpy.py:centralization"]}
{"id": "C60", "title": "adjoint_operator is the adjoint of the sampling operator", "statement": "<Pomega_mat(X), y> == <X, adjoint_operator(y)> for all X, y and all sample lists (the samples are drawn with replacement).", "quantifier": "all matrices, sample lists and vectors", "why_tests_cant": "fails only when a coordinate pair is drawn twice or the scale is not 1", "anchors": ["tensorD/base/pitf_ops.py:adjoint_operator", "tensorD/base/pitf_ops.py:Pomega_mat", "tensorD/base/pitf_ops_numpy.py:adjoint_operator", "tensorD/base/pitf_ops_numpy.py:Pomega_mat"]}
{"id": "C61", "title": "shrink soft-thresholds the singular values", "statement": "shrink(M,tau,'normal') has the singular vectors of centralization(M) and singular values max(0,s-tau): it is centralization(M) at tau=0 and 0 for tau >= s_max; 'complicated' adds the soft-thresholded mean.", "quantifier": "all matrices, thresholds", "why_tests_cant": "all data", "anchors": ["tensorD/base/pitf_ops.py:shrink", "tensorD/base/pitf_ops.py:SVT", "tensorD/base/pitf_ops_numpy.py:shrink", "tensorD/base/pitf_ops_numpy.py:SVT"]}
{"id": "C62", "title": "cone_projection_operator is the projection onto the second-order cone", "statement": "The result (x',t') satisfies ||x'|| <= t', is the nearest point of the cone to (x,t), and is (x,t) itself when (x,t) is in the cone.", "quantifier": "all vectors and scalars", "why_tests_cant": "optimality against all competitors", "anchors": ["tensorD/base/pitf_ops_numpy.py:cone_projection_operator", "tensorD/base/pitf_ops.py:cone_projection_operator"]}
{"id": "C63", "title": "PITF iterates on one fixed sample", "statement": "PITF_np.exact_recovery and PITF.train run the recurrence y_{k+1} = y_k + delta (P(T) - P(pair(shrink(y_k)))) on a sample drawn once, for exactly `steps` iterations and return one history entry per iteration.", "quantifier": "all step counts, data, samples", "why_tests_cant": "histories; random redraws", "anchors": ["tensorD/factorization/pitf_numpy.py:PITF_np.exact_recovery", "tensorD/factorization/pitf.py:PITF.train"]}
{"id": "C64", "title": "subspace produces matrices satisfying the PITF constraints", "statement": "Matrices for modes B and C have zero column sums; for mode A all column sums are equal and the total is preserved.", "quantifier": "all factor matrices", "why_tests_cant": "all data", "anchors": ["tensorD/base/pitf_ops.py:subspace", "tensorD/base/pitf_ops_numpy.py:subspace"]}
{"id": "C65", "title": "synthetic data are non-negative and of the requested shape", "statement": "synthetic_data_cp / synthetic_data_tucker return a tensor of shape N_list with non-negative entries for every random draw.", "quantifier": "all shapes, ranks, random draws", "why_tests_cant": "all random draws", "anchors": ["tensorD/demo/DataGenerator.py:synthetic_data_cp", "tensorD/demo/DataGenerator.py:synthetic_data_tucker"]}
{"id": "C66", "title": "PITF exposes its result", "statement": "After training PITF / PITF_np, full() returns the recovered tensor.", "quantifier": "all runs", "why_tests_cant": "all runs", "anchors": ["tensorD/factorization/pitf.py:PITF.full", "tensorD/factorization/pitf_numpy.py:PITF_np.full"]}
{"id": "C67", "title": "several models can share a default graph", "statement": "After building two models in one default graph each of them can still be trained.", "quantifier": "all interleavings of build/train on one graph", "why_tests_cant": "histories of builds and trains", "anchors": ["tensorD/factorization/cp.py:CP_ALS.train", "tensorD/demo/multigraph_demo.py"]}
{"id": "C68", "title": "train works with a default Environment", "statement": "A model built and trained with Environment() defaults (no summary_path) trains without raising.", "quantifier": "all models and data", "why_tests_cant": "the tests always pass a summary path", "anchors": ["tensorD/factorization/env.py:Environment", "tensorD/factorization/cp.py:CP_ALS"]}
{"id": "C69", "title": "mul rejects mismatched contracted sizes", "statement": "mul(A,B,a,b) raises when some contracted axis of A has another size than its partner axis of B.", "quantifier": "all tensors and axis lists", "why_tests_cant": "unbounded family of bad calls", "anchors": ["tensorD/base/ops.py:mul"]}
{"id": "C70", "title": "ttm with a repeated axis applies every listed matrix", "statement": "ttm(X,[M1,M2],[n,n]) is either rejected or equal to X x_n M1 x_n M2.", "quantifier": "all tensors and matrices", "why_tests_cant": "never called with a repeated axis", "anchors": ["tensorD/base/ops.py:ttm"]}
{"id": "C71", "title": "HOOI step is independent of TensorFlow's execution order", "statement": "Whatever order the runtime executes the kernels of one HOOI training step in (respecting data and control dependencies), the variables and fetched values are those of the sequential mode-by-mode sweep.", "quantifier": "all schedules, orders, ranks, data", "why_tests_cant": "schedules cannot be enumerated by tests", "anchors": ["tensorD/factorization/tucker.py:HOOI.build_model"]}
{"id": "C72", "title": "A rejected NCP/NTucker step falls back to the last accepted iterate", "statement": "When a step of NCP_BCU or NTUCKER_BCU does not improve the objective, the next step starts, without extrapolation, from the last accepted factors (and core), so its objective is at most the best accepted one.", "quantifier": "all data, initial values, oracles for the singular values, numbers of steps", "why_tests_cant": "whether and when a step is rejected depends on the data; tests only look at the last error", "anchors": ["tensorD/factorization/ncp.py:NCP_BCU.train", "tensorD/factorization/ncp.py:NCP_BCU.build_model", "tensorD/factorization/ntucker.py:NTUCKER_BCU.train"]}
{"id": "C73", "title": "NCP/NTucker training publishes the best model of the run", "statement": "The factors (and core) available after train are those of the step with the smallest objective.", "quantifier": "all data, initial values, arguments, numbers of steps", "why_tests_cant": "needs a run ending in a rejected step", "anchors": ["tensorD/factorization/ncp.py:NCP_BCU.train", "tensorD/factorization/ntucker.py:NTUCKER_BCU.train"]}
{"id": "C74", "title": "An exact factorization is kept", "statement": "A step of CP_ALS, HOOI, NCP_BCU or NTUCKER_BCU from factors that reconstruct the data exactly still reconstructs it exactly; NCP_BCU and NTUCKER_BCU keep the (non-negative) factors themselves, and training from such a start ends after one validated step with error 0 and the start as result.", "quantifier": "all exactly factorized data, orders, ranks", "why_tests_cant": "exact starting points are not reached by random initialisation", "anchors": ["tensorD/factorization/cp.py:CP_ALS.build_model", "tensorD/factorization/tucker.py:HOOI.build_model", "tensorD/factorization/ncp.py:NCP_BCU.build_model", "tensorD/factorization/ntucker.py:NTUCKER_BCU.build_model"]}
{"id": "C75", "title": "HOOI is at least as good as HOSVD of the same ranks", "statement": "Every step of HOOI.train, and the model it publishes, approximates the data at least as well as HOSVD with the same ranks.", "quantifier": "all data, ranks, numbers of steps, SVD implementations", "why_tests_cant": "a comparison over all data; tests compare single runs", "anchors": ["tensorD/factorization/tucker.py:HOOI.build_model", "tensorD/factorization/tucker.py:HOOI.train", "tensorD/factorization/tucker.py:HOSVD.build_model"]}
{"id": "C76", "title": "HOSVD and HOOI are quasi-optimal", "statement": "The squared error of HOSVD and of every HOOI step is at most N (the order) times the smallest squared error of any Tucker model with at most these ranks; no such model has an error below what any single mode has to discard.", "quantifier": "all data, ranks, competing Tucker models", "why_tests_cant": "the best Tucker approximation is not computable by the code; a minimum over all models", "anchors": ["tensorD/factorization/tucker.py:HOSVD.build_model", "tensorD/factorization/tucker.py:HOOI.build_model"]}
{"id": "C77", "title": "Cores and mode updates are optimal", "statement": "HOSVD's and HOOI's core is the best core for their factors, and each HOOI mode update is the best choice of that factor together with the core while the other factors are fixed.", "quantifier": "all data, ranks, modes, competing cores and factors", "why_tests_cant": "a minimum over all cores and factors", "anchors": ["tensorD/factorization/tucker.py:HOSVD.build_model", "tensorD/factorization/tucker.py:HOOI.build_model"]}
{"id": "C78", "title": "Tensors of low multilinear rank are recovered exactly", "statement": "If the data has an exact Tucker model with at most the requested ranks, HOSVD and every HOOI step reproduce it exactly, and HOOI.train ends after one step with error 0.", "quantifier": "all data with such a model, all orders, ranks", "why_tests_cant": "exact low-rank inputs of every order and rank", "anchors": ["tensorD/factorization/tucker.py:HOSVD.build_model", "tensorD/factorization/tucker.py:HOOI.build_model", "tensorD/factorization/tucker.py:HOOI.train"]}
{"id": "C79", "title": "HOSVD and HOOI on synthetic data", "statement": "The tensors of synthetic_data_cp and synthetic_data_tucker are exactly the model of the drawn factors plus the clipped noise. Trained on them with at least the generating ranks, HOSVD (orders up to 13) and HOOI publish a reconstruction whose squared error is at most the order times the energy of the noise; without noise they reproduce the data, and HOOI.train ends after one step with error 0.", "quantifier": "all shapes, generating and requested ranks, random draws, noise levels, step budgets", "why_tests_cant": "all random draws and shapes; the bound compares with a model the code does not compute", "anchors": ["tensorD/demo/DataGenerator.py:synthetic_data_cp", "tensorD/demo/DataGenerator.py:synthetic_data_tucker", "tensorD/factorization/tucker.py:HOSVD.train", "tensorD/factorization/tucker.py:HOOI.train"]}
{"id": "C80", "title": "CP_ALS with one component recovers rank-one tensors in one step", "statement": "If the data is an outer product of vectors and no normalisation divides by zero, the first CP_ALS step with rank 1 reproduces it exactly. No normalisation divides by zero when every vector has a positive entry and the initial factors of modes 1, 2, ... have positive inner products with the vectors; then the factors are the vectors divided by their maxima, the weight is the product of the maxima, and train ends after one step with error 0.", "quantifier": "all orders, shapes, outer products, initial factors", "why_tests_cant": "all initial draws and data", "anchors": ["tensorD/factorization/cp.py:CP_ALS.build_model", "tensorD/factorization/cp.py:CP_ALS.train"]}
{"id": "C81", "title": "NCP and NTucker start from scaled draws no longer than the data", "statement": "After the initialisation of NCP_BCU every factor is a non-negative multiple of the clipped draw with Frobenius norm |X|^(1/order) (NTUCKER_BCU: every factor and the core, |X|^(1/(order+1))); the extrapolated and previous factors equal them and t, weights and Lipschitz constants are 1. The model they describe has norm at most |X|, so it is at most 2|X| away from X (sqrt 2 |X| for non-negative X), and the objective of the first step is at most 2|X|^2 (|X|^2).", "quantifier": "all data, orders, ranks and draws with a positive entry in every factor (and the core)", "why_tests_cant": "all random draws", "anchors": ["tensorD/factorization/ncp.py:NCP_BCU.build_model", "tensorD/factorization/ntucker.py:NTUCKER_BCU.build_model"]}
{"id": "C82", "title": "Random pairwise-interaction matrices and samples", "statement": "sample_rule4mat returns matrices A, B, C of shapes s0 x s1, s1 x s2, s2 x s0 that are interaction matrices (the columns of A have equal sums, those of B and C sum 0) and of ranks at most ra, rb, rc; sample3D_rule returns m positions inside the tensor.", "quantifier": "all shapes, ranks, sample sizes, random draws", "why_tests_cant": "all random draws and shapes", "anchors": ["tensorD/base/pitf_ops_numpy.py:generate", "tensorD/base/pitf_ops_numpy.py:sample_rule4mat", "tensorD/base/pitf_ops_numpy.py:sample3D_rule"]}
{"id": "C83", "title": "Exact recovery: the loss bounds the distance to the true matrices", "statement": "The tensor of pairwise interactions determines its interaction matrices and has their total length. exact_recovery returns whenever the degrees of freedom are not zero and at least one step is asked for; the matrices it returns are interaction matrices, the last recorded loss is theirs, runs with different numbers of steps agree on the common steps, and if every entry was sampled their squared distance to the true matrices is at most the number of samples times the squared loss.", "quantifier": "all shapes, tensors, samples, step sizes, thresholds >= 0, numbers of steps", "why_tests_cant": "all tensors, samples and numbers of steps", "anchors": ["tensorD/factorization/pitf_numpy.py:PITF_np.exact_recovery"]}
{"id": "C84", "title": "shrink is a proximal operator", "statement": "shrink(M, tau, mode) is the unique minimiser of tau * penalty(X) + |X - M|^2 / 2 over the admissible matrices X, where the penalty is the nuclear norm (Normal: X with columns of sum 0; Complicated: X with columns of equal sums, penalty the nuclear norm of X minus its column means plus |sum of X| / sqrt(size)), with gap at least |Z - X|^2 / 2 to any other Z, and it is non-expansive.", "quantifier": "all matrices, thresholds >= 0, both modes", "why_tests_cant": "minimality over all matrices", "anchors": ["tensorD/base/pitf_ops_numpy.py:shrink"]}
{"id": "C85", "title": "Exact recovery converges to the cheapest matrices that fit the samples", "statement": "If some interaction matrices fit the samples, no two samples agree on two axes and the scaled step d satisfies 0 < d and d (1/s0 + 1/s1 + 1/s2) < 2, there are unique matrices X, Y, Z of least cost (threshold times penalties plus half the squared lengths) fitting the samples, the matrices exact_recovery returns converge to them and its loss to 0 as the number of steps grows; the squared losses of a run sum to at most the cost of any fitting matrices over a positive constant. Without the bound on the step the loss need not decrease.", "quantifier": "all shapes, tensors, distinct samples, small steps, thresholds >= 0", "why_tests_cant": "a limit; all tensors and samples", "anchors": ["tensorD/factorization/pitf_numpy.py:PITF_np.exact_recovery"]}
{"id": "C86", "title": "shrinkageBorC and shrinkageA agree with shrink", "statement": "shrinkageBorC(M, tau, r) returns the matrix shrink(M, tau, 'normal') returns and the number of singular values kept, whatever the guess r; shrinkageA(M, tau, r) the matrix shrink(M, tau, 'complicated') returns.", "quantifier": "all matrices, thresholds, guesses", "why_tests_cant": "all matrices and guesses", "anchors": ["tensorD/base/pitf_ops_numpy.py:shrinkageBorC", "tensorD/base/pitf_ops_numpy.py:shrinkageA"]}
{"id": "C87", "title": "How many steps train makes", "statement": "NCP_BCU.train and NTUCKER_BCU.train with a positive tolerance end within 3(r + q/tol + 2) steps, where q is the objective of the first step and r the number of steps whose residual is not below all earlier ones, whatever the step budget. CP_ALS and HOOI compare with the first objective plus one throughout: when residuals do not rise above the first, a tolerance of at most 1/(q+2) means that only a residual below the tolerance stops them early, and a tolerance above (q+1)/(q+2) stops them by step 3.", "quantifier": "all tensors, starting points, tolerances, step budgets", "why_tests_cant": "a bound over all runs", "anchors": ["tensorD/factorization/ncp.py:train", "tensorD/factorization/ntucker.py:train", "tensorD/factorization/cp.py:train", "tensorD/factorization/tucker.py:train"]}
{"id": "C88", "title": "Fixed points of the non-negative updates", "statement": "An NCP_BCU or NTUCKER_BCU step without extrapolation and with non-zero Lipschitz constants leaves the model unchanged exactly when every factor (and the core) minimises the error over non-negative values, the rest being fixed, equivalently when the first-order (Karush-Kuhn-Tucker) conditions hold; otherwise it strictly lowers the error, by at least the squared distances moved weighted by half the constants.", "quantifier": "all tensors, ranks, non-negative states", "why_tests_cant": "an equivalence over all states", "anchors": ["tensorD/factorization/ncp.py:build_model", "tensorD/factorization/ntucker.py:build_model"]}
{"id": "C89", "title": "Slices of Tucker cores", "statement": "Along every mode the slices of the core HOSVD returns are no longer than the singular values of that unfolding; when the model reproduces the tensor (in particular for untruncated ranks) they are mutually orthogonal and exactly that long. For HOOI with any ranks the slices of the core along the last mode are mutually orthogonal, their lengths are the leading singular values of the tensor projected on the other factors, and the squared error is the squared norm of the tensor minus the sum of their squares. Truncated HOSVD need not have orthogonal slices.", "quantifier": "all tensors of order at most 13, ranks, modes, slices, singular value decompositions", "why_tests_cant": "an identity over all tensors and all valid SVDs", "anchors": ["tensorD/factorization/tucker.py:build_model", "tensorD/factorization/tucker.py:train"]}
{"id": "C90", "title": "A training step of PITF does not depend on how TensorFlow schedules it", "statement": "PITF's graph reads the variable y in one slice node per sample for each of the three adjoint matrices and once more in y + delt*e, and assigns y in the same session run. In every execution the data and control dependencies allow, with any interleaving and overlap, and for both fetch lists train uses, the run computes exactly one iteration of the sequential algorithm on the sample drawn in that run: all slices see the old y, the fetched vector and what y holds afterwards is the new one, and e2, the error rate and the loss are those of the iteration. No operation fails when the sequential iteration does not, such executions exist, and a training of any number of runs leaves the vector the sequential training publishes.", "quantifier": "all tensors, samples, sample numbers, step sizes, thresholds, starting vectors, decomposition oracles, executions, numbers of steps, number types", "why_tests_cant": "A test observes one schedule on one machine; a race between the slices of y and the assignment would show only in other interleavings.", "anchors": ["tensorD/factorization/pitf.py:37-107", "tensorD/factorization/pitf.py:128-147", "tensorD/base/pitf_ops.py:290-335"]}
{"id": "C91", "title": "Fixed points of CP_ALS and HOOI are optimal in every mode", "statement": "A CP_ALS training step that returns the factors it was given leaves a model that no change of a single factor matrix, even together with new weights, brings closer to the tensor; equivalently the normal equations of every mode hold. Conversely, factors with column maxima 1 and positive weights that satisfy the normal equations of every mode with invertible Gram products are returned unchanged with exactly these weights, and any other step from such normalised factors lowers the distance strictly. A HOOI step that returns its factors leaves a model no change of a single factor, even together with a new core, improves. If a step of either algorithm does not lower the distance, the model before it could not have been improved by changing the first factor.", "quantifier": "all tensors of order >= 2, ranks, factor matrices, weights, decomposition oracles", "why_tests_cant": "Tests compare a few reconstructions with references; they cannot show that no matrix whatsoever improves the final model, nor that convergence to a non-optimal fixed point is impossible.", "anchors": ["tensorD/factorization/cp.py:79-108", "tensorD/factorization/cp.py:124-166", "tensorD/factorization/tucker.py:142-190", "tensorD/factorization/tucker.py:207-249"]}
{"id": "C92", "title": "Limit points of endless CP_ALS and HOOI runs", "statement": "Over exact arithmetic the training steps of CP_ALS and HOOI can be repeated for ever. If the factors and weights of a CP_ALS run converge along a subsequence, the distances of the whole run converge, from above, to the distance of the limit point, which no change of the first or of the last factor matrix improves; the column maxima of the limit are 1 when all the maxima divided by were positive; and if in addition the limit weights are positive and its Gram products invertible, the limit point satisfies the normal equations of every mode, the next steps converge to it too, and a step from it returns it. The factors of a HOOI run always have a limit point; every limit point has orthonormal factors, its distance is the limit of the distances, its core the limit of the cores, and it cannot be improved in the first or in the last mode, hence for matrices in no mode.", "quantifier": "all tensors of order >= 2, ranks, starting factors, decomposition oracles, subsequences, limit points; unboundedly many steps", "why_tests_cant": "Tests run finitely many steps; what a run tends to, and that no matrix whatsoever improves it, is a statement about all of them at once.", "anchors": ["tensorD/factorization/cp.py:79-108", "tensorD/factorization/cp.py:124-166", "tensorD/factorization/tucker.py:142-190", "tensorD/factorization/tucker.py:207-249"]}
{"id": "C93", "title": "TensorReader on the text of a file", "statement": "A table of fields written as CSV text (plain or quoted fields, LF, CR LF or CR line ends, blank lines, an optional last line end) is split into exactly that table; splitting fails only on null characters; the coordinates accepted are exactly the optionally signed decimal integers, with single underscores between digits and white space around them, and have their decimal value. Hence a well-formed .csv or .txt file is read as the dense tensor of its entries, for a given and for an inferred shape, and every tensor with at least one mode and no empty mode has a file that reads back to it. A file whose first line has a coordinate that is not an integer (a header line) or a value that is not a number (another separator) raises ValueError; a line anywhere with a missing or non-integer coordinate prevents reading; another file type raises the argument error whatever the text.", "quantifier": "all texts over ASCII, tables, paths, shapes, entries; all functions for parsing values", "why_tests_cant": "The texts of files form an infinite language; tests contain a few well-formed files.", "anchors": ["tensorD/dataproc/reader.py:29-58"]}
{"id": "C94", "title": "Rounding errors of the tensor operations", "statement": "In IEEE arithmetic with rounding to nearest, every composition of the operations of ops.py, DTensor, KTensor, TTensor and l2 raises exactly when, and what, it raises over the reals, and each finite entry of the result differs from the exact one by at most (1+u)^d E - C, where u is the unit roundoff, d the number of roundings on the way to the entry, C the value of the same expression on absolute values and E the same with the underflow unit added to every product. For an inner product of n entries d is n+1, for mul contracting K index values K+1, for the tensor of a Kruskal form of rank r and order N r+N+2. A sum of n numbers stays within ((1+u)^(n-1) - 1) times the sum of absolute values in whatever order a kernel adds. unfold, fold, t2mat, vectorize, vec_to_tensor and indexing do not round at all.", "quantifier": "all formats with precision p>1 and emax>2p (binary32 and binary64 among them), all expressions, all tensors of numbers of the format, all orders of addition", "why_tests_cant": "A test compares with a tolerance for a few inputs; it cannot bound the error of all programs on all inputs and for all orders of summation.", "anchors": ["tensorD/base/ops.py:43-471", "tensorD/base/type.py:83-208", "tensorD/loss.py:6-23"]}
{"id": "C95", "title": "Integer tensors are processed exactly", "statement": "On tensors of integers every composition of these operations gives the exact integers in single precision (IEEE arithmetic of precision p) at each entry for which no intermediate result exceeds 2^24 (2^p) in absolute value; sums of integers whose absolute values add up to at most 2^p are exact in every order of addition, and so are inner products. The bound cannot be raised.", "quantifier": "all formats as in C94, all expressions, all integer tensors, all orders of addition", "why_tests_cant": "Tests on integer data pass because of this fact; that it holds for all data below the bound is a statement about infinitely many inputs.", "anchors": ["tensorD/base/ops.py:43-471", "tensorD/base/type.py:83-208", "tensorD/base/test/ops_test.py"]}
{"id": "C96", "title": "Training does not depend on the units of the data", "statement": "Multiplying every entry of the data by a positive number c changes what CP_ALS, HOSVD, HOOI, NCP_BCU and NTUCKER_BCU compute by that factor only: the factors of CP_ALS, HOSVD and HOOI stay the same and weights, core and full tensor are multiplied by c; NCP_BCU and NTUCKER_BCU multiply each factor (and the core) by a root of c; loss is multiplied by c and the relative residual is unchanged, at every step; training on the scaled data makes the same number of steps and publishes the scaled model.", "quantifier": "all data, ranks, starting factors, positive c and numbers of steps", "why_tests_cant": "Tests use data of one magnitude; that a change of units cannot change the factors is a statement about all data and all scalings, and the stopping rule depends on the magnitude of the objective.", "anchors": ["tensorD/factorization/cp.py:67-177", "tensorD/factorization/tucker.py:29-255", "tensorD/factorization/ncp.py:64-237", "tensorD/factorization/ntucker.py:65-269"]}
{"id": "C97", "title": "Several decompositions in one script, each in its own graph", "statement": "A script that runs any number of decompositions by any of the five classes, building and training each one inside a tf.Graph of its own and resetting the default graph afterwards, computes for each of them exactly the history and the model it computes as the only decomposition of a process. In particular multigraph_demo.py, for every list of offsets, recovers each of its tensors after one step with error 0.", "quantifier": "all lists of decompositions, classes, data, arguments, random draws and numbers of steps; for the demo all offsets", "why_tests_cant": "The demo runs three decompositions of one class; that no decomposition can leave anything behind for a later one is a statement about all scripts of this form.", "anchors": ["tensorD/demo/multigraph_demo.py:15-27", "docs/source/guide_decomposition.rst:192-212", "tensorD/factorization/env.py:5-33"]}
{"id": "C98", "title": "Several decompositions in the default graph", "statement": "Decompositions that follow one another in one process, each with build_model and train in the default graph, compute what each computes alone (test/tucker_test.py and the first example of the guide run HOSVD and then HOOI in this way).", "quantifier": "all lists of decompositions, classes, data, arguments, random draws and numbers of steps", "why_tests_cant": "The summaries of all models in a graph are merged, so a train depends on every build_model before it; tests build one model.", "anchors": ["tensorD/test/tucker_test.py:18-38", "docs/source/guide_decomposition.rst:28-56", "tensorD/factorization/tucker.py:68-83", "tensorD/factorization/tucker.py:208-240"]}
{"id": "C99", "title": "The repository's own unit tests, for all inputs", "statement": "Every assertion of ops_test.py, dtensor_test.py, ttensor_test.py and ktensor_test.py holds for all arrays of the tested ranks: the library result equals the NumPy reference expression of the test.", "quantifier": "all arrays of the ranks used in each test method, all sizes (a positive size where reshape infers an axis), any commutative ring of entries", "why_tests_cant": "The tests draw one random array of one shape and compare to six decimals; they say nothing about other sizes or arrays, and a test that is never run (ktensor_test.test_extract) does not show that it fails.", "anchors": ["tensorD/base/test/ops_test.py:16-259", "tensorD/base/test/dtensor_test.py:14-54", "tensorD/base/test/ttensor_test.py:12-30", "tensorD/base/test/ktensor_test.py:13-33"]}
{"id": "C100", "title": "The worked examples of the guides and docstrings", "statement": "Every example of guide_basic_ops.rst, guide_data.rst and the docstrings of ops.py evaluates to the array, shape or equality printed there; examples on random operands hold for all operands of the shapes shown.", "quantifier": "all operands of the documented shapes (any commutative ring of entries); the printed integer arrays as they stand", "why_tests_cant": "The documentation is not executed by any test, and examples with random operands show a single draw; several printed outputs and shapes are wrong.", "anchors": ["docs/source/guide_basic_ops.rst:56-690", "docs/source/guide_data.rst:95-228", "tensorD/base/ops.py:34-315"]}
{"id": "C101", "title": "Relabelled data gives the relabelled model", "statement": "Permuting the indices of each mode of the data, and the rows of the initial factors with them, permutes the rows of the factors and the entries of the full tensor of CP_ALS, NCP_BCU and NTUCKER_BCU training in the same way and changes nothing else: weights, core, metrics, history, number of steps and exceptions are the same.", "quantifier": "all real tensors of order 2-25 (CP, NCP) or 2-13 (NTucker) with no empty mode, all permutations of each mode's indices, ranks, initial draws, arguments, previous contents of the object, step counts", "why_tests_cant": "The tests run one tensor; a step that treats one row or slice specially, or mixes up the axes of an unfolding on square data, gives plausible results on it.", "anchors": ["tensorD/factorization/cp.py:66-177", "tensorD/factorization/ncp.py:63-237", "tensorD/factorization/ntucker.py:64-269", "tensorD/loss.py:1-40"]}
{"id": "C102", "title": "HOSVD and HOOI do not depend on which singular vectors the decomposition returns", "statement": "A singular value decomposition is only unique up to signs and rotations inside equal singular values. If in every unfolding that HOSVD or HOOI decomposes the singular values before the cut at the requested rank are positive and larger than those after it (or the rank is the number of rows), then any two correct decompositions give the same column space of every factor, a core of the same shape and norm, the same full tensor, the same loss and the same history; and relabelling the indices of the data relabels the full tensor and the projectors onto the column spaces and changes nothing else. Without such a gap two correct decompositions can give different full tensors.", "quantifier": "all real data tensors of order up to 13 without an empty mode, all ranks, all permutations of the indices of every mode, any two functions returning left factors of reduced singular value decompositions, all step counts, arguments, objects and environments", "why_tests_cant": "a test runs one SVD implementation; the claim compares any two of them on all data and all relabellings", "anchors": ["tensorD/factorization/tucker.py:56-85", "tensorD/factorization/tucker.py:146-255"]}
{"id": "C103", "title": "What of the starting point matters", "statement": "CP_ALS does not read the starting matrix of the first mode, and the result does not change if starting columns of the other modes are multiplied by positive numbers, as long as the Gram products of the first step are invertible. NCP_BCU and NTUCKER_BCU give the same result from starting matrices (and core) multiplied by positive numbers. Starting all three from the same components in another order gives the same components in that order - columns of the factors, weights or core entries - with the same full tensor, metrics, history and number of steps.", "quantifier": "all real tensors of order 2-25 (CP, NCP) or 2-13 (NTucker) with no empty mode, all starting matrices, scales, orders of the components, arguments, previous contents of the object, step counts; the first claim for any arithmetic", "why_tests_cant": "The tests draw one random start; a step that uses a stale factor, forgets to normalise, or treats one component specially still converges on it.", "anchors": ["tensorD/factorization/cp.py:98-177", "tensorD/factorization/ncp.py:100-237", "tensorD/factorization/ntucker.py:100-269"]}
{"id": "C104", "title": "No undefined number in exact arithmetic: the real-number theorems do not rest on x/0 = 0", "statement": "In exact arithmetic in which a division by zero, the square root of a negative number and every operation on an undefined number are undefined and comparisons with an undefined number are false, every program of tensor operations, HOSVD, HOOI, CP_ALS, NCP_BCU and NTUCKER_BCU (one step and a whole training with its objects, histories and stopping tests) compute the defined results of the real-number model, provided that the data have a non-zero entry, that no CP column maximum is zero and that the NCP/NTucker step sizes are positive and the random draws have a positive entry. On data without a non-zero entry the loss and the relative residual are undefined.", "quantifier": "all data tensors, ranks, starting values, arguments, objects, worlds, numbers of steps, and all library routines (SVD, pseudo-inverse, singular values, power) that agree on defined arguments", "why_tests_cant": "A NaN shows up only for the inputs that trigger it; that no other input does is a statement about all runs.", "anchors": ["tensorD/factorization/cp.py:67-177", "tensorD/factorization/ncp.py:72-237", "tensorD/factorization/ntucker.py:73-269", "tensorD/factorization/tucker.py:29-255", "tensorD/loss.py:58-88", "tensorD/base/ops.py:43-492"]}
{"id": "C105", "title": "CP_ALS divides by a zero column maximum", "statement": "In exact arithmetic with undefined results, a CP_ALS sweep in which the least-squares solution of a column has maximum zero makes the whole column of the new factor undefined. For rank one this happens whenever the data have no positive entry and one slice is zero, for every start with positive entries; so a non-zero entry and a positive start do not guarantee a defined result.", "quantifier": "all data tensors of orders 2 to 26, ranks, factor states, pseudo-inverse routines", "why_tests_cant": "the division by the maximum (not by the norm) is harmless on the positive test data; the claim is about a whole class of data and every random start", "anchors": ["tensorD/factorization/cp.py:82-99"]}
{"id": "C106", "title": "CP_ALS with the pseudo-inverse NumPy computes", "statement": "np.linalg.pinv treats singular values up to a threshold as zero. With any such routine a CP_ALS step still succeeds, and the distance to the data grows by at most the sum over the modes of sqrt(threshold) times the length of the weighted factor that is replaced; for threshold zero this is the monotonicity of C44. For every positive threshold there are data and factors where a step moves away from an exact decomposition.", "quantifier": "all tensors of orders 2 to 25, ranks, factor states, thresholds, routines that drop a part of at most that size", "why_tests_cant": "the effect shows only for nearly collinear factors; the bound is over all data and states", "anchors": ["tensorD/factorization/cp.py:92-99"]}
{"id": "C107", "title": "HOSVD does not depend on the order of the modes", "statement": "If the modes of the data and the ranks are listed in another order, HOSVD finds the same column space for every mode, a core tensor of the reordered shape and the same norm, the reordered full tensor and the same loss, whatever left singular vectors the two decompositions return. One step of HOOI does depend on the order of the modes.", "quantifier": "all tensors of orders 1 to 13 with non-zero sizes, orders of the modes, ranks with a gap at the cut in every unfolding, pairs of SVD routines", "why_tests_cant": "the test uses one tensor and one order of the modes; the claim is over all data, orders and choices of singular vectors", "anchors": ["tensorD/factorization/tucker.py:56-85", "tensorD/base/ops.py:43-60"]}
{"id": "C108", "title": "The data a model trains on", "statement": "Environment.full_data and full_shape call the provider's full_tensor; build_model calls it twice, once for the shape and once for the data, and nothing else calls it. If full_tensor returns a numpy array, every later train uses the array of the second call with the entries it has at the time of training, whatever the provider would return now, and raises ValueError if the shape differs from the one at build time; a list in place of that array is fed like an unchanged array, but a list in place of the first raises AttributeError, and a build that fails (also for arguments of a wrong type, refused before the provider is asked) leaves object and graph as they were; with one unchanged array a script behaves as with the data given directly. If full_tensor returns a tf.Tensor, as provider.py documents it, the model trains too. The base class Provider raises NotImplementedError when a model is built. PITF can use the same providers.", "quantifier": "all providers (any sequence of returned values), scripts of builds, trainings, predictions, other objects and writes to arrays, arguments, draws, steps, each of the five classes", "why_tests_cant": "the tests use one constant array each and build and train once; the claim is over all providers and call sequences", "anchors": ["tensorD/dataproc/provider.py:5-40", "tensorD/factorization/env.py:5-33", "tensorD/factorization/cp.py:69-70", "tensorD/factorization/cp.py:143", "tensorD/factorization/ncp.py:66-67", "tensorD/factorization/ntucker.py:67-68", "tensorD/factorization/tucker.py:30-31", "tensorD/factorization/tucker.py:131-132", "tensorD/factorization/pitf.py:37-38", "docs/source/guide_decomposition.rst:168-181"]}
{"id": "C109", "title": "From a ratings file to the reported error", "statement": "A csv or txt file with one row of coordinates and a rating per line, all within the given shape, no coordinate listed twice and at least one rating not 0, is read into the tensor with these entries and zeros elsewhere. When CP_ALS, HOOI, NCP or NTUCKER is trained on it, as the scripts tensorD/ex/ml_*.py do, each pair it returns and the loss it keeps are, for the reconstruction of the step in question: the root mean square of the error over the rows with a rating other than 0, and the norm of the difference over all coordinates, listed or not, divided by the norm of the ratings. Coordinates without a row do not influence the model.", "quantifier": "all file texts, shapes, row lists, float parsers, arguments, starting factors, step counts, runs", "why_tests_cant": "the scripts need the MovieLens data and only print numbers; the claim relates the numbers to the rows of any file", "anchors": ["tensorD/ex/ml_cp.py:8-26", "tensorD/ex/ml_ncp.py", "tensorD/ex/ml_ntucker.py", "tensorD/ex/ml_tucker.py:17-35", "tensorD/dataproc/reader.py", "tensorD/loss.py", "tensorD/factorization/cp.py:138-174", "tensorD/factorization/tucker.py", "tensorD/factorization/ncp.py", "tensorD/factorization/ntucker.py"]}
{"id": "C110", "title": "HOSVD and HOOI of rotated data", "statement": "If every mode of the data is multiplied by an orthogonal matrix, HOSVD and HOOI find the column spaces turned by these matrices, a core tensor of the same shape and norm and the turned full tensor, whatever left singular vectors the decompositions return. The distance to the data is the same; HOOI.train makes as many steps with the same relative errors, or raises the same exception. The loss is not the same in general, because it skips the zeros of the data.", "quantifier": "all tensors of orders 1 to 13 (HOOI: 2 to 13) with non-zero sizes, orthogonal matrices, ranks with a gap at every cut, pairs of SVD routines, arguments, step counts, former states of the objects", "why_tests_cant": "tests compare with stored results of one tensor; the claim relates two runs for all rotations and all choices of singular vectors", "anchors": ["tensorD/factorization/tucker.py:56-85", "tensorD/factorization/tucker.py:147-161", "tensorD/factorization/tucker.py:207-255"]}
{"id": "C111", "title": "Experiment scripts on synthetic data", "statement": "Each of cp_ex, ncp_ex, ntucker_ex and tucker_ex, run in a new process with admissible sizes and ranks, finishes without an exception and writes at least one line and at most its number of steps (600, 6000, 10000, 100). Every line holds the root mean squared error over the non-zero entries and the relative error of a model of the kind the method promises (sum of dR rank-one tensors; with non-negative factors; non-negative Tucker; Tucker with orthonormal factors) for data which are the drawn model of rank gR (plus clipped noise for tucker_ex). tucker_ex with dR above one of the sizes raises ValueError. When gR <= dR, every relative error written by tucker_ex is at most sqrt(3 E)/|X| for the noise energy E, and tucker_ex writes the single line 0, 0.", "quantifier": "all sizes N1, N2, N3, ranks gR and dR, all random draws and starting factors, all numerical routines with the assumed properties", "why_tests_cant": "The scripts are run on a few sizes with random draws; no run shows that every draw and rank gives a finished run whose lines are errors of admissible models, nor the size of the errors for all noise draws.", "anchors": ["tensorD/ex/cp_ex.py:19-36", "tensorD/ex/ncp_ex.py:16-33", "tensorD/ex/ntucker_ex.py:16-33", "tensorD/ex/tucker_ex.py:15-32", "tensorD/demo/DataGenerator.py:16-36"]}
{"id": "C112", "title": "HOSVD with smaller ranks is a truncation", "statement": "HOSVD of the same data with ranks that are smaller or equal in every mode returns the first columns of the factors and the leading corner of the core that HOSVD returns with the larger ranks; its full tensor is the Tucker tensor of the larger factors and the core with the other entries set to 0. The squared distance to the data grows by exactly the sum of the squares of the core entries that were left out, so larger ranks are never worse. The same holds for the published fields of trained objects, and HOOI.train with the larger ranks is never worse than HOSVD with the smaller ones.", "quantifier": "all tensors of orders 1 to 13 (HOOI: 2 to 13) with positive sizes, all pairs of rank lists, one smaller than the other in every mode, all routines returning left singular vectors", "why_tests_cant": "A test compares two rank choices on one tensor up to rounding; the nesting and the exact difference of the errors are statements about all data, ranks and singular vectors.", "anchors": ["tensorD/factorization/tucker.py:29-45", "tensorD/factorization/tucker.py:56-85", "tensorD/factorization/tucker.py:207-255"]}
{"id": "C113", "title": "Demo scripts", "statement": "Each of cp_demo, ncp_demo, ntucker_demo and tucker_demo, run in a new process, ends without an exception and leaves the attributes it reads set: three 20 x 10 factors, and ten lambdas (CP) or a 10 x 10 x 10 core (Tucker). In cp_demo, if no lambda is zero, no other third factor comes closer to the synthetic data; in ncp_demo the factors are non-negative and the lambdas are a row of ones; in ntucker_demo factors and core are non-negative; in tucker_demo the factors are orthonormal, the core is the best one for them, and the squared error is at most three times the energy of the noise added to the data.", "quantifier": "all random draws (any shape-respecting generator), starting factors of the right shape, numerical routines meeting their specification", "why_tests_cant": "the demos draw random data and only print; the claim is over all draws and starting points", "anchors": ["tensorD/demo/cp_demo.py:16-27", "tensorD/demo/ncp_demo.py:17-27", "tensorD/demo/ntucker_demo.py:17-27", "tensorD/demo/tucker_demo.py:15-26", "tensorD/demo/DataGenerator.py:16-36", "tensorD/factorization/ncp.py:233"]}
