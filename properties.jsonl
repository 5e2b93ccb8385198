{"id": "C01", "title": "Folding inverts unfolding", "statement": "For every tensor and every valid mode (counted from the front or, negative, from the back) whose unfolding is defined, fold(unfold(T, n), n, T.shape) returns T itself; and for every matrix whose size fits, unfold(fold(M, n, shape), n) returns M itself.", "quantifier": "all shapes and orders, all entries, all valid positive and negative modes", "why_tests_cant": "a test samples a few shapes; the permutation of entries must be right for every order and every mode", "anchors": ["src/tenkit/base.py:unfold", "src/tenkit/base.py:fold"]}
{"id": "C02", "title": "Unfolding places every entry in row i_n and the row-major column of the other indices", "statement": "Entry (i_1,...,i_N) of a tensor appears in unfold(T, n) in row i_n and in the column that is the row-major position of the remaining indices in their original order; the result has shape (T.shape[n], product of the other lengths). A mode outside the tensor's axes is rejected, and so is a mode of length 0.", "quantifier": "all tensors, all modes, all index tuples", "why_tests_cant": "the layout convention must agree with the Khatri-Rao convention for every shape", "anchors": ["src/tenkit/base.py:unfold"]}
{"id": "C03", "title": "Khatri-Rao product has the right shape and entries", "statement": "khatri_rao(U_1,...,U_N, skip=s) has product-of-row-counts rows, and in row (row-major position of (j_1,...,j_N) without position s) and column r holds the product of the U_m[j_m, r] over m != s; whatever memory the result was allocated from. skip out of range, or nothing left to multiply, raises IndexError.", "quantifier": "any number of matrices of any row counts, any common column count, any skip (incl. negative), any index tuple", "why_tests_cant": "needs induction on the number of factors", "anchors": ["src/tenkit/base.py:khatri_rao", "src/tenkit/base.py:khatri_rao_binary"]}
{"id": "C04", "title": "Kronecker product has the right shape and entries", "statement": "kron(A_1,...,A_N) has the products of the row and column counts as shape, and its entry at (row-major position of the row indices, row-major position of the column indices) is the product of the A_m[i_m, j_m]; kron_binary_vectors does the same for two vectors.", "quantifier": "any number of matrices of any shapes", "why_tests_cant": "needs induction on the number of factors", "anchors": ["src/tenkit/base.py:kron", "src/tenkit/base.py:kron_binary", "src/tenkit/base.py:kron_binary_vectors"]}
{"id": "C05", "title": "MTTKRP is the same sum for every mode and order", "statement": "matrix_khatri_rao_product(X, U, n)[i, r] is the sum over all entries of X whose n-th index is i of that entry times the product over m != n of U_m[i_m, r]; the specialised third-order code (including the block-wise middle mode) returns exactly what the general unfold-times-Khatri-Rao formula returns. For third-order tensors the modes -2 and -3, which the general code accepts, give no result (None).", "quantifier": "all tensors with 2 or more modes, all factor matrices of matching size, all modes", "why_tests_cant": "three hand-specialised code paths must agree with the general one on all shapes", "anchors": ["src/tenkit/base.py:matrix_khatri_rao_product", "src/tenkit/base.py:_mttkrp3", "src/tenkit/base.py:_mttkrp_mid_with_krp"]}
{"id": "C06", "title": "Flattening factor matrices is lossless", "statement": "unflatten_factors(flatten_factors(U), rank, sizes) returns the list U unchanged for every list of factor matrices with rank columns, and flatten_factors(unflatten_factors(v, rank, sizes)) returns v for every vector of length sum(sizes)*rank; the result never contains uninitialised memory.", "quantifier": "any number of factor matrices, any sizes (including 0), any rank", "why_tests_cant": "offset arithmetic must be right for every list of sizes", "anchors": ["src/tenkit/base.py:flatten_factors", "src/tenkit/base.py:unflatten_factors"]}
{"id": "C07", "title": "rightsolve returns a least-squares solution, the one of minimal norm", "statement": "For every A and B with equally many columns rightsolve(A, B) returns X with ||XA - B|| <= ||YA - B|| for every Y, whatever the rank of A, and among all minimisers X has the smallest norm. In particular if YA = B is solvable then XA = B.", "quantifier": "all matrices of all shapes and ranks (exact arithmetic), every SVD that numpy may return", "why_tests_cant": "minimality over all Y is not testable", "anchors": ["src/tenkit/base.py:rightsolve"]}
{"id": "C08", "title": "Non-negative rightsolve returns the best non-negative matrix", "statement": "For two-dimensional B, non_negative_rightsolve(A, B) has only non-negative entries and ||XA - B|| <= ||YA - B|| for every non-negative Y. A one-dimensional B, for which the function has a special branch, is never solved: the call raises.", "quantifier": "all matrices, every non-negative competitor", "why_tests_cant": "minimality over all competitors is not testable", "anchors": ["src/tenkit/base.py:non_negative_rightsolve"]}
{"id": "C09", "title": "orthogonal_solve solves the orthogonal Procrustes problem", "statement": "If no singular value of B^T A is truncated, X = orthogonal_solve(A, B) has orthonormal rows and ||AX - B|| <= ||AY - B|| for every Y with orthonormal rows; orthogonal_rightsolve does the same with columns. If singular values are truncated the result no longer has orthonormal rows (for B^T A = 0 it is the zero matrix).", "quantifier": "all A, B with B having at least as many columns as A; every competitor with orthonormal rows; every SVD", "why_tests_cant": "minimality over all competitors is not testable", "anchors": ["src/tenkit/base.py:orthogonal_solve", "src/tenkit/base.py:orthogonal_rightsolve"]}
{"id": "C10", "title": "The ridge wrapper minimises the penalised least-squares problem", "statement": "add_rightsolve_ridge(rightsolve, lam)(A, B) minimises ||XA - B||^2 + lam*||X||^2 over all X, the same wrapper around the non-negative solver minimises it over all non-negative X, and around the orthogonal solver it changes nothing.", "quantifier": "all A, B, all lam >= 0, all competitors", "why_tests_cant": "minimality over all competitors is not testable", "anchors": ["src/tenkit/base.py:add_rightsolve_ridge"]}
{"id": "C11", "title": "A Kruskal tensor reconstructs to the weighted sum of outer products", "statement": "KruskalTensor(U, w).construct_tensor() has shape (U_1 rows,...,U_N rows) and entry (i_1,...,i_N) equal to sum_r w_r * U_1[i_1,r]*...*U_N[i_N,r], for every number of modes N >= 2; with one mode the call raises IndexError.", "quantifier": "any order N, any mode lengths >= 1, any rank, any entries", "why_tests_cant": "test covers one third-order shape", "anchors": ["src/tenkit/decomposition/decompositions.py:KruskalTensor.construct_tensor"]}
{"id": "C12", "title": "KruskalTensor construction rejects exactly the inconsistent inputs", "statement": "KruskalTensor(U, w) succeeds exactly when U is a non-empty list of matrices with a common number of columns R and w is omitted or has R entries; omitted weights become R ones; otherwise ValueError (or IndexError for an empty list).", "quantifier": "all lists of matrices and weight vectors", "why_tests_cant": "the accept/reject decision ranges over all inputs", "anchors": ["src/tenkit/decomposition/decompositions.py:KruskalTensor.__init__"]}
{"id": "C13", "title": "Normalising a Kruskal tensor preserves it up to a known factor", "statement": "After normalize_components(eps) every component column has norm n/(n+eps) (so at most 1, and 1 exactly if eps = 0), the weight of component r is the old one times the product of the old column norms, and component r of the reconstructed tensor is the old component times prod_m n_mr/(n_mr+eps): the reconstruction is unchanged if eps = 0 and no column is zero, changes entry-wise by at most the sum over components of |component| * sum_m eps/(n_mr+eps), and does change whenever eps > 0 and a component entry is non-zero in a rank-one tensor. With update_weights=False the weights are untouched.", "quantifier": "any order, rank, entries, eps >= 0", "why_tests_cant": "test uses one random tensor and a tolerance", "anchors": ["src/tenkit/decomposition/decompositions.py:KruskalTensor.normalize_components"]}
{"id": "C14", "title": "Single-component decompositions add up to the whole", "statement": "The tensors constructed from get_single_component_decomposition(r) for r = 0..R-1 each equal the r-th weighted outer product, and they sum to construct_tensor() of the whole.", "quantifier": "any order, rank and entries", "why_tests_cant": "sum identity over all components", "anchors": ["src/tenkit/decomposition/decompositions.py:KruskalTensor.get_single_component_decomposition"]}
{"id": "C15", "title": "Sign resolution of a Kruskal tensor is consistent", "statement": "If no sign score is zero, the signs returned for one component are all +1 or -1 and multiply to +1; each equals the sign of its score except possibly one, and that one has the smallest absolute score among the modes. Multiplying each factor column by its sign leaves construct_tensor() unchanged. If a score is zero the returned sign for it is 0.", "quantifier": "all score tables (all data tensors), all orders and ranks", "why_tests_cant": "tests use one random tensor", "anchors": ["src/tenkit/decomposition/decompositions.py:KruskalTensor.get_signs"]}
{"id": "C16", "title": "Stored Kruskal tensors load back exactly; wrong kinds are refused", "statement": "Storing a Kruskal tensor into an empty group and loading it returns the same factor matrices in the same order and the same weights for any number of modes; storing into a group that already holds one of those datasets fails; loading a group whose type attribute names another class raises.", "quantifier": "any number of factor matrices (also more than 1000, where the 3-digit name template overflows), any entries", "why_tests_cant": "naming must be injective for every count", "anchors": ["src/tenkit/decomposition/decompositions.py:KruskalTensor.store_in_hdf5_group", "src/tenkit/decomposition/decompositions.py:KruskalTensor.load_from_hdf5_group", "src/tenkit/decomposition/decompositions.py:BaseDecomposedTensor._check_hdf5_group"]}
{"id": "C17", "title": "Evolving tensors construct the right slices and pad with zeros", "statement": "construct_slice(k)[i,j] = sum_r A[i,r]*C[k,r]*B_k[j,r]; construct_tensor() has shape (rows of A, max rows of B_k, rows of C), equals slice k where j < rows of B_k and is 0 elsewhere; it raises Warning exactly when the B_k have different sizes and warning is on.", "quantifier": "all A, C, lists B of any sizes", "why_tests_cant": "all irregular shapes", "anchors": ["src/tenkit/decomposition/decompositions.py:EvolvingTensor.construct_tensor", "src/tenkit/decomposition/decompositions.py:EvolvingTensor.construct_slice", "src/tenkit/decomposition/decompositions.py:EvolvingTensor.construct_slices"]}
{"id": "C18", "title": "A stored EvolvingTensor can never be loaded", "statement": "For every evolving tensor, loading what store() wrote raises TypeError (the loader passes an argument the constructor does not take); the round-trip promised by the API fails for every input, although everything needed is in the file.", "quantifier": "every evolving tensor", "why_tests_cant": "the claim is about every input", "anchors": ["src/tenkit/decomposition/decompositions.py:EvolvingTensor.load_from_hdf5_group"]}
{"id": "C19", "title": "Stored PARAFAC2 tensors load back exactly", "statement": "Storing a Parafac2Tensor into an empty group and loading it returns the same A, blueprint B, C, projection matrices (same order) and warning flag, for any number of slices; loading with another type attribute raises.", "quantifier": "any number of projection matrices of any shapes", "why_tests_cant": "naming must be injective for every count", "anchors": ["src/tenkit/decomposition/decompositions.py:Parafac2Tensor.store_in_hdf5_group", "src/tenkit/decomposition/decompositions.py:Parafac2Tensor.load_from_hdf5_group"]}
{"id": "C20", "title": "PARAFAC2 tensors satisfy the PARAFAC2 constraint", "statement": "If every projection matrix has orthonormal columns then B_k^T B_k is the same matrix (blueprint^T blueprint) for every k; conversely nothing checks orthonormality, so without it the constraint can fail.", "quantifier": "all blueprints, all lists of projection matrices of any heights", "why_tests_cant": "all inputs", "anchors": ["src/tenkit/decomposition/decompositions.py:Parafac2Tensor", "src/tenkit/decomposition/decompositions.py:ProjectedFactor.__getitem__"]}
{"id": "C21", "title": "Converting a Kruskal tensor to an evolving tensor keeps the tensor only for unit weights", "statement": "EvolvingTensor.from_kruskaltensor(T).construct_tensor() is the tensor of T with all weights replaced by 1; it equals T.construct_tensor() if the weights are all 1 and there are tensors with other weights for which it differs; it raises ValueError unless T has three modes.", "quantifier": "all third-order Kruskal tensors; all orders for the error", "why_tests_cant": "weights are ignored only for non-default weights", "anchors": ["src/tenkit/decomposition/decompositions.py:EvolvingTensor.from_kruskaltensor"]}
{"id": "C22", "title": "Reordering components does not change the tensor", "statement": "permute_factors_and_weights with a permutation of the components gives a decomposition whose reconstruction is identical; permute_factors alone does so for equal weights; column r of each new factor is column permutation[r] of the old one.", "quantifier": "all permutations, orders, ranks, entries", "why_tests_cant": "all permutations", "anchors": ["src/tenkit/utils.py:permute_factors", "src/tenkit/utils.py:permute_factors_and_weights"]}
{"id": "C23", "title": "flip_factors and prepare_for_comparison choose a canonical sign per column", "statement": "flip_factors returns copies (the input is untouched) in which each column is the input column times a sign; the sign is +1 or -1 unless the column is entirely zero (then 0); each flipped column has at least as many positive as negative entries, and if equally many its first non-zero entry is positive; the original is recovered by multiplying by the sign again; and flipping an already flipped list changes nothing.", "quantifier": "all lists of matrices", "why_tests_cant": "all sign patterns incl. ties", "anchors": ["src/tenkit/utils.py:flip_factors", "src/tenkit/utils.py:_find_first_nonzero_sign", "src/tenkit/utils.py:prepare_for_comparison"]}
{"id": "C24", "title": "Column normalisation", "statement": "normalize_factor(F, eps) returns the column norms and a matrix that times (norm+eps) gives F back column by column, with column norms n/(n+eps) <= 1; a zero column stays zero (no division by zero) when eps > 0; normalize_factors does this to each factor independently and in order.", "quantifier": "all matrices, all eps > 0", "why_tests_cant": "all inputs incl. zero columns", "anchors": ["src/tenkit/utils.py:normalize_factor", "src/tenkit/utils.py:normalize_factors"]}
{"id": "C25", "title": "factor_match_score returns the best permutation", "statement": "factor_match_score(T, E) returns the maximum over all injective assignments of estimated components to true components of the reduced (min or mean) component score, together with an assignment attaining it (the lexicographically first such); every assignment is considered; with fewer estimated than true components it returns (-1, None).", "quantifier": "all factor lists of any order, ranks R_est >= R_true and R_est < R_true, both reductions", "why_tests_cant": "factorially many permutations, all inputs", "anchors": ["src/tenkit/metrics.py:factor_match_score", "src/tenkit/metrics.py:_factor_match_score"]}
{"id": "C26", "title": "Factor match scores lie between 0 and 1", "statement": "Every component score, and hence factor_match_score with min or mean reduction, lies in [0, 1] whenever no component weight pair is zero (with a zero pair the score is NaN and the assignment is skipped).", "quantifier": "all factor lists", "why_tests_cant": "Cauchy-Schwarz for all inputs", "anchors": ["src/tenkit/metrics.py:_factor_match_score", "src/tenkit/metrics.py:weight_score"]}
{"id": "C27", "title": "The factor match score ignores order, sign and (without weight penalty) positive scale of estimated components", "statement": "Permuting the columns of all estimated factors by one permutation leaves the returned score unchanged; multiplying estimated columns by -1 leaves every component score unchanged; the score of a decomposition against itself is at least the score obtained with the identity assignment, which is prod_m (n/(n+eps))^2. Exact invariance under positive rescaling fails because of eps.", "quantifier": "all factor lists, permutations and sign patterns", "why_tests_cant": "all inputs", "anchors": ["src/tenkit/metrics.py:factor_match_score"]}
{"id": "C28", "title": "percent_explained and tensor_completion_score are calibrated", "statement": "percent_explained(X, Y) <= 1 with equality exactly when X = Y, for every non-zero X; tensor_completion_score is 0 exactly when X and Y agree wherever the mask is not 1, and ignores all other entries.", "quantifier": "all tensors and masks", "why_tests_cant": "all inputs", "anchors": ["src/tenkit/metrics.py:percent_explained", "src/tenkit/metrics.py:tensor_completion_score"]}
{"id": "C29", "title": "Leverage scores lie in [0,1] and sum to the rank", "statement": "If the Gram matrix is inverted exactly, leverage(F) has one score per row, each in [0,1], and they sum to the number of columns of F.", "quantifier": "all factor matrices with invertible Gram matrix", "why_tests_cant": "all inputs", "anchors": ["src/tenkit/metrics.py:leverage"]}
{"id": "C30", "title": "An iteration budget is never exceeded and the loop stops exactly when the stopping rule says", "statement": "fit performs at most max_its - start_iteration updates; it performs an update at loop pass i exactly when neither |relative SSE change| < convergence_tol nor SSE/||X||^2 < rel_loss_tol held before that pass; the iteration counter ends at start plus the number of updates.", "quantifier": "all update functions, loss sequences (including NaN and infinite values), tolerances, budgets", "why_tests_cant": "all loss histories", "anchors": ["src/tenkit/decomposition/cp.py:CP_ALS._fit", "src/tenkit/decomposition/parafac2.py:Parafac2_ALS._fit", "src/tenkit/decomposition/base_decomposer.py:BaseDecomposer._after_fit_iteration"]}
{"id": "C31", "title": "Fitting with no iterations left crashes for CP", "statement": "CP_ALS.fit with max_its <= 0, resuming from a checkpoint at or past max_its, and continue_fit after the budget is used up all raise UnboundLocalError, whatever the data, also when checkpointing is off; PARAFAC2 fit in the same situation performs no update and does not raise for that reason.", "quantifier": "all data, all budgets <= start iteration, all checkpoint settings", "why_tests_cant": "all configurations", "anchors": ["src/tenkit/decomposition/cp.py:CP_ALS._fit", "src/tenkit/decomposition/parafac2.py:Parafac2_ALS._fit", "src/tenkit/decomposition/base_decomposer.py:BaseDecomposer.continue_fit"]}
{"id": "C32", "title": "Which iterations are in the checkpoint file", "statement": "A CP fit from iteration 0 into a fresh file with checkpoint_frequency f > 0 that performs n updates without error leaves exactly the checkpoints i < n with (i+1) divisible by f, holding the decomposition after update i+1, plus one final checkpoint named n holding the final decomposition exactly when (last loop index + 1) is not divisible by f; earlier checkpoints are never altered. With frequency None or negative nothing is ever written (although the documentation promises the last iteration). With frequency 0 the fit raises ZeroDivisionError.", "quantifier": "all update sequences, budgets, stopping points, frequencies", "why_tests_cant": "all stopping points and frequencies", "anchors": ["src/tenkit/decomposition/base_decomposer.py:BaseDecomposer._after_fit_iteration", "src/tenkit/decomposition/base_decomposer.py:BaseDecomposer.store_checkpoint", "src/tenkit/decomposition/cp.py:CP_ALS._fit"]}
{"id": "C33", "title": "When the final decomposition is saved", "statement": "A CP fit that exhausts its budget always leaves its final decomposition in the file (f > 0). A CP fit from iteration 0 that stops by its rule after n updates, before its budget, loses its final decomposition exactly when n+1 is divisible by f and (f > 1 or n = 0). A PARAFAC2 fit performing n updates loses its final decomposition exactly when n+1 is divisible by f and (f > 1 or n = 0), even when it used its whole budget.", "quantifier": "all n, f, stopping points", "why_tests_cant": "only some residues fail", "anchors": ["src/tenkit/decomposition/cp.py:CP_ALS._fit", "src/tenkit/decomposition/parafac2.py:Parafac2_ALS._fit"]}
{"id": "C34", "title": "Loading a checkpoint returns what was stored", "statement": "After any error-free checkpointed fit, load_checkpoint(path, it) for every stored iteration returns exactly the decomposition stored at that iteration and sets the iteration counter to it; without an iteration it loads the last stored checkpoint; a missing iteration raises ValueError and a file without checkpoints raises ValueError.", "quantifier": "all fits and stored iterations", "why_tests_cant": "all histories", "anchors": ["src/tenkit/decomposition/base_decomposer.py:BaseDecomposer.load_checkpoint"]}
{"id": "C35", "title": "Resuming repeats an iteration", "statement": "A run resumed from the checkpoint of iteration i starts with counter i although i+1 updates are contained in that checkpoint: resuming with budget m and never converging performs m - i further updates, so the final decomposition is the one of an uninterrupted run with budget m+1, not m, and the repeated iteration number is logged twice.", "quantifier": "all i < m, all update functions", "why_tests_cant": "all histories", "anchors": ["src/tenkit/decomposition/base_decomposer.py:BaseDecomposer.load_checkpoint", "src/tenkit/decomposition/cp.py:CP_ALS._fit"]}
{"id": "C36", "title": "Resuming into the same file collides", "statement": "Resuming from a periodic checkpoint i (with (i+1) divisible by f) and writing with the same frequency to the same file raises on the first iteration, because the group of iteration i already exists; the file's iteration list then contains i twice, while all stored checkpoints are intact. continue_fit after a fit whose final checkpoint was written collides in the same way when the first new iteration is due for a checkpoint or when it stops immediately.", "quantifier": "all files, all f, all i", "why_tests_cant": "all histories", "anchors": ["src/tenkit/decomposition/base_decomposer.py:BaseDecomposer.store_checkpoint", "src/tenkit/decomposition/base_decomposer.py:BaseDecomposer.load_checkpoint"]}
{"id": "C37", "title": "Interrupting a checkpoint write never damages earlier checkpoints, but can hide them", "statement": "If writing a checkpoint is interrupted after any primitive write, every earlier checkpoint is unchanged and loads by its number exactly as before; but there are interruption points after which loading without a number raises although earlier checkpoints exist, because the pointer to the latest checkpoint is moved before the checkpoint is written.", "quantifier": "every file, decomposition, logger set and every interruption point", "why_tests_cant": "all crash points", "anchors": ["src/tenkit/decomposition/base_decomposer.py:BaseDecomposer.store_checkpoint"]}
{"id": "C38", "title": "Continuing a fit equals fitting longer", "statement": "For CP, an error-free fit(max_its=n) followed by continue_fit(max_its=m) with 0 < n < m, without checkpointing, produces the same decomposition, iteration counter and logs as one fit(max_its=m), including when it converges before n.", "quantifier": "all update functions, loss histories, n, m", "why_tests_cant": "all histories", "anchors": ["src/tenkit/decomposition/base_decomposer.py:BaseDecomposer.continue_fit", "src/tenkit/decomposition/cp.py:CP_ALS._fit"]}
{"id": "C39", "title": "Loggers write every entry exactly once and in order", "statement": "For a logger whose class name is unique in the list, after any history of log and checkpoint events the stored iterations and values are exactly the entries logged before the last checkpoint event, in order, each once; nothing logged is lost by later events. Two loggers of the same class write into the same dataset and their entries interleave.", "quantifier": "all histories of log/write events, all entry values", "why_tests_cant": "all histories", "anchors": ["src/tenkit/decomposition/logging/logger.py:BaseLogger.log", "src/tenkit/decomposition/logging/logger.py:BaseLogger.write_to_hdf5_group", "src/tenkit/decomposition/logging/logger.py:BaseLogger._write_sequence_to_hd5_group"]}
{"id": "C40", "title": "The HDF5 logger stores every value once", "statement": "For HDF5Logger the dataset of each target always has as many entries as iterations logged at the last save, namely the previous content (when continuing) followed by all values logged in this session up to that save in order (converted to single precision); between saves at most store_frequency - 1 values are unsaved; re-creating the logger on an existing experiment without continue_old raises. When a target raises, the values of the targets before it have already been appended while the iteration is not counted; so after a failure of a target that is not the first, nothing the first target reports later is ever stored, its dataset grows by zeros only.", "quantifier": "all histories of log/save events, all store frequencies > 0, any number of sessions", "why_tests_cant": "all histories", "anchors": ["src/tenkit/log.py:HDF5Logger.log", "src/tenkit/log.py:HDF5Logger.save_logs", "src/tenkit/log.py:HDF5Logger.__init__"]}
{"id": "C41", "title": "Checkpoint names are unambiguous and iterate in order up to 99999", "statement": "Different iterations never share a checkpoint name; iter_checkpoints yields the checkpoints in increasing iteration order as long as all iterations are below 100000, and in wrong order for example for iterations 99999 and 100000. It yields exactly the names, of groups and of arrays in the root of the file, that start with 'checkpoint'.", "quantifier": "all pairs of iterations", "why_tests_cant": "all iterations", "anchors": ["src/tenkit/utils.py:iter_checkpoints", "src/tenkit/decomposition/base_decomposer.py:BaseDecomposer.store_checkpoint"]}
{"id": "C42", "title": "A CP decomposer cannot be fitted twice", "statement": "After a CP_ALS.fit that performed at least one update, calling fit again on the same object (any data of the same shape, max_its >= 1) raises TypeError before any update; the second fit never runs.", "quantifier": "all data, all first fits", "why_tests_cant": "stale state depends on history", "anchors": ["src/tenkit/decomposition/cp.py:BaseCP.SSE", "src/tenkit/decomposition/cp.py:CP_ALS._init_fit"]}
{"id": "C43", "title": "The fast SSE equals the true SSE during a fit", "statement": "At every point between updates in a CP fit (after any number of single-mode updates, any constraints and penalties) the reported SSE equals ||X - reconstruction||^2, and loss equals that plus the ridge terms; but after normalising the returned decomposition in place the reported SSE can differ from the true one.", "quantifier": "all data, all update histories", "why_tests_cant": "the cached inner product must be current in every reachable state", "anchors": ["src/tenkit/decomposition/cp.py:BaseCP.SSE", "src/tenkit/decomposition/cp.py:CP_ALS._update_als_factor"]}
{"id": "C44", "title": "An unconstrained ALS update is optimal for its mode", "statement": "After an unconstrained, unpenalised CP_ALS update of mode n, no other choice of the n-th factor matrix gives a smaller SSE with the other factors fixed (whatever the ranks of the factors); all other factors are unchanged.", "quantifier": "all tensors of order >= 2, factors, modes, competitors", "why_tests_cant": "minimality over all competitors", "anchors": ["src/tenkit/decomposition/cp.py:CP_ALS._update_als_factor", "src/tenkit/decomposition/cp.py:CP_ALS._get_als_lhs", "src/tenkit/decomposition/cp.py:CP_ALS._get_als_rhs"]}
{"id": "C45", "title": "SSE never increases during an unconstrained CP fit", "statement": "Across any number of unconstrained, unpenalised CP_ALS iterations the SSE sequence is non-increasing, so the relative change used by the stopping rule is never negative.", "quantifier": "all data, initialisations, numbers of iterations", "why_tests_cant": "all runs", "anchors": ["src/tenkit/decomposition/cp.py:CP_ALS._update_als_factors", "src/tenkit/decomposition/cp.py:CP_ALS._update_convergence"]}
{"id": "C46", "title": "Non-negativity constraints hold but the constrained update is not optimal", "statement": "After an update of a non-negative mode every entry of that factor is >= 0, so after one full iteration all constrained factors are non-negative and stay so; a random start is non-negative in those modes already; but the update solves the non-negative problem for the normal equations, not for the data, and there is data for which it strictly increases the SSE.", "quantifier": "all data for the first part; existence for the second", "why_tests_cant": "requires all data / a special witness", "anchors": ["src/tenkit/decomposition/cp.py:CP_ALS._get_rightsolve", "src/tenkit/base.py:non_negative_rightsolve"]}
{"id": "C47", "title": "The ridge-penalised update does not minimise the documented loss", "statement": "With ridge penalties the update minimises ||Z V - M||^2 + lam ||Z||^2 for the normal-equation matrices V, M rather than the documented SSE + lam ||Z||^2; there is data for which the update strictly increases the reported loss.", "quantifier": "existence of data; characterisation for all data", "why_tests_cant": "requires a special witness", "anchors": ["src/tenkit/decomposition/cp.py:CP_ALS._get_rightsolve", "src/tenkit/decomposition/cp.py:BaseCP.loss"]}
{"id": "C48", "title": "Orthonormality constraints hold in the full-rank case but the constrained update is not optimal", "statement": "After an update of an orthonormal mode (no truncated singular value) that factor has orthonormal columns; but the update aligns with M V instead of M, and there is data for which it strictly increases the SSE. A fit starts from an orthonormal factor in the constrained modes. Requesting non-negativity and orthonormality for one mode raises ValueError.", "quantifier": "all data for the first part; existence for the second", "why_tests_cant": "requires all data / a special witness", "anchors": ["src/tenkit/decomposition/cp.py:CP_ALS._get_rightsolve", "src/tenkit/base.py:orthogonal_rightsolve"]}
{"id": "C49", "title": "Initialisation accepts exactly what it should (almost)", "statement": "init_components dispatches case-insensitively on init; passing an initial decomposition to random or svd initialisation raises Warning; svd with rank above the smallest dimension raises ValueError; a precomputed decomposition is accepted exactly when factor i has shape (X.shape[i], rank) for each i it has - in particular a decomposition with fewer modes than X is accepted.", "quantifier": "all init strings, decompositions and data shapes", "why_tests_cant": "all inputs", "anchors": ["src/tenkit/decomposition/cp.py:BaseCP.init_components", "src/tenkit/decomposition/cp.py:BaseCP._check_valid_components", "src/tenkit/decomposition/cp.py:BaseCP.init_svd"]}
{"id": "C50", "title": "Precomputed weights are discarded", "statement": "Starting CP_ALS from a precomputed Kruskal tensor resets its weights to one in place: the caller's object has unit weights afterwards, so that the starting point differs from the tensor passed in by sum_r (1 - w_r) u_r in every entry (a perfect weighted decomposition of the data can start with a positive error); with unit weights the starting point represents the same tensor.", "quantifier": "all precomputed decompositions", "why_tests_cant": "all inputs", "anchors": ["src/tenkit/decomposition/cp.py:CP_ALS._init_fit", "src/tenkit/decomposition/decompositions.py:KruskalTensor.reset_weights"]}
{"id": "C51", "title": "CMTF coupled updates are optimal and monotone", "statement": "For an unconstrained CMTF model with at most one matrix per mode and unit weights, updating a coupled mode minimises (tensor SSE + matrix SSE) over that factor, updating the matrix factor minimises the matrix SSE, and so the loss never increases over iterations.", "quantifier": "all tensors, coupled matrices, coupling modes", "why_tests_cant": "minimality over all competitors", "anchors": ["src/tenkit/decomposition/cmtf.py:CMTF_ALS._get_als_lhs", "src/tenkit/decomposition/cmtf.py:CMTF_ALS._get_als_rhs", "src/tenkit/decomposition/cmtf.py:CMTF_ALS._update_uncoupled_matrix_factors"]}
{"id": "C52", "title": "CMTF limitations", "statement": "Requesting non-negativity for any mode makes every CMTF fit that reaches an update raise (AttributeError, when the modes before it are unconstrained); of several matrices coupled to one mode only the first is ever used or updated; the MSE divides by the size of the factor matrices instead of the coupled matrices.", "quantifier": "all data and coupling lists", "why_tests_cant": "all inputs", "anchors": ["src/tenkit/decomposition/cmtf.py:CMTF_ALS._update_als_factors", "src/tenkit/decomposition/cmtf.py:CMTF_ALS._update_uncoupled_matrix_factors", "src/tenkit/decomposition/cmtf.py:CMTF_ALS.MSE"]}
{"id": "C53", "title": "CMTF final normalisation keeps the coupled matrices", "statement": "The normalisation at the end of a CMTF fit leaves every reconstructed coupled matrix unchanged when column norms are non-zero and eps is 0, and scales component r by n/(n+eps) otherwise, when every mode is coupled at most once or any number of times.", "quantifier": "all factors, coupling lists", "why_tests_cant": "all inputs", "anchors": ["src/tenkit/decomposition/cmtf.py:CMTF_ALS._normalize_components"]}
{"id": "C54", "title": "PARAFAC2 projection updates are optimal", "statement": "Updating the projection matrices with distinct storage sets each P_k, in the full-rank case, to an orthonormal matrix minimising ||X_k - A D_k B^T P_k^T|| over all orthonormal P; the other parameters are unchanged.", "quantifier": "all data, ranks, slices, competitors", "why_tests_cant": "minimality over all competitors", "anchors": ["src/tenkit/decomposition/parafac2.py:BaseParafac2._update_projection_matrices"]}
{"id": "C55", "title": "SSE never increases during an unconstrained PARAFAC2 fit", "statement": "With orthonormal projections, sum_k ||X_k - A D_k B^T P_k^T||^2 = sum_k (||X_k||^2 - ||X_k P_k||^2) + ||projected X - [[A,B,C]]||^2; hence a PARAFAC2 iteration (projection update in the full-rank case, then any number of unconstrained CP sweeps) never increases the SSE. The reported loss is the SSE plus the ridge penalties of A, B and C, and the inner weights are one after every iteration.", "quantifier": "all data, any cp_updates_per_it", "why_tests_cant": "all runs", "anchors": ["src/tenkit/decomposition/parafac2.py:Parafac2_ALS._update_parafac2_factors", "src/tenkit/decomposition/parafac2.py:BaseParafac2.projected_X"]}
{"id": "C56", "title": "CP initialisation of PARAFAC2 makes all projections one object", "statement": "With init='cp' all projection matrices are the same array, so after every projection update all of them hold the update of the last slice; for every data set the slices cannot have different projections.", "quantifier": "all data, all numbers of iterations", "why_tests_cant": "aliasing over all histories", "anchors": ["src/tenkit/decomposition/parafac2.py:BaseParafac2.init_cp", "src/tenkit/decomposition/parafac2.py:BaseParafac2._update_projection_matrices"]}
{"id": "C57", "title": "Orthonormality constraints disconnect PARAFAC2 from its inner CP model", "statement": "When a PARAFAC2 model constrains mode 0 (or 2) to be orthonormal, the inner CP decomposer works on a replaced copy of that factor and the fitted decomposition's factor for that mode is never changed by any number of iterations; without such constraints the decomposition sees every inner update.", "quantifier": "all data, all numbers of iterations", "why_tests_cant": "aliasing over all histories", "anchors": ["src/tenkit/decomposition/parafac2.py:Parafac2_ALS._prepare_cp_decomposer", "src/tenkit/decomposition/cp.py:CP_ALS._init_fit"]}
{"id": "C58", "title": "PARAFAC2 convenience entry points", "statement": "Parafac2_ALS.fit_transform ignores max_its and initial_decomposition (so init='precomputed' always fails through it), init='svd' always raises TypeError, and MSE divides the SSE by the total number of rows of the B_k, not by the number of data entries. A given initial decomposition is accepted if the shapes of A, C and of each evolving factor that has a slice match, and is a ValueError otherwise.", "quantifier": "all data and arguments", "why_tests_cant": "all inputs", "anchors": ["src/tenkit/decomposition/parafac2.py:BaseParafac2.fit_transform", "src/tenkit/decomposition/parafac2.py:BaseParafac2.init_svd", "src/tenkit/decomposition/parafac2.py:BaseParafac2.MSE"]}
{"id": "C59", "title": "Separate-mode factor match scores treat each mode on its own", "statement": "separate_mode_factor_match_score returns, for every mode, exactly what factor_match_score without weight penalty returns for that mode alone (its own best assignment), and each of these scores is at least the joint unpenalised score.", "quantifier": "all factor lists, both reductions", "why_tests_cant": "all inputs and assignments", "anchors": ["src/tenkit/metrics.py:separate_mode_factor_match_score"]}
{"id": "C60", "title": "PARAFAC2 factor match scores ignore what they should compare", "statement": "factor_match_score_parafac2 is factor_match_score of modes 0 and 2: the evolving factors have no influence, so models with different evolving factors can match perfectly; _factor_match_score_parafac2 depends on the true factors only through their number of components and with its default weight_penalty always raises; without it the numbers returned are the lengths of the estimated components, not similarities.", "quantifier": "all factors", "why_tests_cant": "independence of an argument for all inputs", "anchors": ["src/tenkit/metrics.py:factor_match_score_parafac2", "src/tenkit/metrics.py:_factor_match_score_parafac2"]}
{"id": "C61", "title": "CMTF updates ignore the weights its loss uses", "statement": "The CMTF factor updates do not depend on the weights of the decomposition, but the loss does; a fit from precomputed components starts with weights equal to the products of the column lengths given, so that (unlike with unit weights, C51) its loss can increase.", "quantifier": "all states; all precomputed decompositions", "why_tests_cant": "independence of a field for all states; the interplay of initialisation and update", "anchors": ["src/tenkit/decomposition/cmtf.py:CMTF_ALS._init_fit", "src/tenkit/decomposition/cmtf.py:CMTF_ALS._get_als_lhs", "src/tenkit/decomposition/cmtf.py:CMTF_ALS.SSE"]}
{"id": "C62", "title": "Negative coupling modes silently decouple a CMTF model", "statement": "Coupling modes counted from the end are accepted, and loss and matrix factors treat them as the modes meant, but the factor updates of the tensor are then exactly those of CP_ALS, uninfluenced by the coupled matrices, and the loss can increase.", "quantifier": "all states with negative coupling modes", "why_tests_cant": "all inputs", "anchors": ["src/tenkit/decomposition/cmtf.py:CMTF_ALS._set_mode_to_coupled_matrix_mapping", "src/tenkit/decomposition/cmtf.py:CMTF_ALS._get_als_lhs", "src/tenkit/decomposition/cmtf.py:CMTF_ALS._get_als_rhs"]}
{"id": "C63", "title": "The loss CMTF reports is the loss of the factors plus the cost of stale weights", "statement": "After any number of unconstrained CMTF iterations (last mode not coupled) the reported SSE equals the coupled SSE of the factors with weights one plus the squared norm of the tensor which the factors make with weights w - 1, w being the weights the fit started with; so an exact fit can be reported as SSE 16 in every iteration, and continue_fit after a finished (normalised) fit can turn an almost exact fit into a bad one.", "quantifier": "all tensors, coupled matrices, starting weights and numbers of iterations", "why_tests_cant": "an identity over all runs; the hidden state is only visible after normalisation", "anchors": ["src/tenkit/decomposition/cmtf.py:CMTF_ALS.SSE", "src/tenkit/decomposition/cmtf.py:CMTF_ALS._normalize_components", "src/tenkit/decomposition/base_decomposer.py:BaseDecomposer.continue_fit"]}
{"id": "C64", "title": "CMTF checkpoints lose the factors of the coupled matrices", "statement": "What a CMTF model stores in a checkpoint does not depend on the factors of the coupled matrices and loading a checkpoint leaves them as they are; so two fits resumed from the same file with the same data can have different factors after one iteration, depending on the random numbers drawn. The factors of the tensor are restored.", "quantifier": "all states, all files; all starting values of the matrix factors", "why_tests_cant": "independence of a field for all states", "anchors": ["src/tenkit/decomposition/cmtf.py:CMTF_ALS.store_checkpoint", "src/tenkit/decomposition/base_decomposer.py:BaseDecomposer.load_checkpoint", "src/tenkit/decomposition/cmtf.py:CMTF_ALS._init_coupled_matrices"]}
{"id": "C65", "title": "Data-driven signs follow the signs of the factors", "statement": "utils.get_signs(U, X) scores column r by the signed sum of squares of row r of the least-squares loadings of X on U; flipping the signs of columns of U flips exactly their scores and signs; for data U D with independent columns the scores are those of the rows of D; without data the sign makes the column sum non-negative. Hence KruskalTensor.get_signs of a tensor whose signs were already resolved returns only +1 (when no score is 0).", "quantifier": "all matrices, all data, all sign changes, all Kruskal tensors without zero scores", "why_tests_cant": "equivariance over all inputs", "anchors": ["src/tenkit/utils.py:get_signs", "src/tenkit/decomposition/decompositions.py:KruskalTensor.get_signs", "src/tenkit/decomposition/decompositions.py:KruskalTensor.get_sign_scores"]}
{"id": "C66", "title": "Core consistency measures the distance of the best Tucker core from the CP core", "statement": "For factors with independent columns core_consistency is 100 (1 - |G - T|^2 / F), G being the least-squares Tucker core of the data for the rescaled factors and T the superdiagonal core (or over |G|^2 when normalized, -inf when G = 0). It is never above 100; 100 is reached only if T is a best core; data following the CP model give 100 up to the smoothing constant 1e-15. Dependent columns raise (LinAlgError or, for too few data entries, ValueError). The method of KruskalTensor ignores the weights, so a tensor with weights other than 1 does not score 100 on its own dense form. The PARAFAC2 variant gives the same for data following the PARAFAC2 model with orthonormal projections.", "quantifier": "all data, all factors, all QR factorisations meeting the documented contract", "why_tests_cant": "minimality over all cores; all factor matrices", "anchors": ["src/tenkit/metrics.py:core_consistency", "src/tenkit/metrics.py:core_consistency_parafac2", "src/tenkit/decomposition/decompositions.py:KruskalTensor.core_consistency"]}
{"id": "C67", "title": "Degeneracy scores are the cosines between components", "statement": "KruskalTensor.degeneracy returns the matrix of cosines between the rank-one components as full tensors: symmetric, ones on the diagonal, absolute values at most 1, and 1 exactly for components that are multiples of each other; the weights play no role and a zero column gives NaN. For PARAFAC2 models with orthonormal projections the inherited degeneracy is the cosine between the components as well, but for a general EvolvingTensor it is not: equal components can get the score 0.", "quantifier": "all factor matrices of all sizes and orders without zero columns", "why_tests_cant": "equality case of Cauchy-Schwarz over all tensors", "anchors": ["src/tenkit/decomposition/decompositions.py:KruskalTensor.degeneracy", "src/tenkit/decomposition/decompositions.py:EvolvingTensor.degeneracy", "src/tenkit/metrics.py:_tucker_congruence"]}
{"id": "C68", "title": "What the factor match score methods of the decomposition classes compare", "statement": "KruskalTensor.factor_match_score ignores the weights, so tensors that differ get the score of equal ones; it and Parafac2Tensor.factor_match_score refuse different ranks (AssertionError). KruskalTensor.seperate_mode_factor_match_score always raises AttributeError, and so does EvolvingTensor.separate_mode_factor_match_score given a KruskalTensor. Parafac2Tensor.factor_match_score equals the inherited method when all slices have the same size and raises ValueError otherwise. One PARAFAC2 model written in two ways (signs moved between a weight and a projection in one slice) can get the score 0 against itself. EvolvingTensor compares A, the stacked evolving factors and C, together (best common assignment) or each on its own.", "quantifier": "all decompositions", "why_tests_cant": "all inputs; sign indeterminacy invisible to tests on generated data", "anchors": ["src/tenkit/decomposition/decompositions.py:KruskalTensor.factor_match_score", "src/tenkit/decomposition/decompositions.py:KruskalTensor.seperate_mode_factor_match_score", "src/tenkit/decomposition/decompositions.py:EvolvingTensor.separate_mode_factor_match_score", "src/tenkit/decomposition/decompositions.py:Parafac2Tensor.factor_match_score"]}
{"id": "C69", "title": "Single components of a PARAFAC2 model add up to the model", "statement": "Parafac2Tensor.get_single_component_decomposition(c) (c also counted from the end) describes slice by slice A[i,c] C[k,c] B_k[j,c], and the slices of all components sum to the slices of the model, when all slices have the same size; otherwise it raises ValueError, and for an index outside the rank IndexError.", "quantifier": "all PARAFAC2 models, components and slices", "why_tests_cant": "all inputs", "anchors": ["src/tenkit/decomposition/decompositions.py:Parafac2Tensor.get_single_component_decomposition", "src/tenkit/decomposition/decompositions.py:ProjectedFactor.__getitem__"]}
{"id": "C70", "title": "Quality measures are what they are called, and fits improve them", "statement": "For a CP_ALS state the loss, SSE, MSE, RMSE and explained variance are e, e, e/n, sqrt(e/n) and 1 - e/|X|^2, e being the squared distance of data and model (data without signal give nan or -inf); each logger class logs the measure it is named after. In every unconstrained fit the values recorded by the loggers of logger.py only go down (explained variance: up, within 0..1), one per iteration. CMTF measures the error of the coupled matrices against the norm of the tensor alone, so its explained variance can be negative for an exact tensor fit and nearly exact matrix fit. For PARAFAC2 it is the share of all slices and does not drop below that of the start.", "quantifier": "all data, starts, loggers, checkpoint settings and numbers of iterations", "why_tests_cant": "monotonicity over all runs", "anchors": ["src/tenkit/decomposition/base_decomposer.py:BaseDecomposer.explained_variance", "src/tenkit/decomposition/base_decomposer.py:BaseDecomposer.MSE", "src/tenkit/decomposition/base_decomposer.py:BaseDecomposer.RMSE", "src/tenkit/decomposition/logging/logger.py:LossLogger", "src/tenkit/decomposition/logging/logger.py:ExplainedVarianceLogger"]}
{"id": "C71", "title": "Unconstrained CP fits always complete", "statement": "CP_ALS.fit without constraints and ridge penalty never raises, for any data (also zero or rank-deficient), any usable random, svd or precomputed start, any of the loggers and any checkpoint settings: it ends with factors of the right sizes and unit weights, the reported SSE is the true one and not above that of the start, and it used fewer iterations than allowed only if the stopping rule held on the losses of the run.", "quantifier": "all data, starts, loggers, budgets", "why_tests_cant": "absence of exceptions over all inputs", "anchors": ["src/tenkit/decomposition/cp.py:CP_ALS._fit", "src/tenkit/decomposition/base_decomposer.py:BaseDecomposer.fit"]}
{"id": "C72", "title": "An interrupted and resumed CP fit equals an uninterrupted one", "statement": "A CP_ALS fit resumed from its checkpoint file (non-negativity and ridge allowed) ends with exactly the decomposition of an uninterrupted fit: interrupted after a iterations and resumed to m, it equals the uninterrupted fit of m iterations, or of m + 1 iterations when a is a multiple of the checkpoint frequency. Without constraints and with tolerances 0 all these runs complete.", "quantifier": "all data, starts, interruption points, frequencies", "why_tests_cant": "equality of final states over all interruption points", "anchors": ["src/tenkit/decomposition/base_decomposer.py:BaseDecomposer._init_fit", "src/tenkit/decomposition/base_decomposer.py:BaseDecomposer.store_checkpoint", "src/tenkit/decomposition/base_decomposer.py:BaseDecomposer.load_checkpoint", "src/tenkit/decomposition/cp.py:CP_ALS._fit"]}
{"id": "C73", "title": "An experiment that fails half-way leaves a mixed file that no later run can complete", "statement": "Experiment.run_experiment stores the parameters except init as attributes and every output and metric under its name, and touches nothing outside its group; with continue_old it replaces the stored values instead, and is a KeyError if one of them is not stored. Repeating a run without continue_old is refused, but only after the attributes were overwritten, so the file then describes results of other parameters. If final_eval raises, the outputs stay without metrics and no later run, continued or not, can succeed. A parameter that HDF5 cannot represent makes the run fail after the computation and before its results are stored. A parameter named h5_group, logger or load_old is a TypeError before anything is computed. The constructor overwrites attributes and refuses metadata that is stored already.", "quantifier": "for all experiments, files, parameters, experiment functions and evaluations", "why_tests_cant": "there are no tests of Experiment; the failures need particular histories of runs on one file", "anchors": ["src/tenkit/log.py:98-124", "src/tenkit/log.py:126-178"]}
{"id": "C74", "title": "How many iterations fits do", "statement": "Before the last pass of an unconstrained CP_ALS loop every error is at least rel_loss_tol times |X|^2 and every pass but the last has reduced the error by at least the convergence tolerance; the loop ends because its budget is used up, the error is small, or the last pass gained less than the tolerance (also by the documented formula, with tolerance tol/(1-tol)). So with positive tolerances there is a number of iterations, the same for all values of max_its, that no fit from a given start exceeds: N suffices once (1-tol)^N times the first error is below rel_loss_tol |X|^2. The same holds for CMTF_ALS loops with unit weights and the coupled loss. Parafac2_ALS has the relative rule only: each iteration but the last gains at least the tolerance, but a fit that reaches loss 0 never meets the rule (0/0 is nan) and does all max_its iterations.", "quantifier": "for all data, ranks, starts, tolerances and iteration budgets", "why_tests_cant": "statement about the number of iterations for unbounded budgets; exact fits are rare in random tests", "anchors": ["src/tenkit/decomposition/cp.py:404-425", "src/tenkit/decomposition/parafac2.py:391-415", "src/tenkit/decomposition/base_decomposer.py:23-32"]}
{"id": "C75", "title": "Unconstrained PARAFAC2 fits complete on any data, unless a slice is narrower than the rank", "statement": "Parafac2_ALS.fit with a random start and without constraints and penalties never raises, whatever the values and ranks of the slices (also zero slices), with any of the code's loggers and any checkpoint settings, as long as every slice has at least as many columns as there are components; it does between one and max_its iterations and ends with factors and projections of the right sizes. If one slice has fewer columns than there are components every such fit raises ValueError in its random start.", "quantifier": "for all slices, ranks, random draws, loggers, budgets and checkpoint frequencies", "why_tests_cant": "absence of exceptions over all inputs; degenerate slices do not occur in random tests", "anchors": ["src/tenkit/decomposition/parafac2.py:97-100", "src/tenkit/decomposition/parafac2.py:389-410", "src/tenkit/decomposition/parafac2.py:417-432", "src/tenkit/decomposition/decompositions.py:628-656"]}
{"id": "C76", "title": "The PARAFAC2 constraint fails for deficient slices", "statement": "The projections a PARAFAC2 fit ends with are those of its last update: the columns of P_k are orthonormal exactly if no singular value of the last X_k^T A D_k B^T was cut off, in which case P_k is the best choice; for a slice of zeros P_k is zero. So B_k^T B_k = B^T B for the former and 0 for the latter, and a completed fit need not have equal B_k^T B_k over the slices, the constraint that defines PARAFAC2. The error of the inner CP problem never increases within an iteration.", "quantifier": "for all slices, ranks, random draws and iteration budgets", "why_tests_cant": "needs deficient slices; the constraint is not checked by the code", "anchors": ["src/tenkit/decomposition/parafac2.py:244-250", "src/tenkit/decomposition/parafac2.py:417-432", "src/tenkit/base.py:36-43", "src/tenkit/decomposition/decompositions.py:571-600"]}
{"id": "C77", "title": "Continued and resumed PARAFAC2 fits equal uninterrupted ones", "statement": "Without orthonormality constraints (non-negativity and ridge penalties allowed) a Parafac2_ALS fit depends on nothing but the data, the factors and the projections: from equal arrays every update gives equal arrays, an equal loss and an equal exception. So a fit of n iterations followed by continue_fit up to m ends like one fit of m iterations (arrays, iteration count, loss history, logger records), and a fit interrupted after a iterations and resumed from its checkpoint file up to m ends with the arrays of one fit of m iterations, or of m + 1 iterations if a + 1 is a multiple of the checkpoint frequency: then the final checkpoint is skipped and the last periodic one holds one update more than its number says. Unconstrained fits with tolerance 0 do all this without exception.", "quantifier": "for all slices, ranks, draws, constraints other than orthonormality, budgets, interruption points and checkpoint frequencies", "why_tests_cant": "equality of final states over all interruption points; the arrays are aliased by the inner decomposer, which is rebuilt on continuation", "anchors": ["src/tenkit/decomposition/parafac2.py:375-387", "src/tenkit/decomposition/parafac2.py:389-415", "src/tenkit/decomposition/base_decomposer.py:166-176", "src/tenkit/decomposition/base_decomposer.py:178-192", "src/tenkit/decomposition/base_decomposer.py:197-219"]}
{"id": "C78", "title": "PCA loadings and svd starts capture the most variance; no model goes below the left-out singular values", "statement": "get_pca_loadings of data with at least as many rows as columns returns min(rank, columns) orthogonal columns of decreasing length, eigenvectors of Y^T Y and scaled orthonormal columns that capture as much of Y as any orthonormal columns can (all of them together reproduce Y^T Y); with fewer rows than columns it raises ValueError. init='svd' gives each mode orthonormal factors that capture as much of the unfolded data as possible. No K-component model, whatever its factors and weights, has an error below the sum of squares of all but the K largest singular values of any unfolding, so SSE and explained variance of CP fits are limited by it; for matrices the limit is reached. The same holds for PARAFAC2 with the singular values of the slices put side by side.", "quantifier": "for all data, ranks, factors, weights, starts and fits", "why_tests_cant": "optimality over all orthonormal matrices and all models", "anchors": ["src/tenkit/utils.py:22-27", "src/tenkit/decomposition/cp.py:96-112", "src/tenkit/decomposition/cp.py:404-425", "src/tenkit/decomposition/parafac2.py:389-415", "src/tenkit/decomposition/base_decomposer.py:94-103"]}
{"id": "C79", "title": "CP fits do not depend on units, order or the svd routine, if the start is scaled with the data", "statement": "Multiply the data by c, reorder the entries of every mode and the components, and start from the corresponding factors: then every unconstrained CP_ALS iteration gives corresponding factors and an error that differs by c squared, whatever svd routine the least-squares solver uses; from the first iteration on the modes after the first keep the scales of the start and the first takes up the rest of c. If the scales of the start multiply to c, complete fits do the same number of iterations and explain the same share of variance. In particular two svd routines that both do what numpy documents give exactly the same fit. If the start is not scaled with the data the number of iterations may change.", "quantifier": "for all data, ranks, scales, orderings, starts, svd routines, tolerances and budgets", "why_tests_cant": "relates two runs of the whole algorithm; needs uniqueness of the solution of smallest norm also in deficient problems", "anchors": ["src/tenkit/base.py:7-13", "src/tenkit/decomposition/cp.py:354-402", "src/tenkit/decomposition/cp.py:404-425", "src/tenkit/decomposition/base_decomposer.py:23-32"]}
{"id": "C80", "title": "Where CP_ALS stands still, what one pass guarantees, and starts that lead nowhere", "statement": "An unconstrained pass of CP_ALS leaves the factors unchanged exactly if every factor is, given the others, the smallest of the best matrices; there the derivative of the error in every direction of every factor is zero, later passes change nothing either, and a fit with positive tolerance and an error that is not zero returns such a start after at most one iteration, also if better models exist. After a pass no model with the old factors in the modes after the first has a smaller error, so a fit that does not stop at once ends at most with the error of the best first factor for the other factors of the start. If the components of the start are orthogonal to the data along the modes after the first, all factors are zero after every pass, and a complete fit reports convergence after one or two iterations with explained variance 0.", "quantifier": "for all data, ranks, starts, svd routines, tolerances and budgets", "why_tests_cant": "an equivalence over all states; stationarity in all directions; complete fits from exceptional starts that random tests never draw", "anchors": ["src/tenkit/base.py:7-13", "src/tenkit/decomposition/cp.py:354-402", "src/tenkit/decomposition/cp.py:404-425", "src/tenkit/decomposition/base_decomposer.py:23-32"]}
{"id": "C81", "title": "Random test data and the old initialiser", "statement": "create_random_factors and create_random_uniform_factors return one matrix per size whose columns have a length below 1, together with the lengths of the drawn columns, from which the draws can be recovered. create_data and create_non_negative_data never return: they call base.ktensor and base has no such name, so every call is an AttributeError. In base_tensor_decomposition.py init_factors('random') gives the same factors as create_random_factors; 'svd' gives, up to the factor 1 + 1e-15, orthonormal columns that capture as much of each mode as any can, but only as many as the mode is long, so that the documented shape (length, rank) fails for modes shorter than the rank although the weights have rank columns; any other scheme, also in capital letters, is a ValueError.", "quantifier": "for all sizes, ranks, draws, noise levels, tensors and svd routines", "why_tests_cant": "no test calls these functions; optimality over all orthonormal matrices", "anchors": ["src/tenkit/utils.py:32-35", "src/tenkit/utils.py:38-47", "src/tenkit/utils.py:50-53", "src/tenkit/utils.py:56-65", "src/tenkit/utils.py:78-96", "src/tenkit/base_tensor_decomposition.py:24-52", "src/tenkit/base_tensor_decomposition.py:54-75", "src/tenkit/base_tensor_decomposition.py:77-103"]}
{"id": "C82", "title": "No fit depends on which singular value decomposition is returned", "statement": "A matrix has many singular value decompositions (signs, bases for repeated values, vectors for the value zero) and numpy does not say which is returned. The singular values, and U g(S) V for every function g with g(0)=0, do not depend on the choice. Therefore rightsolve, orthogonal_solve and orthogonal_rightsolve, with or without ridge penalty, return the same for every routine, and complete fits of CP_ALS, CMTF_ALS and Parafac2_ALS - with any constraints, penalties, starts, loggers and checkpoints, from any state, also where they fail - are the same step by step. The start init='svd', which takes the singular vectors themselves, is the exception.", "quantifier": "for all matrices, all pairs of routines that return a decomposition of every matrix, all settings, data and states", "why_tests_cant": "one library gives one decomposition; the choice only shows with another BLAS; needs uniqueness over all decompositions", "anchors": ["src/tenkit/base.py:7-13", "src/tenkit/base.py:30-60", "src/tenkit/decomposition/cp.py:366-402", "src/tenkit/decomposition/cmtf.py:155-187", "src/tenkit/decomposition/parafac2.py:244-255", "src/tenkit/decomposition/parafac2.py:417-429"]}
{"id": "C83", "title": "The sign helpers for evolving tensors always raise", "statement": "signfix_evolving_factors calls get_signs with a keyword it does not have and signfix_normal_factors calls it with three arguments instead of two, so the first returns only for an empty list of matrices (otherwise TypeError, or IndexError without data), the second never (TypeError for every array with something along its first mode), and fix_signs_evolving_tensor raises for every evolving tensor that can be constructed.", "quantifier": "for all data, factors and least-squares routines", "why_tests_cant": "no test calls these functions", "anchors": ["src/tenkit/utils.py:160-189", "src/tenkit/utils.py:191-200", "src/tenkit/utils.py:202-206", "src/tenkit/utils.py:208-218"]}
{"id": "C84", "title": "Unconstrained CMTF fits complete; the lengths of the starting columns stay in the result", "statement": "CMTF_ALS.fit without constraints and with at most one matrix per mode never raises, from random, svd or precomputed starts, with any of the code's loggers and any checkpoint settings; it does at most max_its iterations, every logger gets one value per iteration, the results have the right sizes, and the coupled loss (with weights one) of the last iterate is at most that of the normalised start. The returned columns are those of the last iterate divided by their lengths plus 1e-15, the matrix factors are multiplied by these lengths; but the returned tensor weighs component r of the last iterate by the product of the lengths the columns of the start had, although the updates knew nothing of these weights.", "quantifier": "for all data, coupled matrices, ranks, starts, random draws, loggers, budgets and checkpoint frequencies", "why_tests_cant": "absence of exceptions over all inputs; equality of all entries of the result", "anchors": ["src/tenkit/decomposition/cmtf.py:76-82", "src/tenkit/decomposition/cmtf.py:84-86", "src/tenkit/decomposition/cmtf.py:88-93", "src/tenkit/decomposition/cmtf.py:96-117", "src/tenkit/decomposition/cmtf.py:146-187", "src/tenkit/decomposition/cmtf.py:287-309"]}
{"id": "C85", "title": "Constrained and penalised CP fits complete, unless an orthonormal mode is shorter than the rank", "statement": "CP_ALS.fit with any combination of non-negative and orthonormal modes (at most one constraint per mode, orthonormal only where the mode has at least as many entries as there are components) and any non-negative ridge penalties never raises, for any data, usable start, the code's loggers and any checkpoint settings: it uses at most max_its iterations (fewer only if the stopping rule held), the reported SSE is the true one, the weights are one, factors of non-negative modes are non-negative after one iteration (from a random start always), and factors Q of orthonormal modes satisfy Q Q^T Q = Q (they are orthonormal when no singular value was cut off, C48); they start orthonormal. An orthonormal mode with more than one entry but fewer than the rank makes fit raise ValueError before the first iteration.", "quantifier": "for all data, ranks, constraint flags, penalties, starts, random draws, loggers, budgets, checkpoint frequencies and iteration counts", "why_tests_cant": "absence of exceptions over all inputs; all iterations of all runs", "anchors": ["src/tenkit/decomposition/cp.py:336-352", "src/tenkit/decomposition/cp.py:354-364", "src/tenkit/decomposition/cp.py:366-383", "src/tenkit/decomposition/cp.py:385-396", "src/tenkit/decomposition/cp.py:188-206", "src/tenkit/base.py:14-60"]}
{"id": "C86", "title": "In coupled CMTF modes orthonormal and penalised updates are optimal, but the reported loss leaves the penalty out", "statement": "Unlike in CP_ALS (C47, C48), the update of a coupled mode asked to be orthonormal (no singular value cut off) is the best orthonormal matrix for tensor and coupled matrix together, and with a ridge penalty it minimises coupled loss plus penalty; with penalties on coupled modes only, no iteration raises and coupled loss plus penalties never goes up. The loss the model reports leaves the penalty out and can rise: from an exact model of [[1]] and [[1]] with penalty 1 one iteration takes it from 0 to at least 1/9.", "quantifier": "all data, ranks, couplings (at most one matrix per mode), penalties >= 0, iterations; existence for the last part", "why_tests_cant": "requires all data and comparison with all matrices / a special witness", "anchors": ["src/tenkit/decomposition/cmtf.py:155-170", "src/tenkit/decomposition/cmtf.py:146-153", "src/tenkit/decomposition/cp.py:366-396", "src/tenkit/decomposition/cmtf.py:40-59"]}
{"id": "C87", "title": "A factor match score bounds the distances of the matched components, but not of the tensors", "statement": "If factor_match_score (with weight penalty) returns s, the smallest (for mean: average) value of 1 - d^2/2 over the matched components is at least s, d being the distance of the two rank-one tensors (better sign) relative to the longer one; without weight penalty the same holds for the components scaled to equal length. Conversely components within relative distance e of each other score at least 1 - e, up to the regularisation by 1e-15. If no matched pair has a negative inner product the squared distance of the two tensors is at most 2 K (1-s) times the sum of the squared longer lengths; without that condition the score says nothing about the tensors: the negative of a tensor (one factor matrix negated) gets exactly the score of the tensor itself.", "quantifier": "all factor matrices of any number of modes and ranks, both reductions", "why_tests_cant": "inequalities between real functions of all inputs", "anchors": ["src/tenkit/metrics.py:9-10", "src/tenkit/metrics.py:18-49", "src/tenkit/metrics.py:51-80", "src/tenkit/utils.py:78-122"]}
{"id": "C88", "title": "PARAFAC2 fits with non-negative modes and ridge penalties complete and end non-negative", "statement": "With a random start, slices at least as wide as the rank, any non-negativity flags (one per mode) and ridge penalties >= 0 (none, or at least one per mode), Parafac2_ALS.fit never raises, whatever the values and ranks of the data; every mode asked to be non-negative (the blueprint for mode 1) is non-negative at the end if cp_updates_per_it > 0, and the reported loss is the squared error plus the penalties times the squared norms. A list of flags or penalties that is too short for some mode is accepted by the constructor, the loss and the start, and raises IndexError in the first iteration. A tensor with three modes is fitted as the list of its frontal slices, any other tensor raises ValueError.", "quantifier": "for all slices, ranks, draws, flags, penalties, budgets, loggers and checkpoint settings; every SVD and NNLS routine that meets its documentation", "why_tests_cant": "completion on all data, including rank-deficient and zero slices, is not testable", "anchors": ["src/tenkit/decomposition/parafac2.py:Parafac2_ALS._fit", "src/tenkit/decomposition/parafac2.py:Parafac2_ALS._update_parafac2_factors", "src/tenkit/decomposition/parafac2.py:Parafac2_ALS._prepare_cp_decomposer", "src/tenkit/decomposition/cp.py:CP_ALS._get_rightsolve"]}
{"id": "C89", "title": "PARAFAC2 fits do not depend on the coordinates of the evolving mode", "statement": "If X_k = Y_k W_k^T for matrices W_k with orthonormal columns (slices compressed to fewer columns, rotated, with reordered or negated columns), then Parafac2_ALS iterations for X and for Y from the same A, B and C have the same A, B and C after every iteration, the same loss from the first iteration on, and projections with P_k(X) = W_k P_k(Y), provided the cut-off of small singular values (which depends on the number of columns) treats both alike - always true if the numbers of columns agree or there is one component. Complete fits with the same draws for A and C agree likewise, except that one of them may stop after the first iteration. Consequences: negating whole slices only negates their projections, even with all three factors constrained to be non-negative, and reordering the columns of slices only reorders the rows of the projections.", "quantifier": "for all data, numbers of columns, orthonormal W_k, ranks, flags, penalties, draws, starting projections and numbers of iterations; every SVD and NNLS routine that meets its documentation", "why_tests_cant": "relates two runs for all data and all rotations; floating-point fits only agree approximately", "anchors": ["src/tenkit/decomposition/parafac2.py:BaseParafac2._update_projection_matrices", "src/tenkit/decomposition/parafac2.py:BaseParafac2.projected_X", "src/tenkit/decomposition/parafac2.py:Parafac2_ALS._update_parafac2_factors", "src/tenkit/decomposition/parafac2.py:Parafac2_ALS._fit", "src/tenkit/decomposition/parafac2.py:Parafac2_ALS.loss"]}
{"id": "C90", "title": "CMTF fits with orthonormal modes and ridge penalties complete", "statement": "CMTF_ALS.fit with any orthonormal modes (each at least as long as the rank), ridge penalties >= 0 (none, or at least one per mode) and no non-negative mode, one well-shaped matrix for each of several distinct coupling modes, any usable start, the loggers of the package and checkpoints that find room ends without an exception after at most the allowed number of iterations, and before that only where the stopping test holds. Its first iterate has Q/(1+1e-15) with orthonormal Q in the orthonormal modes; after every iteration these factors are partial isometries (orthonormal wherever their columns are independent); the factors returned are those of the last iteration with columns divided by length + 1e-15 and the matrix factors multiplied by the lengths, so that orthonormal modes come back with orthogonal columns of length 1/(1+1e-15).", "quantifier": "for all data, ranks, couplings, flags, penalties, starts, loggers and checkpoint settings; every SVD, NNLS and QR routine that meets its documentation", "why_tests_cant": "completeness over all data and combinations of constraints; rank-deficient updates where singular values are cut off are measure-zero in random tests", "anchors": ["src/tenkit/decomposition/cmtf.py:CMTF_ALS._update_als_factors", "src/tenkit/decomposition/cmtf.py:CMTF_ALS._get_als_lhs", "src/tenkit/decomposition/cmtf.py:CMTF_ALS._get_als_rhs", "src/tenkit/decomposition/cmtf.py:CMTF_ALS._fit", "src/tenkit/decomposition/cmtf.py:CMTF_ALS._init_fit", "src/tenkit/decomposition/cp.py:CP_ALS._get_rightsolve"]}
{"id": "C91", "title": "Which couplings CMTF fits accept, reject and ignore", "statement": "With fewer matrices than coupling modes, or a coupling mode z with z >= ndim or z < -ndim, CMTF_ALS.fit raises IndexError before its first iteration. With valid modes and a matrix whose number of rows is not the length of its mode it raises ValueError there, unless one of the two numbers is 1: broadcasting then hides the mismatch from the loss, and the first update of that mode raises ValueError, leaving the state as it was. Matrices beyond the number of coupling modes are silently ignored: the fit is, exception for exception, log entry for log entry and checkpoint for checkpoint, the fit without them.", "quantifier": "for all tensors, lists of matrices and modes (also negative and repeated ones), starts, constraints allowed by CP_ALS, loggers of the package, checkpoint settings and numbers of iterations", "why_tests_cant": "quantifies over all malformed inputs, and equates whole runs including files and logs", "anchors": ["src/tenkit/decomposition/cmtf.py:CMTF_ALS._init_coupled_matrices", "src/tenkit/decomposition/cmtf.py:CMTF_ALS.set_coupled_matrices", "src/tenkit/decomposition/cmtf.py:CMTF_ALS.coupled_factor_matrices_SSE", "src/tenkit/decomposition/cmtf.py:CMTF_ALS._get_als_rhs", "src/tenkit/decomposition/cmtf.py:CMTF_ALS._init_fit"]}
{"id": "C92", "title": "The unused factor update of CMTF either raises or replaces the best factor by its normalised columns", "statement": "CMTF_ALS keeps a second factor update, _update_als_factor_, that nothing calls. For a mode without a coupled matrix it always raises and changes nothing; on a model in order the exception is AttributeError, because the method _compute_V it calls does not exist. For a coupled mode it computes a factor Z that is best for the tensor and the coupled matrix together, provided no singular value falls under the cut-off of numpy.linalg.pinv. It then divides every column of Z by its length, so a zero column ends in NaN. If there is none, it stores the scaled columns U and the best matrix factor for U and changes nothing else. Because the scale is dropped the loss can rise, even from a perfect fit.", "quantifier": "All tensors and coupled matrices of all sizes, all ranks, modes, data, factors and svd routines meeting their contract; refuted claim: one counterexample that works for every svd routine.", "why_tests_cant": "The method is dead code, so no test exercises it; whether a factor is optimal and whether the loss can rise are statements about all matrices.", "anchors": ["src/tenkit/decomposition/cmtf.py:191-284", "src/tenkit/decomposition/cmtf.py:155-170"]}
{"id": "C93", "title": "When a tensor determines its components", "statement": "If two factor matrices of a Kruskal tensor have linearly independent columns and any two components differ (are not multiples of each other) in some other mode, all columns and weights being nonzero, then every Kruskal tensor of the same rank with the same entries has the same components, up to order and up to scales that cancel within a component. Therefore factor_match_score between the two lists of factors is 1 up to its regularisation of 1e-15; a Kruskal tensor that explains another one completely (percent_explained = 1) has its components; a CP_ALS model with loss 0 has found the components its data was constructed from; and so has a CMTF_ALS model with loss 0, together with the parts of the coupled matrices that go with them wherever the columns of the coupled mode are independent. Without the condition on the other modes this fails: two components that agree in all other modes can be mixed freely.", "quantifier": "for all orders, sizes, ranks, factors, weights and pairs of Kruskal tensors; every reduction of the score; refuted claim: one counterexample", "why_tests_cant": "a uniqueness statement quantifies over all other decompositions of a tensor; tests can only try some", "anchors": ["src/tenkit/metrics.py:51-79", "src/tenkit/metrics.py:294-297", "src/tenkit/decomposition/decompositions.py:134-141", "src/tenkit/decomposition/cp.py:168-172", "src/tenkit/decomposition/cmtf.py:27-44"]}
{"id": "C94", "title": "CP fits do not depend on the coordinates of the modes (lossless compression)", "statement": "If X = G x_1 Q_1 ... x_N Q_N for matrices Q_n with orthonormal columns, CP_ALS fits of X and of the smaller tensor G that start with U_n = Q_n V_n have U_n = Q_n V_n and equal errors and losses after every iteration; complete fits perform equally many iterations and end with the same error and the same explained variance.  This holds with ridge penalties in all modes, with orthonormal modes whose Q_n is square, and with non-negative modes whose Q_n reorders the coordinates.  Compressing loses nothing: every model of X has a model of G that is at least as good.", "quantifier": "all tensors of any number of modes, all ranks, all Q_n with orthonormal columns, all flags of constraints, penalties >= 0, tolerances and budgets, svd and nnls routines fulfilling their contracts, states of loggers and checkpoint files", "why_tests_cant": "Tests compare few fits up to rounding; the claim is about all tensors, coordinates and iterations, and about the stopping decision.", "anchors": ["src/tenkit/decomposition/cp.py:354-402", "src/tenkit/decomposition/cp.py:404-425", "src/tenkit/decomposition/cp.py:336-352", "src/tenkit/base.py:7-60"]}
{"id": "C95", "title": "CMTF fits do not depend on the coordinates of the modes or of the columns of the coupled matrices", "statement": "If X = G x_1 Q_1 ... x_N Q_N and every coupled matrix is Y_i = Q_m H_i W_i^T, where m is the mode it is coupled to and all Q_n and W_i have orthonormal columns, then CMTF_ALS fits of (X, Y) and of the smaller data (G, H) that start with U_n = Q_n U'_n and V_i = W_i V'_i keep these equations and have equal losses after every iteration. Complete fits perform equally many iterations and end with the same component weights and the same loss. This holds with ridge penalties in all modes.", "quantifier": "all tensors and coupled matrices of any sizes, all ranks, all distinct coupling modes, all Q_n and W_i with orthonormal columns, penalties >= 0, tolerances and budgets, svd routines fulfilling their contract, states of loggers and checkpoint files; starts given by the caller", "why_tests_cant": "Tests compare few fits up to rounding; the claim is about all data, coordinates and iterations, about the stopping decision and the final rescaling.", "anchors": ["src/tenkit/decomposition/cmtf.py:CMTF_ALS._get_als_lhs", "src/tenkit/decomposition/cmtf.py:CMTF_ALS._get_als_rhs", "src/tenkit/decomposition/cmtf.py:CMTF_ALS._update_uncoupled_matrix_factors", "src/tenkit/decomposition/cmtf.py:CMTF_ALS._init_coupled_matrices", "src/tenkit/decomposition/cmtf.py:CMTF_ALS._fit"]}
{"id": "C96", "title": "What a CP fit that raises while preparing leaves behind", "statement": "If CP_ALS.fit raises before its first iteration, loggers, checkpoint file, remembered mode and cached product are as before; the data are those of the failed call, and constraint lists that were None may have become lists of False of the length of the start. If the QR factorisation fails at mode m, exactly the asked factors before m have been replaced by their Q. The next call does exactly what it would have done without the failed one if no list was filled in or the number of factors is the same (and the budget is not taken from the failed call); otherwise an unconstrained decomposer raises IndexError in every later fit. That a failed fit leaves no trace is therefore refuted: after an incomplete start, the complete one raises.", "quantifier": "all settings, tensors, starts, checkpoint files, constraint lists, exceptions of the external routines, loggers and decomposer states; the IndexError theorems: all data, ranks, usable starts, rel_tol <= 0, no ridge", "why_tests_cant": "Tests rarely call fit again after an exception; the claim is about every failing call and every call after it.", "anchors": ["src/tenkit/decomposition/cp.py:336-352", "src/tenkit/decomposition/cp.py:130-162", "src/tenkit/decomposition/cp.py:89-94", "src/tenkit/decomposition/cp.py:CP_ALS._get_rightsolve", "src/tenkit/decomposition/base_decomposer.py:127-144"]}
{"id": "C97", "title": "A used PARAFAC2 decomposer fits like a new one, but the start given by the caller is overwritten", "statement": "Two Parafac2_ALS fits from the same random draws with the same tolerance and budget end with the same arrays, iteration count, loss and relative change, whatever the decomposers were used for before; an unconstrained second fit without checkpoints does complete. A Parafac2Tensor passed with init='precomputed' is not copied: the fit works on its arrays, so after the fit the caller's object is the result, it still fits the data, and no other array has changed. Fitting twice from the same object with budgets n and m therefore is one fit with budget n + m (no early stop). That a fit leaves the decomposition it was given as start as it was is refuted.", "quantifier": "all slices, ranks, draws, decomposer states, memories, objects of fitting shapes, budgets, tolerances, loggers, checkpoint settings; settings without orthonormality constraints", "why_tests_cant": "Tests use a new decomposer and a new start for every fit; the claim is about all earlier uses and about memory the caller still holds.", "anchors": ["src/tenkit/decomposition/parafac2.py:133-149", "src/tenkit/decomposition/parafac2.py:Parafac2_ALS._fit", "src/tenkit/decomposition/parafac2.py:Parafac2_ALS._update_parafac2_factors", "src/tenkit/decomposition/base_decomposer.py:127-144", "src/tenkit/decomposition/decompositions.py:588-624"]}
{"id": "C98", "title": "CP fits work in the caller's arrays, and Kruskal tensors that use one array twice break normalisation, descent and the reported error", "statement": "A CP_ALS fit with init='precomputed' does not copy the KruskalTensor it is given. If its factor matrices and weights are all different arrays, the fit does what it would do on copies: same factors, losses, logged values, checkpoints and exception, in every fit, raising or not. Arrays that do not belong to the given tensor never change. After the fit the weights and the factors of modes that need not be orthonormal are in the arrays the caller passed, so an unconstrained fit turns the given start into the result, with an error not larger than that of the start (the start is not kept). Factors of orthonormal modes are in new arrays; the caller's arrays for them are as before. A decomposition loaded from a checkpoint is put into new arrays, and all others stay as they are. normalize_components on different arrays agrees with the operation on values. If one array is used for several modes (nothing rejects that), normalising without epsilon can change the tensor, an unconstrained pass over the modes can increase the error, and the error reported after the pass is not the true one.", "quantifier": "All heaps, tensors, Kruskal tensors with arrays of their own, settings, constraints, loggers, checkpoint files and numbers of iterations; for the refuted claims every SVD that works on 1x1 matrices.", "why_tests_cant": "Whether two names refer to one array is invisible in values; tests compare results and rarely look at the start afterwards, and no test passes a tensor with shared arrays.", "anchors": ["src/tenkit/decomposition/cp.py:141-156", "src/tenkit/decomposition/cp.py:336-352", "src/tenkit/decomposition/cp.py:385-402", "src/tenkit/decomposition/decompositions.py:108-160"]}
{"id": "C99", "title": "PARAFAC2 fits do not depend on the order of the slices or on the coordinates of their rows", "statement": "If X_k = Q Y_{p(k)} for a matrix Q with orthonormal columns (possibly more rows than columns) and a permutation p of the slices, Parafac2_ALS fits of X and of Y that start with A = Q A', equal blueprints B and C[k] = C'[p(k)] keep these equations in every iteration; from the first iteration on the projections are P_k = P'_{p(k)} and the losses are equal. Complete fits whose random draws correspond in this way perform equally many iterations, without raising, and end with corresponding results and the same loss. This holds with ridge penalties, with a non-negative B and C, and with a non-negative A if Q only reorders the rows. For a mere reordering of the slices A and B are equal arrays.", "quantifier": "all data with slices of any widths >= rank, all ranks, Q with orthonormal columns, permutations, non-negativity flags, penalties >= 0, tolerances and budgets, draws, svd, qr and nnls routines fulfilling their contracts, earlier states, loggers and checkpoint files", "why_tests_cant": "Tests compare few fits up to rounding; the claim is about all data, orders, coordinates and iterations, and about the stopping decision.", "anchors": ["src/tenkit/decomposition/parafac2.py:Parafac2_ALS._update_parafac2_factors", "src/tenkit/decomposition/parafac2.py:BaseParafac2._update_projection_matrices", "src/tenkit/decomposition/parafac2.py:Parafac2_ALS._fit", "src/tenkit/decomposition/parafac2.py:BaseParafac2.init_random", "src/tenkit/base.py:36-43"]}
{"id": "C100", "title": "A CMTF decomposer can be fitted again to tensors with as many modes, and only to those", "statement": "A completed CMTF_ALS fit writes lists of False, one entry per mode, into the constraint settings that were not given, and leaves given ones alone. Apart from that nothing of earlier fits, continued fits (completed or not) or attribute changes influences the next fit: with the same data, draws, tolerances and budget a used decomposer ends with the same decomposition, coupled factors, iteration count, loss and relative change as a new one. For usable data and starts without non-negativity constraints the second fit does complete (unlike for CP_ALS). For a tensor with more modes than the earlier ones every later fit with rel_tol <= 0 raises, and for one with fewer modes every later fit raises. That a decomposer can be fitted to whatever it could be fitted to before its first fit is therefore refuted.", "quantifier": "all tensors, coupled matrices, coupling modes, draws, starts, settings, decomposer states, sequences of earlier fits with any outcome, loggers and checkpoint files; completion: data, starts and routines as in C90", "why_tests_cant": "Tests make a new decomposer for every fit; the claim is about every history of the object.", "anchors": ["src/tenkit/decomposition/cmtf.py:CMTF_ALS._init_fit", "src/tenkit/decomposition/cmtf.py:CMTF_ALS._update_als_factors", "src/tenkit/decomposition/cp.py:336-352", "src/tenkit/decomposition/base_decomposer.py:127-144"]}
{"id": "C101", "title": "PARAFAC2 fits do not depend on the units of the data or on the order of the components", "statement": "Let Y_k = c X_k for all slices (c <> 0, no non-negativity, no ridge penalty). Parafac2_ALS iterations for X and Y whose factors differ by an order of the components, an order of the rows of B and scales of A, B and C keep these orders and the scales of B and C; from the first iteration on A differs by the scale that makes the model fit c X, the projections differ by the order of the rows of B and a sign, and the losses by c^2 — whatever the first scale of A was. Complete fits from draws that differ by the order of the components and the scale of A take equally many iterations unless one of them stops after its first one, and then the results correspond. If the drawn A is multiplied by c and the other draws are the same, the fits take equally many iterations, A is multiplied by c, and B, C and the projections are the same.", "quantifier": "all data with slices of any widths >= rank, all ranks, c <> 0, orders, scales <> 0 with the required sign, tolerances and budgets, draws, svd, qr and nnls routines fulfilling their contracts, earlier states, loggers and checkpoint files", "why_tests_cant": "Tests compare few fits up to rounding; the claim is about all data, scales, orders and iterations, and about the stopping decision.", "anchors": ["src/tenkit/decomposition/parafac2.py:Parafac2_ALS._update_parafac2_factors", "src/tenkit/decomposition/parafac2.py:BaseParafac2._update_projection_matrices", "src/tenkit/decomposition/parafac2.py:Parafac2_ALS._fit", "src/tenkit/decomposition/parafac2.py:BaseParafac2.init_random", "src/tenkit/base.py:36-43"]}
{"id": "C102", "title": "Where Parafac2_ALS stands still, what one iteration guarantees, and exact starts", "statement": "Without constraints and penalties: an iteration that leaves A, B and C as they are is followed only by such iterations, with the same projections. If the projections an iteration computes have orthonormal columns, it leaves the factors as they are exactly if, given these projections, each factor is the smallest of the best matrices in its place — however many passes over the factors an iteration has — and then the error is flat in every factor. The new projections have orthonormal columns exactly if no singular value is cut off; then they are the best for the old factors, and the error after the iteration is at most that of the old factors with any projections, and of any A with the old B and C. A fit with a positive tolerance ends at most one iteration after the first that changed no factor if the error is not zero. Started at the factors of an exact model it ends with error 0, but only when its budget is used up (0 / 0 is not below the tolerance).", "quantifier": "all slices of any widths >= rank, ranks, numbers of inner passes > 0, tolerances and budgets, draws, svd, qr and nnls routines fulfilling their contracts, earlier states, loggers and checkpoint files", "why_tests_cant": "Fixed points cannot be enumerated, and whether a matrix is the smallest of all best ones is a claim about infinitely many matrices.", "anchors": ["src/tenkit/decomposition/parafac2.py:Parafac2_ALS._update_parafac2_factors", "src/tenkit/decomposition/parafac2.py:BaseParafac2._update_projection_matrices", "src/tenkit/decomposition/parafac2.py:Parafac2_ALS._fit", "src/tenkit/base.py:36-43"]}
{"id": "C103", "title": "PARAFAC2 with CP initialisation starts at a CP model and never leaves the CP models", "statement": "With init='cp' the start is the CP model that CP_ALS finds for the stacked slices in at most 20 iterations from the drawn factors with normalised columns; it does fewer only if the error is below 1e-10 of the size of the data or the last iteration gained less than the 1e-6th part. Its third factor is split into Q R, all projections are Q, and the loss of the start is the error of that CP model. Slices of different shapes raise ValueError. However the fit ends (also when it raises, with all constraints and penalties), all projections are one matrix P and the result is the CP model with the factors C, A and P B: its error is not below that of the best CP model, even where an exact PARAFAC2 model exists.", "quantifier": "all slices of one shape with width >= rank, ranks, draws, numbers of iterations, svd and qr routines fulfilling their contracts; the last part for all settings, oracles and outcomes of the fit", "why_tests_cant": "A test can compare a few errors; that no fit from this start can ever be better than a CP model is a claim about all data, budgets and oracles.", "anchors": ["src/tenkit/decomposition/parafac2.py:122-131", "src/tenkit/decomposition/parafac2.py:BaseParafac2.init_components", "src/tenkit/decomposition/parafac2.py:Parafac2_ALS._fit", "src/tenkit/decomposition/cp.py:188-206"]}
{"id": "C104", "title": "Where CMTF_ALS stands still, and what one pass guarantees", "statement": "An unconstrained pass of CMTF_ALS leaves all factors as they are exactly if every factor of the tensor and every factor of a coupled matrix is, given all the others, the smallest of the best matrices for the summed squared errors with weights one (coupled modes: errors of tensor and matrix together). There the derivative of this objective in every direction of every factor is zero, all later passes change nothing, and a loop with positive tolerance whose reported error is not zero ends there after at most two iterations, also if better models exist. The reported error, which contains the weights, need not be stationary there. After a pass no model that has the old matrices in all places but the first has a smaller objective.", "quantifier": "all tensors, coupled matrices (at most one per mode), ranks >= 1, starting factors and weights, tolerances and budgets, svd routines fulfilling their contract, loggers and checkpoint files", "why_tests_cant": "Fixed points cannot be enumerated, and whether a matrix is the smallest of all best ones is a claim about infinitely many matrices.", "anchors": ["src/tenkit/decomposition/cmtf.py:146-187", "src/tenkit/decomposition/cmtf.py:155-170", "src/tenkit/decomposition/cp.py:385-402", "src/tenkit/base.py:36-43"]}
{"id": "C105", "title": "How far CP_ALS moves, and what it tends to", "statement": "An unconstrained update of one factor decreases the sum of squared errors by exactly the squared distance between the tensors of the model before and after the update. A pass over N modes therefore moves the model by at most sqrt(N (L_k - L_{k+1})), the squared movements of all passes of a run add up to at most N times the decrease of the error, the errors converge, and the movements tend to zero, whatever the data and the start. A complete fit that was ended neither by its budget nor by the tolerance for the error itself has moved the model by at most sqrt(N tol L_k) in its last pass. If the factor matrices before and after the passes of a subsequence tend to the same matrices, then at these matrices no single factor can be replaced with gain and the error is stationary in every mode.", "quantifier": "all data, ranks, starts, numbers of passes, subsequences and limits; every SVD that works on square matrices of the size of the rank", "why_tests_cant": "Limits and sums over unbounded runs are not reached by any run; a test can only look at a few iterations of a few data sets.", "anchors": ["src/tenkit/decomposition/cp.py:CP_ALS._update_als_factor", "src/tenkit/decomposition/cp.py:CP_ALS._update_als_factors", "src/tenkit/decomposition/cp.py:CP_ALS._fit", "src/tenkit/decomposition/cp.py:168-186"]}
{"id": "C106", "title": "What CMTF_ALS normalisations that raise leave behind", "statement": "The normalisation at the end of a CMTF_ALS fit rescales the matrices' own factors one after the other, in place, before it touches the decomposition. If the coupling mode of matrix j does not exist, exactly the own factors of the matrices before j have been multiplied by the lengths of the columns of their factors; the rest, and the decomposition, are as before. A decomposition of rank K > 1 whose weights hold a single number cannot be normalised: ValueError, and the first factor has been divided by the lengths of its columns (plus the constant for zero columns) while the other factors and the weights are unchanged; at that time CMTF_ALS has already rescaled all own factors. No CMTF_ALS fit from such a start reaches its first iteration.", "quantifier": "all decompositions, numbers of coupled matrices, coupling modes, data, initial arguments, draws, settings, oracles and earlier states", "why_tests_cant": "The state after an exception is hardly ever tested, and each combination of missing modes and malformed weights is a separate case.", "anchors": ["src/tenkit/decomposition/cmtf.py:88-93", "src/tenkit/decomposition/cmtf.py:76-82", "src/tenkit/decomposition/decompositions.py:KruskalTensor.normalize_components", "src/tenkit/decomposition/decompositions.py:145-160"]}
{"id": "C107", "title": "How far CMTF_ALS moves, and what it tends to", "statement": "An unconstrained update of a factor, and the update of the matrices' own factors, decreases the summed squared errors of tensor and coupled matrices (weights one) by exactly the squared distance by which it moves the model, tensor and matrices together. The squared movement of a pass is at most N + 1 times the decrease of the error (N modes), so the squared movements of all passes of a run add up to at most N + 1 times the first error, the errors have a limit that no pass undercuts, and the movements tend to zero. With ridge penalties on coupled modes the penalised errors have a limit. If factors and own matrices before and after the passes of a subsequence tend to the same matrices, none of these can be replaced with gain while the others are kept, and the coupled error is stationary there.", "quantifier": "all tensors, coupled matrices (at most one per mode), ranks >= 1, starts, numbers of passes, subsequences and limits; every SVD routine fulfilling its contract", "why_tests_cant": "Limits and sums over unbounded runs are not reached by any run; a test can only look at a few iterations of a few data sets.", "anchors": ["src/tenkit/decomposition/cmtf.py:146-187", "src/tenkit/decomposition/cmtf.py:CMTF_ALS._update_als_factors", "src/tenkit/decomposition/cmtf.py:155-170", "src/tenkit/base.py:36-43"]}
{"id": "C108", "title": "How far Parafac2_ALS moves, and what it tends to", "statement": "In iterations of Parafac2_ALS without constraints and penalties that cut off no singular value, the new projections are the best for the old factors, and the matrices A D_k B^T move, squared and summed over the slices, by at most 3 p times the decrease of the error, p being the number of passes over the factors per iteration. The squared movements of a run add up to at most 3 p times the first loss, the losses never increase and have a limit that no iteration undercuts, and the movements tend to zero. If the factors before and after the iterations of a subsequence tend to the same matrices and the projections after them tend as well, then no projections with orthonormal columns are better for the limit, neither A nor C can be replaced with gain (with one pass per iteration B neither), the error is stationary in these factors, and the losses tend to the error of the limit. The limit need not be the best model.", "quantifier": "all lists of slices at least as wide as the rank, ranks >= 1, starts, numbers of passes per iteration >= 1, subsequences and limits; every SVD and NNLS routine fulfilling its contract", "why_tests_cant": "Limits and sums over unbounded runs are not reached by any run; a test can only look at a few iterations of a few data sets.", "anchors": ["src/tenkit/decomposition/parafac2.py:Parafac2_ALS._update_parafac2_factors", "src/tenkit/decomposition/parafac2.py:BaseParafac2._update_projection_matrices", "src/tenkit/decomposition/parafac2.py:Parafac2_ALS._fit", "src/tenkit/decomposition/cp.py:CP_ALS._update_als_factor"]}
{"id": "C109", "title": "Where CP_ALS with ridge penalties and non-negative modes stands still", "statement": "With ridge penalties >= 0 and any modes non-negative (none orthonormal) no pass raises, and a pass leaves all factors as they are only if each factor U is one of the best allowed matrices for ||Y V - M||^2 + lam ||Y||^2, Y V = M being the normal equations of its mode; with positive penalties this is also sufficient, and then no later pass changes anything. In terms of the gradient 2 G of the error this means G V + lam U = 0 (in non-negative modes: >= 0, and = 0 where U > 0), whereas the documented loss, error plus penalty, is stationary where G + lam U = 0. Standing still at a stationary point of the documented loss requires U V = U in every penalised mode, so in general the two differ: for the data [[5]] and penalties 4, 4 the iteration stands still at 2, 2 and reports the loss 33 for ever, although the loss is 29 at 1, 2. Without penalty, where V is regular and the entries of non-negative modes are positive, the error is stationary.", "quantifier": "all data, ranks, factors, non-negativity flags, penalties >= 0 and numbers of passes; every SVD and NNLS routine fulfilling its contract", "why_tests_cant": "Fixed points cannot be enumerated, and being the best of all allowed matrices is a claim about infinitely many matrices.", "anchors": ["src/tenkit/decomposition/cp.py:CP_ALS._update_als_factor", "src/tenkit/decomposition/cp.py:CP_ALS._get_rightsolve", "src/tenkit/base.py:add_rightsolve_ridge", "src/tenkit/decomposition/cp.py:BaseCP.loss"]}
{"id": "C110", "title": "Rank-one CP_ALS on a matrix is the power method: it tends to the best rank-one approximation, unless the start cannot see it", "statement": "For a matrix (a tensor with two modes) and rank one, every pass of an unconstrained CP_ALS multiplies the coordinates of the factors along the singular vectors of the data by the singular values. If the second factor of the start is not orthogonal to a right singular vector of the largest singular value, the errors tend to the least error of any rank-one model; after k+1 passes they exceed it by at most q^(4k+2) s0^2/cos^2 (s0 the largest singular value, q the largest ratio of a smaller one to it, cos the cosine of the angle between start and singular vector); if the largest singular value is simple, the model tends to s0 u0 v0^T. The same bound holds for the model a complete fit returns. If the start is orthogonal to the right singular vectors of all singular values above c, it stays so and the error stays at least |X|^2 - c^2 however many passes are made.", "quantifier": "all matrices, singular value decompositions, starts, environments with a working svd, numbers of passes, fit calls without constraints", "why_tests_cant": "Convergence is a statement about infinitely many passes, and a test from random starts never meets the starts that cannot see the largest singular value.", "anchors": ["src/tenkit/decomposition/cp.py:CP_ALS._update_als_factor", "src/tenkit/decomposition/cp.py:CP_ALS._update_als_factors", "src/tenkit/decomposition/cp.py:CP_ALS._fit", "src/tenkit/base.py:rightsolve"]}
{"id": "C111", "title": "Rank-one CP_ALS on non-negative data: non-negativity constraints change nothing, and positive starts reach the best approximation of a matrix", "statement": "Two rank-one fits of the same non-negative tensor from the same non-negative start, with the same ridge penalties or none, have the same non-negative factors after every pass, whichever modes are asked to be non-negative in the one and in the other (no mode orthonormal, start not orthogonal to the data in the first mode); complete fits return after the same number of iterations with the same factors and error. Starts with positive entries outside the first factor are never orthogonal to the data. Replacing a rank-one model by its absolute values never increases the error. For a non-negative matrix, no penalties and such a positive start, the errors of the constrained fit tend to the least error that any rank-one model, with or without constraint, has. From negative starts the constraints do matter.", "quantifier": "all non-negative tensors, starts, flags, penalties >= 0, numbers of passes, fit calls; every SVD and NNLS routine fulfilling its contract", "why_tests_cant": "Equality of whole runs under all combinations of flags, and a limit compared with all rank-one models, are not finite checks; a floating point test also cannot tell equal from nearly equal.", "anchors": ["src/tenkit/decomposition/cp.py:CP_ALS._update_als_factor", "src/tenkit/decomposition/cp.py:CP_ALS._get_rightsolve", "src/tenkit/decomposition/cp.py:CP_ALS._fit", "src/tenkit/decomposition/cp.py:CP_ALS.init_random", "src/tenkit/base.py:non_negative_rightsolve"]}
{"id": "C112", "title": "CMTF_ALS iterations do not depend on units and order, if the start is scaled with the data; from the same start they do", "statement": "Take two unconstrained, unpenalised CMTF_ALS states in which tensor and coupled matrices differ by a factor c, the components are in another order and every factor is multiplied by its own number, such that each model is multiplied by c. After every iteration exactly the same relation holds, no iteration raises, and the reported error is multiplied by c^2. The loops of both fits complete after the same number of iterations, in states related in the same way. In particular the order of the components does not matter. If only the data are scaled and the factors are kept, as by normalised starts, this fails: for the data 1 and 2 (coupled to the second mode) and factors 1 the error after one pass is 1/4, for 2 and 4 it is 36/25, not 1.", "quantifier": "all tensors, coupled matrices (at most one per mode), ranks, scales other than 0, orders of components, states, numbers of iterations, tolerances, budgets, loggers and checkpoint files; every SVD routine fulfilling its contract", "why_tests_cant": "A relation between two complete runs for every scale and order cannot be sampled, and rank-deficient steps, where the least-squares solution is not unique, never occur in random tests.", "anchors": ["src/tenkit/decomposition/cmtf.py:146-187", "src/tenkit/decomposition/cmtf.py:CMTF_ALS._update_als_factors", "src/tenkit/decomposition/cmtf.py:41-46", "src/tenkit/decomposition/cmtf.py:76-82", "src/tenkit/base.py:rightsolve"]}
{"id": "C113", "title": "There are data without a best model: better and better CP fits need longer and longer components that cancel", "statement": "Let X be the 2 x 2 x 2 tensor e0 e0 e1 + e0 e1 e0 + e1 e0 e0. Every CP model with two components, whatever its weights, has a positive sum of squared errors, yet the errors of such models come as close to zero as one likes, so no model is best. If both components have length at most L (L >= 1), the error is at least 1/(1472 L^4)^2. In every sequence of models whose errors tend to zero the lengths of both components tend to infinity and their cosine tends to -1; quantitatively, an error below 1/(1472 L^4)^2 with L > 3 puts the degeneracy score between -1 and -1 + 4/(L(L-3)). Once an unconstrained CP_ALS run has reached such an error, all later iterations stay in this region. A complete fit of X with two components returns with a positive error which another model undercuts.", "quantifier": "all factor matrices, weights, bounds L, sequences of models, starts, numbers of iterations, fit calls without constraints; every SVD routine fulfilling its contract", "why_tests_cant": "That no model at all reaches the infimum, and that lengths diverge, are statements about all models and about limits; a test only sees one run slow down.", "anchors": ["src/tenkit/decomposition/cp.py:CP_ALS._update_als_factors", "src/tenkit/decomposition/cp.py:CP_ALS._fit", "src/tenkit/decomposition/cp.py:CP_ALS.SSE", "src/tenkit/decomposition/decompositions.py:KruskalTensor.degeneracy", "src/tenkit/metrics.py:_tucker_congruence"]}
{"id": "C114", "title": "Ridge penalties bound the factors of CP_ALS whatever the start is, so penalised fits do not degenerate", "statement": "After every pass, the factor U of a mode without constraints whose ridge penalty lam is positive fulfils 256 lam |U|^4 <= 27 |X|^4, whatever the start, the other modes and their constraints are; the constant cannot be improved (data [[4]] with penalties 3, where the iteration stands still at sqrt 3, sqrt 3). If the last mode is such a mode, the squared norm of the model and its squared error add up to at most |X|^2. If all modes are such modes, the lengths of the components are bounded by the product of the bounds, the factors of some arbitrarily late passes converge, and on the data without a best model (C113) the error after every pass is at least 1/(1472 L^4)^2 for a number L that depends on the penalty only, even if the start had an error as small as one likes. The loop of fit ends within the bounds once it has made a pass, also when it ends with an exception.", "quantifier": "all tensors, ranks, starts, non-negative penalties, combinations of free and non-negative modes, numbers of passes, tolerances, budgets, loggers and checkpoint files; every SVD and NNLS routine fulfilling its contract", "why_tests_cant": "A bound that no start and no number of passes exceeds, with its best constant, and the existence of limits cannot be established from samples.", "anchors": ["src/tenkit/decomposition/cp.py:CP_ALS._update_als_factor", "src/tenkit/decomposition/cp.py:CP_ALS._get_rightsolve", "src/tenkit/decomposition/cp.py:CP_ALS._fit", "src/tenkit/base.py:rightsolve", "src/tenkit/base.py:add_rightsolve_ridge"]}
{"id": "C115", "title": "CP_ALS with ridge penalties and non-negative modes can only converge to models at which it stands still", "statement": "Take a CP_ALS run with any ridge penalties >= 0 and any combination of free and non-negative modes. If its factors converge, or the factors of some passes and of the passes after them tend to the same limit, each factor of the limit is one of the best allowed matrices for |Y V - M|^2 + lam |Y|^2 (Y V = M the normal equations of its mode). If all penalties are positive, a run that is started at the limit stays there for ever. If all modes are free and have positive penalties and the steps become arbitrarily small, such a limit of a part of the passes exists. Since these conditions are not those of the documented loss (C109), a penalised fit that converges need not end at a stationary point of the loss it reports.", "quantifier": "all tensors, ranks, starts, penalties >= 0, combinations of free and non-negative modes, limits, subsequences; every SVD and NNLS routine fulfilling its contract", "why_tests_cant": "Limits of infinitely many passes are out of reach of any finite test, and a run that merely gets slow looks like a convergent one.", "anchors": ["src/tenkit/decomposition/cp.py:CP_ALS._update_als_factor", "src/tenkit/decomposition/cp.py:CP_ALS._update_als_factors", "src/tenkit/decomposition/cp.py:CP_ALS._get_rightsolve", "src/tenkit/base.py:add_rightsolve_ridge", "src/tenkit/base.py:non_negative_rightsolve"]}
{"id": "C116", "title": "Ridge penalties bound the factors of Parafac2_ALS", "statement": "Every Parafac2_ALS fit from a random start, with any non-negativity flags and ridge penalties >= 0, completes, and the factor U (A, the blueprint B or C) of a mode without constraint and with a positive penalty lam fulfils 256 lam |U|^4 <= 27 (sum_k |X_k|^2)^2, whatever the draws, the number of iterations and inner passes and the other modes are. The projections never lengthen anything: |x P| <= |x| for every vector x and every P the code computes, also if the rank decision has dropped singular values and the columns of P are not orthonormal.", "quantifier": "all lists of slices, ranks, draws, flags, penalties >= 0, positive numbers of inner passes, budgets, tolerances, loggers and checkpoint files; every SVD, QR and NNLS routine fulfilling its contract", "why_tests_cant": "A bound over all starts and numbers of iterations cannot be sampled; slices for which singular values are dropped practically never occur in random tests.", "anchors": ["src/tenkit/decomposition/parafac2.py:BaseParafac2._update_projection_matrices", "src/tenkit/decomposition/parafac2.py:Parafac2_ALS._update_parafac2_factors", "src/tenkit/decomposition/cp.py:CP_ALS._update_als_factor", "src/tenkit/base.py:orthogonal_solve", "src/tenkit/base.py:add_rightsolve_ridge"]}
{"id": "C117", "title": "Parafac2_ALS iterations with penalties on all modes stay within bounds and accumulate", "statement": "Parafac2_ALS without constraints and with positive ridge penalties on A, B and C, from any start: from the first iteration on, each factor U with penalty l has 256 l |U|^4 <= 27 (sum_k |X_k|^2)^2 and no projection P_k lengthens a vector. There are iterations, arbitrarily late ones, along which all factors and all projections converge together; the projections of the limit do not lengthen vectors either.", "quantifier": "all lists of slices with at least one column each, ranks, starting decompositions, positive penalties and positive numbers of inner passes; every SVD routine fulfilling its contract", "why_tests_cant": "Convergence along some iterations of an unbounded run is not observable in finitely many iterations.", "anchors": ["src/tenkit/decomposition/parafac2.py:Parafac2_ALS._fit", "src/tenkit/decomposition/parafac2.py:BaseParafac2._update_projection_matrices", "src/tenkit/decomposition/parafac2.py:Parafac2_ALS._update_parafac2_factors", "src/tenkit/base.py:add_rightsolve_ridge"]}
{"id": "C118", "title": "Parafac2_ALS with penalties and non-negative modes: what iterations and limits satisfy", "statement": "For Parafac2_ALS with any non-negativity flags and ridge penalties >= 0, from any start: after every iteration C is one of the best allowed matrices for |Y V - M|^2 + lam |Y|^2, where Y V = M are its normal equations for the tensor with slices X_k P_k; with one pass per iteration A (with the old B and C) and B (with the new A and the old C) are as well. If factors and projections converge along some iterations, C is best in this sense for the limit; with one pass per iteration, and if the factors before these iterations have the same limit, so are A and B. If no mode is constrained and all penalties are positive, such limits exist.", "quantifier": "all lists of slices with at least one column each, ranks, starting decompositions, flags, penalties >= 0, numbers of inner passes and choices of iterations; every SVD and NNLS routine fulfilling its contract", "why_tests_cant": "What holds in the limit cannot be read off finitely many iterations, and optimality is a statement about all matrices.", "anchors": ["src/tenkit/decomposition/parafac2.py:Parafac2_ALS._fit", "src/tenkit/decomposition/parafac2.py:Parafac2_ALS._update_parafac2_factors", "src/tenkit/decomposition/parafac2.py:BaseParafac2.projected_X", "src/tenkit/decomposition/cp.py:CP_ALS._update_als_factor", "src/tenkit/base.py:add_rightsolve_ridge"]}
{"id": "C119", "title": "Parafac2_ALS with a penalty on C never returns a model worse than no model at all", "statement": "If C is unconstrained and has a positive ridge penalty, then after every iteration of Parafac2_ALS, from any start and with any non-negativity flags and penalties >= 0 for A and B, the squared norm of the model and the sum of squared errors add up to at most sum_k |X_k|^2. So the error never exceeds that of the model zero, the model is never longer than the data, and the explained share of the data lies between 0 and 1. Every fit from a random start with such settings completes and returns such a model. This holds although the penalised updates do not minimise the documented loss (C109) and the columns of the projections need not be orthonormal (C116).", "quantifier": "all lists of slices with at least one column each, ranks, starting decompositions, draws, flags, penalties >= 0 (> 0 for C), positive numbers of inner passes, budgets, tolerances, loggers and checkpoint files; every SVD, QR and NNLS routine fulfilling its contract", "why_tests_cant": "The claim covers all starts and iterations; slices for which singular values are dropped, where the projections are not orthonormal, practically never occur in random tests.", "anchors": ["src/tenkit/decomposition/parafac2.py:Parafac2_ALS._fit", "src/tenkit/decomposition/parafac2.py:Parafac2_ALS._update_parafac2_factors", "src/tenkit/decomposition/parafac2.py:BaseParafac2._update_projection_matrices", "src/tenkit/decomposition/cp.py:CP_ALS._update_als_factor", "src/tenkit/base.py:add_rightsolve_ridge"]}
