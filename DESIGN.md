# Formal model of TensorKit in Rocq (Coq 8.16.1)

The plan per property was written before the proofs and is kept below (section 3).  Sections 1, 2 and 4
state what is modelled, what is not, and what has to be trusted.

## 1. What is modelled and how

| Source file (under `src/tenkit`) | Model | What is covered |
|---|---|---|
| `base.py` | `NumPy.v`, `Base.v` | all of it |
| `utils.py` | `Utils.v`, `SignFix.v` | signs, permutations, normalisation, PCA loadings, data-driven sign scores, sign helpers for evolving tensors (`SignFix.v`), `iter_checkpoints` (`NamesFacts.v`), random test data (`Legacy.v`) |
| `decomposition/decompositions.py` | `Decompositions.v`, `Storage.v` | `KruskalTensor`, `EvolvingTensor`, `ProjectedFactor`, `Parafac2Tensor`: construction, conversion, storing and loading |
| `decomposition/base_decomposer.py` | `H5.v`, `Decomposer.v`, `Quality.v` | fit loops, stopping rule, checkpoint files, loading, resuming, explained variance |
| `decomposition/logging/logger.py` | `Decomposer.v`, `Quality.v` | logger state, what reaches the file, the measures logged |
| `log.py` | `Hlog.v` | `HDF5Logger` |
| `decomposition/cp.py` | `CP.v` | `BaseCP`, `CP_ALS`: initialisation, constraints, updates, cached products, SSE, loss |
| `decomposition/cmtf.py` | `CMTF.v`, `OldUpdate.v` | `CMTF_ALS`; its unused update |
| `decomposition/parafac2.py` | `Parafac2.v` | `BaseParafac2`, `Parafac2_ALS` on a heap of shared arrays |
| `base_tensor_decomposition.py` | `Legacy.v` | `Base_CP.init_factors` and what it calls (the other methods are empty) |
| `metrics.py` | `Metrics.v` | factor match scores, fit scores, leverage |

Every definition cites file and lines.

1. **Arrays.** A NumPy array is a record of a shape (`list nat`) and its row-major data (`list R`).  The NumPy
   primitives the code uses (`reshape`, `moveaxis`, broadcasting, `@`, slicing, slice assignment, `concatenate`,
   `linalg.norm`, `empty`, ...) are Gallina functions on that record (`NumPy.v`); shape errors are values of an
   exception type.  `np.empty` returns arbitrary contents (a parameter called `junk`), so a theorem about a result
   also says that no uninitialised memory is left in it.
2. **Numbers** are Coq's reals: arithmetic is exact.  Rounding, overflow and subnormals are not modelled.
   Where the program divides scalars by something that may be 0, the result is an extended number (finite, +inf,
   -inf, NaN) with IEEE-style comparison; a division of whole arrays by 0 gives the error value `NonFinite`, so
   every theorem that concludes `Ok` excludes it.
3. **External numerics** (`np.linalg.svd`, `scipy.optimize.nnls`, `np.linalg.qr`, `np.linalg.inv`,
   `np.linalg.lstsq`, random numbers; `np.linalg.pinv` is computed from `svd` as NumPy does)
   are parameters of the definitions.  Theorems assume only the mathematical contract (`svd_contract`,
   `nnls_contract`, `lstsq_contract`, `qr_contract`, `qr_works_on`, ... in `Spec.v`, `CPSpec.v`, `Parafac2Spec.v`, `SignSpec.v`, `CoreSpec.v`), and say so in their hypotheses.
   `Exists.v` proves that these contracts can be met at all.
4. **Exceptions** are values (`Ok` / `Err e`).
5. **HDF5 files** (`H5.v`) are trees of groups, attributes and datasets.  Every primitive write is a separate step and
   a possible interruption point.  An interrupted write is modelled as "the file is what the completed primitive
   writes left": torn writes inside one HDF5 call, caching and flushing of the HDF5 library are not modelled.
   Attributes have no size limit (the 64 KB limit of real HDF5 attributes is left out), `h5py.File` is opened in the
   mode the code passes (`'a'`, or the default of the h5py version of that time for loggers), and the conversion to single precision is the
   parameter `to32`.
6. **Object identity.**  Where aliasing matters (PARAFAC2 sharing arrays with its inner CP model, `init='cp'`,
   precomputed decompositions) arrays live in a heap and objects hold addresses (`Parafac2.v` for PARAFAC2, `CPShared.v` for
   CP fits from a given decomposition and for normalising).  Two arrays are the same or disjoint: overlapping views are not
   modelled.  Elsewhere in-place updates are functions returning the new value; C98 proves that this is the same thing for
   CP as long as the given arrays are different ones (the other kinds of start create their arrays).  Data arrays are values,
   not heap cells.
7. **Fit loops** (`Decomposer.v`) are written once over an abstract `model` record (update, loss, decomposition)
   so that C30-C41 hold for every decomposer; `FitExamples.v` instantiates it with a small concrete model and
   `CP.v`/`CMTF.v`/`Parafac2.v` give the actual updates.
8. **Deviations recorded while reading.**  Where the code does not do what its documentation or its names promise, the
   property says what the code does and the theorem is about the code as it is, with a concrete witness beside it.  A
   theorem whose name ends in `_refuted` disproves the property one would expect.
9. **Simplifications and parts left out.**
   * `CP_ALS`: initialisation from a file is modelled for HDF5 files only; strings are ASCII, so `.lower()` is ASCII.
   * `CMTF_ALS`: of the debugging text in `_update_als_factor_` (never called) only the evaluation of the loss is modelled; when the
     initialisation of the coupled matrices raises, the matrices made so far are not kept; `coupled_weights` is stored and used only where the code reads it.
   * `Parafac2_ALS`: when the preparation of a fit raises, the half-prepared state is not kept; `np.asarray` on ragged
     data is a `ValueError` (the behaviour of current NumPy); the statements of the svd initialisation after
     the one that always raises are not modelled (C58 proves that it raises).
   * Metrics: `inv` in `leverage` and `qr` in `core_consistency` are oracles; `solve_triangular` is modelled as back
     substitution on the upper triangle; the permutations are enumerated in the order of
     `itertools.permutations`; printing and plotting are left out.
   * `log.Experiment`: the experiment function changes only its own group; element types are not tracked; names have no '/'.
   * `base_tensor_decomposition.py` imports `base` and `utils` as top-level modules, so it can only be imported from
     inside its own directory, where `utils.py` in turn cannot be imported; its functions are modelled as if the imports worked.
     `base.ktensor` (`utils.py`) is looked up in the list of names of `base.py`.
   * Not modelled: the first `Logger` in `log.py` (inside a string literal, so not code), the example scripts.

## 2. Specification and theorems

* `Spec.v`, `CPSpec.v`, `CMTFSpec.v`, `Parafac2Spec.v`, `MetricsSpec.v`, `FitSpec.v`, `SignSpec.v`, `CoreSpec.v`, `CompareSpec.v`, `QualitySpec.v`, `ExperimentSpec.v`, `SafeSpec.v`, `ResumeSpec.v`, `BestSpec.v`, `SymSpec.v`, `FixSpec.v`, `LegacySpec.v`, `SvdSpec.v`, `CoupledSpec.v`, `ConstrainedSpec.v`, `CoupledConstraintSpec.v`, `MatchSpec.v`, `PenalisedSpec.v`, `CompressSpec.v`, `CoupledFitSpec.v`, `OldUpdateSpec.v`, `UniqueSpec.v`, `TuckerSpec.v`, `CoupledTurnSpec.v`, `LeftSpec.v`, `ReuseSpec.v`, `SharedSpec.v`, `RelocateSpec.v`, `RefitSpec.v`, `P2UnitSpec.v`, `P2FixSpec.v`, `StackSpec.v`, `CmFixSpec.v`, `LimitSpec.v`, `CmLeftSpec.v`, `CmLimitSpec.v`, `P2LimitSpec.v`, `PenFixSpec.v`, `PowerSpec.v`, `RankOneSpec.v`, `CmUnitSpec.v`, `DegenSpec.v`, `P2PenLimitSpec.v`, `P2ExplainSpec.v` hold the vocabulary of the statements: entries
  of a reconstructed tensor as plain sums, squared distances, orthonormality, optimality, which iterations are due for a
  checkpoint, and so on.  They do not use the model's algorithms.
* `Props_*.v` contain only the property theorems (named `Cnn_...`), one `Print Assumptions` beneath each, and
  `Example`s showing that concrete, non-trivial cases meet the hypotheses.
* All other files hold the model or lemmas.
* `seeded/LOG.jsonl` records the deliberate mistakes tried on the model and which theorems noticed them.

## 3. Plan per property

| Property | Model | Proof |
|---|---|---|
| C01-C06 | array algebra of base.py | induction on shapes / lists of factors |
| C07-C10 | solvers with svd/nnls contracts | linear algebra on finite sums |
| C11-C15 | KruskalTensor | induction on the factor list |
| C16, C18, C19 | HDF5 groups, decimal naming | injectivity of the naming, lookup lemmas |
| C17, C20, C21 | Evolving/PARAFAC2 tensors | direct computation on entries |
| C22-C24 | utils | entry-wise |
| C65 | data-driven signs | uniqueness of the least-squares solution of smallest norm |
| C67-C69 | degeneracy, comparison methods, single PARAFAC2 components | Gram matrices of components, Cauchy-Schwarz with its equality case |
| C66 | core consistency | QR and back substitution give the least-squares core; Kronecker products of independent columns |
| C25-C29, C59, C60 | metrics | all injective assignments enumerated, Cauchy-Schwarz |
| C30-C38 | fit loops, checkpoint files | induction over the loop, over abstract update/loss functions |
| C39-C41 | loggers, HDF5Logger, names | invariants over histories |
| C73 | log.Experiment on HDF5 files | induction over dictionaries |
| C42-C50 | CP_ALS numerics | cache invariant, normal equations, explicit witnesses |
| C51-C53, C61-C64 | CMTF_ALS | normal equations, explicit witnesses |
| C70-C72 | quality measures, complete and resumed CP fits | C43/C44 along the loop, relation between two runs |
| C74 | stopping rules along CP, CMTF and PARAFAC2 runs | geometric decrease of the loss |
| C75, C76 | PARAFAC2 fits without rank assumptions | frame lemmas of C54 with truncated solves |
| C77 | continued and resumed PARAFAC2 fits | simulation between states with equal arrays at different addresses |
| C78 | PCA loadings, svd starts, limits of fits | Bessel, Ky Fan, Eckart-Young on finite sums |
| C79 | independence of units, order and svd routine | the update is the unique best matrix of smallest norm (`least_best`), moved along the reordering; simulation over passes and stopping rule |
| C80 | fixed points, first pass, orthogonal starts of CP_ALS | update = unique `least_best` matrix both ways; error as quadratic in a step (derivative at 0); zero matrix is least best when the right-hand side or another factor is zero |
| C81 | random test data, old initialiser | normalised columns from C24; attribute lookup in the list of names of `base.py`; first singular vectors from C78 |
| C82 | svd routine in all fits | the matrices of inner products of two sets of singular vectors vanish between different singular values, so U g(S) V is unique for g 0 = 0; counting values above a threshold gives S; the rest is rewriting |
| C83 | sign helpers for evolving tensors | computation; how Python matches arguments with parameters |
| C84 | complete CMTF_ALS fits | invariant of C51 along the loop, checkpoint lemmas of C38, start and normalisation lemmas of C53 and C61 |
| C85 | CP fits with constraints and penalties | the solvers never fail on the matrices of an update; orthonormal factors stay partial isometries; the shapes khatri_rao accepts |
| C86 | constraints and penalties of coupled modes | updates optimal for coupled loss (+ penalty), penalised loss monotone, reported loss not |
| C87 | what a factor match score certifies | expansion of the squared distance of two rank-one tensors, Cauchy-Schwarz |
| C88 | PARAFAC2 fits with non-negative modes and penalties complete | the value-level update of C85 on shared arrays, invariant of C77 |
| C89 | PARAFAC2 fits of X_k = Y_k W_k^T and of Y_k (W_k with orthonormal columns) | same A, B, C and loss, projections W_k times the others, by induction over the iterations |
| C90 | CMTF fits with orthonormal modes and ridge penalties complete | totality of each solver for coupled and uncoupled modes, invariant over iterations, final normalisation of C53 |
| C91 | Which couplings CMTF accepts | order of the accesses at the start; fits with further matrices by a map of states that no step sees |
| C92 | the unused update of CMTF_ALS | pinv from svd equals the solution of C07 unless singular values are cut off; Z and V are best by C07; 1x1 witness |
| C93 | When a tensor determines its components | Jennrich's argument by linear algebra over R: one mode is inverted, slices become diagonalisable with the same vectors; scores and explained variance through the permutation and the residual |
| C94 | CP fits of X = G x_1 Q_1 ... x_N Q_N and of G (orthonormal columns in every Q_n), with constraints and ridge penalties | U_n = Q_n V_n with equal errors, by induction over the updates; every model of X has a model of G that is at least as good |
| C95 | CMTF fits of (X, Y_i) and of coordinates (G, H_i) correspond iteration by iteration and end alike | two states related by U_n = Q_n U'_n, V_i = W_i V'_i; solvers see their matrices only through products of rows; same stop test |
| C96 | what a call of `fit` that raises while preparing leaves behind, and what the next call then does | cases of the preparation; the start and the filled-in lists decide the next preparation; update loop up to the first missing flag |
| C97 | fits of a Parafac2_ALS object that was used before; what happens to a start given by the caller | twin runs: only the arrays matter; the frame of the updates (which addresses they write) |
| C98 | CP fits from a decomposition given by the caller, with arrays as objects; Kruskal tensors whose modes share an array | simulation of the object model by the value model through a view; frames of the writes; 1x1 computations for shared arrays |
| C99 | PARAFAC2 fits of X_k = Q Y_{p(k)} and of Y | the matrix X_k^T T handed to the svd is the same; the inner updates are those of C94 for the coordinate changes Q, identity and permutation; equal losses give equal stopping decisions |
| C100 | fits of a CMTF_ALS object that was used before | twin runs: everything the fit reads is overwritten except the constraint lists, which only turn from None to all False; index errors for lists of the wrong length |
| C101 | PARAFAC2 in other units and with another order of the components | `other_units`, `other_columns` kept by one iteration: the svd of the scaled and reordered product is a scaled and reordered one with the same U V; inner least squares are solved uniquely |
| C102 | Where Parafac2_ALS stands still; one iteration; exact starts | the error, and then the size of the factors, as a potential that every inner pass lowers strictly unless it changes nothing; the best projections by the argument of C54 |
| C103 | PARAFAC2 with CP initialisation is a CP fit | the loop of CP_ALS by C74; all entries of P are one object (C56), and the error of a model with one projection is an error of CP factors of the stacked tensor |
| C104 | CMTF_ALS stands still | fixed points are exactly the points where every block is the smallest minimiser of the coupled objective (uniqueness of smallest least-squares solutions); derivative of a quadratic; the loop's stopping rule |
| C105 | movement and limits of CP_ALS | Pythagoras for least squares along the segment between old and new factor; Cauchy-Schwarz over the modes; bounded monotone sequences; the error is continuous in the factors |
| C106 | what failed normalisations leave | the own factors before the missing mode by induction over the pairs of the zip; broadcasting of one weight fails after the first factor |
| C107 | movement and limits of CMTF_ALS | as C105, with the matrices' terms along the same segments; own matrices one by one |
| C108 | movement and limits of Parafac2_ALS | as C105 for the inner passes, with the argument of C54 for the projections; limits entry by entry |
| C109 | fixed points of penalised and non-negative CP_ALS | strict convexity for uniqueness; one entry at a time for the conditions; the slope of the documented loss from the Gram form of the error |
| C110 | rank-one CP_ALS on matrices: power method, limit, rate, blind starts | coordinates along the singular vectors, Parseval and Bessel, geometric bound |
| C111 | rank-one CP_ALS on non-negative data: flags change nothing, positive starts reach the best rank-one model of a matrix | closed form of the rank-one minimiser, invariant overlap > 0, two runs side by side, Perron-Frobenius argument for the start |
| C112 | CMTF iterations on data in other units and with reordered components | relation between two runs kept by every solver call (normal equations and row space), losses and stopping rules scaled; counterexample for unscaled starts |
| C113 | a tensor without a best model of rank two: better fits have longer components that cancel | explicit lower bound from the discriminant of a pencil of two slices, rescaling of components, Cauchy-Schwarz; explicit models whose errors tend to zero |
| C114 | ridge penalties bound the factors of CP fits, whatever the start; no degeneracy with penalties | one row of the penalised normal equations against an arbitrary coefficient matrix, inequality of the means, Bolzano-Weierstrass for subsequences, error bound of C113 |
| C115 | limits of CP fits with penalties and non-negative modes are models at which the iteration stands still | optimality of every factor in the middle of a pass, continuity of the normal equations, limits of inequalities, subsequences from C114 |
| C116 | ridge penalties bound the factors of Parafac2_ALS fits; projections never lengthen | a truncated SVD product U V^T is a contraction (Bessel, Parseval), so the projected tensor has no more energy than the slices; then the bound of C114 for the last update of each factor in the inner passes |
| C117 | Parafac2_ALS with penalties on all modes: bounds for all iterates, convergence along some iterations | passes leave the projections alone; bounds of C116; Bolzano-Weierstrass for factors and projections together |
| C118 | Parafac2_ALS with penalties and non-negative modes: optimality after iterations and in limits | optimality of each update in the middle of a pass; continuity of the normal equations in factors and data; limits from C117 |
| C119 | Parafac2_ALS with a penalty on C: error plus squared norm of the model at most the energy of the data | each row of C solves the penalised equations, so its model is at most the part it explains; contraction of the projections carries this to the slices |
| C54-C58 | PARAFAC2 | Procrustes, heap model, frame lemmas |

No property was found that cannot be expressed in a model.  What every theorem leaves out is
floating-point rounding and the real HDF5/NumPy/SciPy implementations.

## 4. Trusted base

* Coq's kernel (8.16.1) and the standard library.  No plugins, no axioms of our own, no functors, no kernel check
  switched off.  The development is checked with `coqchk -o` as well.
* The reading of the Python code: the theorems are about the model, and the only tie to the code is the citation at
  each definition.
* The contracts of the external numerics, wherever they appear as hypotheses.
* Axioms of the standard library, as listed by `Print Assumptions` (table below): the construction of the reals
  (`ClassicalDedekindReals.sig_forall_dec`, `ClassicalDedekindReals.sig_not_dec`), functional extensionality
  (`FunctionalExtensionality.functional_extensionality_dep`), used by the reals and by equalities of models, and, in very few theorems, excluded middle
  (`Classical_Prop.classic`), through lemmas of the real-number library.  Some Examples show that the contracts assumed of `svd`, `nnls` and `qr` can be met:
  `C07_svd_always_exists` and `C08_nnls_always_exists` reach only the axioms above; those that need the routine as one function
  (`C10_contracts_can_be_met`, `C46_environment_exists`, `C66_contract_satisfiable` and Examples built on them, such as those of C79 and C82; also the counterexample `C100_any_tensor_refuted`)
  additionally use `IndefiniteDescription.constructive_indefinite_description` to turn existence for each input into a function.
* `coqchk -o` also lists the opaque module parameters of the library's reals (`RbaseSymbolsImpl`, `RinvImpl`) and
  ssreflect's `Under_rel`, because the library files are loaded; no theorem uses them as assumptions.

### What `Print Assumptions` lists for each theorem

**Closed under the global context (no axioms)**

- `C06_unflatten_flatten`, `C06_flatten_unflatten`
- `C33_exclusive`
- `C34_load_periodic`, `C34_load_final`, `C34_load_latest`, `C34_missing_iteration`, `C34_not_a_checkpoint_file`
- `C40_recreate_refused`
- `C41_names_distinct`, `C41_iteration_order`, `C41_which_names`, `C41_wrong_order_refuted`
- `C73_constructor`

**`sig_forall_dec`**

- `C01_fold_unfold_roundtrip`, `C01_unfold_fold_roundtrip`
- `C02_unfold_entries`, `C02_unfold_rejects`
- `C03_khatri_rao_rejects`
- `C04_kron_vectors_entries`
- `C05_third_order_other_modes_give_none`
- `C08_nonneg_rightsolve_1d_raises`
- `C11_one_mode_raises`
- `C12_init_accepts_exactly`, `C12_init_rejects`
- `C14_component_out_of_range`
- `C16_kruskal_roundtrip`, `C16_kruskal_file_roundtrip`, `C16_occupied_group_refused`, `C16_wrong_type_refused`
- `C18_evolving_never_loads`, `C18_evolving_file_never_loads`, `C18_file_is_complete`
- `C19_parafac2_roundtrip`, `C19_parafac2_file_roundtrip`, `C19_wrong_type_refused`
- `C21_wrong_order_raises`
- `C29_singular`
- `C37_interrupted_write`, `C37_steps_complete`, `C37_latest_hidden`
- `C39_entries_once`, `C39_nothing_before_a_checkpoint`, `C39_shared_class`
- `C40_session`, `C40_sessions`, `C40_no_exception`, `C40_failing_call`, `C40_failure_ends_storing`
- `C55_projected_tensor`
- `C58_accepted_decompositions`
- `C69_ragged_raises`, `C69_out_of_range`
- `C73_run_stores_results`, `C73_repeated_run_mixes_refuted`, `C73_continued_run`, `C73_continue_needs_results`, `C73_evaluation_raises`, `C73_no_recovery_refuted`, `C73_unstorable_parameter`, `C73_reserved_parameter`
- `C78_pca_wide_refuted`

**`functional_extensionality_dep`, `sig_forall_dec`**

- `C03_khatri_rao_entries`, `C03_khatri_rao_skip_entries`
- `C04_kron_entries`
- `C05_mttkrp_entries`, `C05_specialised_agrees`
- `C07_rightsolve_least_squares`
- `C08_nonneg_rightsolve_optimal`
- `C09_orthogonal_solve_procrustes`, `C09_orthogonal_rightsolve_procrustes`, `C09_truncation_breaks_orthonormality`, `C09_zero_gives_zero`
- `C107_own_update`
- `C109_conditions`, `C109_slope`, `C109_documented_only_if`, `C109_stationary`
- `C11_construct_entries`, `C11_shape`
- `C111_start`, `C111_absolute`
- `C116_projections`
- `C14_single_components`
- `C15_signs_consistent`, `C15_zero_score_gives_zero`, `C15_signs_preserve_tensor`
- `C17_construct_slice`, `C17_construct_slices`, `C17_construct_tensor`, `C17_warns_exactly_when_irregular`
- `C20_parafac2_constraint`, `C20_unchecked_refuted`
- `C21_from_kruskal_ignores_weights`, `C21_unit_weights_agree`, `C21_other_weights_refuted`
- `C22_permutation_keeps_tensor`, `C22_factors_only_equal_weights`
- `C23_flip_factors`, `C23_flip_idempotent`
- `C29_leverage`
- `C30_cp_loop`, `C30_parafac2_loop`, `C30_cp_no_exception`, `C30_parafac2_no_exception`
- `C31_cp_without_budget`, `C31_cp_fit_zero`, `C31_cp_resume`, `C31_cp_continue`, `C31_parafac2_without_budget`
- `C32_cp_checkpoints`, `C32_parafac2_checkpoints`, `C32_nothing_written`, `C32_frequency_zero`
- `C33_cp_budget_keeps`, `C33_cp_stopped`, `C33_parafac2`
- `C35_resume_shift`, `C35_logs_before`, `C35_same_budget_refuted`
- `C36_cp_collision`, `C36_parafac2_collision`, `C36_resume_same_file`
- `C38_continue_is_longer_fit`
- `C39_cp_fit`, `C39_new_loggers`
- `C50_change_of_the_tensor`
- `C51_matrix_update_is_optimal`
- `C54_projection_update_is_optimal`
- `C55_sse_splits`, `C55_reported_sse`
- `C56_last_slice_wins`
- `C65_scores`, `C65_scores_follow_signs`, `C65_scores_of_exact_data`, `C65_without_data`, `C65_resolving_twice`
- `C69_components_add_up`
- `C78_pca_loadings`, `C78_matrix_reached`
- `C82_decompositions`
- `C83_evolving_raises`, `C83_normal_raises`, `C83_fix_signs_refuted`
- `C94_nothing_lost`

**`functional_extensionality_dep`, `sig_forall_dec`, `sig_not_dec`**

- `C10_ridge_minimises_penalised`, `C10_ridge_rightsolve`, `C10_ridge_nonneg`, `C10_ridge_orthogonal_is_noop`
- `C100_lists`, `C100_same_result`, `C100_like_fresh`, `C100_fewer_modes`, `C100_more_modes`
- `C101_iterations`, `C101_fits`, `C101_scaled_start`
- `C102_standing_still`, `C102_bound`, `C102_exact_runs`, `C102_fits`
- `C103_start`, `C103_uneven_slices`, `C103_result`
- `C104_fixed_points`, `C104_stationary`, `C104_loops`, `C104_reported_refuted`, `C104_first_factor`
- `C105_update`, `C105_passes`, `C105_fits`, `C105_limits`
- `C106_missing_mode`, `C106_one_weight`, `C106_one_weight_coupled`, `C106_one_weight_fit`
- `C107_update`, `C107_passes`, `C107_penalised`, `C107_limits`
- `C108_iteration`, `C108_runs`, `C108_limits`
- `C109_standing_still`, `C109_documented_loss_refuted`
- `C110_power`, `C110_best`, `C110_rate`, `C110_model`, `C110_blind`, `C110_fits`
- `C111_same`, `C111_fits`, `C111_best`
- `C112_iterations`, `C112_loops`, `C112_order`, `C112_units_refuted`
- `C113_no_best`, `C113_lengths`, `C113_scores`, `C113_sequences`, `C113_iterations`, `C113_fits`
- `C114_factors`, `C114_model`, `C114_lengths`, `C114_no_degeneracy`, `C114_loops`
- `C115_limits`, `C115_subsequences`
- `C116_fits`
- `C117_iterations`
- `C118_iteration`, `C118_limits`
- `C119_iterations`, `C119_fits`
- `C13_normalize_components`, `C13_exact_for_eps_zero`, `C13_error_bound`, `C13_rank_one_changes`, `C13_zero_column_without_eps_is_nan`
- `C23_prepare_for_comparison`
- `C24_normalize_factor`, `C24_normalize_factors_each`
- `C25_best_assignment`, `C25_too_few_components`, `C25_other_reductions_raise`
- `C26_component_scores`, `C26_computed_scores`, `C26_result`
- `C27_order_of_estimated_components`, `C27_signs_of_estimated_components`, `C27_against_itself`, `C27_positive_scale_refuted`
- `C28_percent_explained`, `C28_percent_explained_zero_data`, `C28_completion_score`, `C28_completion_score_ignores_observed`
- `C42_update_is_remembered`, `C42_fit_is_remembered`, `C42_second_fit_raises`, `C42_same_shape_type_error`
- `C43_reported_sse_is_true`, `C43_throughout_a_fit`, `C43_reported_loss`, `C43_after_normalising_refuted`
- `C44_update_is_optimal`
- `C45_sse_never_increases`, `C45_fit_never_worse`, `C45_relative_change`
- `C46_update_is_nonnegative`, `C46_fit_stays_nonnegative`, `C46_optimal_refuted`, `C46_random_start`
- `C47_what_the_update_minimises`, `C47_documented_loss_refuted`
- `C48_update_is_orthonormal`, `C48_optimal_refuted`, `C48_both_constraints_raise`, `C48_orthonormal_start`
- `C49_case_insensitive`, `C49_warns`, `C49_unknown_init`, `C49_svd_rank_too_large`, `C49_svd_orthonormal`, `C49_precomputed_accepts_exactly`, `C49_fewer_modes_accepted`
- `C50_precomputed`, `C50_callers_object`, `C50_same_tensor_refuted`
- `C51_factor_update_is_optimal`, `C51_loss_never_increases`, `C51_fit_loop_improves`
- `C52_nonnegative_update_never_returns`, `C52_nonnegative_attribute_error`, `C52_nonnegative_fit_never_updates`, `C52_only_the_first_matrix_counts`, `C52_mse_divisor`, `C52_mse_is_a_mean_refuted`
- `C53_coupled_matrices_after_normalisation`, `C53_exact_without_eps`
- `C55_iteration_never_increases`, `C55_fit_never_increases`, `C55_loss`, `C55_inner_weights`
- `C56_projections_are_equal`, `C56_cp_initialisation_shares`, `C56_update_can_raise_the_error`
- `C57_constrained_factor_never_changes`, `C57_fit_returns_the_draw`, `C57_result_need_not_be_orthonormal`, `C57_free_modes_stay_linked`
- `C58_fit_transform_cannot_use_precomputed`, `C58_fit_transform_ignores_arguments`, `C58_svd_always_raises`, `C58_MSE_is_not_the_mean`
- `C59_each_mode_separately`, `C59_at_least_the_joint_score`
- `C60_evolving_mode_ignored`, `C60_different_models_match`
- `C61_updates_ignore_weights`, `C61_weights_of_precomputed_components`, `C61_loss_never_increases_refuted`
- `C62_negative_modes_decouple`, `C62_loss_counts_them`, `C62_loss_never_increases_refuted`
- `C63_reported_loss`, `C63_exact_fit_has_loss_zero_refuted`, `C63_continue_fit_keeps_a_fit_refuted`
- `C64_checkpoints_omit_the_matrices`, `C64_loading_leaves_the_matrices`, `C64_resuming_is_determined_refuted`, `C64_loading_restores_the_tensor`
- `C67_kruskal_scores`, `C67_zero_column`, `C67_parafac2_scores`, `C67_evolving_refuted`
- `C68_weights_ignored`, `C68_different_ranks`, `C68_kruskal_comparison`, `C68_separate_modes_raise`, `C68_evolving_comparison`, `C68_parafac2_comparison`, `C68_slice_signs_refuted`
- `C70_measures`, `C70_named_after`, `C70_zero_data`, `C70_logged_monotone`, `C70_cmtf_explained`, `C70_cmtf_share_refuted`, `C70_cmtf_measures`, `C70_parafac2_measures`, `C70_parafac2_named_after`, `C70_parafac2_explained`
- `C71_fit_completes`
- `C72_cp_resume`, `C72_interrupted_fit`, `C72_interrupted_fit_completes`
- `C74_cp_stopping`, `C74_cp_loop`, `C74_cp_fit`, `C74_cmtf_loop`, `C74_parafac2_gain`, `C74_parafac2_perfect_fit`, `C74_parafac2_perfect_loop`
- `C75_fit_completes`, `C75_narrow_slice_raises`
- `C76_projections`, `C76_grams`, `C76_equal_grams_refuted`
- `C77_only_arrays_matter`, `C77_continue`, `C77_continue_completes`, `C77_interrupted`, `C77_interrupted_completes`
- `C78_svd_start`, `C78_no_model_beats`, `C78_reported`, `C78_fits`, `C78_no_parafac2_beats`, `C78_parafac2_reported`
- `C79_runs`, `C79_fits`, `C79_svd_routine`, `C79_units_refuted`
- `C80_fixed_points`, `C80_stationary`, `C80_fixed_fits`, `C80_first_factor`, `C80_fit_bound`, `C80_orthogonal_runs`, `C80_orthogonal_fits`
- `C81_random_factors`, `C81_random_data_refuted`, `C81_old_random`, `C81_old_svd`, `C81_old_svd_shape_refuted`, `C81_old_scheme`
- `C82_solvers`, `C82_cp_fits`, `C82_cmtf_fits`, `C82_parafac2_fits`
- `C84_fits_complete`, `C84_starts`
- `C85_fits_complete`, `C85_short_mode_raises`
- `C86_orthonormal_update_is_optimal`, `C86_penalised_update_is_optimal`, `C86_penalised_loss_never_increases`, `C86_reported_loss_can_rise`
- `C87_score_bounds_distances`, `C87_score_without_weights`, `C87_close_components_score_high`, `C87_score_bounds_tensor_distance`, `C87_opposite_tensor_scores_the_same`
- `C88_fit_completes`, `C88_short_list_raises`, `C88_tensor_data`
- `C89_iterations`, `C89_fits`, `C89_signs_of_slices`, `C89_order_of_columns`
- `C90_fits_complete`, `C90_orthonormal_result`
- `C91_missing_modes_raise`, `C91_wrong_rows_raise`, `C91_single_rows_raise_later`, `C91_further_matrices_ignored`
- `C92_uncoupled_modes_raise`, `C92_missing_method`, `C92_coupled_modes`
- `C93_components_determined`, `C93_score`, `C93_all_explained`, `C93_exact_fit`, `C93_exact_coupled_fit`, `C93_parallel_components_refuted`
- `C94_iterations`, `C94_fits`, `C94_given_starts`
- `C95_iterations`, `C95_fits`
- `C96_what_is_left`, `C96_qr_failure`, `C96_next_fit`, `C96_fewer_modes`, `C96_more_modes`, `C96_retry`, `C96_no_trace_refuted`
- `C97_refit`, `C97_second_fit`, `C97_start_becomes_result`, `C97_same_start_again`, `C97_same_start_completes`, `C97_start_kept_refuted`
- `C98_same_as_by_value`, `C98_arrays`, `C98_start_becomes_result`, `C98_load`, `C98_start_kept_refuted`, `C98_normalize`, `C98_shared_normalize_refuted`, `C98_shared_descent_refuted`, `C98_shared_report_refuted`
- `C99_iterations`, `C99_fits`, `C99_order_of_slices`

**`classic`, `functional_extensionality_dep`, `sig_forall_dec`, `sig_not_dec`**

- `C114_accumulate`
- `C115_small_steps`
- `C117_accumulate`
- `C118_exist`
- `C60_scores_ignore_true_factors`, `C60_scores_are_lengths`, `C60_default_penalty_raises`
- `C66_best_core`, `C66_normalized`, `C66_at_most_100`, `C66_full_score`, `C66_exact_data`, `C66_dependent_columns_raise`, `C66_method`, `C66_own_data`, `C66_own_data_scores_100_refuted`, `C66_parafac2_exact_data`

**`constructive_indefinite_description`, `functional_extensionality_dep`, `sig_forall_dec`, `sig_not_dec`**

- `C100_any_tensor_refuted`
- `C66_contract_satisfiable`
- `C92_update_improves_refuted`

