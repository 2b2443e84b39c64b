# Formal model of sleqp: design and trusted base

Source: `/repo` (C). Model and proofs: `/verif/rocq/theories`, Coq 8.16.1.
`properties.jsonl` lists the properties (C01, C02, ...), `MANIFEST.json` maps
each of them to the theorems proved, `seeded/LOG.jsonl` records mutation tests.

## Modelling conventions

* **Numbers.** Model functions are written over a record of operations
  `Num` (`Num.v`) *without any laws*.  There are two instances: `F64`
  (IEEE-754 binary64 with a single NaN, Flocq `BinarySingleNaN`, round to
  nearest even: the arithmetic the C code performs) and `RN` (real numbers:
  "exact arithmetic").  A theorem quantified over `Num` holds for both, in
  particular bit for bit for doubles (up to NaN payloads).  Theorems about
  rounding or NaN use `F64`; theorems about algebra (adjointness, positive
  definiteness, KKT) use `RN` and say so.
* **Outcomes.** `res A := Ok a | Err code | Trap`.  `Err` is a return code other
  than `SLEQP_OKAY`; `Trap` is a violated `assert`, an out-of-bounds access, a read of
  uninitialised memory or a write beyond reserved storage.  With `NDEBUG` a trapped
  `assert` is skipped and what follows is undefined or unspecified, so "never traps"
  theorems are what makes debug and release builds agree.
* **C `int`** is `Z` (indices) or `nat` (lengths, loop counters); overflow of `int`
  is not modelled.  Allocation always succeeds.
* **External code** (LP solver, factorisation, trlib, user callbacks, clock) is a
  universally quantified oracle/parameter of the model functions.

## Trusted base

* The Coq kernel (8.16.1), and `vm_compute` where an `Example`/refutation uses it.
* Axioms: only those of the standard library's real numbers
  (`ClassicalDedekindReals.sig_forall_dec`, `sig_not_dec`,
  `FunctionalExtensionality.functional_extensionality_dep`), and `Classical_Prop.classic`
  where Flocq needs it.  `Print Assumptions` stands beneath
  each property theorem; see the section "Assumptions per theorem" below.
* The reading of the C code: each definition cites file and lines.

## Plan per property

| id | model | proof method |
|----|-------|--------------|
| C01 | `Vec.v`: record (dim, capacity, entry list), one function per C function, asserts are `Trap` | invariant over operation lists; `is_valid` iff spec |
| C02 | `vec_add_scaled` merge loop | refinement to a pointwise spec, capacity bound by counting |
| C03 | `set_from_raw`, `to_raw`, `value_at` | round trips |
| C04 | `vec_dot`, norms | induction on the merge, sums over dense functions (RN) |
| C05, C06, C07 | `vec_eq`, `is_boxed`, `clip` | pointwise specification of merges; C07 false for positive tolerance: refutation + partial |
| C08 | `remove_entries`, `merge_entries`, `add_zero_entries` | index renumbering lemma |
| C09 | `is_finite` of vectors and matrices | false: refutation + partial |
| C10 | `Cmp.v` over `F64` | Flocq correctness lemmas |
| C11-C14 | `Mat.v`: compressed columns as lists, plus raw arrays where the layout matters | invariants, refinement to entry functions |
| C15, C16 | `WorkingSet.v` | invariant over operations |
| C17 | `Registry.v` | refinement to multisets |
| C18 | `Registry.v` | invariant; query refutation |
| C19 | `TrustRadius.v` over RN | inequalities, induction on runs |
| C20 | `TrustRadius.v` with LP oracle | loop invariant |
| C21-C23 | `Scale.v` over F64 and RN | Flocq exactness of `ldexp`; algebra over RN; index refutation |
| C24, C25 | `Feas.v` | pointwise specifications; NaN refutation |
| C26 | `Feas.v` | RN; refutation at the boundary, partial elsewhere |
| C27, C28 | `Preproc*.v`, `Eval.v` (evaluation of examples over RN) | state invariant through all passes, interval reasoning over RN, exit of a segment from a box for the dropped bounds; refutations over doubles |
| C29 | `Restore.v`, `RestoreFacts.v`, `RestoreLoops.v`, `RestoreReal.v`, `RestoreMain.v` | loop invariant: multipliers written so far make up for the residual of each removed variable; renumbering of sums from the reduced to the original problem; refutations over doubles |
| C30-C32 | `Settings.v`, `Enum.v` | invariant/frame; parser refutations |
| C33-C36 | `Solver.v`: state monad with oracles and an event log; `SolverFacts.v`, `SolverIter.v`, `SolverLoop.v`, `SolverEvents.v` | weakest preconditions with separate conditions for errors, frame relations, induction over rounds; refutations by scripted oracles (`SolverToy.v`) on binary64 |
| C37-C39 | `QuasiNewton.v` over RN (C39: any arithmetic) | recurrences in `QnMath.v`; loop invariants; induction over histories; ring buffer refinement; block decomposition |
| C57 | `Restoration.v` (values over RN, passage between the problems over any arithmetic) | invariant on the caches, induction over histories of requests; derivative of the objective; binary64 witness for the stale cache |
| C40 | `StepRule.v` | refinement to lists |
| C41 | `Flags.v` | bit-level; refutation |
| C42 | `Refcount.v` | invariant over schedules |
| C43 | `Flags.v` | sums over histories |
| C44 | `Polish.v` | invariant |
| C45 | `FixedVar.v` | invariant over call histories, simulation |
| C46, C59 | `Solver.v` evaluation log; ghost fields of iterates record where values were computed; `SolverCoh.v` | coherence invariant through all phases; refutation with callback + preprocessor and with a lost error |
| C58 | `Solver.v` timers | from the loop specification; refutation |
| C47, C48 | `Problem.v` | decision procedure correctness; stacking |
| C49 | `Feas.v` | algebra |
| C50-C52 | `Mat.v` (transpose, stack, scale, resize, copy) | refinement to entry functions |
| C53 | `Flags.v` (dynamic functions) | invariant over setter/evaluation histories; refutation |
| C54 | `StepRule.v` over RN | induction over runs; refutation |
| C55 | `Scale.v` over F64 | frexp characterisation |
| C56 | `Scale.v` over F64 | loop invariants; refutation |
| C60 | `Cauchy.v`, `CauchyFacts.v` | invariant over histories of calls, loop invariant with the parts of the sparse vectors not yet read; componentwise minimisation; refutation over doubles |
| C61, C62 | `DualEst.v`, `DualEstFacts.v` | monotone renumbering of entries between variables and working set; componentwise comparison of squared distances; merge of sorted lists; refutations over doubles |
| C63, C64 | `Steihaug.v`, `SteihaugFacts.v` | loop invariant with the history of directions and residuals as ghost state (conjugacy, orthogonality); Bessel's inequality bounds the number of iterations; refutations over doubles |
| C65, C66, C67 | `LineSearch.v`, `LineSearchFacts.v`, `LineExactFacts.v` | loop invariants for the step length; convexity of the violation; the violation on a segment as a sum of positive parts and as a sum of kinks, loop invariant over the sorted breakpoints for any sorting function; refutations in exact arithmetic and over doubles |
| C68, C69, C70, C71 | `WorkingStep.v`, `WorkingStepFacts.v`, `WorkingStepReal.v`, `NewtonReal.v`, `SocReal.v` | both ways of visiting the working set reduced to one list of index and value; orthogonality of shortest solutions; convexity of the violation for the bound on the Newton model; induction over the refinements; refutations over doubles and, for termination, in exact arithmetic |
| C72 | `AugJac.v`, `AugJacFacts.v`, `AugJacUpper.v`, `AugJacMain.v`, `Gauss.v`, `AugJacReal.v` | the matrix built column by column against a list of columns, the upper part by counting entries per row; invariant over the calls for the reuse of the factorization; elimination of unknowns for the solvability of regular systems; orthogonality of null space and row space; refutations over doubles |
| C73 | `AugJac.v`, `AugJacRed.v`, `AugJacRed2.v`, `AugJacRed3.v`, `AugJacRedReal.v` | the fill of the row storage against a bucket sort of the columns by rows; inner products of sorted rows against a fold over the columns; invariant over all sequences of calls; positive definiteness of A A^T for independent rows; uniqueness of the orthogonal decomposition for the agreement with C72; refutations |
| C74 | `AugJac.v`, `AugJacDir.v`, `AugJacQR.v`, `AugJacQRFacts.v`, `AugJacQRReal.v` | invariant of the in-place shift of the arrays from right to left (moved, current and untouched part), closed form of the matrix handed over; orthogonal factors: A^T = Q [T; 0] gives the three solves by sums; regularity of T from independent rows; permuted columns by reindexing the sums; refutations |
| C75 | `StdCauchy.v`, `StdCauchyFacts.v`, `StdCauchyReal.v`, `StdCauchyLP.v`, `StdCauchyReach.v` | reachable states of the object (create, iterate, radius, solve, queries in any order) with an invariant per phase: the arrays passed to the LP equal their definition, the fetched arrays equal the solution unless marked dirty; the LP with slack variables and the reduced LP are both shown equivalent to the minimisation of the piecewise linear model |
| C76 | `StdCauchy.v`, `StdCauchyWS.v`, `StdCauchyWS2.v` | loops described by the list of non-inactive states; rows of the working set are combinations of unit vectors and constraint rows to which the two halves of the regularity of the basis (rows and columns independent) apply, with and without slack variables |
| C77 | `StdCauchy.v`, `StdCauchyDual.v` | trimming as a filter on the sparse vector; the certificate of the LP with slack variables restated for the linear model (prices of slack variables bound the prices of rows), split by the states of the working set given by C76; a run for the refutation |
| C78 | `StdCauchy.v`, `StdCauchyInf.v` | both loops as `existsb`/`forallb` over the indices; weak duality with the certificate of the LP, where the bounds of the trust region are replaced by those on the variables; regularity of the basis excludes a basic row with a basic slack variable; a run for the refutation |
| C79 | `Parametric.v`, `ParametricFacts.v` | induction over both loops with invariants that record for which radius step, products and state of the LP belong together; the LP through a specification record, instantiated by the unconstrained solver (C60); C65 for the line search; runs over doubles for the refutations |
| C80 | `CauchyStep.v` | specification of the LP solver with the program it holds as part of the state; induction over the raises of the parameter; minimal solutions for larger parameters violate less; C65 for the line search; instance for one variable; runs over doubles for the refutations |
| C81 | `Lsqr.v` | invariant of the bidiagonalization: orthonormal bases, residuum and gradient of the iterate in terms of the recurrences, Krylov space; at most n steps since n + 1 orthonormal vectors do not exist in dimension n; instance for stored matrices; runs over doubles for the refutations |
| C82 | `GaussNewton.v` | induction for the loop over the removed rows and for the split of vectors; the products are identified with one stacked matrix times the projection, its least squares problem with the one of the specification; C81 for the solution, an invariant of the iteration for the nullspace, convexity and Cauchy-Schwarz for the distance to the least value |
| C83 | `LsqFunc.v` | induction over the sequence of calls with an invariant (the data of the user refer to the last point; if the flag is set, the stored residuals are those of this point); the gradient by the derivative of a sum of squares, the Hessian by exchanging sums |
| C84 | `DerivCheck.v` | induction over the loops, each an equivalence between the flag and a conjunction of comparisons; the mean value theorem for accepted gradients; exact differences for affine and quadratic functions |
| C85 | `Measure.v` | computation of the stored values as functions of the data, linearity of sums; the zero step by evaluation in doubles |

## Modelled and unmodelled code

All paths under `/repo/src/main`.

| model file | C code |
|---|---|
| `Cmp.v` | `cmp.c` |
| `Sparse.v`, `Vec.v` | `sparse/pub_vec.c`, `sparse/vec.c` (not: printing, reference counts), `preprocessor/preprocessing.c` (entry removal and merging) |
| `Mat.v` | `sparse/pub_mat.c`, `sparse/mat.c` (not: printing) |
| `WorkingSet.v` | `working_set.c` (not: printing) |
| `Registry.v` | `callback_handler.c`, `hess_struct.c` |
| `TrustRadius.v` | `problem_solver/trust_radius.c`, `penalty.c` (with the LP solver as oracle) |
| `Ring.v`, `StepRule.v` | `step/step_rule*.c` |
| `Flags.v` | flag copying of the function wrappers, `timer.c`, `dyn.c` |
| `Refcount.v` | the `capture`/`release` pattern shared by all objects |
| `Feas.v` | `feas.c`, the residuals and the optimality test of `iterate.c`, the maximum step length of `util.c`, `merit.c` |
| `Problem.v` | `problem.c`, the evaluation entry points of `func.c` |
| `Scale.v` | `scale.c`, `problem_scaling.c` (not: the floating-point exception checks, the dynamic and least-squares wrappers beyond their scale factors) |
| `QuasiNewton.v` | `quasi_newton/bfgs.c`, `quasi_newton/sr1.c`, the queries of `hess_struct.c` they use (not: the numerical assertions, the debug-only secant check, the cached work vectors beyond their contents, `quasi_newton.c` dispatch) |
| `Restoration.v` | `restoration.c` (functions, `transform`, `restore`), the residual cache, objective, gradient and Hessian products of `lsq.c` with Levenberg-Marquardt factor 0 (not: capacity hints, timers, scaled or general least-squares functions, the uninitialised flags of a new restoration function) |
| `Polish.v` | `polish.c` (not: log output) |
| `Preproc.v` | `preprocessor/preprocessor.c`, `preprocessor/preprocessing_state.c`, `preprocessor/transform.c`, `restore_primal` of `preprocessor/restore.c` (not: timers, reference counts, transformation of initial iterates beyond the primal) |
| `Restore.v` | `preprocessor/restore.c` 39-823: working set, multipliers, forcing constraints (the uninitialised index of the search for the largest residual is a parameter; not: `NUM_ASSERT` checks, timers, reference counts; the evaluation of the original problem at the restored point is a parameter) |
| `Cauchy.v` | `cauchy/box_constrained_cauchy.c`, `cauchy/unconstrained_cauchy.c`, the calls of `cauchy/cauchy.c` 36-69 (`standard_cauchy.c` is in `StdCauchy.v`; not: violation and basis condition, which are not defined for these) |
| `DualEst.v` | `aug_jac/box_constrained_aug_jac.c`, `aug_jac/unconstrained_aug_jac.c` with the assertions of `aug_jac/aug_jac.c`; `dual_estimation/dual_estimation_lsq.c`, `dual_estimation_mixed.c` (the least squares solver and the linear program are parameters; not: condition estimates) |
| `Steihaug.v` | `tr/tr_util.c`, `tr/steihaug_solver.c` (Hessian product, projection and elapsed time are parameters; not: `SLEQP_DEBUG` checks, numerical assertions, timer bookkeeping, `tr_solver.c`, `trlib_solver.c`) |
| `LineSearch.v` | `linesearch.c:152-1051`, `direction.c:183-243` (`qsort` is a parameter; division by zero for the zero direction differs between the reals and doubles, so the theorems on the Cauchy step assume a non-zero direction; not: `SLEQP_DEBUG` checks, numerical assertions, timer, creation and release, `sleqp_direction_reset`, `sleqp_direction_check`) |
| `WorkingStep.v` | `working_step.c:87-479, 515-530`, `direction.c:44-82`, `newton.c:193-216, 333, 351-426, 442-594`, `soc.c:62-356`, `trial_point.c:521-544, 797-810, 838-910, 980-1073` (parameters: solution of the augmented system, trust region solver, Hessian product, evaluation of the dynamic function; not: checks compiled with `SLEQP_DEBUG` or numerical assertions, logging, timers, creation and release, `newton.c:50-190` choice of the solver) |
| `AugJac.v` | `aug_jac/standard_aug_jac.c:34-435, 463-510`, `aug_jac/reduced_aug_jac.c:42-643, 681-703` (the factorization is a parameter; not: timers, condition numbers, release; the uninitialised entry of `row_counts` behind the last row, which `update_row_counts` adds to a total that is not used afterwards; products of dimensions are exact, so matrices of more than 46340 rows, for which `num_cols * num_rows` exceeds an int, are outside of the model); `aug_jac/direct_aug_jac.c:22-152` up to the factorization |
| `AugJacQR.v` | `aug_jac/direct_aug_jac.c:129-244, 274-294`, `fact/fact_qr.c:60-120` and the end of the callbacks in `fact/fact_spqr.c:219-323` (the QR factorization is a parameter: five functions that return an error or a dense array of the size of the target; not: caches, release, condition numbers) |
| `StdCauchy.v` | `cauchy/standard_cauchy.c` (all but `basis_condition`, `print_stats`, `free`, the `sleqp_num_assert`s, timers and time limits), `cauchy/cauchy.c:136-150`, and of `lp/lpi.c` the stored program, the bases by type and the last solution; the LP solver is a parameter |
| `Parametric.v` | `parametric.c` (36-421), `trial_point/cauchy_step.c` 190-202 and 217-220, `direction.c` 21-42. The solver of the linear programs is a record of three functions; the product with the Hessian is a function (C79 assumes that it computes a linear map). Not modelled: the checks of debug builds, logging, the cache of the merit function as state |
| `CauchyStep.v` | `trial_point/cauchy_step.c` 33-168 and 233-373, `penalty.c`. The solver of the linear programs is a record of five functions over a state. Not modelled: the checks of debug builds, logging, time limits, the criticality bound (logged only), the weights for least-squares problems; the multipliers estimated in between enter through the product with the Hessian |
| `Lsqr.v` | `tr/lsqr.c` 25-337. The products are functions that may fail, `hypot` and the clock are parameters. Not modelled: logging, the objective computed in debug builds, the timer |
| `GaussNewton.v` | `gauss_newton.c` 20-606. The residuals, the products with their Jacobian (`lsq.c`), the projection and the product with the Hessian are functions that may fail. The vectors overwritten by each product have their initial contents in each call. Not modelled: the Rayleigh quotients (the callback leaves its outputs unset), the callback for the multipliers of violated constraints (which does nothing), debug checks, logging, timers, reference counts |
| `LsqFunc.v` | `lsq.c` 14-574, the macro of `func.h` 23-38. Callbacks are functions on the data of the user that may fail and change the data either way. Not modelled: timers, release, the vector `lsq_grad` (never read), the flag SLEQP_FUNC_INTERNAL of derived functions (false in a new function), the assertions on finiteness of `func.c` around these calls |
| `DerivCheck.v` | `deriv_check.c` 50-671, 742-792. The problem is given as functions of the point last set that may fail; work vectors that are overwritten before being read are allocated afresh; the columns of `hessian_cons_prods` are kept as a list of vectors instead of a matrix; each check returns its outcome and the caller clears `valid_deriv`. Not modelled: creation and release, messages, reserving space in the perturbed iterate |
| `Measure.v` | `measure.c` 15-41, 71-208, 218-433. Reports are the printed numbers; `measure_set` joins setting the iterates and the penalty parameter as in `iteration.c` 320-326. Not modelled: reference counts, the choice between the reports by the type of the function, the format of the messages |
| `FixedVar.v` | `preprocessor/fixed_var_func.c` (not: flags, hints reported upwards, rejection of a point, the dynamic variant, whose callbacks are the modelled ones or plain calls of the wrapped function), `func_obj_grad`, `func_obj_val`, `lsq_jac_forward`, `lsq_jac_adjoint` |
| `Solver.v` | `solver/solve.c`, `solver/phase.c`, `problem_solver/{solve,iteration,step}.c`, `problem_solver.c` (creation excepted), the parts of `trial_point.c`, `timer.c`, `solver.c`, `util.c` they use. Oracles (arbitrary answers): user functions, trial step and correction computation (Cauchy, Newton, LP, line search, duals), step rule, clock, callbacks, projection, derivative check. Not modelled: printing, polishing (`Polish.v`), measurements, parametric Cauchy points |
| `Settings.v` | `settings.c`, `enum.c`, `types.c`; `strtod` is a parameter, the C locale is assumed for `isspace` |

Not modelled: memory allocation, logging and printing, the language bindings,
the interfaces to LP solvers, factorisations and trlib (oracles where
their result matters), reading of options from the environment.

## Assumptions per theorem

Generated by `tools/mkassume.py` from the output of `Print Assumptions`.

**Closed under the global context**:
C01_run_wf, C01_step_ok, C01_valid_iff_wf, C02_add_scaled, C03_concat, C03_raw_roundtrip, C03_sparse_roundtrip, C03_to_raw, C05_vec_eq, C08_add_zero, C08_kept_bijection, C08_merge, C08_merge_then_remove, C08_remove, C08_remove_then_merge, C09_is_finite_partial, C11_build, C11_build_history, C11_col, C11_is_lower, C11_pop_col, C11_stored_unique, C11_valid_accepts, C11_valid_refuted, C11_valid_sound_partial, C11_value_at, C12_mult_vec_exact, C12_mult_vec_trans_storage, C13_eq_exact_partial, C13_eq_sound, C14_remove_cols, C14_remove_entries, C14_remove_rows, C15_accepts, C15_copy, C15_eq_partial, C15_eq_refuted, C15_history, C15_valid_partial, C15_valid_refuted, C16_supports, C16_supports_cons, C16_supports_vars, C17_balance, C17_multiset, C18_abstraction, C18_copy_partial, C18_copy_refuted, C18_first_block_refuted, C18_history, C18_partition_partial, C18_query_refuted, C18_query_rejects, C23_bounds_refuted, C23_create_refuted, C30_fenv_refuted, C30_getter, C30_history, C30_setter, C30_valid, C31_accepted, C31_applied_partial, C31_augjac_refuted, C31_bool_refuted, C31_indent_refuted, C31_long_refuted, C31_missing_file, C31_unknown_refuted, C31_wrap_refuted, C32_enums, C32_flags, C33_begun, C33_limit_partial, C33_returns, C34_converse_partial, C34_optimal, C34_unbounded_partial, C35_main_loop_partial, C35_no_restoration_partial, C36_no_correction_partial, C36_sum_partial, C40_direct, C40_minstep, C40_window_create, C41_copy_one, C41_derived_partial, C41_derived_refuted, C41_lsq, C42_counts, C42_once, C44_idempotent, C44_kept, C44_polish, C45_create_total, C45_grad, C45_hess, C45_hess_struct, C45_jac, C45_lsq_adjoint, C45_lsq_forward, C45_point, C45_set_total, C45_values, C46_hessian_partial, C49_value, C50_trans, C50_trans_involutive, C51_vstack_partial, C51_vstack_refuted, C52_copy, C52_resize, C52_scale, C53_values_partial, C57_roundtrip, C58_timer_partial, C59_records, C59_rejection, C59_values_partial, C60_created, C62_mixed_partial, C70_dynamic_unchanged, C72_current, C72_matrix, C73_current, C73_matrix, C74_current, C74_matrix, C74_memory_refuted.

**`FunctionalExtensionality.functional_extensionality_dep`**:
C39_bfgs_pairs, C39_sr1_pairs.

**`ClassicalDedekindReals.sig_forall_dec`, `FunctionalExtensionality.functional_extensionality_dep`**:
C06_is_boxed, C06_is_boxed_real, C07_clip_partial, C07_clip_zero_tolerance, C16_supports_dense, C24_scalars_partial, C24_vectors_partial, C25_complete_partial, C25_sound_partial, C40_minstep_history, C40_minstep_start, C40_window, C40_window_ref_unique, C48_hessian, C48_jacobian, C48_values, C57_slacks_in_bounds, C60_working_set, C62_least_squares.

**`ClassicalDedekindReals.sig_forall_dec`, `ClassicalDedekindReals.sig_not_dec`, `FunctionalExtensionality.functional_extensionality_dep`**:
C02_add_scaled_real, C04_dot, C04_dot_laws, C04_norm_axioms, C04_norms, C12_adjoint, C12_mult_vec, C12_mult_vec_trans, C19_lp_radius, C19_radius, C19_runs, C20_penalty_partial, C20_success_refuted, C24_total_real, C25_stationarity_real, C26_boundary_refuted, C26_step_partial, C27_sound_partial, C28_restore_partial, C28_transform_partial, C29_restore_partial, C37_bfgs_operator, C37_push_pair, C37_secant, C38_secant, C38_sr1_operator, C40_minstep_reference_refuted, C43_avg_partial, C43_elapsed_refuted, C43_total, C48_values_real, C49_models_partial, C49_real, C49_zero_step, C49_zero_step_refuted, C54_direct_partial, C54_minstep, C54_window, C57_first_phase_partial, C57_gradient, C57_measures_infeasibility, C57_values, C60_step_partial, C60_unconstrained_step, C61_lsq, C61_min_norm, C61_project, C61_unconstrained, C62_box, C63_boundary, C64_box, C64_dual, C64_outcome, C64_rayleigh, C64_solution, C65_descent, C65_step, C65_tests_refuted, C66_descent_partial, C66_descent_refuted, C66_step, C67_step_partial, C68_box, C68_step, C68_tangential, C68_violation, C69_box, C69_descent, C69_direction, C69_model, C70_shrinks, C70_static, C70_step, C71_ends_partial, C71_ends_refuted, C71_exit, C71_no_reduction, C71_reduction, C72_lsq, C72_min_norm, C72_project, C72_regular, C72_rounding, C72_run, C72_trust, C73_lsq, C73_min_norm, C73_project, C73_regular, C73_rounding, C73_run, C73_standard, C73_tolerance_refuted, C73_trust, C74_lsq, C74_min_norm, C74_ordering, C74_ordering_refuted, C74_project, C74_shift_refuted, C74_trust, C75_criticality, C75_iterate, C75_radius, C75_step, C75_value, C76_fixed_refuted, C76_working_set, C77_multipliers, C77_reduced_refuted, C77_signs, C78_answer, C78_degenerate_refuted, C78_infeasible, C79_back, C79_forward_partial, C79_linesearch, C79_total, C79_unconstrained, C80_direction, C80_penalty, C80_step, C81_exact, C81_solve, C81_stored, C82_create, C82_empty, C82_step, C83_calls, C83_failed_point_refuted, C83_gradient, C83_hessian, C83_hint_refuted, C83_psd_refuted, C83_refuses, C83_replaced, C84_accepts, C84_check, C84_iterate_refuted, C84_lost, C84_rejected_refuted, C84_restored, C85_curvature, C85_lines, C85_merit, C85_nonlin, C85_penalty, C85_percent, C85_percent_refuted, C85_report.

**`ClassicalDedekindReals.sig_forall_dec`, `ClassicalDedekindReals.sig_not_dec`, `Classical_Prop.classic`, `FunctionalExtensionality.functional_extensionality_dep`**:
C05_side_condition, C07_clip_refuted, C09_is_finite_refuted, C10_coherent, C10_infinite, C10_sign_tests, C10_sign_tests_refuted, C10_trichotomy, C13_eq_refuted, C19_positive_f64_refuted, C19_runs_f64, C21_iterate, C21_iterate_rev, C21_value, C22_gradient, C22_hessian, C22_infinite_refuted, C22_jacobian, C22_lsq_refuted, C22_optimality_partial, C22_scaled_callbacks, C22_unscaled_partial, C23_linear_partial, C23_refuted, C24_nan_refuted, C25_nan_refuted, C27_overflow_refuted, C27_rounding_refuted, C28_circular_refuted, C28_conflict_refuted, C28_converted_refuted, C28_fixed_refuted, C28_forcing_refuted, C28_room_refuted, C29_first_row_refuted, C29_index_refuted, C29_shared_refuted, C29_size_refuted, C29_unsupported_refuted, C33_begun_refuted, C33_refuted, C34_deadpoint_refuted, C34_time_refuted, C34_unbounded_refuted, C35_infeasible_refuted, C35_initial_refuted, C35_restoration_refuted, C36_refuted, C37_initial_scale_refuted, C37_undamped_refuted, C37_zero_eps_refuted, C43_avg_refuted, C45_lsq_jac_refuted, C46_refuted, C47_create_partial, C47_error_partial, C47_huge_refuted, C47_nan_refuted, C47_stacked, C47_unconstrained, C49_monotone_doubles_partial, C53_weights_refuted, C54_direct_refuted, C55_cons_nominal, C55_obj_nominal, C55_var_nominal, C56_grad_refuted, C56_grad_weights, C56_jac_refuted, C56_jac_weights, C57_reentry_refuted, C58_error_refuted, C58_refuted, C59_refuted, C60_step_in_bounds_refuted, C61_order_refuted, C62_stored_zero_refuted, C63_tolerance_refuted, C64_dual_refuted, C64_iteration_limit_refuted, C65_value_refuted, C66_bounds_refuted, C67_bounds_refuted, C67_minimum_refuted, C67_value_refuted, C68_accuracy_refuted, C68_overflow_refuted, C69_descent_refuted, C70_bounds_refuted, C70_dynamic_refuted, C72_failure_refuted, C72_order_refuted, C73_failure_refuted, C79_descent, C79_first_call_refuted, C79_forward_refuted, C79_missed_refuted, C79_radius_refuted, C79_stale_refuted, C79_trust_refuted, C80_left_refuted, C80_reset_refuted, C81_outside_refuted, C81_radius_refuted, C82_merit_refuted, C84_mean_value, C85_zero_refuted.
