{"id": "C01", "title": "Sparse vectors stay well formed under every sequence of operations", "statement": "Starting from a freshly created sparse vector, every sequence of push / clear / reserve / resize / fill / scale / copy calls whose arguments respect the documented preconditions keeps the vector well formed: strictly increasing in-range indices and no more entries than reserved capacity. The validity check of the API accepts exactly the well-formed vectors, and an operation that respects its precondition never aborts.", "quantifier": "all dimensions, capacities, values (including NaN and infinities) and all finite operation histories", "why_tests_cant": "The set of histories is infinite; a unit test fixes one short history and rarely shrinks after growing.", "anchors": ["src/main/sparse/vec.c: sleqp_vec_create, sleqp_vec_push, sleqp_vec_clear, sleqp_vec_reserve, sleqp_vec_resize, sleqp_vec_fill, sleqp_vec_scale, sleqp_vec_copy, sleqp_vec_is_valid"]}
{"id": "C02", "title": "Sparse linear combination is the entrywise combination", "statement": "For well-formed x and y of equal dimension, the combination a*x+b*y is well formed, never exceeds the capacity it reserves, and holds at every index exactly the value the scalar formula gives at that index, an entry being stored iff its magnitude exceeds the drop tolerance.", "quantifier": "all pairs of well-formed vectors, all factors and tolerances, any value type (in particular IEEE doubles)", "why_tests_cant": "Index-merge bugs show up only for particular overlaps of sparsity patterns; there are exponentially many patterns.", "anchors": ["src/main/sparse/vec.c: sleqp_vec_add, sleqp_vec_add_scaled"]}
{"id": "C03", "title": "Dense/sparse conversions are mutually inverse", "statement": "Storing a dense array and reading it back returns the array with every entry of magnitude at most the drop tolerance replaced by zero; writing a well-formed sparse vector to a dense array gives at each index the stored value or zero; point queries agree with the dense array.", "quantifier": "all arrays and all well-formed vectors, any value type", "why_tests_cant": "Round trips must hold for every sparsity pattern and NaN placement.", "anchors": ["src/main/sparse/vec.c: sleqp_vec_set_from_raw, sleqp_vec_to_raw, sleqp_vec_at, sleqp_vec_value_at"]}
{"id": "C04", "title": "Inner products and norms agree with the dense definition", "statement": "The inner product of two well-formed vectors equals the sum over all coordinates of the products of their dense values, is symmetric, bilinear and positive definite; norms equal the dense norms and satisfy the norm axioms (exact arithmetic).", "quantifier": "all well-formed vectors", "why_tests_cant": "Merging of two index lists has unboundedly many interleavings.", "anchors": ["src/main/sparse/vec.c: sleqp_vec_dot, sleqp_vec_norm_sq, sleqp_vec_one_norm, sleqp_vec_inf_norm"]}
{"id": "C05", "title": "Vector equality test decides componentwise closeness", "statement": "The sparse equality test returns true iff for every coordinate the two dense values are equal up to the relative tolerance; storing explicit zeros does not change the answer.", "quantifier": "all pairs of well-formed vectors of equal dimension, all tolerances", "why_tests_cant": "Needs all overlaps of the two sparsity patterns.", "anchors": ["src/main/sparse/vec.c: sleqp_vec_eq"]}
{"id": "C06", "title": "Box test decides membership in the box", "statement": "The box test returns true iff no coordinate of the dense point is below its lower or above its upper bound.", "quantifier": "all well-formed points and bounds, all doubles", "why_tests_cant": "Three-way merges: bugs depend on which of three lists carries an entry.", "anchors": ["src/main/sparse/vec.c: sleqp_vec_is_boxed"]}
{"id": "C07", "title": "Clipping a point projects it onto the box", "statement": "For ordered bounds the clipped initial point is the coordinatewise projection onto the box, lies in the box, and the operation neither overruns the reserved storage nor aborts.", "quantifier": "all well-formed points, all ordered bounds, all non-negative drop tolerances", "why_tests_cant": "Requires all three-way sparsity patterns and all tolerances; unit tests use tolerance zero or friendly bounds.", "anchors": ["src/main/sparse/vec.c: sleqp_vec_clip", "src/main/solver/solve.c: set_initial_iterate"]}
{"id": "C08", "title": "Removing entries and merging them back is the identity", "statement": "Removing the coordinates of a strictly increasing index list from a vector and re-inserting values at those coordinates yields a vector that agrees with the original outside the list and with the inserted values on it; removal after insertion returns the reduced vector unchanged.", "quantifier": "all well-formed vectors, all strictly increasing in-range index lists, all inserted values", "why_tests_cant": "Offset bookkeeping is only stressed by runs of adjacent removed indices at the ends.", "anchors": ["src/main/sparse/vec.c: sleqp_vec_remove_entries", "src/main/preprocessor/preprocessing.c: sleqp_preprocessing_merge_entries, sleqp_preprocessing_add_zero_entries"]}
{"id": "C09", "title": "The finiteness test rejects every vector with a NaN or infinite entry", "statement": "The finiteness test returns true iff no stored value is NaN or infinite.", "quantifier": "all vectors of doubles", "why_tests_cant": "Needs the offending value at every position, notably the last.", "anchors": ["src/main/sparse/vec.c: sleqp_vec_is_finite", "src/main/problem.c: vec_has_finite", "src/main/sparse/mat.c: sleqp_mat_is_finite"]}
{"id": "C10", "title": "Tolerance comparisons are coherent on IEEE doubles", "statement": "For all finite doubles and a non-negative tolerance exactly one of lt/eq/gt holds, leq is eq-or-lt, geq is eq-or-gt, eq is symmetric and reflexive, and the sign tests agree with comparison against zero.", "quantifier": "all doubles (including signed zeros, subnormals and overflow of the difference)", "why_tests_cant": "2^128 pairs of doubles; rounding and overflow cases are not sampled.", "anchors": ["src/main/cmp.c: sleqp_is_eq, sleqp_is_lt, sleqp_is_gt, sleqp_is_leq, sleqp_is_geq, sleqp_is_neg, sleqp_is_pos, sleqp_is_zero, sleqp_is_infinite, sleqp_is_finite"]}
{"id": "C11", "title": "Sparse matrices stay well formed while being built", "statement": "Building a matrix column by column through the push interface yields a well-formed compressed-column matrix whose entries are exactly those pushed; the validity check accepts exactly the well-formed matrices.", "quantifier": "all shapes, all push histories", "why_tests_cant": "Column pointer invariants depend on the history, not on one matrix.", "anchors": ["src/main/sparse/mat.c: sleqp_mat_create, sleqp_mat_push, sleqp_mat_push_col, sleqp_mat_push_vec, sleqp_mat_is_valid, sleqp_mat_value_at"]}
{"id": "C12", "title": "Matrix-vector products are adjoint", "statement": "For every well-formed matrix A and vectors x, y, the product and the transposed product computed by the library equal the dense products, hence <Ax,y> = <x,A^T y> (exact arithmetic, drop tolerance zero).", "quantifier": "all well-formed matrices and vectors", "why_tests_cant": "All sparsity patterns of matrix and vector.", "anchors": ["src/main/sparse/mat.c: sleqp_mat_mult_vec, sleqp_mat_mult_vec_trans"]}
{"id": "C13", "title": "Matrix equality test decides entrywise closeness", "statement": "The matrix equality test returns true iff all corresponding entries of the two matrices are equal up to the tolerance.", "quantifier": "all pairs of well-formed matrices of equal shape", "why_tests_cant": "Depends on the relative order of row indices inside columns.", "anchors": ["src/main/sparse/mat.c: sleqp_mat_eq"]}
{"id": "C14", "title": "Deleting rows and columns of a matrix keeps exactly the remaining submatrix", "statement": "Removing rows/columns given by strictly increasing index lists yields a well-formed matrix whose (i,j) entry is the source entry at the i-th kept row and j-th kept column.", "quantifier": "all matrices and index lists", "why_tests_cant": "Offset arithmetic over all index lists.", "anchors": ["src/main/sparse/mat.c: sleqp_mat_remove_rows, sleqp_mat_remove_cols, sleqp_mat_remove_entries"]}
{"id": "C15", "title": "Working sets keep their two views consistent", "statement": "After any sequence of reset/add operations accepted by the API, the state of an item is not inactive iff the item has an index in the set; indices are a bijection onto 0..size-1, variables precede constraints, counts are exact, and the set never exceeds the number of variables plus constraints.", "quantifier": "all problem sizes and all accepted operation histories", "why_tests_cant": "Property of histories; tests add two or three items.", "anchors": ["src/main/working_set.c: sleqp_working_set_reset, sleqp_working_set_add_var, sleqp_working_set_add_cons, sleqp_working_set_valid, sleqp_working_set_copy, sleqp_working_set_eq"]}
{"id": "C16", "title": "A working set supports exactly the sign-compatible multipliers", "statement": "The support test accepts multipliers iff each coordinate has the sign allowed by the state of its item: zero for inactive, non-positive at a lower bound, non-negative at an upper bound, free for equalities.", "quantifier": "all working sets and sparse multiplier vectors", "why_tests_cant": "All sign/state/sparsity combinations.", "anchors": ["src/main/working_set.c: sleqp_working_set_supports_cons_dual, sleqp_working_set_supports_vars_dual"]}
{"id": "C17", "title": "Registered callbacks behave as a multiset", "statement": "After any sequence of registrations and removals the registered (function, data) pairs are exactly registrations minus removals; removal fails iff the pair is absent and then changes nothing; every lookup within range succeeds.", "quantifier": "all histories of add/remove/get", "why_tests_cant": "Histories with duplicates and swaps.", "anchors": ["src/main/callback_handler.c: sleqp_callback_handler_add, sleqp_callback_handler_remove, sleqp_callback_handler_get, sleqp_callback_handler_size"]}
{"id": "C18", "title": "Hessian block structures partition a prefix of the variables", "statement": "After any sequence of block pushes on a fresh structure, accepted blocks are disjoint, consecutive, non-empty and cover a prefix; the linear range is the complement; an out-of-range block query is rejected.", "quantifier": "all dimensions, all push histories, all queries", "why_tests_cant": "Histories of accepted and rejected pushes and boundary queries.", "anchors": ["src/main/hess_struct.c: sleqp_hess_struct_push_block, sleqp_hess_struct_block_range, sleqp_hess_struct_lin_range, sleqp_hess_struct_copy"]}
{"id": "C19", "title": "Trust radii stay positive and rejected steps shrink them", "statement": "Both trust radii remain positive; one update changes a radius by at most a factor of seven relative to the larger of the radius and step norm; after a rejection with poor agreement the radius is at most half, so any run of n consecutive such rejections brings it to at most 2^-n of its start and the solver stops at the dead-point bound.", "quantifier": "all radii, step norms, ratios and all infinite runs", "why_tests_cant": "Liveness statement over unbounded runs.", "anchors": ["src/main/problem_solver/trust_radius.c: sleqp_problem_solver_update_trust_radius, sleqp_problem_solver_update_lp_trust_radius"]}
{"id": "C20", "title": "Penalty update only increases the penalty, by a bounded power of ten", "statement": "The penalty returned is the incoming penalty times 10^k with 0 <= k <= 100; it is unchanged if the linearised violation is already small; when the update reports success the linearised violation meets the stated sufficient-decrease test.", "quantifier": "all penalty values and all behaviours of the LP oracle", "why_tests_cant": "The LP solver is external: all of its answers must be considered.", "anchors": ["src/main/penalty.c: sleqp_update_penalty"]}
{"id": "C21", "title": "Scaling and unscaling are exact inverses on doubles", "statement": "Unscaling after scaling returns exactly the original point, multipliers, function values and derivatives, for all IEEE doubles whose scaled value neither overflows nor becomes subnormal.", "quantifier": "all doubles and all integer scaling weights", "why_tests_cant": "Rounding behaviour over all doubles.", "anchors": ["src/main/scale.c: sleqp_scale_point, sleqp_unscale_point, sleqp_scale_obj_val, sleqp_unscale_obj_val, sleqp_scale_cons_val, sleqp_unscale_cons_val, sleqp_scale_cons_duals, sleqp_unscale_cons_duals, sleqp_scale_var_duals, sleqp_unscale_var_duals"]}
{"id": "C22", "title": "Optimality is invariant under scaling", "statement": "A primal/dual pair is stationary, feasible and complementary for the scaled problem iff its unscaled image is for the original problem; the scaled Hessian product is the product with the scaled Hessian (exact arithmetic).", "quantifier": "all problems, weights, points and multipliers", "why_tests_cant": "An equivalence over all problems.", "anchors": ["src/main/scale.c: sleqp_scale_obj_grad, sleqp_scale_cons_jac, sleqp_scale_cons_duals, sleqp_scale_var_duals, sleqp_scale_hess_product, sleqp_unscale_hess_direction"]}
{"id": "C23", "title": "Scaling a linear constraint scales its row and bounds consistently", "statement": "A point satisfies the scaled linear constraints iff the unscaled point satisfies the original ones.", "quantifier": "all mixes of general and linear constraints, all weights", "why_tests_cant": "Only wrong for particular combinations of row counts.", "anchors": ["src/main/scale.c: sleqp_scale_linear_coeffs, sleqp_scale_linear_cons", "src/main/problem_scaling.c"]}
{"id": "C24", "title": "Feasibility residuals measure exactly the constraint violation", "statement": "The maximum violation, total violation, residual vectors and list of violated constraints equal their dense definitions; the maximum violation is at most the total violation, and either is zero iff all constraints hold.", "quantifier": "all constraint values and bounds, all sparsity patterns", "why_tests_cant": "Three-way merges over all patterns.", "anchors": ["src/main/feas.c: sleqp_max_violation, sleqp_total_violation, sleqp_violation_values, sleqp_feasibility_residuals, sleqp_violated_constraints, sleqp_violated_cons_multipliers"]}
{"id": "C25", "title": "A point reported optimal satisfies the KKT conditions to tolerance", "statement": "If the optimality test succeeds then the constraint violation is at most the feasibility tolerance and every component of the stationarity and complementarity residuals is below its tolerance.", "quantifier": "all iterates over doubles, including NaN in user supplied derivatives", "why_tests_cant": "NaN propagation through max-reductions is position dependent.", "anchors": ["src/main/iterate.c: sleqp_iterate_is_optimal, sleqp_iterate_stationarity_residuum, sleqp_iterate_slackness_residuum, sleqp_iterate_is_feasible"]}
{"id": "C26", "title": "The maximum step length keeps the point in the box", "statement": "For a point inside its bounds and any direction, moving by the computed maximum step length in [0,1] stays within the bounds, and no larger admissible length does.", "quantifier": "all boxes, points, directions", "why_tests_cant": "Boundary cases of points exactly at a bound.", "anchors": ["src/main/util.c: sleqp_max_step_length"]}
{"id": "C27", "title": "Preprocessing declares infeasibility only for infeasible problems", "statement": "If preprocessing reports that the problem is infeasible, no point satisfies the variable bounds and linear constraints.", "quantifier": "all bounds and linear constraint matrices", "why_tests_cant": "Soundness over all problems.", "anchors": ["src/main/preprocessor/preprocessor.c: check_for_constraint_infeasibility, check_for_variable_infeasibility, sleqp_preprocessor_create"]}
{"id": "C28", "title": "Every solution of the reduced problem restores to a feasible point of the original", "statement": "A point feasible for the preprocessed problem, after restoration, satisfies all variable bounds and linear constraints of the original problem; conversely every feasible point of the original is represented.", "quantifier": "all problems accepted by preprocessing", "why_tests_cant": "Equivalence of infinite feasible sets for all problems.", "anchors": ["src/main/preprocessor/preprocessor.c", "src/main/preprocessor/transform.c", "src/main/preprocessor/restore.c: restore_primal"]}
{"id": "C29", "title": "Restored multipliers are optimal multipliers of the original problem", "statement": "After restoration the stationarity residual of the original problem vanishes on every removed variable and equals the reduced residual elsewhere, with multipliers of the sign demanded by the restored working set.", "quantifier": "all forcing constraints, residuals and signs", "why_tests_cant": "All sign patterns.", "anchors": ["src/main/preprocessor/restore.c: correct_forcing_constraint, correct_converted_bound, correct_fixed_variables"]}
{"id": "C30", "title": "Settings are read-your-writes with rejection of invalid values", "statement": "A successful setter makes the corresponding getter return the value and leaves every other setting unchanged; an invalid option or value is rejected and changes nothing.", "quantifier": "all options, values and histories of setter calls", "why_tests_cant": "Frame condition over all pairs of options and all histories.", "anchors": ["src/main/settings.c: sleqp_settings_set_enum_value, sleqp_settings_set_int_value, sleqp_settings_set_real_value, sleqp_settings_set_bool_value, sleqp_settings_enum_value"]}
{"id": "C31", "title": "A settings file that loads successfully has been applied completely", "statement": "If reading a settings file returns success then each key/value line naming a setting took effect and no line was silently ignored.", "quantifier": "all files", "why_tests_cant": "Parsers meet arbitrary text.", "anchors": ["src/main/settings.c: sleqp_settings_read_file, settings_set_key_value, extract_key_value, trim"]}
{"id": "C32", "title": "Enum names and values correspond one to one", "statement": "Conversion from a name to an enum value and back is the identity on listed names, unknown names and values are rejected, and for flag enums a value is accepted iff it is a union of listed flags.", "quantifier": "all strings and integers", "why_tests_cant": "All integer flag combinations and all strings.", "anchors": ["src/main/enum.c: sleqp_enum_member, enum_member, flags_member", "src/main/types.c"]}
{"id": "C33", "title": "The solver respects its iteration limit and always ends in a final status", "statement": "For every behaviour of the user functions, LP solver and clock, a call to solve with iteration limit N performs at most N iterations over all phases and returns with a final status.", "quantifier": "all oracles, all numbers of phase switches", "why_tests_cant": "Unbounded adversarial behaviours across optimisation and restoration phases.", "anchors": ["src/main/solver/solve.c: run_solving_loop", "src/main/problem_solver/solve.c: sleqp_problem_solver_solve"]}
{"id": "C34", "title": "Reported status OPTIMAL / UNBOUNDED / INFEASIBLE is justified by the final iterate", "statement": "Status optimal is reported only if the final iterate passed the optimality test; status unbounded only if the final iterate is feasible with objective at most the lower objective bound; conversely an iterate that passed the optimality test is reported as optimal.", "quantifier": "all solver runs", "why_tests_cant": "Depends on the order of checks relative to updates of cached residuals over whole runs.", "anchors": ["src/main/problem_solver/iteration.c: check_for_unboundedness, check_for_optimality, prepare_iteration", "src/main/problem_solver/solve.c"]}
{"id": "C35", "title": "A requested abort stops the solver after the current iteration", "statement": "When the user requests an abort during solving, the solver performs no further iteration and returns with the manual-abort status (unless it already finished for another reason).", "quantifier": "all moments in all runs, including the restoration phase", "why_tests_cant": "Requires every interleaving of abort request and phase switch.", "anchors": ["src/main/solver.c: sleqp_solver_abort", "src/main/problem_solver/solve.c", "src/main/solver/solve.c", "src/main/solver/phase.c"]}
{"id": "C36", "title": "Step statistics account for every iteration", "statement": "After any run the numbers of accepted, corrected and rejected steps add up to the number of iterations.", "quantifier": "all runs", "why_tests_cant": "Depends on rarely taken branches of the second-order correction.", "anchors": ["src/main/problem_solver/iteration.c: sleqp_problem_solver_perform_iteration"]}
{"id": "C37", "title": "Damped BFGS approximations stay symmetric positive definite and satisfy the secant equation", "statement": "For every history of pushed steps, the damped BFGS product operator is linear, symmetric and positive definite, and maps the most recent step to the (damped) gradient difference (exact arithmetic).", "quantifier": "all histories of step/gradient pairs of any length, all limited-memory sizes", "why_tests_cant": "Holds by induction on histories with wrap-around of the ring buffer.", "anchors": ["src/main/quasi_newton/bfgs.c: bfgs_hess_prod_range, bfgs_compute_products, bfgs_block_push, bfgs_hess_prod"]}
{"id": "C38", "title": "SR1 approximations are symmetric and satisfy the secant equation when the safeguard does not trip", "statement": "For every history of pushed steps the SR1 product operator is linear and symmetric, and maps the most recent step to its gradient difference unless that update was skipped.", "quantifier": "all histories, all memory sizes", "why_tests_cant": "Induction over histories.", "anchors": ["src/main/quasi_newton/sr1.c: sr1_compute_inner_products, sr1_block_push, sr1_block_hess_prod"]}
{"id": "C39", "title": "Limited-memory storage holds exactly the most recent pairs", "statement": "After any sequence of pushes and resets, the pairs used are exactly the last min(n, N) pairs pushed since the last reset, oldest first.", "quantifier": "all histories", "why_tests_cant": "Ring-buffer wrap-around with resets.", "anchors": ["src/main/quasi_newton/bfgs.c: data_index, bfgs_block_push, bfgs_reset", "src/main/quasi_newton/sr1.c: data_index, sr1_block_push, sr1_reset"]}
{"id": "C40", "title": "Step acceptance rules accept exactly by their reduction criterion", "statement": "Each step rule accepts a step iff the ratio it reports is at least the acceptance threshold; the windowed rule's ratio is computed from exactly the last accepted steps in its window.", "quantifier": "all histories of reduction values", "why_tests_cant": "History dependent ring buffer and reference values.", "anchors": ["src/main/step/step_rule.c", "src/main/step/step_rule_direct.c", "src/main/step/step_rule_window.c", "src/main/step/step_rule_minstep.c"]}
{"id": "C41", "title": "Derived functions inherit exactly the Hessian properties of the original", "statement": "A function derived by fixing variables has a Hessian flag iff the original function has that flag.", "quantifier": "all flag combinations", "why_tests_cant": "All combinations of flags.", "anchors": ["src/main/func.c: sleqp_func_has_flags, sleqp_func_flags_copy", "src/main/preprocessor/fixed_var_func.c: sleqp_fixed_var_func_create"]}
{"id": "C42", "title": "Reference counting frees each object exactly once, when the last reference goes", "statement": "Under any balanced sequence of capture and release calls an object is freed exactly once, at the release matching the last outstanding reference, and never used afterwards; releasing clears the caller's pointer.", "quantifier": "all interleavings of capture/release by all holders", "why_tests_cant": "All interleavings.", "anchors": ["src/main/working_set.c, mat.c, func.c, problem.c, solver.c, problem_solver.c: *_capture, *_release"]}
{"id": "C43", "title": "Timers report accumulated time and limits consistently", "statement": "The total time equals the sum of all measured intervals; the remaining time is the limit minus elapsed time cut at zero; the limit is exhausted iff remaining time is zero; average lies between extremes.", "quantifier": "all histories of start/stop/add/reset and all clocks", "why_tests_cant": "All clock behaviours.", "anchors": ["src/main/timer.c"]}
{"id": "C44", "title": "Polishing shrinks the working set without losing multipliers", "statement": "After polishing, the working set is valid, is contained in the previous one, and still supports the multipliers of the iterate; type none changes nothing.", "quantifier": "all working sets and multipliers", "why_tests_cant": "All support patterns.", "anchors": ["src/main/polish.c: sleqp_polishing_polish"]}
{"id": "C45", "title": "Fixing variables evaluates the original function on the restricted domain", "statement": "The function seen by the solver after fixing variables has value, gradient, Jacobian and Hessian product equal to those of the original function at the completed point, restricted to free variables.", "quantifier": "all functions, fixed sets and values", "why_tests_cant": "All functions and index sets.", "anchors": ["src/main/preprocessor/fixed_var_func.c"]}
{"id": "C46", "title": "User functions are always evaluated at the solver's current point", "statement": "Whenever the solver asks the user function for a Hessian product in an iteration, the last point it passed to the function is the current iterate.", "quantifier": "all runs, with and without registered callbacks and preprocessing", "why_tests_cant": "Interleaving of callback-triggered evaluations with the solver's own.", "anchors": ["src/main/solver.c: on_problem_solver_accepted_iterate, do_restore_iterate", "src/main/problem_solver/step.c"]}
{"id": "C47", "title": "Problem construction accepts exactly consistent bounds", "statement": "A problem is created iff lower bounds do not exceed upper bounds, lower bounds are not +infinity and upper bounds not -infinity and no bound is NaN; the stacked constraint bounds are general bounds followed by linear bounds.", "quantifier": "all bound vectors of doubles", "why_tests_cant": "All doubles in all positions.", "anchors": ["src/main/problem.c: check_bounds, stack_bounds, sleqp_problem_create"]}
{"id": "C48", "title": "Constraint evaluation stacks general and linear parts", "statement": "The constraint value, Jacobian and Hessian of a problem with linear constraints are those of the user function stacked on the linear coefficients.", "quantifier": "all problems", "why_tests_cant": "All dimension splits and sparsity patterns.", "anchors": ["src/main/problem.c: sleqp_problem_cons_val, sleqp_problem_cons_jac, sleqp_problem_hess_prod, prepare_cons_duals"]}
{"id": "C49", "title": "The merit function is exact and its models agree to first order", "statement": "The merit value equals the objective plus penalty times total violation; linear and quadratic merit models at the zero step equal the merit value; the merit value is monotone in the penalty.", "quantifier": "all iterates and penalties", "why_tests_cant": "All sparsity patterns and penalties.", "anchors": ["src/main/merit.c"]}
{"id": "C50", "title": "Transposing a sparse matrix", "statement": "The transpose of a well-formed matrix is well formed, has swapped dimensions and entry (j,i) where the original has (i,j), whatever the target held before; transposing twice restores the columns.", "quantifier": "all well-formed matrices and targets", "why_tests_cant": "All sparsity patterns; the in-place bucket sort is only exercised on a few matrices.", "anchors": ["src/main/sparse/mat.c: sleqp_mat_trans"]}
{"id": "C51", "title": "Stacking matrices vertically", "statement": "The vertical stack of two well-formed matrices of equal width is well formed and its entries are those of the first followed by those of the second, whatever the result matrix held before.", "quantifier": "all well-formed matrices and result matrices", "why_tests_cant": "Depends on the previous contents of the result matrix.", "anchors": ["src/main/sparse/mat.c: sleqp_mat_vstack, sleqp_mat_resize"]}
{"id": "C52", "title": "Scaling, resizing and copying matrices", "statement": "Scaling multiplies every stored entry (scaling by zero empties the matrix), resizing keeps exactly the entries of the remaining columns and adds empty ones, copying reproduces the columns; all keep the matrix well formed.", "quantifier": "all well-formed matrices, factors and dimensions", "why_tests_cant": "All sparsity patterns and sequences of shapes.", "anchors": ["src/main/sparse/mat.c: sleqp_mat_scale, sleqp_mat_resize, sleqp_mat_copy"]}
{"id": "C53", "title": "Dynamic functions return values for the current settings", "statement": "Objective and constraint values returned by a dynamic function come from an evaluation at the current point, error bound and weights, with a reported error between zero and the error bound.", "quantifier": "all histories of setting point, bound and weights and of evaluating; every user function", "why_tests_cant": "Depends on the order of setter calls and cached values.", "anchors": ["src/main/dyn.c: dyn_func_eval, sleqp_dyn_func_set_error_bound, sleqp_dyn_func_set_obj_weight, sleqp_dyn_func_set_cons_weights"]}
{"id": "C54", "title": "Accepted steps stay in the initial level set", "statement": "Along every run in which the model reductions are positive, the merit values of the steps a step rule accepts never exceed the initial merit value, whichever rule is used.", "quantifier": "all sequences of exact and model merit values and all window sizes", "why_tests_cant": "Non-monotone rules accept increases; the bound concerns whole runs.", "anchors": ["src/main/step/step_rule_direct.c", "src/main/step/step_rule_window.c", "src/main/step/step_rule_minstep.c", "src/main/util.c: sleqp_reduction_ratio"]}
{"id": "C55", "title": "Nominal values are mapped to [.5, 1)", "statement": "Setting the weights from nominal variable, constraint or objective values makes scaling map exactly those values to absolute values in [.5, 1), leaving the other weights unchanged.", "quantifier": "all finite non-zero nominal doubles, including subnormal ones, and all sizes", "why_tests_cant": "Covers all doubles up to the extremes of the exponent range.", "anchors": ["src/main/scale.c: sleqp_scaling_set_var_weights_from_nominal, sleqp_scaling_set_cons_weights_from_nominal, sleqp_scaling_set_obj_weight_from_nominal", "src/main/pub_scale.h"]}
{"id": "C56", "title": "Automatic scaling yields bounded, normalising weights", "statement": "Computing weights from a Jacobian or gradient never fails on numbers, yields weights of absolute value at most 30, and scales the largest entry to about one.", "quantifier": "all well-formed Jacobians and gradients without NaN, all tolerances >= 0", "why_tests_cant": "All sparsity patterns and magnitudes; the sign of a weight is easily wrong unnoticed.", "anchors": ["src/main/scale.c: sleqp_obj_scaling_from_grad, sleqp_scaling_from_cons_jac, compute_scale_factors, max_matrix_ratio"]}
{"id": "C57", "title": "The restoration problem measures infeasibility of the original problem", "statement": "The restoration problem has the constraint values as residuals against slacks: its objective, gradient and Hessian products belong to the point the function was last set to, passing to it and back returns the point, the initial slacks lie in their bounds, and its objective is zero exactly at feasible points.", "quantifier": "all problems, points and bounds, all histories of requests, any number of restoration phases", "why_tests_cant": "Cached residuals depend on the whole history; a second restoration phase is rarely reached by tests.", "anchors": ["src/main/restoration.c", "src/main/lsq.c: lsq_func_set_value, compute_lsq_residual, lsq_func_obj_val, lsq_func_obj_grad, lsq_func_hess_product"]}
{"id": "C58", "title": "A solver can be used again after a call has returned", "statement": "After a call to solve that returned normally, a further call runs as the first one: no timer is left running, the solver is back in the optimisation phase, and the status is not stale.", "quantifier": "all behaviours of the user functions, LP solver and clock; all sequences of calls", "why_tests_cant": "Repeated calls after time limits and errors are rarely tested.", "anchors": ["src/main/solver/solve.c: sleqp_solver_solve", "src/main/timer.c: sleqp_timer_start", "src/main/trial_point.c: sleqp_trial_point_solver_compute_trial_point"]}
{"id": "C59", "title": "Values stored in an iterate belong to its primal point", "statement": "When a call to solve returns, objective, gradient, constraint values and Jacobian of the final iterate are those the user functions returned at its primal point.", "quantifier": "all behaviours of the user functions, LP solver and clock, any number of phases", "why_tests_cant": "Mixed iterates arise only through rare combinations of errors, limits and phase changes.", "anchors": ["src/main/problem_solver/solve.c", "src/main/problem_solver/iteration.c", "src/main/problem_solver/step.c", "src/main/solver/solve.c", "src/main/solver/phase.c"]}
{"id": "C60", "title": "The linear step on boxes is optimal and its working set is consistent", "statement": "After any history of calls that ends with a step, the step for bound constrained problems lies within bounds and trust region, minimises the linear model up to the differences dropped by the sparse storage, its objective value is the value of the model, and the working set, its states and the multipliers belong to that step; without bounds it minimises the model over the trust region with an empty working set.", "quantifier": "all dimensions, bounds, iterates within them, gradients, radii and histories of calls", "why_tests_cant": "Tests solve a few small problems; ties between bound, trust region and zero gradient and reuse of the object are not covered.", "anchors": ["src/main/cauchy/box_constrained_cauchy.c", "src/main/cauchy/unconstrained_cauchy.c", "src/main/cauchy/cauchy.c"]}
{"id": "C61", "title": "The augmented system without constraints solves its three problems", "statement": "For bound constrained problems the functions return the minimum-norm solution of the active rows, the least squares multipliers and the projection onto the null space; without bounds they return zero, nothing and the right-hand side.", "quantifier": "all consistent working sets listed in order, all right-hand sides", "why_tests_cant": "Optimality quantifies over all competing vectors; the order of the working set is an unstated assumption.", "anchors": ["src/main/aug_jac/aug_jac.c", "src/main/aug_jac/box_constrained_aug_jac.c", "src/main/aug_jac/unconstrained_aug_jac.c"]}
{"id": "C62", "title": "Estimated multipliers are supported by the working set", "statement": "Least squares multipliers of the wrong sign are dropped and counted, all others are kept; the mixed estimate fills gaps from the linear program exactly in the blocks where something was dropped; the results are supported by the working set and no assertion fails; with only bounds nothing is ever dropped.", "quantifier": "all working sets, gradients, least squares solvers and multipliers of the linear program", "why_tests_cant": "Clipping depends on degenerate signs that tests do not produce.", "anchors": ["src/main/dual_estimation/dual_estimation_lsq.c", "src/main/dual_estimation/dual_estimation_mixed.c", "src/main/dual_estimation/dual_estimation_lp.c"]}
{"id": "C63", "title": "The boundary point of the trust region is the last point of the ray", "statement": "From a point in the trust region and a non-zero direction the function returns a point of the ray whose norm is the radius, and no later point of the ray lies in the trust region.", "quantifier": "all points, directions and radii, in exact arithmetic", "why_tests_cant": "Cancellation in the discriminant depends on rare geometry.", "anchors": ["src/main/tr/tr_util.c: sleqp_tr_compute_bdry_sol"]}
{"id": "C64", "title": "The conjugate gradient solver terminates with sufficient decrease", "statement": "With a symmetric Hessian and an orthogonal projection the solver stops after at most n + 1 iterations without failing an assertion; its step lies in the nullspace and the trust region, does not increase the model, and, unless a limit strikes, is stationary or on the boundary and at least as good as every point of the projected steepest descent ray in the trust region; dual and Rayleigh quotients belong to the step and to the curvature in the nullspace.", "quantifier": "all dimensions, Hessians of any signature, gradients, projections, radii, limits and clocks, in exact arithmetic", "why_tests_cant": "Finite termination and decrease quantify over all Hessians and all competing points; limits strike rarely.", "anchors": ["src/main/tr/steihaug_solver.c", "src/main/tr/tr_util.c"]}
{"id": "C65", "title": "The Cauchy line search returns a step with sufficient decrease", "statement": "The step is the first of the lengths t0 tau^k, starting from the longest one of length at most 1 within the trust region, at which the quadratic model of the merit function decreases by the fraction eta of the decrease of the linear model; all products stored with the direction belong to it and the value returned is the model there; otherwise the zero direction is returned, which happens only for large curvature. The model does not grow if the linear model does not.", "quantifier": "all data, non-zero directions, Jacobians, Hessians and settings with 0 < tau < 1, in exact arithmetic", "why_tests_cant": "Sufficient decrease and the reason for giving up quantify over all directions and curvatures; tests see one length.", "anchors": ["src/main/linesearch.c: sleqp_linesearch_cauchy_step", "src/main/direction.c"]}
{"id": "C66", "title": "The line search between Cauchy and Newton step returns a point of the segment that was accepted", "statement": "The trial direction is a convex combination of both directions with matching products, within every ball that contains both and within the bounds of the variables; the value returned is the model there and satisfies the condition with the slope in use; all longer candidates above the cutoff violate it; otherwise the Cauchy direction is returned. The model does not grow.", "quantifier": "all data, pairs of directions, symmetric Hessians and settings, in exact arithmetic", "why_tests_cant": "The slope of a non-smooth model depends on penalty, violation and direction at once; tests use few combinations.", "anchors": ["src/main/linesearch.c: sleqp_linesearch_trial_step", "src/main/direction.c"]}
{"id": "C67", "title": "The exact line search minimises the model on the segment", "statement": "The breakpoints fit the array, the step length lies in [0, 1], the value returned is the model at the trial direction and no other point of the segment has a smaller one, for every order in which equal breakpoints may be sorted.", "quantifier": "all data, pairs of directions, symmetric Hessians of any signature, in exact arithmetic", "why_tests_cant": "Global minimality on the segment and the sparsity patterns of violation and change are not enumerated by tests.", "anchors": ["src/main/linesearch.c: collect_breakpoints", "src/main/linesearch.c: compute_breakpoints", "src/main/linesearch.c: sleqp_linesearch_trial_step_exact"]}
{"id": "C68", "title": "The step to the working set approaches its bounds within the trust region", "statement": "The step of working_step.c is a multiple, with a factor between 0 and 1, of the shortest step onto the bounds of the working set (linearised); the distances to these bounds shrink by exactly the complement of the factor, the flag tells whether the factor is 1, a cut step has 0.8 times the length of the trust radius, and the squares of its length and of the reduced radius add up to the square of the trust radius, so that every further step in the nullspace within the reduced radius stays in the trust region. The values and multipliers of the violated constraints are those at the end of the step, with zero for members of the working set.", "quantifier": "all working sets listed in order, all bounds, values, Jacobians, trust radii, all solvers of the augmented system that return the shortest solution; accuracy at most 1/5; exact arithmetic", "why_tests_cant": "the relation ties together the augmented system, two differences per variable and constraint, and two branches on a tolerance; tests see a few working sets at the default accuracy", "anchors": ["src/main/working_step.c:113-479"]}
{"id": "C69", "title": "The Newton direction keeps the working set and does not increase its model", "statement": "The direction of newton.c is the step to the working set plus a step in the nullspace of the working set; it lies in the trust region and its stored products match it. The model handed to the trust region solver is a lower bound for the change of the merit model on the nullspace and equals it as long as no constraint outside of the working set changes between satisfied and violated; then the merit model does not increase.", "quantifier": "all working sets, all symmetric Hessians, all trust region solvers that return a step of non-positive model value in the nullspace and radius (with bounds only, the conjugate gradient solver is one); exact arithmetic", "why_tests_cant": "the equality of the reduced model with the merit model depends on which constraints change sides; a test observes one step of one problem", "anchors": ["src/main/newton.c:193-594", "src/main/direction.c:44-82", "src/main/working_step.c:515-530"]}
{"id": "C70", "title": "The second-order correction returns to the bounds of the working set and is applied", "statement": "The correction of soc.c is the shortest step that cancels the distances of the trial point to the bounds of the working set (distances up to the accuracy are ignored unless both bounds are active); it is cut so that the components that can move stay within the variable bounds, and the new trial point is the iterate plus the corrected step, within the variable bounds.", "quantifier": "all working sets, trial points within bounds, constraint values; exact arithmetic", "why_tests_cant": "the variant for dynamic functions returns a point that looks valid; only a comparison with the corrected direction shows that the correction was not applied", "anchors": ["src/main/soc.c:62-356", "src/main/trial_point.c:521-544", "src/main/trial_point.c:980-1073"]}
{"id": "C71", "title": "Refined dynamic functions are accurate enough for the acceptance of a step", "statement": "When the refinement loop ends, the error of the function is at most 0.4 times the accepted fraction of the predicted reduction, hence an accepted step reduces the true merit value by at least a fifth of the accepted fraction of the predicted reduction. The loop ends for every function that meets the error bounds.", "quantifier": "all sequences of errors, values and predicted reductions, all functions; exact arithmetic", "why_tests_cant": "termination and the sign of the true reduction depend on the whole sequence of refinements of a user function", "anchors": ["src/main/trial_point.c:797-910", "src/main/dyn.c:80-143"]}
{"id": "C72", "title": "The standard augmented system solves the projections and least squares problems of the working set", "statement": "Every call that sets the iterate hands the matrix [[I A^T] [A 0]] of the rows of the working set (or its lower part) to the factorization, or keeps one that already belongs to the working set and the Jacobian, over all sequences of calls. The matrix is regular exactly if the rows are independent, and then the solves give the shortest solution of A x = b, the multipliers minimising |A^T y - b|, and the orthogonal projection onto the null space of A; the right hand side is unchanged afterwards.", "quantifier": "all working sets listed in order, all Jacobians, all sequences of calls, any arithmetic for the matrix; for the solves all factorizations that solve regular systems, in exact arithmetic", "why_tests_cant": "the matrix is assembled from index arrays that depend on the working set, and reuse depends on the whole history; tests compare single solves", "anchors": ["src/main/aug_jac/standard_aug_jac.c"]}
{"id": "C73", "title": "The reduced augmented system solves the same problems as the standard one", "statement": "Every call that sets the iterate hands the matrix A A^T of the inner products of the rows of the working set (or its lower part) to the factorization, or keeps one that already belongs to the working set and the Jacobian, over all sequences of calls, and the stored rows are those of the working set. The matrix is regular exactly if the rows are independent, and then the solves give the shortest solution of A x = b, the multipliers minimising |A^T y - b| and the orthogonal projection onto the null space of A, the same results as the standard system.", "quantifier": "all working sets, all Jacobians, all sequences of calls, any arithmetic for the matrix; for the solves all factorizations that solve regular systems, in exact arithmetic", "why_tests_cant": "the rows are scattered column by column into a shared array whose offsets depend on the working set, and reuse depends on the whole history; tests compare single solves", "anchors": ["src/main/aug_jac/reduced_aug_jac.c"]}
{"id": "C74", "title": "The direct augmented system factorizes the transposed rows of the working set", "statement": "Every call that sets the iterate hands the transpose of the matrix of the rows of the working set to the QR factorization; with an exact factorization and independent rows the solves give the shortest solution of A x = b, the multipliers minimising |A^T y - b| and the orthogonal projection onto the null space of A, and leave the object in a state for further solves.", "quantifier": "all working sets listed in order, all Jacobians, any arithmetic for the matrix; for the solves all exact QR factorizations, in exact arithmetic", "why_tests_cant": "the rows are moved in place within the arrays of a matrix depending on which variables are active; a test with an active last variable, or with as many constraints as rows, passes", "anchors": ["src/main/aug_jac/direct_aug_jac.c", "src/main/fact/fact_qr.c", "src/main/fact/fact_spqr.c:219-323"]}
{"id": "C75", "title": "The step from the linear program minimises the linear model of the merit function", "statement": "After every sequence of calls to the object for general constraints that ends with a solve, the returned step lies in the trust region and the variable bounds and, but for entries dropped as zeros, minimises the linear model of the merit function (objective and penalized violation of the linearized constraints) over all such steps, also when the LP is solved again without slack variables. The objective value is the least value of the model, the violation that of a minimising step, and the criticality bound is not negative and zero exactly if no step improves the model. Setting an iterate leaves its Jacobian unchanged.", "quantifier": "all problems and iterates with moderate values, all sequences of calls, all LP solvers whose answers on the way are optimal and consistent with their basis; exact arithmetic", "why_tests_cant": "the object keeps bounds, bases and fetched arrays between calls and switches between two linear programs; tests solve single small programs from a fresh object", "anchors": ["src/main/cauchy/standard_cauchy.c", "src/main/cauchy/cauchy.c:136-150"]}
{"id": "C76", "title": "The working set taken from the basis of the linear program is independent and active at the step", "statement": "If the basis of the last linear program is regular and no variable with equal bounds is basic, the working set taken from it is valid, listed in order, has linearly independent rows (hence at most as many as variables), and every state names a finite bound attained by a step that minimises the linear model. Basic variables and rows stay out; nonbasic variables stay out only at the border of the trust region, nonbasic rows only if one of their slack variables is basic.", "quantifier": "all states reachable by calls to the object with and without the reduced LP, all regular bases, all working sets that are reset; exact arithmetic", "why_tests_cant": "independence depends on the basis returned by the LP solver; degenerate bases with fixed variables are rare and the check is an assertion that is absent in release builds", "anchors": ["src/main/cauchy/standard_cauchy.c:961-1168", "src/main/working_set.c"]}
{"id": "C77", "title": "The multipliers taken from the linear program belong to its working set", "statement": "For any working set, the multipliers taken from the linear program are zero outside of it and have the sign of their bound. If the linear program was solved once, the multipliers for the working set of its basis are, but for entries dropped as zeros, those of the optimality conditions of the linear model: with slopes plus or minus the penalty for constraints violated by the step and multipliers of the trust region only at its border, the gradient of the Lagrangian vanishes; the multipliers are bounded by the penalty parameter. (After a second solve without slack variables this fails.)", "quantifier": "all states reachable by calls to the object, all certified solutions with regular bases, all consistent working sets for the signs; exact arithmetic", "why_tests_cant": "the program with and without slack variables usually have the same multipliers; they differ only at degenerate solutions", "anchors": ["src/main/cauchy/standard_cauchy.c:1331-1442"]}
{"id": "C78", "title": "A step reported as locally infeasible is optimal without the trust region", "statement": "If the test for local infeasibility of the object for general constraints says yes, the step of the linear program minimises the linear model of the merit function over all steps within the variable bounds, not just those in the trust region; without objective, and if the step violates the linearized constraints, no step within the variable bounds satisfies them. If it says no, the step satisfies the linearized constraints or reaches the border of the trust region. (The answer can be yes though the constraints hold, if a slack variable is basic with value zero.)", "quantifier": "all states reachable by calls to the object, all certified solutions with regular bases; exact arithmetic", "why_tests_cant": "the answer depends on the basis of the solver and the test has no caller in the solver, so no test run reaches it", "anchors": ["src/main/cauchy/standard_cauchy.c:1190-1324"]}
{"id": "C79", "title": "The search for the radius of the linear program does not raise the model", "statement": "If the step of the linear program decreases the quadratic model of the merit function enough, larger radii are tried: the step returned minimises the linear model for one of the radii tried, the linear program was last solved with that radius, and the value of the quadratic model there is at most the value reported, which is at most the value at the first step. Otherwise smaller radii are tried in turn: the first with enough decrease is returned with its step, its products and its value, or, if there is none, a multiple of the last step found by the line search. In all cases the quadratic model is not raised, and no call fails. (The products returned by the search for larger radii are those of the first step; the line search is called before it is told the iterate; the step may leave the trust region and the radius returned.)", "quantifier": "all problems, radii, factors, limits and all solvers of the linear program that meet a small specification, proved for the solver without constraints in all its states; exact arithmetic", "why_tests_cant": "the option is off by default; wrong products and a late call of the line search show only for particular curvature", "anchors": ["src/main/parametric.c:93-421", "src/main/trial_point/cauchy_step.c:170-231"]}
{"id": "C80", "title": "Penalty parameter, linear program and Cauchy step belong together", "statement": "The penalty parameter is raised by factors of ten only if the step of the linear program leaves a violation that can be reduced: up to the first value for which the step is feasible, if a feasible step exists, or for which it removes a tenth of the violation that can be removed, or a hundred times. The step taken minimises the linear model of the merit function for the new parameter, its value is at most the current merit value for the new parameter, and the Cauchy step found along it by the line search stays in the trust region, does not raise the quadratic model and is returned with its products and value. (After a reset of the parameter the linear program is not solved again: at an iterate that is feasible up to the tolerance only, the step can raise the model. If the violation cannot be reduced, the solver is left with the program without objective, from which multipliers are taken later.)", "quantifier": "all problems, iterates, penalty parameters and radii and all solvers of the linear program that meet a small specification; exact arithmetic", "why_tests_cant": "resets need large penalty parameters and small multipliers at an iterate violated slightly; the state of the LP is not visible from outside", "anchors": ["src/main/trial_point/cauchy_step.c:33-168, 233-373", "src/main/penalty.c:11-151"]}
{"id": "C81", "title": "The iterative least squares solver returns a minimal or a truncated solution", "statement": "For a matrix A given by products with it and its transpose the solver either reports that the time is up or ends with a result: an interior solution has a gradient of at most the tolerance, lies within the radius and minimises the squared residuum over a Krylov space; otherwise the solution lies on the boundary of the trust region. In both cases it is at least as good as every multiple of the gradient within the radius. Without a radius and with tolerance zero it is a least squares solution: the gradient vanishes and no vector has a smaller residuum. (The radius is compared with an absolute tolerance if it is small: solutions far outside are reported as interior ones, and an assertion can fail if the iteration goes on from there. If the gradient is zero the residuum is not a number and the loop runs to its end.)", "quantifier": "all matrices, right-hand sides, tolerances, radii and clocks, no bound on the dimensions; exact arithmetic", "why_tests_cant": "optimality over a Krylov space of any dimension cannot be observed by sampling; small radii are reached only after many rejected steps", "anchors": ["src/main/tr/lsqr.c:25-337", "src/main/tr/tr_util.c:9-50"]}
{"id": "C82", "title": "The Gauss-Newton direction solves the linearized least squares problem within the trust region", "statement": "From the step to the working set the solver removes the rows that are not violated, builds the right-hand side and the scaled Jacobian of the violated rows, and its two products belong to one matrix and its transpose. The direction then reports that the time is up or fulfils: it differs from the initial step by a vector in the nullspace of the working set, lies within the trust region, its stored products are those of the direction, the sum of the squared linearized residuals and the squared penalized violations is at most that of every step along the projected gradient that fits into the radius, and in the interior the projected gradient is at most a hundredth of the stationarity tolerance, which bounds the distance to the least value over the nullspace; otherwise the direction lies on the boundary. (The violations enter squared while the merit function has their absolute values: the model of the merit function can be larger at the direction than at the initial step.)", "quantifier": "all problems, working sets, residuals, Jacobians, penalty parameters, radii and clocks, no bound on the dimensions; exact arithmetic", "why_tests_cant": "the subproblem exists only inside of the solver; the set of violated rows and its size vary from iteration to iteration", "anchors": ["src/main/gauss_newton.c:20-606", "src/main/tr/lsqr.c:25-337"]}
{"id": "C83", "title": "Least-squares functions answer with value, gradient and Hessian products of the current point", "statement": "After every sequence of calls - setting points, replacing callbacks or the Levenberg-Marquardt factor, reserving space, evaluating in any order, with calls that fail in between - the value is half the squared norm of the residuals at the last point set, the gradient is the transposed Jacobian times the residuals and is the derivative of the value, and Hessian products are those of the symmetric matrix J^T J plus the factor times the identity, positive semidefinite for nonnegative factors as the flags claim; errors are reported as evaluation errors and occur only if a callback fails. (Three claims are false: after a point that could not be set, the residuals of the point before are used; negative factors are accepted after the creation although the flags stay; the reported number of nonzeros of Hessian products is that of forward products.)", "quantifier": "all residual functions, Jacobians, points, factors and finite sequences of calls, no bound on dimensions or lengths; exact arithmetic", "why_tests_cant": "the residuals are cached behind a flag, so that the answers depend on the order of the calls; tests call the evaluations once per point in one order", "anchors": ["src/main/lsq.c:14-574", "src/main/func.h:23-38"]}
{"id": "C84", "title": "The derivative check succeeds exactly if all finite differences asked for agree", "statement": "For every combination of flags the check returns successfully if and only if, in every coordinate direction whose perturbed point is not rejected, all derivatives asked for agree with the difference quotients up to the relative tolerance, and reports invalid derivatives otherwise; in both cases the problem is at the iterate afterwards. Right first derivatives of affine functions and right second derivatives of quadratic ones are accepted; an accepted entry of the gradient agrees with the derivative at a point between the iterate and the perturbed one. (Two claims are false: the Hessian products at the iterate are not checked, only those at the perturbed points; wrong derivatives are accepted in directions whose perturbed point is rejected.)", "quantifier": "all objectives, constraints, derivatives, points, multipliers and flags, no bound on dimensions; exact arithmetic", "why_tests_cant": "tests run the check on a few problems with right derivatives and single wrong entries; that every entry is compared with the right quotient at the right point, for every combination of flags, is a claim about all of them", "anchors": ["src/main/deriv_check.c:50-671", "src/main/deriv_check.c:742-792", "src/main/pub_types.h:90-102"]}
{"id": "C85", "title": "Measurements of trial points are curvatures, exact merits and the quadratic model", "statement": "For every step that is not zero the measured nonlinearities of objective, constraints and Lagrangean are twice the error of the linear models by the squared length of the step; for quadratic functions that of the Lagrangean is the negative curvature along the step and bounded by every bound on it. Both kinds of reports, and that of second-order corrections, state the exact merits of the points and the quadratic model of the step; percentages are relative to the absolute value and positive exactly for decreases. (Two claims are false: from the value zero every change is reported as none; in doubles the nonlinearity of the objective of a step of length zero is not a number.)", "quantifier": "all objectives, constraints, bounds, steps, multipliers and penalty parameters, no bound on dimensions; exact arithmetic except for the zero step", "why_tests_cant": "the values are only printed at the debug level, tests never look at them", "anchors": ["src/main/measure.c:15-41", "src/main/measure.c:71-208", "src/main/measure.c:218-433"]}
