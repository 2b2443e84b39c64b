{
 "claims": [
  {
   "property": "C01",
   "status": "proved",
   "theorems": [
    "C01_run_wf",
    "C01_step_ok",
    "C01_valid_iff_wf"
   ],
   "note": "generic in the arithmetic, hence bit-exact for doubles"
  },
  {
   "property": "C02",
   "status": "proved",
   "theorems": [
    "C02_add_scaled",
    "C02_add_scaled_real"
   ],
   "note": "generic in the arithmetic; exact-arithmetic corollary"
  },
  {
   "property": "C03",
   "status": "proved",
   "theorems": [
    "C03_raw_roundtrip",
    "C03_to_raw",
    "C03_sparse_roundtrip",
    "C03_concat"
   ],
   "note": ""
  },
  {
   "property": "C04",
   "status": "proved",
   "theorems": [
    "C04_dot",
    "C04_dot_laws",
    "C04_norms",
    "C04_norm_axioms"
   ],
   "note": "exact arithmetic (reals)"
  },
  {
   "property": "C05",
   "status": "proved",
   "theorems": [
    "C05_vec_eq",
    "C05_side_condition"
   ],
   "note": ""
  },
  {
   "property": "C06",
   "status": "proved",
   "theorems": [
    "C06_is_boxed",
    "C06_is_boxed_real"
   ],
   "note": ""
  },
  {
   "property": "C07",
   "status": "partial",
   "theorems": [
    "C07_clip_partial",
    "C07_clip_zero_tolerance",
    "C07_clip_refuted"
   ],
   "note": "false for a positive drop tolerance (refuted); proved when dropping small values stays in the box, in particular for tolerance zero"
  },
  {
   "property": "C08",
   "status": "proved",
   "theorems": [
    "C08_remove",
    "C08_merge",
    "C08_add_zero",
    "C08_remove_then_merge",
    "C08_merge_then_remove",
    "C08_kept_bijection"
   ],
   "note": ""
  },
  {
   "property": "C09",
   "status": "partial",
   "theorems": [
    "C09_is_finite_refuted",
    "C09_is_finite_partial"
   ],
   "note": "false as coded: the last entry is never inspected (refuted); exact characterisation of what is checked"
  },
  {
   "property": "C10",
   "status": "partial",
   "theorems": [
    "C10_infinite",
    "C10_trichotomy",
    "C10_coherent",
    "C10_sign_tests",
    "C10_sign_tests_refuted"
   ],
   "note": "coherence proved for all finite doubles and tolerances >= 0; the sign tests agree with comparison against zero only for tolerances below one (refuted at one)"
  },
  {
   "property": "C11",
   "status": "partial",
   "theorems": [
    "C11_build_history",
    "C11_build",
    "C11_value_at",
    "C11_stored_unique",
    "C11_col",
    "C11_valid_accepts",
    "C11_valid_sound_partial",
    "C11_valid_refuted",
    "C11_pop_col",
    "C11_is_lower"
   ],
   "note": "building and reading back proved; validity check accepts all well-formed matrices, but is unsound when the entry count is zero (refuted), sound otherwise given a zero first column pointer"
  },
  {
   "property": "C12",
   "status": "proved",
   "theorems": [
    "C12_mult_vec_exact",
    "C12_mult_vec",
    "C12_mult_vec_trans",
    "C12_adjoint",
    "C12_mult_vec_trans_storage"
   ],
   "note": "bit-exact characterisation of the product; dense sums and adjointness in exact arithmetic"
  },
  {
   "property": "C13",
   "status": "partial",
   "theorems": [
    "C13_eq_sound",
    "C13_eq_exact_partial",
    "C13_eq_refuted"
   ],
   "note": "false negatives for different sparsity patterns, asymmetric (refuted); sound, and exact for equal patterns"
  },
  {
   "property": "C14",
   "status": "proved",
   "theorems": [
    "C14_remove_rows",
    "C14_remove_cols",
    "C14_remove_entries"
   ],
   "note": "generic in the arithmetic"
  },
  {
   "property": "C15",
   "status": "partial",
   "theorems": [
    "C15_history",
    "C15_accepts",
    "C15_valid_partial",
    "C15_valid_refuted",
    "C15_eq_partial",
    "C15_eq_refuted",
    "C15_copy"
   ],
   "note": "consistency proved for all histories; the validity check traps on sets larger than the number of variables (refuted) and the equality test ignores states (refuted)"
  },
  {
   "property": "C16",
   "status": "proved",
   "theorems": [
    "C16_supports_vars",
    "C16_supports_cons",
    "C16_supports",
    "C16_supports_dense"
   ],
   "note": ""
  },
  {
   "property": "C17",
   "status": "proved",
   "theorems": [
    "C17_multiset",
    "C17_balance"
   ],
   "note": ""
  },
  {
   "property": "C18",
   "status": "partial",
   "theorems": [
    "C18_abstraction",
    "C18_history",
    "C18_partition_partial",
    "C18_first_block_refuted",
    "C18_query_refuted",
    "C18_query_rejects",
    "C18_copy_partial",
    "C18_copy_refuted"
   ],
   "note": "an empty first block is accepted, the query one past the last block is not rejected, copying into a smaller structure overflows (refuted); partition proved otherwise"
  },
  {
   "property": "C19",
   "status": "partial",
   "theorems": [
    "C19_lp_radius",
    "C19_radius",
    "C19_runs",
    "C19_runs_f64",
    "C19_positive_f64_refuted"
   ],
   "note": "proved in exact arithmetic and, for radii not below 2^-1000, on doubles; halving can underflow to zero on doubles (refuted)"
  },
  {
   "property": "C20",
   "status": "partial",
   "theorems": [
    "C20_penalty_partial",
    "C20_success_refuted"
   ],
   "note": "penalty growth and target proved; 100 unsuccessful increases still return success (refuted)"
  },
  {
   "property": "C21",
   "status": "proved",
   "theorems": [
    "C21_iterate",
    "C21_iterate_rev",
    "C21_value"
   ],
   "note": "bit-exact on doubles under the stated range condition, which is needed (example)"
  },
  {
   "property": "C22",
   "status": "partial",
   "theorems": [
    "C22_optimality_partial",
    "C22_unscaled_partial",
    "C22_gradient",
    "C22_jacobian",
    "C22_hessian",
    "C22_infinite_refuted",
    "C22_lsq_refuted",
    "C22_scaled_callbacks"
   ],
   "note": "exact arithmetic, without linear constraints and for finite bounds; infinite bounds become finite (refuted) and least-squares objectives are scaled by twice the weight of their gradient (refuted)"
  },
  {
   "property": "C23",
   "status": "partial",
   "theorems": [
    "C23_linear_partial",
    "C23_refuted",
    "C23_bounds_refuted",
    "C23_create_refuted"
   ],
   "note": "proved when the weights read happen to be those of the linear rows; false otherwise, out of bounds if all constraints are linear, and scaled problems with linear constraints cannot be created (refuted)"
  },
  {
   "property": "C24",
   "status": "partial",
   "theorems": [
    "C24_scalars_partial",
    "C24_vectors_partial",
    "C24_total_real",
    "C24_nan_refuted"
   ],
   "note": "proved on doubles and reals for values and bounds that are not NaN; a NaN constraint value counts as satisfied (refuted)"
  },
  {
   "property": "C25",
   "status": "partial",
   "theorems": [
    "C25_sound_partial",
    "C25_complete_partial",
    "C25_stationarity_real",
    "C25_nan_refuted"
   ],
   "note": "proved on doubles up to NaN in the residuals, which defeats the test (refuted); stationarity residual equals the Lagrangian gradient in exact arithmetic"
  },
  {
   "property": "C26",
   "status": "partial",
   "theorems": [
    "C26_step_partial",
    "C26_boundary_refuted"
   ],
   "note": "exact arithmetic; components at the bound they move towards are ignored (refuted), all others proved, with maximality"
  },
  {
   "property": "C27",
   "status": "partial",
   "theorems": [
    "C27_sound_partial",
    "C27_overflow_refuted",
    "C27_rounding_refuted"
   ],
   "note": "exact arithmetic, coefficients whose products with the bounds stay below half of infinity; large products and rounding make feasible problems infeasible (refuted over doubles)"
  },
  {
   "property": "C28",
   "status": "partial",
   "theorems": [
    "C28_transform_partial",
    "C28_restore_partial",
    "C28_circular_refuted",
    "C28_forcing_refuted",
    "C28_converted_refuted",
    "C28_room_refuted",
    "C28_fixed_refuted",
    "C28_conflict_refuted"
   ],
   "note": "exact arithmetic, both directions for problems with a feasible point; infeasible problems may restore to infeasible points, and preprocessing may end in an assertion or an error (refuted over doubles)"
  },
  {
   "property": "C29",
   "status": "partial",
   "theorems": [
    "C29_restore_partial",
    "C29_index_refuted",
    "C29_size_refuted",
    "C29_shared_refuted",
    "C29_first_row_refuted",
    "C29_unsupported_refuted"
   ],
   "note": "exact arithmetic, forcing constraints with disjoint variables whose residual is decided by the search; for shared variables, rows that do not decide, and unsupported reduced multipliers the code reads an uninitialised index, assigns the multiplier to a slack row or ends in an assertion (refuted over doubles)"
  },
  {
   "property": "C30",
   "status": "partial",
   "theorems": [
    "C30_setter",
    "C30_history",
    "C30_valid",
    "C30_getter",
    "C30_fenv_refuted"
   ],
   "note": "refinement to the last legal write over all histories; the two <fenv.h> flag options accept any integer (refuted)"
  },
  {
   "property": "C31",
   "status": "partial",
   "theorems": [
    "C31_applied_partial",
    "C31_accepted",
    "C31_unknown_refuted",
    "C31_bool_refuted",
    "C31_indent_refuted",
    "C31_wrap_refuted",
    "C31_long_refuted",
    "C31_augjac_refuted",
    "C31_missing_file"
   ],
   "note": "proved for lines that name an option with proper text; unknown keys, improper booleans, indented lines, integers beyond int, over-long lines and the augmented Jacobian option violate the full claim (refuted with witnesses); strtod is a parameter"
  },
  {
   "property": "C32",
   "status": "proved",
   "theorems": [
    "C32_enums",
    "C32_flags"
   ],
   "note": "all enums of types.c, all strings and integers; flag enums in general for single-flag entries"
  },
  {
   "property": "C33",
   "status": "partial",
   "theorems": [
    "C33_limit_partial",
    "C33_returns",
    "C33_begun",
    "C33_refuted",
    "C33_begun_refuted"
   ],
   "note": "limit on counted iterations, final status and return proved for every behaviour; unboundedness in the restoration phase ends in an assertion, and iterations that are begun but not counted exceed the limit (both refuted, with the exact bound on begun iterations proved)"
  },
  {
   "property": "C34",
   "status": "partial",
   "theorems": [
    "C34_optimal",
    "C34_unbounded_partial",
    "C34_unbounded_refuted",
    "C34_converse_partial",
    "C34_time_refuted",
    "C34_deadpoint_refuted"
   ],
   "note": "optimal status justified for every behaviour; unbounded status may be reported at an infeasible point and optimal iterates may be reported with another status (refuted)"
  },
  {
   "property": "C35",
   "status": "partial",
   "theorems": [
    "C35_initial_refuted",
    "C35_restoration_refuted",
    "C35_infeasible_refuted",
    "C35_main_loop_partial",
    "C35_no_restoration_partial"
   ],
   "note": "proved within a main loop and, without restoration, for whole calls; requests during the initial evaluation, in restoration, or in the iteration that leads to restoration are lost (refuted)"
  },
  {
   "property": "C36",
   "status": "partial",
   "theorems": [
    "C36_sum_partial",
    "C36_no_correction_partial",
    "C36_refuted"
   ],
   "note": "exact when no corrections are computed; corrected steps that are given up are not counted (refuted, with the exact sum proved)"
  },
  {
   "property": "C37",
   "status": "partial",
   "theorems": [
    "C37_bfgs_operator",
    "C37_secant",
    "C37_push_pair",
    "C37_undamped_refuted",
    "C37_zero_eps_refuted",
    "C37_initial_scale_refuted"
   ],
   "note": "exact arithmetic (zero tolerance 0), all block structures, histories and memory sizes; with doubles a positive zero tolerance breaks strict definiteness, undamped BFGS asserts on negative curvature, the initial scale is the reciprocal of the curvature (all refuted)"
  },
  {
   "property": "C38",
   "status": "proved",
   "theorems": [
    "C38_sr1_operator",
    "C38_secant"
   ],
   "note": "exact arithmetic, all block structures, histories and memory sizes, no condition on the pairs"
  },
  {
   "property": "C39",
   "status": "proved",
   "theorems": [
    "C39_bfgs_pairs",
    "C39_sr1_pairs"
   ],
   "note": "generic in the arithmetic, all block structures"
  },
  {
   "property": "C40",
   "status": "partial",
   "theorems": [
    "C40_direct",
    "C40_window",
    "C40_window_ref_unique",
    "C40_window_create",
    "C40_minstep",
    "C40_minstep_reference_refuted",
    "C40_minstep_start",
    "C40_minstep_history"
   ],
   "note": "direct and window rules proved; the minstep reference is not updated as documented (refuted)"
  },
  {
   "property": "C41",
   "status": "partial",
   "theorems": [
    "C41_copy_one",
    "C41_derived_partial",
    "C41_derived_refuted",
    "C41_lsq"
   ],
   "note": "copying one flag is exact; copying several at once copies any-of (refuted)"
  },
  {
   "property": "C42",
   "status": "proved",
   "theorems": [
    "C42_counts",
    "C42_once"
   ],
   "note": ""
  },
  {
   "property": "C43",
   "status": "partial",
   "theorems": [
    "C43_total",
    "C43_avg_partial",
    "C43_avg_refuted",
    "C43_elapsed_refuted"
   ],
   "note": "totals, remaining time and exhaustion proved; average and deviation only without corrections, refuted with corrections and, for the deviation, on doubles; elapsed time of a restarted timer includes the previous interval (refuted)"
  },
  {
   "property": "C44",
   "status": "proved",
   "theorems": [
    "C44_kept",
    "C44_polish",
    "C44_idempotent"
   ],
   "note": "any arithmetic, all histories of working sets; also which items survive, and idempotence"
  },
  {
   "property": "C45",
   "status": "partial",
   "theorems": [
    "C45_point",
    "C45_set_total",
    "C45_values",
    "C45_grad",
    "C45_hess",
    "C45_lsq_forward",
    "C45_lsq_adjoint",
    "C45_jac",
    "C45_create_total",
    "C45_hess_struct",
    "C45_lsq_jac_refuted"
   ],
   "note": "any arithmetic, all honest functions, fixed sets and call histories, including least-squares products and the block structure; a least-squares function without a nonzero hint has no room for its constraint Jacobian (refuted)"
  },
  {
   "property": "C46",
   "status": "partial",
   "theorems": [
    "C46_hessian_partial",
    "C46_refuted"
   ],
   "note": "proved for whole calls without callbacks on preprocessed problems, which move the function away (refuted)"
  },
  {
   "property": "C47",
   "status": "partial",
   "theorems": [
    "C47_create_partial",
    "C47_error_partial",
    "C47_stacked",
    "C47_nan_refuted",
    "C47_huge_refuted",
    "C47_unconstrained"
   ],
   "note": "proved on doubles for bounds that are not NaN and either infinite or at most 1e100; a NaN bound is accepted and finite bounds beyond 1e100 against an infinite bound are rejected (both refuted); stacking proved without restriction"
  },
  {
   "property": "C48",
   "status": "proved",
   "theorems": [
    "C48_values",
    "C48_values_real",
    "C48_jacobian",
    "C48_hessian"
   ],
   "note": "bit-exact for values, Jacobian and Hessian products; exact-arithmetic corollary up to the drop tolerance"
  },
  {
   "property": "C49",
   "status": "partial",
   "theorems": [
    "C49_value",
    "C49_real",
    "C49_monotone_doubles_partial",
    "C49_models_partial",
    "C49_zero_step",
    "C49_zero_step_refuted"
   ],
   "note": "merit value bit-exact, monotone in the penalty on doubles; models exact up to the drop tolerance, zero-step identity false for a positive one (refuted)"
  },
  {
   "property": "C50",
   "status": "proved",
   "theorems": [
    "C50_trans",
    "C50_trans_involutive"
   ],
   "note": ""
  },
  {
   "property": "C51",
   "status": "partial",
   "theorems": [
    "C51_vstack_partial",
    "C51_vstack_refuted"
   ],
   "note": "false when the result matrix is non-empty and wider (refuted); proved otherwise"
  },
  {
   "property": "C52",
   "status": "proved",
   "theorems": [
    "C52_scale",
    "C52_resize",
    "C52_copy"
   ],
   "note": ""
  },
  {
   "property": "C53",
   "status": "partial",
   "theorems": [
    "C53_values_partial",
    "C53_weights_refuted"
   ],
   "note": "point, bound and reported error proved; values survive a change of weights (refuted)"
  },
  {
   "property": "C54",
   "status": "partial",
   "theorems": [
    "C54_window",
    "C54_minstep",
    "C54_direct_partial",
    "C54_direct_refuted"
   ],
   "note": "window and minstep rules proved; the direct rule needs model reductions above the guard value, below it increases are accepted (refuted)"
  },
  {
   "property": "C55",
   "status": "proved",
   "theorems": [
    "C55_var_nominal",
    "C55_cons_nominal",
    "C55_obj_nominal"
   ],
   "note": "bit-exact on doubles"
  },
  {
   "property": "C56",
   "status": "partial",
   "theorems": [
    "C56_jac_weights",
    "C56_grad_weights",
    "C56_grad_refuted",
    "C56_jac_refuted"
   ],
   "note": "bounded weights proved on doubles; the sign of the weights is wrong, so entries grow instead of being normalised (refuted)"
  },
  {
   "property": "C57",
   "status": "partial",
   "theorems": [
    "C57_roundtrip",
    "C57_slacks_in_bounds",
    "C57_values",
    "C57_gradient",
    "C57_measures_infeasibility",
    "C57_first_phase_partial",
    "C57_reentry_refuted"
   ],
   "note": "exact arithmetic for the values, any arithmetic for the passage between the problems; a second restoration phase starts from cached residuals of the phase before (refuted)"
  },
  {
   "property": "C58",
   "status": "partial",
   "theorems": [
    "C58_timer_partial",
    "C58_refuted",
    "C58_error_refuted"
   ],
   "note": "main timer and phase proved; the timer of the trial point computation keeps running after a time limit, the main timer after an error (refuted)"
  },
  {
   "property": "C59",
   "status": "partial",
   "theorems": [
    "C59_values_partial",
    "C59_records",
    "C59_rejection",
    "C59_refuted"
   ],
   "note": "proved for whole calls unless an error during restoration coincides with the time limit, which mixes values of two points (refuted)"
  },
  {
   "property": "C60",
   "status": "partial",
   "theorems": [
    "C60_working_set",
    "C60_step_partial",
    "C60_unconstrained_step",
    "C60_step_in_bounds_refuted",
    "C60_created"
   ],
   "note": "any arithmetic for working set and multipliers; optimality in exact arithmetic, up to the differences the storage drops; over doubles the step may leave the bounds (refuted)"
  },
  {
   "property": "C61",
   "status": "proved",
   "theorems": [
    "C61_min_norm",
    "C61_lsq",
    "C61_project",
    "C61_unconstrained",
    "C61_order_refuted"
   ],
   "note": "exact arithmetic for optimality; for working sets not listed in order two functions fail an assertion (refuted), all functions of the solver list them in order"
  },
  {
   "property": "C62",
   "status": "partial",
   "theorems": [
    "C62_least_squares",
    "C62_mixed_partial",
    "C62_box",
    "C62_stored_zero_refuted"
   ],
   "note": "any arithmetic for clipping and merging, exact arithmetic for bounds only; a stored zero among the multipliers ends in an assertion (refuted)"
  },
  {
   "property": "C63",
   "status": "partial",
   "theorems": [
    "C63_boundary",
    "C63_tolerance_refuted"
   ],
   "note": "exact arithmetic; a point outside by less than the tolerance passes the test and fails the assertion on the discriminant (refuted)"
  },
  {
   "property": "C64",
   "status": "partial",
   "theorems": [
    "C64_outcome",
    "C64_solution",
    "C64_dual",
    "C64_rayleigh",
    "C64_box",
    "C64_iteration_limit_refuted",
    "C64_dual_refuted"
   ],
   "note": "exact arithmetic with zero_eps = 0; the iteration limit returns success with the zero step instead of the iterate (refuted), boundary steps of nonpositive curvature carry the dual -1 (refuted)"
  },
  {
   "property": "C65",
   "status": "partial",
   "theorems": [
    "C65_step",
    "C65_descent",
    "C65_value_refuted",
    "C65_tests_refuted"
   ],
   "note": "exact arithmetic with zero_eps = 0; when the zero direction is returned the value belongs to the last step tested (refuted over doubles), and a factor 1, which the settings admit, ends in an assertion (refuted)"
  },
  {
   "property": "C66",
   "status": "partial",
   "theorems": [
    "C66_step",
    "C66_descent_partial",
    "C66_descent_refuted",
    "C66_bounds_refuted"
   ],
   "note": "exact arithmetic with zero_eps = 0; the slope leaves out the penalty parameter, so a descent direction may end at a worse point (refuted in exact arithmetic), and a variable at its bound may leave it (refuted over doubles)"
  },
  {
   "property": "C67",
   "status": "partial",
   "theorems": [
    "C67_step_partial",
    "C67_value_refuted",
    "C67_minimum_refuted",
    "C67_bounds_refuted"
   ],
   "note": "exact arithmetic with zero_eps = 0, rows that count must not lie behind the last entry of violation or change; otherwise they are left out, so the value is too small or the minimum is missed; bounds of variables are not looked at (refuted over doubles)"
  },
  {
   "property": "C68",
   "status": "partial",
   "theorems": [
    "C68_step",
    "C68_tangential",
    "C68_violation",
    "C68_box",
    "C68_accuracy_refuted",
    "C68_overflow_refuted"
   ],
   "note": "exact arithmetic with zero_eps = 0; an accuracy above 1/5, which the settings admit, gives a step outside of the trust region and an undefined reduced radius, and the square of a large radius overflows (both refuted over doubles)"
  },
  {
   "property": "C69",
   "status": "partial",
   "theorems": [
    "C69_direction",
    "C69_model",
    "C69_descent",
    "C69_box",
    "C69_descent_refuted"
   ],
   "note": "exact arithmetic with zero_eps = 0, finite model values; when a constraint outside of the working set becomes violated the merit model may increase (refuted over doubles)"
  },
  {
   "property": "C70",
   "status": "partial",
   "theorems": [
    "C70_step",
    "C70_shrinks",
    "C70_static",
    "C70_dynamic_unchanged",
    "C70_dynamic_refuted",
    "C70_bounds_refuted"
   ],
   "note": "exact arithmetic with zero_eps = 0; for dynamic functions the trial iterate is left unchanged whatever the corrected direction, and a function without callers leaves the bounds (both refuted over doubles)"
  },
  {
   "property": "C71",
   "status": "partial",
   "theorems": [
    "C71_exit",
    "C71_reduction",
    "C71_ends_partial",
    "C71_ends_refuted",
    "C71_no_reduction"
   ],
   "note": "exact arithmetic; functions that meet the bounds without margin may be refined forever, and without predicted reduction the demanded bound is negative and the call fails (refuted)"
  },
  {
   "property": "C72",
   "status": "partial",
   "theorems": [
    "C72_matrix",
    "C72_current",
    "C72_regular",
    "C72_run",
    "C72_min_norm",
    "C72_lsq",
    "C72_project",
    "C72_rounding",
    "C72_trust",
    "C72_failure_refuted",
    "C72_order_refuted"
   ],
   "note": "any arithmetic for the matrix and its reuse, exact arithmetic for the solves; a failed factorization is reported once only, the next call with the same working set reports success, and working sets not listed in order end in an assertion (both refuted over doubles)"
  },
  {
   "property": "C73",
   "status": "partial",
   "theorems": [
    "C73_matrix",
    "C73_current",
    "C73_regular",
    "C73_run",
    "C73_min_norm",
    "C73_lsq",
    "C73_project",
    "C73_trust",
    "C73_standard",
    "C73_rounding",
    "C73_failure_refuted",
    "C73_tolerance_refuted"
   ],
   "note": "any arithmetic for the matrix and its reuse, exact arithmetic for the solves; a failed factorization is reported once only (refuted over doubles), and the tolerance for zeros is no bound on the error of the solution (refuted, for every tolerance and every size of the error)"
  },
  {
   "property": "C74",
   "status": "partial",
   "theorems": [
    "C74_matrix",
    "C74_current",
    "C74_memory_refuted",
    "C74_min_norm",
    "C74_lsq",
    "C74_project",
    "C74_trust",
    "C74_ordering",
    "C74_shift_refuted",
    "C74_ordering_refuted"
   ],
   "note": "the matrix is fully characterised: it is the right one only if no active constraint has an entry left of all active variables (otherwise wrong solutions in exact arithmetic, refuted), and the call leaves its arrays if the working set has more rows than there are constraints (for all such inputs, any arithmetic); with column permutations in the QR factorization, as fact_spqr.c requests them, right hand sides and multipliers are permuted (refuted; what SPQR does is taken from its documentation); the solves are right otherwise"
  },
  {
   "property": "C75",
   "status": "partial",
   "theorems": [
    "C75_step",
    "C75_value",
    "C75_criticality",
    "C75_iterate",
    "C75_radius"
   ],
   "note": "exact arithmetic; the LP solver is a parameter whose answers are assumed optimal, feasible and consistent with their basis for the programs met on the way; time limits, the numerical assertions and the condition number are left out"
  },
  {
   "property": "C76",
   "status": "partial",
   "theorems": [
    "C76_working_set",
    "C76_fixed_refuted"
   ],
   "note": "exact arithmetic; assumes a regular basis, that variables with equal bounds are nonbasic (C76_fixed_refuted: otherwise the working set can have more rows than variables and the assertion of its validity fails) and that infinite bounds are further from the iterate than the radius of the trust region"
  },
  {
   "property": "C77",
   "status": "partial",
   "theorems": [
    "C77_signs",
    "C77_multipliers",
    "C77_reduced_refuted"
   ],
   "note": "exact arithmetic; the certificate (prices complementary to the bounds, zero on the basis) is assumed of the LP solver; the optimality conditions are proved if the LP was not solved again without slack variables and are false otherwise (C77_reduced_refuted: working set of one LP, multipliers of the other)"
  },
  {
   "property": "C78",
   "status": "partial",
   "theorems": [
    "C78_answer",
    "C78_infeasible",
    "C78_degenerate_refuted"
   ],
   "note": "exact arithmetic; the certificate is assumed of the LP solver; variables whose bounds count as equal must have bounds closer than the trust radius; that a positive answer implies a violated constraint is false at degenerate bases (C78_degenerate_refuted)"
  },
  {
   "property": "C79",
   "status": "partial",
   "theorems": [
    "C79_forward_partial",
    "C79_back",
    "C79_linesearch",
    "C79_descent",
    "C79_total",
    "C79_unconstrained",
    "C79_forward_refuted",
    "C79_missed_refuted",
    "C79_first_call_refuted",
    "C79_stale_refuted",
    "C79_trust_refuted",
    "C79_radius_refuted"
   ],
   "note": "exact arithmetic with zero_eps = 0; the solver of the linear programs enters through a specification, met by the unconstrained one; the search for larger radii returns products of the first step and misses decrease (refuted), the line search is called without or with the previous iterate, and the step may leave the trust region and the radius returned (refuted over doubles)"
  },
  {
   "property": "C80",
   "status": "partial",
   "theorems": [
    "C80_penalty",
    "C80_direction",
    "C80_step",
    "C80_reset_refuted",
    "C80_left_refuted"
   ],
   "note": "exact arithmetic with zero_eps = 0; the solver of the linear programs enters through a specification, met by a solver for one variable; the step must not be zero; after a reset the step can raise the model, and the solver may be left with the program without objective (both refuted over doubles)"
  },
  {
   "property": "C81",
   "status": "partial",
   "theorems": [
    "C81_solve",
    "C81_exact",
    "C81_stored",
    "C81_radius_refuted",
    "C81_outside_refuted"
   ],
   "note": "exact arithmetic with eps = zero_eps = 0 and an exact hypot; the products are exact ones, met by the products of stored matrices (C81_stored); over doubles small radii are exceeded or lead to a failing assertion (refuted)"
  },
  {
   "property": "C82",
   "status": "partial",
   "theorems": [
    "C82_step",
    "C82_create",
    "C82_empty",
    "C82_merit_refuted"
   ],
   "note": "exact arithmetic with eps = zero_eps = 0 and an exact hypot; the projection onto the nullspace and the solution of smallest norm are assumed exact (met by an empty working set, C82_empty); a decrease of the model of the merit function is refuted (C82_merit_refuted)"
  },
  {
   "property": "C83",
   "status": "partial",
   "theorems": [
    "C83_calls",
    "C83_gradient",
    "C83_hessian",
    "C83_failed_point_refuted",
    "C83_psd_refuted",
    "C83_hint_refuted",
    "C83_refuses",
    "C83_replaced"
   ],
   "note": "exact arithmetic with zero_eps = 0; the answers up to the first point that could not be set: those behind it are refuted (C83_failed_point_refuted), as are semidefiniteness for factors set later (C83_psd_refuted) and the reported nonzeros (C83_hint_refuted)"
  },
  {
   "property": "C84",
   "status": "partial",
   "theorems": [
    "C84_check",
    "C84_restored",
    "C84_mean_value",
    "C84_accepts",
    "C84_iterate_refuted",
    "C84_rejected_refuted",
    "C84_lost"
   ],
   "note": "exact arithmetic with zero_eps = 0, evaluations that do not fail, iterate not rejected; checks of Hessian products at the iterate (C84_iterate_refuted) and of directions with rejected points (C84_rejected_refuted) are refuted"
  },
  {
   "property": "C85",
   "status": "partial",
   "theorems": [
    "C85_nonlin",
    "C85_curvature",
    "C85_merit",
    "C85_percent",
    "C85_percent_refuted",
    "C85_zero_refuted",
    "C85_report",
    "C85_lines",
    "C85_penalty"
   ],
   "note": "exact arithmetic with zero_eps = 0; percentages from zero (C85_percent_refuted) and the step of length zero in doubles (C85_zero_refuted) are refuted"
  }
 ]
}