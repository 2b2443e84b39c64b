notes["C01"] = (None, "generic in the arithmetic, hence bit-exact for doubles")
notes["C02"] = (None, "generic in the arithmetic; exact-arithmetic corollary")
notes["C04"] = (None, "exact arithmetic (reals)")
notes["C07"] = ("partial", "false for a positive drop tolerance (refuted); proved when dropping small values stays in the box, in particular for tolerance zero")
notes["C09"] = ("partial", "false as coded: the last entry is never inspected (refuted); exact characterisation of what is checked")
notes["C10"] = ("partial", "coherence proved for all finite doubles and tolerances >= 0; the sign tests agree with comparison against zero only for tolerances below one (refuted at one)")
notes["C11"] = ("partial", "building and reading back proved; validity check accepts all well-formed matrices, but is unsound when the entry count is zero (refuted), sound otherwise given a zero first column pointer")
notes["C12"] = (None, "bit-exact characterisation of the product; dense sums and adjointness in exact arithmetic")
notes["C13"] = ("partial", "false negatives for different sparsity patterns, asymmetric (refuted); sound, and exact for equal patterns")
notes["C14"] = (None, "generic in the arithmetic")
notes["C51"] = ("partial", "false when the result matrix is non-empty and wider (refuted); proved otherwise")
notes["C15"] = ("partial", "consistency proved for all histories; the validity check traps on sets larger than the number of variables (refuted) and the equality test ignores states (refuted)")
notes["C18"] = ("partial", "an empty first block is accepted, the query one past the last block is not rejected, copying into a smaller structure overflows (refuted); partition proved otherwise")
notes["C19"] = ("partial", "proved in exact arithmetic and, for radii not below 2^-1000, on doubles; halving can underflow to zero on doubles (refuted)")
notes["C20"] = ("partial", "penalty growth and target proved; 100 unsuccessful increases still return success (refuted)")
notes["C40"] = ("partial", "direct and window rules proved; the minstep reference is not updated as documented (refuted)")
notes["C54"] = ("partial", "window and minstep rules proved; the direct rule needs model reductions above the guard value, below it increases are accepted (refuted)")
notes["C41"] = ("partial", "copying one flag is exact; copying several at once copies any-of (refuted)")
notes["C43"] = ("partial", "totals, remaining time and exhaustion proved; average and deviation only without corrections, refuted with corrections and, for the deviation, on doubles; elapsed time of a restarted timer includes the previous interval (refuted)")
notes["C53"] = ("partial", "point, bound and reported error proved; values survive a change of weights (refuted)")
notes["C24"] = ("partial", "proved on doubles and reals for values and bounds that are not NaN; a NaN constraint value counts as satisfied (refuted)")
notes["C25"] = ("partial", "proved on doubles up to NaN in the residuals, which defeats the test (refuted); stationarity residual equals the Lagrangian gradient in exact arithmetic")
notes["C26"] = ("partial", "exact arithmetic; components at the bound they move towards are ignored (refuted), all others proved, with maximality")
notes["C49"] = ("partial", "merit value bit-exact, monotone in the penalty on doubles; models exact up to the drop tolerance, zero-step identity false for a positive one (refuted)")
notes["C47"] = ("partial", "proved on doubles for bounds that are not NaN and either infinite or at most 1e100; a NaN bound is accepted and finite bounds beyond 1e100 against an infinite bound are rejected (both refuted); stacking proved without restriction")
notes["C48"] = (None, "bit-exact for values, Jacobian and Hessian products; exact-arithmetic corollary up to the drop tolerance")
notes["C30"] = (None, "refinement to the last legal write over all histories; the two <fenv.h> flag options accept any integer (refuted)")
notes["C31"] = ("partial", "proved for lines that name an option with proper text; unknown keys, improper booleans, indented lines, integers beyond int, over-long lines and the augmented Jacobian option violate the full claim (refuted with witnesses); strtod is a parameter")
notes["C32"] = (None, "all enums of types.c, all strings and integers; flag enums in general for single-flag entries")
notes["C21"] = (None, "bit-exact on doubles under the stated range condition, which is needed (example)")
notes["C22"] = ("partial", "exact arithmetic, without linear constraints and for finite bounds; infinite bounds become finite (refuted) and least-squares objectives are scaled by twice the weight of their gradient (refuted)")
notes["C23"] = ("partial", "proved when the weights read happen to be those of the linear rows; false otherwise, out of bounds if all constraints are linear, and scaled problems with linear constraints cannot be created (refuted)")
notes["C55"] = (None, "bit-exact on doubles")
notes["C56"] = ("partial", "bounded weights proved on doubles; the sign of the weights is wrong, so entries grow instead of being normalised (refuted)")
notes["C37"] = ("partial", "exact arithmetic (zero tolerance 0), all block structures, histories and memory sizes; with doubles a positive zero tolerance breaks strict definiteness, undamped BFGS asserts on negative curvature, the initial scale is the reciprocal of the curvature (all refuted)")
notes["C38"] = (None, "exact arithmetic, all block structures, histories and memory sizes, no condition on the pairs")
notes["C39"] = (None, "generic in the arithmetic, all block structures")
notes["C57"] = ("partial", "exact arithmetic for the values, any arithmetic for the passage between the problems; a second restoration phase starts from cached residuals of the phase before (refuted)")
notes["C33"] = ("partial", "limit on counted iterations, final status and return proved for every behaviour; unboundedness in the restoration phase ends in an assertion, and iterations that are begun but not counted exceed the limit (both refuted, with the exact bound on begun iterations proved)")
notes["C34"] = ("partial", "optimal status justified for every behaviour; unbounded status may be reported at an infeasible point and optimal iterates may be reported with another status (refuted)")
notes["C35"] = ("partial", "proved within a main loop and, without restoration, for whole calls; requests during the initial evaluation, in restoration, or in the iteration that leads to restoration are lost (refuted)")
notes["C36"] = ("partial", "exact when no corrections are computed; corrected steps that are given up are not counted (refuted, with the exact sum proved)")
notes["C46"] = ("partial", "proved for whole calls without callbacks on preprocessed problems, which move the function away (refuted)")
notes["C58"] = ("partial", "main timer and phase proved; the timer of the trial point computation keeps running after a time limit, the main timer after an error (refuted)")
notes["C59"] = ("partial", "proved for whole calls unless an error during restoration coincides with the time limit, which mixes values of two points (refuted)")
notes["C44"] = (None, "any arithmetic, all histories of working sets; also which items survive, and idempotence")
notes["C45"] = ("partial", "any arithmetic, all honest functions, fixed sets and call histories, including least-squares products and the block structure; a least-squares function without a nonzero hint has no room for its constraint Jacobian (refuted)")
notes["C27"] = ("partial", "exact arithmetic, coefficients whose products with the bounds stay below half of infinity; large products and rounding make feasible problems infeasible (refuted over doubles)")
notes["C28"] = ("partial", "exact arithmetic, both directions for problems with a feasible point; infeasible problems may restore to infeasible points, and preprocessing may end in an assertion or an error (refuted over doubles)")
notes["C29"] = ("partial", "exact arithmetic, forcing constraints with disjoint variables whose residual is decided by the search; for shared variables, rows that do not decide, and unsupported reduced multipliers the code reads an uninitialised index, assigns the multiplier to a slack row or ends in an assertion (refuted over doubles)")
notes["C60"] = ("partial", "any arithmetic for working set and multipliers; optimality in exact arithmetic, up to the differences the storage drops; over doubles the step may leave the bounds (refuted)")
notes["C61"] = ("proved", "exact arithmetic for optimality; for working sets not listed in order two functions fail an assertion (refuted), all functions of the solver list them in order")
notes["C62"] = ("partial", "any arithmetic for clipping and merging, exact arithmetic for bounds only; a stored zero among the multipliers ends in an assertion (refuted)")
notes["C63"] = ("partial", "exact arithmetic; a point outside by less than the tolerance passes the test and fails the assertion on the discriminant (refuted)")
notes["C64"] = ("partial", "exact arithmetic with zero_eps = 0; the iteration limit returns success with the zero step instead of the iterate (refuted), boundary steps of nonpositive curvature carry the dual -1 (refuted)")
notes["C65"] = ("partial", "exact arithmetic with zero_eps = 0; when the zero direction is returned the value belongs to the last step tested (refuted over doubles), and a factor 1, which the settings admit, ends in an assertion (refuted)")
notes["C66"] = ("partial", "exact arithmetic with zero_eps = 0; the slope leaves out the penalty parameter, so a descent direction may end at a worse point (refuted in exact arithmetic), and a variable at its bound may leave it (refuted over doubles)")
notes["C67"] = ("partial", "exact arithmetic with zero_eps = 0, rows that count must not lie behind the last entry of violation or change; otherwise they are left out, so the value is too small or the minimum is missed; bounds of variables are not looked at (refuted over doubles)")
notes["C68"] = ("partial", "exact arithmetic with zero_eps = 0; an accuracy above 1/5, which the settings admit, gives a step outside of the trust region and an undefined reduced radius, and the square of a large radius overflows (both refuted over doubles)")
notes["C69"] = ("partial", "exact arithmetic with zero_eps = 0, finite model values; when a constraint outside of the working set becomes violated the merit model may increase (refuted over doubles)")
notes["C70"] = ("partial", "exact arithmetic with zero_eps = 0; for dynamic functions the trial iterate is left unchanged whatever the corrected direction, and a function without callers leaves the bounds (both refuted over doubles)")
notes["C71"] = ("partial", "exact arithmetic; functions that meet the bounds without margin may be refined forever, and without predicted reduction the demanded bound is negative and the call fails (refuted)")
notes["C72"] = ("partial", "any arithmetic for the matrix and its reuse, exact arithmetic for the solves; a failed factorization is reported once only, the next call with the same working set reports success, and working sets not listed in order end in an assertion (both refuted over doubles)")
notes["C74"] = ("partial", "the matrix is fully characterised: it is the right one only if no active constraint has an entry left of all active variables (otherwise wrong solutions in exact arithmetic, refuted), and the call leaves its arrays if the working set has more rows than there are constraints (for all such inputs, any arithmetic); with column permutations in the QR factorization, as fact_spqr.c requests them, right hand sides and multipliers are permuted (refuted; what SPQR does is taken from its documentation); the solves are right otherwise")
notes["C73"] = ("partial", "any arithmetic for the matrix and its reuse, exact arithmetic for the solves; a failed factorization is reported once only (refuted over doubles), and the tolerance for zeros is no bound on the error of the solution (refuted, for every tolerance and every size of the error)")
notes["C75"] = ("partial", "exact arithmetic; the LP solver is a parameter whose answers are assumed optimal, feasible and consistent with their basis for the programs met on the way; time limits, the numerical assertions and the condition number are left out")
notes["C76"] = ("partial", "exact arithmetic; assumes a regular basis, that variables with equal bounds are nonbasic (C76_fixed_refuted: otherwise the working set can have more rows than variables and the assertion of its validity fails) and that infinite bounds are further from the iterate than the radius of the trust region")
notes["C77"] = ("partial", "exact arithmetic; the certificate (prices complementary to the bounds, zero on the basis) is assumed of the LP solver; the optimality conditions are proved if the LP was not solved again without slack variables and are false otherwise (C77_reduced_refuted: working set of one LP, multipliers of the other)")
notes["C78"] = ("partial", "exact arithmetic; the certificate is assumed of the LP solver; variables whose bounds count as equal must have bounds closer than the trust radius; that a positive answer implies a violated constraint is false at degenerate bases (C78_degenerate_refuted)")
notes["C79"] = ("partial", "exact arithmetic with zero_eps = 0; the solver of the linear programs enters through a specification, met by the unconstrained one; the search for larger radii returns products of the first step and misses decrease (refuted), the line search is called without or with the previous iterate, and the step may leave the trust region and the radius returned (refuted over doubles)")
notes["C80"] = ("partial", "exact arithmetic with zero_eps = 0; the solver of the linear programs enters through a specification, met by a solver for one variable; the step must not be zero; after a reset the step can raise the model, and the solver may be left with the program without objective (both refuted over doubles)")
notes["C81"] = ("partial", "exact arithmetic with eps = zero_eps = 0 and an exact hypot; the products are exact ones, met by the products of stored matrices (C81_stored); over doubles small radii are exceeded or lead to a failing assertion (refuted)")
notes["C82"] = ("partial", "exact arithmetic with eps = zero_eps = 0 and an exact hypot; the projection onto the nullspace and the solution of smallest norm are assumed exact (met by an empty working set, C82_empty); a decrease of the model of the merit function is refuted (C82_merit_refuted)")
notes["C83"] = ("partial", "exact arithmetic with zero_eps = 0; the answers up to the first point that could not be set: those behind it are refuted (C83_failed_point_refuted), as are semidefiniteness for factors set later (C83_psd_refuted) and the reported nonzeros (C83_hint_refuted)")
notes["C84"] = ("partial", "exact arithmetic with zero_eps = 0, evaluations that do not fail, iterate not rejected; checks of Hessian products at the iterate (C84_iterate_refuted) and of directions with rejected points (C84_rejected_refuted) are refuted")
notes["C85"] = ("partial", "exact arithmetic with zero_eps = 0; percentages from zero (C85_percent_refuted) and the step of length zero in doubles (C85_zero_refuted) are refuted")
