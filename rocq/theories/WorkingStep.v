(** The step to the working set (/repo/src/main/working_step.c), the Newton direction
    (/repo/src/main/newton.c), the second-order correction (/repo/src/main/soc.c), trial points
    and the refinement of dynamic functions (/repo/src/main/trial_point.c).  Parameters that may
    fail: the solution of the augmented system, the trust region solver, the Hessian product.
    Left out: the checks that are compiled only with SLEQP_DEBUG or numerical assertions, the
    logging, timers and reference counts. *)
From Verif Require Import Base Num Cmp Sparse Vec Mat WorkingSet Feas Cauchy LineSearch.
Local Open Scope Z_scope.

Section WorkingStep.
Context {N : Num}.

Definition neg1 : num := nlit (-1) 1.

(** ** working_step.c *)

(** The vectors of working_step.c:22-36 with the results that are queried, 37-38. *)
Record wstep := mkwstep {
  t_lower : vec; t_upper : vec; t_rhs : vec; t_init : vec; t_dir : dirn;
  t_cons : vec; t_mult : vec; t_reduced : num; t_in : bool }.

(** working_step.c:178-196 and 249-267 *)
Definition rhs_item (st : ast) (k : Z) (lower upper : num) (rhs : vec) : res vec :=
  check (negb (active st) || negb (k =? none)) ;;;
  match st with
  | ActUpper => vec_push rhs k upper
  | ActLower => vec_push rhs k lower
  | ActBoth => vec_push rhs k lower
  | Inactive => Ok rhs
  end.

(** working_step.c:155-208 and 226-278: the entries of the two differences are visited
    together; [index] and [state] query the working set. *)
Definition rhs_part (index : Z -> res Z) (state : Z -> res ast) (lower upper rhs : vec) : res vec :=
  rows <- align (vdim lower) [vent lower; vent upper] ;;
  rfold (fun rhs row =>
    match snd row with
    | [a; b] =>
      k <- index (fst row) ;; st <- state (fst row) ;;
      rhs_item st k (oval a) (oval b) rhs
    | _ => Trap
    end) rhs rows.

(** working_step.c:113-282: right hand side and the two differences *)
Definition initial_rhs (X : lctx) (w : wset) (T : wstep) : res (vec * vec * vec) :=
  let size := ws_size w in
  rhs <- vec_resize (t_rhs T) size ;;
  rhs <- vec_reserve (vec_clear rhs) size ;;
  rhs <- vec_resize rhs size ;;
  upper <- vec_add_scaled (lx_x X) (lx_vub X) neg1 n1 (lx_zero X) (t_upper T) ;;
  lower <- vec_add_scaled (lx_x X) (lx_vlb X) neg1 n1 (lx_zero X) (t_lower T) ;;
  rhs <- rhs_part (ws_var_index w) (ws_var_state w) lower upper rhs ;;
  upper <- vec_add_scaled (lx_cons X) (lx_cub X) neg1 n1 (lx_zero X) upper ;;
  lower <- vec_add_scaled (lx_cons X) (lx_clb X) neg1 n1 (lx_zero X) lower ;;
  rhs <- rhs_part (ws_cons_index w) (ws_cons_state w) lower upper rhs ;;
  Ok (rhs, lower, upper).

(** norm_ratio, working_step.c:12 *)
Definition norm_ratio : num := nlit 8 10.

(** working_step.c:326-357, direction.c:58-74: value and constraint part of a direction *)
Definition fill_direction (X : lctx) (jac : mat) (d : dirn) : res dirn :=
  o <- vec_dot (d_primal d) (lx_grad X) ;;
  a <- mat_mult_vec jac (d_primal d) ;;
  c <- vec_set_from_raw (d_cons d) (firstn (Z.to_nat (lx_nc X)) a) (lx_zero X) ;;
  Ok (mkdirn (d_primal d) o c (d_hess d)).

(** working_step.c:359-416; the result is the direction, the reduced trust radius and the flag
    initial_step_in_working_set. *)
Definition initial_step (X : lctx) (jac : mat) (init : vec) (d : dirn) : res (dirn * num * bool) :=
  p <- vec_copy init (d_primal d) ;;
  let norm := vec_norm init in
  let radius := lx_radius X in
  r <- (if negb (norm =? n0)%num then
          check (n0 <? norm)%num ;;;
          let alpha := nmin ((norm_ratio * radius) / norm)%num n1 in
          if is_eq alpha n1 (lx_eps X) then
            Ok (p, nsqrt (radius * radius - norm * norm)%num, true)
          else Ok (vec_scale p alpha, (radius * nsqrt (n1 - norm_ratio * norm_ratio))%num, false)
        else Ok (p, radius, true)) ;;
  let '(p, reduced, inw) := r in
  d <- fill_direction X jac (mkdirn p (d_obj d) (d_cons d) (d_hess d)) ;;
  Ok (d, reduced, inw).

(** working_step.c:284-322 and 359-479; [min_norm] is [sleqp_aug_jac_solve_min_norm]. *)
Definition working_step (X : lctx) (jac : mat) (w : wset) (min_norm : vec -> vec -> res vec) (T : wstep)
    : res wstep :=
  r <- initial_rhs X w T ;;
  let '(rhs, lower, upper) := r in
  init <- min_norm rhs (t_init T) ;;
  s <- initial_step X jac init (t_dir T) ;;
  let '(d, reduced, inw) := s in
  c <- vec_add (lx_cons X) (d_cons d) (lx_zero X) (t_cons T) ;;
  m <- violated_multipliers (lx_nc X) c (lx_clb X) (lx_cub X) (t_mult T) (Some w) ;;
  Ok (mkwstep lower upper rhs init d c m reduced inw).

(** working_step.c:87-111 *)
Definition newton_offset (X : lctx) (T : wstep) : res num :=
  v <- total_violation (lx_nc X) (t_cons T) (lx_clb X) (lx_cub X) ;;
  Ok (n0 + lx_obj X + lx_pen X * v)%num.

(** working_step.c:515-530; [hess] is the product with the Hessian of the Lagrangian at the
    given multipliers. *)
Definition set_multipliers (hess : vec -> vec -> res vec) (T : wstep) : res wstep :=
  let d := t_dir T in
  h <- hess (d_primal d) (d_hess d) ;;
  Ok (mkwstep (t_lower T) (t_upper T) (t_rhs T) (t_init T) (mkdirn (d_primal d) (d_obj d) (d_cons d) h)
        (t_cons T) (t_mult T) (t_reduced T) (t_in T)).

(** ** direction.c:44-82 *)
Definition dir_reset (X : lctx) (jac : mat) (hess : vec -> vec -> res vec) (d : dirn) : res dirn :=
  d <- (if 0 <? lx_nc X then fill_direction X jac d
        else o <- vec_dot (d_primal d) (lx_grad X) ;;
             Ok (mkdirn (d_primal d) o (vec_clear (d_cons d)) (d_hess d))) ;;
  h <- hess (d_primal d) (d_hess d) ;;
  Ok (mkdirn (d_primal d) (d_obj d) (d_cons d) h).

(** ** newton.c *)

(** newton.c:193-216 *)
Definition add_violated (X : lctx) (cons_dual mult r : vec) : res vec :=
  vec_add_scaled cons_dual mult n1 (lx_pen X) (lx_zero X) r.

(** newton.c:351-390 *)
Definition newton_gradient (X : lctx) (jac : mat) (T : wstep) (cache product gradient : vec) : res vec :=
  s <- vec_add (d_hess (t_dir T)) (lx_grad X) (lx_zero X) cache ;;
  p <- mat_mult_vec_trans jac (t_mult T) (lx_zero X) product ;;
  vec_add_scaled s p n1 (lx_pen X) (lx_zero X) gradient.

(** newton.c:396-426 with its assertion; the value is only logged. *)
Definition newton_objective (X : lctx) (T : wstep) (d : dirn) : res num :=
  o <- newton_offset X T ;;
  b <- vec_dot (d_primal d) (d_hess d) ;;
  let v := (o + d_obj d + nlit 1 2 * b)%num in
  check (is_finite v) ;;; Ok v.

(** newton.c:442-594; [solve gradient step radius] is the trust region solver, which also returns
    the smallest and largest Rayleigh quotient (assertion of newton.c:333). *)
Definition newton_direction (X : lctx) (jac : mat) (hess : vec -> vec -> res vec)
    (solve : vec -> vec -> num -> res (vec * num * num)) (T : wstep) (cache product gradient tr_step : vec) (d : dirn)
    : res dirn :=
  T <- set_multipliers hess T ;;
  newton_objective X T (t_dir T) ;;;
  if is_zero (t_reduced T) (lx_zero X) then dir_copy (t_dir T) d
  else
    g <- newton_gradient X jac T cache product gradient ;;
    r <- solve g tr_step (t_reduced T) ;;
    let '(z, lo, hi) := r in
    check (lo <=? hi)%num ;;;
    p <- vec_add z (d_primal (t_dir T)) (lx_zero X) (d_primal d) ;;
    d <- dir_reset X jac hess (mkdirn p (d_obj d) (d_cons d) (d_hess d)) ;;
    newton_objective X T d ;;; Ok d.

(** ** soc.c *)

(** soc.c:122-145 and 211-235 *)
Definition soc_item (eps : num) (st : ast) (k : Z) (ld ud : num) (rhs : vec) : res vec :=
  match st with
  | Inactive => Ok rhs
  | ActUpper => if is_zero ud eps then Ok rhs else vec_push rhs k ud
  | ActLower => if is_zero ld eps then Ok rhs else vec_push rhs k ld
  | ActBoth => vec_push rhs k ud
  end.

(** soc.c:102-146 and 191-236: the cursors of the two differences move along with the index. *)
Definition soc_part (eps : num) (index : Z -> res Z) (state : Z -> res ast) (num_items : Z) (lower upper rhs : vec) : res vec :=
  r <- rfold (fun s i =>
    let '(ll, lu, rhs) := s in
    let ll := drop_lt i ll in let lu := drop_lt i lu in
    st <- state i ;;
    if active st then
      k <- index i ;; rhs <- soc_item eps st k (head_at i ll) (head_at i lu) rhs ;; Ok (ll, lu, rhs)
    else Ok (ll, lu, rhs)) (vent lower, vent upper, rhs) (zrange num_items) ;;
  Ok (snd r).

(** Vectors of soc.c:18-24. *)
Record soc := mksoc { o_lower : vec; o_upper : vec; o_dir : vec; o_corr : vec; o_rhs : vec }.

(** soc.c:82-100 and 171-189: [first] are the values at the trial point. *)
Definition soc_diff (zero_eps : num) (num_items : Z) (first bound d : vec) : res vec :=
  d <- vec_resize (vec_clear d) num_items ;;
  vec_add_scaled first bound neg1 n1 zero_eps d.

(** soc.c:62-149, 151-239 and 241-265; [tx], [tc] are the trial point and the constraint values
    there. *)
Definition soc_correction (X : lctx) (nv : Z) (w : wset) (min_norm : vec -> vec -> res vec) (tx tc : vec) (S : soc)
    : res soc :=
  rhs <- vec_resize (vec_clear (o_rhs S)) (ws_size w) ;;
  rhs <- vec_reserve rhs (ws_size w) ;;
  lower <- soc_diff (lx_zero X) nv tx (lx_vlb X) (o_lower S) ;;
  upper <- soc_diff (lx_zero X) nv tx (lx_vub X) (o_upper S) ;;
  rhs <- soc_part (lx_eps X) (ws_var_index w) (ws_var_state w) nv lower upper rhs ;;
  lower <- soc_diff (lx_zero X) (lx_nc X) tc (lx_clb X) lower ;;
  upper <- soc_diff (lx_zero X) (lx_nc X) tc (lx_cub X) upper ;;
  rhs <- soc_part (lx_eps X) (ws_cons_index w) (ws_cons_state w) (lx_nc X) lower upper rhs ;;
  d <- min_norm rhs (o_dir S) ;;
  Ok (mksoc lower upper d (o_corr S) rhs).

(** soc.c:267-306 *)
Definition soc_step (X : lctx) (nv : Z) (w : wset) (min_norm : vec -> vec -> res vec) (step tx tc : vec) (S : soc) (r : vec)
    : res (vec * soc) :=
  S <- soc_correction X nv w min_norm tx tc S ;;
  a <- max_step_length tx (o_dir S) (lx_vlb X) (lx_vub X) n1 ;;
  r <- vec_add_scaled step (o_dir S) n1 a (lx_zero X) r ;;
  Ok (r, S).

(** soc.c:308-356: corrected point and the norm of the corrected step *)
Definition soc_trial_point (X : lctx) (nv : Z) (w : wset) (min_norm : vec -> vec -> res vec) (step tx tc : vec) (S : soc)
    (r : vec) : res (vec * num * soc) :=
  c <- soc_step X nv w min_norm step tx tc S (o_corr S) ;;
  let '(c, S') := c in
  r <- vec_add_scaled (lx_x X) c n1 n1 (lx_zero X) r ;;
  Ok (r, vec_norm c, mksoc (o_lower S') (o_upper S') (o_dir S') c (o_rhs S')).

(** ** trial_point.c *)

(** trial_point.c:521-544 *)
Definition trial_iterate (X : lctx) (step cache primal : vec) : res vec :=
  p <- vec_add (lx_x X) step (lx_zero X) cache ;;
  vec_clip p (lx_vlb X) (lx_vub X) (lx_zero X) primal.

(** trial_point.c:980-1002: the point of the trial iterate and the corrected step *)
Definition soc_static (X : lctx) (nv : Z) (w : wset) (min_norm : vec -> vec -> res vec)
    (step tx tc : vec) (S : soc) (cache : vec) (d : dirn) : res (vec * dirn) :=
  r <- soc_step X nv w min_norm step tx tc S (d_primal d) ;;
  let '(p, _) := r in
  tx <- trial_iterate X p cache tx ;;
  Ok (tx, mkdirn p (d_obj d) (d_cons d) (d_hess d)).

(** trial_point.c:797-810 *)
Definition required_error (accepted reduction : num) : num := (nlit 4 10 * accepted * reduction)%num.

(** trial_point.c:1004-1073: the point of the trial iterate, the corrected direction and the flag
    reject; [merit] is the value of the iterate, [estimate] the current error of the function. *)
Definition soc_dynamic (X : lctx) (nv : Z) (w : wset) (jac : mat) (min_norm hess : vec -> vec -> res vec)
    (quadratic : bool) (accepted merit estimate : num)
    (step tx tc : vec) (S : soc) (cache : vec) (d : dirn) : res (vec * dirn * bool) :=
  r <- soc_step X nv w min_norm step tx tc S (d_primal d) ;;
  let '(p, _) := r in
  d <- dir_reset X jac hess (mkdirn p (d_obj d) (d_cons d) (d_hess d)) ;;
  m <- (if quadratic
        then merit_quadratic (lx_nc X) (lx_obj X) (d_obj d) (lx_cons X) (d_cons d) (lx_clb X) (lx_cub X)
               (d_primal d) (d_hess d) (lx_zero X) (lx_pen X) cache
        else merit_linear (lx_nc X) (lx_obj X) (d_obj d) (lx_cons X) (d_cons d) (lx_clb X) (lx_cub X)
               (lx_zero X) (lx_pen X) cache) ;;
  Ok (tx, d, (required_error accepted (merit - m) <? estimate)%num).

(** trial_point.c:838-910: the loop.  A state holds what the function, the iterate and the trial
    iterate consist of; [estimate] is the error of the function, [value] the merit value of the
    iterate, [model] the merit value of the model at the trial point; [refine b] evaluates again
    with the error bound [b] and computes a new trial point (883-906).  [None]: still running. *)
Fixpoint refine_step {S : Type} (fuel : nat) (accepted : num) (estimate value model : S -> num)
    (refine : num -> S -> res S) (s : S) : option (res S) :=
  match fuel with
  | O => None
  | Datatypes.S fuel =>
    let required := required_error accepted (value s - model s)%num in
    if (estimate s <=? required)%num then Some (Ok s)
    else match refine required s with
         | Ok s => refine_step fuel accepted estimate value model refine s
         | e => Some e
         end
  end.
End WorkingStep.
