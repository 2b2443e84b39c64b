(** Projected conjugate gradients for the trust region subproblem
    (/repo/src/main/tr/steihaug_solver.c, tr_util.c).  The product with the Hessian of the
    Lagrangian and the projection to the nullspace are parameters that may fail.  Left out:
    the checks that are compiled only with SLEQP_DEBUG or numerical assertions, the logging
    and the bookkeeping of the timer; the time that has elapsed before an iteration is a
    parameter. *)
From Verif Require Import Base Num Cmp Sparse Vec WorkingSet.
Local Open Scope Z_scope.

Section Steihaug.
Context {N : Num}.

(** tr_util.c:8-50: the point on the boundary in the given direction *)
Definition bdry_sol (previous direction : vec) (zero_eps radius : num) (result : vec) : res vec :=
  prev_dot_d <- vec_dot previous direction ;;
  let p_norm := vec_norm previous in
  let d_norm := vec_norm direction in
  let d_norm_sq := (d_norm * d_norm)%num in
  let p_norm_sq := (p_norm * p_norm)%num in
  check (n0 <? d_norm_sq)%num ;;;
  let squared_rad := (radius * radius)%num in
  let inner := (prev_dot_d * prev_dot_d - d_norm_sq * (p_norm_sq - squared_rad))%num in
  check (n0 <=? inner)%num ;;;
  let factor := (n1 / d_norm_sq * (- prev_dot_d + nsqrt inner))%num in
  vec_add_scaled previous direction n1 factor zero_eps result.

(** The vectors of the solver, steihaug_solver.c:24-43, with the scalars that are carried
    from one iteration to the next (262-263, 292-295). *)
Record cg := mkcg {
  cd : vec;        (* projected descent direction *)
  cbd : vec;       (* product of Hessian and direction *)
  cgr : vec;       (* projected residual *)
  cr : vec;        (* residual *)
  cz : vec;        (* iterate *)
  ccache : vec;
  crg : num;       (* r_dot_g *)
  czn : num;       (* z_curr_nrm_sq *)
  cmin : num;      (* min_rayleigh *)
  cmax : num       (* max_rayleigh *)
}.

Definition half_lit : num := nlit 1 2.

(** steihaug_solver.c:149-172 *)
Definition collect_rayleigh (direction product : vec) (lo hi : num) : res (num * num) :=
  let dir_normsq := vec_norm_sq direction in
  if (dir_normsq =? n0)%num then Ok (lo, hi)
  else
    dot_product <- vec_dot direction product ;;
    let cur := (dot_product / dir_normsq)%num in
    Ok (nmin lo cur, nmax hi cur).

(** steihaug_solver.c:187-221 *)
Definition steihaug_dual (hess : vec -> vec -> res vec) (gradient step bd : vec) (radius : num)
    : res (num * vec) :=
  bd <- hess step bd ;;
  bidir <- vec_dot step bd ;;
  gradp <- vec_dot step gradient ;;
  let comb := (bidir + gradp)%num in
  Ok ((if (comb <? n0)%num then (- comb) / (radius * radius) else n0)%num, bd).

(** One iteration either continues or returns the step and the dual. *)
Inductive cg_out := CgNext (s : cg) | CgDone (step : vec) (dual : num) (s : cg).

(** steihaug_solver.c:350-400: non-positive curvature *)
Definition neg_curv (gradient step : vec) (zero_eps radius dbd : num) (s : cg) : res vec :=
  z_dot_d <- vec_dot (cz s) (cd s) ;;
  let d_nrm_sq := vec_norm_sq (cd s) in
  let z_nrm_sq := czn s in
  check (n0 <? d_nrm_sq)%num ;;;
  let inner := (z_dot_d * z_dot_d - d_nrm_sq * (z_nrm_sq - radius * radius))%num in
  let tau_min := (n1 / d_nrm_sq * (- z_dot_d - nsqrt inner))%num in
  let tau_max := (n1 / d_nrm_sq * (- z_dot_d + nsqrt inner))%num in
  gd <- vec_dot gradient (cd s) ;;
  zbd <- vec_dot (cz s) (cbd s) ;;
  let min_obj := (tau_min * ((gd + zbd) + half_lit * tau_min * dbd))%num in
  let max_obj := (tau_max * ((gd + zbd) + half_lit * tau_max * dbd))%num in
  let tau := if (min_obj <? max_obj)%num then tau_min else tau_max in
  vec_add_scaled (cz s) (cd s) n1 tau zero_eps step.

(** steihaug_solver.c:318-482: the body of the loop after the tests of the limits; [step] is
    the step vector of the caller, [tol_sq] the square of the tolerance. *)
Definition cg_body (hess proj : vec -> vec -> res vec) (gradient step : vec)
    (zero_eps radius tol_sq : num) (s : cg) : res cg_out :=
  if (nabs (crg s) <? tol_sq)%num then
    p <- vec_copy (cz s) step ;; Ok (CgDone p (nlit (-1) 1) s)
  else
    bd <- hess (cd s) (cbd s) ;;
    mm <- collect_rayleigh (cd s) bd (cmin s) (cmax s) ;;
    let s := mkcg (cd s) bd (cgr s) (cr s) (cz s) (ccache s) (crg s) (czn s) (fst mm) (snd mm) in
    dbd <- vec_dot (cd s) (cbd s) ;;
    if (dbd <=? n0)%num then
      p <- neg_curv gradient step zero_eps radius dbd s ;; Ok (CgDone p (nlit (-1) 1) s)
    else
      let alpha := (crg s / dbd)%num in
      znext <- vec_add_scaled (cz s) (cd s) n1 alpha zero_eps (ccache s) ;;
      let z_next_nrm_sq := vec_norm_sq znext in
      if (radius * radius <=? z_next_nrm_sq)%num then
        p <- bdry_sol (cz s) (cd s) zero_eps radius step ;;
        du <- steihaug_dual hess gradient p (cbd s) radius ;;
        Ok (CgDone p (fst du)
              (mkcg (cd s) (snd du) (cgr s) (cr s) (cz s) znext (crg s) (czn s) (cmin s) (cmax s)))
      else
        z <- vec_copy znext (cz s) ;;
        rnext <- vec_add_scaled (cr s) (cbd s) n1 alpha zero_eps znext ;;
        r <- vec_copy rnext (cr s) ;;
        g <- proj r (cgr s) ;;
        let beta := (n1 / crg s)%num in
        rg <- vec_dot r g ;;
        let beta := (beta * rg)%num in
        dnext <- vec_add_scaled g (cd s) (nlit (-1) 1) beta zero_eps rnext ;;
        d <- vec_copy dnext (cd s) ;;
        Ok (CgNext (mkcg d (cbd s) g r z dnext rg z_next_nrm_sq (cmin s) (cmax s))).

(** The limits: [max_iter] and [time_limit] are -1 if there is none; [clock i] is the time
    that has elapsed before iteration [i]. *)
Definition iter_limit (max_iter i : Z) : bool := negb (max_iter =? none) && (max_iter <=? i).
Definition time_hit (time_limit : num) (clock : Z -> num) (i : Z) : bool :=
  negb (time_limit =? nlit (-1) 1)%num && (time_limit <=? clock i)%num.

(** steihaug_solver.c:299-495: the loop; the result is the step, the dual and the final
    state.  The loop has no bound of its own; [Trap] if it runs for [fuel] iterations. *)
Fixpoint cg_loop (fuel : nat) (hess proj : vec -> vec -> res vec) (gradient step : vec)
    (zero_eps radius tol_sq : num) (max_iter : Z) (time_limit : num) (clock : Z -> num)
    (i : Z) (s : cg) : res (vec * num * cg) :=
  match fuel with
  | O => Trap
  | S fuel =>
    if iter_limit max_iter i then Ok (step, nlit (-1) 1, s)
    else if time_hit time_limit clock i then Err EAbortTime
    else
      o <- cg_body hess proj gradient step zero_eps radius tol_sq s ;;
      match o with
      | CgDone p du s => Ok (p, du, s)
      | CgNext s =>
        cg_loop fuel hess proj gradient step zero_eps radius tol_sq max_iter time_limit clock (i + 1) s
      end
  end.

(** steihaug_solver.c:223-496 *)
Definition steihaug (fuel : nat) (hess proj : vec -> vec -> res vec) (gradient step : vec)
    (zero_eps radius stat_tol : num) (max_iter : Z) (time_limit : num) (clock : Z -> num)
    (s : cg) : res (vec * num * cg) :=
  let rel_tol := (stat_tol * nlit 1 100)%num in
  let tol_sq := (rel_tol * rel_tol)%num in
  let step := vec_clear step in
  let z := vec_clear (cz s) in
  r <- vec_copy gradient (cr s) ;;
  g <- proj r (cgr s) ;;
  d <- vec_copy g (cd s) ;;
  let d := vec_scale d (nlit (-1) 1) in
  let s := mkcg d (cbd s) g r z (ccache s) n0 n0 n1 n1 in
  if (vec_norm_sq d <? tol_sq)%num then
    p <- vec_copy z step ;; Ok (p, nlit (-1) 1, s)
  else
    rg <- vec_dot r g ;;
    cg_loop fuel hess proj gradient step zero_eps radius tol_sq max_iter time_limit clock 0
      (mkcg d (cbd s) g r z (ccache s) rg n0 n1 n1).

End Steihaug.
