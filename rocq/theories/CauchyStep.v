(** Cauchy step without search for the radius (/repo/src/main/trial_point/cauchy_step.c) together
    with the update of the penalty parameter (/repo/src/main/penalty.c), this time with the state
    of the solver of the linear programs carried along.  Left out: checks of debug builds,
    logging, time limits, the weights of the constraints of least-squares problems (line 91) and
    the multipliers (lines 251-261), which enter through the product with the Hessian. *)
From Verif Require Import Base Num Cmp Sparse Vec Mat WorkingSet Feas TrustRadius LineSearch WorkingStep StdCauchy Parametric.
Local Open Scope Z_scope.

Section CauchyStep.
Context {N : Num}.

(** The solver of the linear programs as it is seen through /repo/src/main/cauchy/cauchy.c; [C]
    is its state. *)
Record cops (C : Type) := mkcops {
  co_iterate : C -> num -> res C;
  co_solve : C -> option vec -> num -> otype -> res C;
  co_violation : C -> res (C * num);
  co_step : C -> vec -> res (C * vec);
  co_working_set : C -> wset -> res (C * wset) }.
Arguments co_iterate {C}. Arguments co_solve {C}. Arguments co_violation {C}. Arguments co_step {C}. Arguments co_working_set {C}.

(** penalty.c:59-95 and 110-149; the two loops differ in the stopping test.  [m] is the number of
    constraints as a double. *)
Fixpoint raise_loop {C} (O : cops C) (g : vec) (m : num) (ok : num -> bool) (fuel : nat) (c : C) (p : num) : res (C * num) :=
  match fuel with
  | 0%nat => Ok (c, p)
  | S fuel =>
    let p := (p * penalty_increase)%num in
    c <- co_solve O c (Some g) p TMixed ;;
    r <- co_violation O c ;;
    let '(c, v) := r in
    if ok (v / m)%num then Ok (c, p) else raise_loop O g m ok fuel c p
  end.

(** penalty.c:11-151 *)
Definition raise_penalty {C} (O : cops C) (g : vec) (nc : Z) (c : C) (p : num) : res (C * num) :=
  let m := nlit nc 1 in
  check (0 <? nc) ;;;
  r <- co_violation O c ;;
  let '(c, v) := r in
  let cur := (v / m)%num in
  if (cur <=? violation_tolerance)%num then Ok (c, p) else
  c <- co_solve O c None p TFeas ;;
  r <- co_violation O c ;;
  let '(c, v) := r in
  let inf := (v / m)%num in
  if (inf <=? violation_tolerance)%num then
    raise_loop O g m (fun next => next <=? violation_tolerance)%num max_increases c p
  else if (cur - inf <=? violation_tolerance)%num then Ok (c, p)
  else raise_loop O g m (fun next => min_decrease * (cur - inf) <=? cur - next)%num max_increases c p.

(** What update_penalty of cauchy_step.c reads besides the penalty parameter *)
Record pctx := mkpctx { pc_res : num; pc_feas : num; pc_allow : bool; pc_cd : vec; pc_vd : vec }.

(** cauchy_step.c:33-95; the flag tells whether a reset was performed. *)
Definition step_penalty {C} (O : cops C) (g : vec) (nc : Z) (E : pctx) (c : C) (p : num) : res (C * num * bool) :=
  if nc =? 0 then Ok (c, p, false) else
  if is_feasible (pc_res E) (pc_feas E) then
    if pc_allow E then
      let norm := nmax (vec_inf_norm (pc_cd E)) (vec_inf_norm (pc_vd E)) in
      let allowed := (nlit 1000 1 * (norm + n1))%num in
      if (allowed <? p)%num then Ok (c, (norm + nlit 10 1)%num, true) else Ok (c, p, false)
    else Ok (c, p, false)
  else r <- raise_penalty O g nc c p ;; let '(c, p) := r in Ok (c, p, false).

Definition set_pen (X : lctx) (p : num) : lctx :=
  mklctx (lx_nc X) (lx_clb X) (lx_cub X) (lx_vlb X) (lx_vub X) (lx_x X) (lx_obj X) (lx_grad X) (lx_cons X) p (lx_radius X)
    (lx_eps X) (lx_zero X) (lx_eta X) (lx_tau X) (lx_cutoff X).

(** What compute_cauchy_direction leaves behind *)
Record cdir (C : Type) := mkcdir { cd_c : C; cd_step : vec; cd_ws : wset; cd_pen : num; cd_merit : num; cd_reset : bool }.
Arguments mkcdir {C}. Arguments cd_c {C}. Arguments cd_step {C}. Arguments cd_ws {C}. Arguments cd_pen {C}. Arguments cd_merit {C}. Arguments cd_reset {C}.

(** cauchy_step.c:97-168; [X] holds the iterate and the penalty parameter, [merit] is
    current_merit_value, [lp_radius] is lp_trust_radius.  The criticality bound is only logged. *)
Definition cauchy_direction {C} (O : cops C) (X : lctx) (E : pctx) (c : C) (lp_radius merit : num) (lp_step : vec) (w : wset)
    : res (cdir C) :=
  c <- co_iterate O c lp_radius ;;
  c <- co_solve O c (Some (lx_grad X)) (lx_pen X) TDefault ;;
  r <- co_step O c lp_step ;;
  let '(c, s) := r in
  r <- co_working_set O c w ;;
  let '(c, w) := r in
  r <- step_penalty O (lx_grad X) (lx_nc X) E c (lx_pen X) ;;
  let '(c, p, reset) := r in
  if negb (lx_pen X =? p)%num then
    r <- co_step O c s ;;
    let '(c, s) := r in
    r <- co_working_set O c w ;;
    let '(c, w) := r in
    merit <- merit_func (lx_nc X) (lx_obj X) (lx_cons X) (lx_clb X) (lx_cub X) p ;;
    Ok (mkcdir c s w p merit reset)
  else Ok (mkcdir c s w p merit reset).

(** cauchy_step.c:233-373; [hess] is the product with the Hessian for the multipliers estimated in
    between.  Without a quadratic model the value is not set. *)
Definition cauchy_simple {C} (O : cops C) (X : lctx) (jac : mat) (hess : vec -> vec -> res vec) (E : pctx) (LS : lsearch)
    (quadratic : bool) (c : C) (lp_radius merit : num) (lp_step : vec) (w : wset) (d : dirn)
    : res (cdir C * dirn * bool * option num * lsearch) :=
  D <- cauchy_direction O X E c lp_radius merit lp_step w ;;
  let X := set_pen X (cd_pen D) in
  p <- vec_copy (cd_step D) (d_primal d) ;;
  d <- dir_reset X jac hess (set_primal d p) ;;
  if negb quadratic then Ok (D, d, true, None, LS)
  else
    r <- cauchy_step X d (snd LS) ;;
    let '(d, full, v, L) := r in
    Ok (D, d, full, Some v, (Some X, L)).
End CauchyStep.
Arguments mkcops {N C}. Arguments co_iterate {N C}. Arguments co_solve {N C}. Arguments co_violation {N C}. Arguments co_step {N C}. Arguments co_working_set {N C}.
Arguments mkcdir {N C}. Arguments cd_c {N C}. Arguments cd_step {N C}. Arguments cd_ws {N C}. Arguments cd_pen {N C}. Arguments cd_merit {N C}. Arguments cd_reset {N C}.
