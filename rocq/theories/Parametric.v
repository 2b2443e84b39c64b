(** Search for the radius of the linear program (/repo/src/main/parametric.c) and the place it is
    called from (/repo/src/main/trial_point/cauchy_step.c:170-231).  Left out: the checks that
    are compiled only with SLEQP_DEBUG, the logging and the reference counts.  The cache of the
    merit function is not carried on; its content is overwritten before it is read. *)
From Verif Require Import Base Num Cmp Sparse Vec Mat WorkingSet Feas LineSearch WorkingStep.
Local Open Scope Z_scope.

Section Parametric.
Context {N : Num}.

(** The solver of the linear programs as it is seen through /repo/src/main/cauchy/cauchy.c:43-69:
    sleqp_cauchy_set_trust_radius, sleqp_cauchy_solve with the default objective,
    sleqp_cauchy_lp_step.  [C] is its state, which includes the iterate. *)
Record lpops (C : Type) := mklpops {
  po_radius : C -> num -> res C;
  po_solve : C -> vec -> num -> res C;
  po_step : C -> vec -> res (C * vec) }.
Arguments po_radius {C}. Arguments po_solve {C}. Arguments po_step {C}.

(** parametric.c:13-34 *)
Record par := mkpar {
  pr_viol : num; pr_comb : vec; pr_last : dirn;
  pr_inc : num; pr_dec : num; pr_max : nat; pr_pen : num }.

(** SLEQP_PARAMETRIC_CAUCHY: /repo/src/main/pub_types.h:149-154 *)
Inductive pcauchy := PDisabled | PCoarse | PFine.

(** direction.c:21-42 *)
Definition dir_create (n nc : Z) : res dirn :=
  p <- vec_create_empty n ;; c <- vec_create_empty nc ;; h <- vec_create_empty n ;;
  Ok (mkdirn p n0 c h).

(** parametric.c:36-91 without the vector jacobian_product, which is never used; [viol] and [pen] are the contents of freshly allocated memory. *)
Definition par_create (n nc : Z) (k : pcauchy) (viol pen : num) : res par :=
  comb <- vec_create_empty nc ;;
  last <- dir_create n nc ;;
  match k with
  | PCoarse => Ok (mkpar viol comb last (nlit 2 1) (nlit 1 2) 5 pen)
  | PFine => Ok (mkpar viol comb last (nsqrt (nlit 2 1)) (nsqrt (nlit 1 2)) 10 pen)
  | PDisabled => Trap
  end.

(** parametric.c:93-100 *)
Definition par_set_penalty (Q : par) (pen : num) : par :=
  mkpar (pr_viol Q) (pr_comb Q) (pr_last Q) (pr_inc Q) (pr_dec Q) (pr_max Q) pen.
Definition par_set_comb (Q : par) (comb : vec) : par :=
  mkpar (pr_viol Q) comb (pr_last Q) (pr_inc Q) (pr_dec Q) (pr_max Q) (pr_pen Q).
Definition par_set_last (Q : par) (last : dirn) : par :=
  mkpar (pr_viol Q) (pr_comb Q) last (pr_inc Q) (pr_dec Q) (pr_max Q) (pr_pen Q).
Definition par_set_viol (Q : par) (viol : num) : par :=
  mkpar viol (pr_comb Q) (pr_last Q) (pr_inc Q) (pr_dec Q) (pr_max Q) (pr_pen Q).
Definition set_primal (d : dirn) (p : vec) : dirn := mkdirn p (d_obj d) (d_cons d) (d_hess d).
Definition set_hess (d : dirn) (h : vec) : dirn := mkdirn (d_primal d) (d_obj d) (d_cons d) h.

(** parametric.c:102-150: cache, quadratic_merit, sufficient_decrease.  Of the context [X] the
    penalty and the radius are not read. *)
Definition has_decrease (X : lctx) (Q : par) (d : dirn) : res (par * num * bool) :=
  comb <- vec_add (lx_cons X) (d_cons d) (lx_zero X) (pr_comb Q) ;;
  lin_viol <- total_violation (lx_nc X) comb (lx_clb X) (lx_cub X) ;;
  hp <- vec_dot (d_primal d) (d_hess d) ;;
  let ok := (lhalf * hp <=? (pr_pen Q * (pr_viol Q - lin_viol) - d_obj d) * (n1 - lx_eta X))%num in
  let merit := (lx_obj X + d_obj d + pr_pen Q * lin_viol + lhalf * hp)%num in
  Ok (par_set_comb Q comb, merit, ok).

(** What the searches change: state of the LP solver, Cauchy direction, radius, merit value,
    own data. *)
Record pst (C : Type) := mkpst { ps_c : C; ps_dir : dirn; ps_radius : num; ps_merit : num; ps_par : par }.
Arguments mkpst {C}. Arguments ps_c {C}. Arguments ps_dir {C}. Arguments ps_radius {C}.
Arguments ps_merit {C}. Arguments ps_par {C}.

(** parametric.c:178-185, 266-273 *)
Definition resolve {C} (O : lpops C) (X : lctx) (Q : par) (c : C) (radius : num) (p : vec) : res (C * vec) :=
  c <- po_radius O c radius ;;
  c <- po_solve O c (lx_grad X) (pr_pen Q) ;;
  po_step O c p.

(** parametric.c:174-241; [last] is last_quadratic_merit, [mcache] the cache of the merit
    function, [hess] the product with the Hessian of the Lagrangian. *)
Fixpoint forward_loop {C} (fuel : nat) (O : lpops C) (X : lctx) (hess : vec -> vec -> res vec) (mcache : vec)
    (last : num) (s : pst C) : res (pst C) :=
  match fuel with
  | 0%nat => Ok s
  | S fuel =>
    let Q := ps_par s in
    r <- resolve O X Q (ps_c s) (ps_radius s) (d_primal (ps_dir s)) ;;
    let '(c, p) := r in
    let d := set_primal (ps_dir s) p in
    lin <- merit_linear (lx_nc X) (lx_obj X) (d_obj d) (lx_cons X) (d_cons d) (lx_clb X) (lx_cub X)
             (lx_zero X) (pr_pen Q) mcache ;;
    h <- hess (d_primal d) (d_hess d) ;;
    let d := set_hess d h in
    hp <- vec_dot (d_primal d) (d_hess d) ;;
    let merit := (lin + lhalf * hp)%num in
    if is_lt merit last (lx_eps X) then
      last_dir <- dir_copy d (pr_last Q) ;;
      forward_loop fuel O X hess mcache merit
        (mkpst c d (ps_radius s * pr_inc Q)%num merit (par_set_last Q last_dir))
    else
      let radius := (ps_radius s / pr_inc Q)%num in
      c <- po_radius O c radius ;;
      c <- po_solve O c (lx_grad X) (pr_pen Q) ;;
      d <- dir_copy (pr_last Q) d ;;
      Ok (mkpst c d radius last Q)
  end.

(** parametric.c:152-244 *)
Definition search_forward {C} (O : lpops C) (X : lctx) (hess : vec -> vec -> res vec) (mcache : vec) (s : pst C)
    : res (pst C) :=
  last <- dir_copy (ps_dir s) (pr_last (ps_par s)) ;;
  let s := mkpst (ps_c s) (ps_dir s) (ps_radius s) (ps_merit s) (par_set_last (ps_par s) last) in
  forward_loop (pr_max (ps_par s)) O X hess mcache (ps_merit s) s.

(** parametric.c:262-317; the flag tells whether the loop was left early. *)
Fixpoint back_loop {C} (fuel : nat) (O : lpops C) (X : lctx) (jac : mat) (hess : vec -> vec -> res vec) (s : pst C)
    : res (pst C * bool) :=
  match fuel with
  | 0%nat => Ok (s, false)
  | S fuel =>
    r <- resolve O X (ps_par s) (ps_c s) (ps_radius s) (d_primal (ps_dir s)) ;;
    let '(c, p) := r in
    d <- dir_reset X jac hess (set_primal (ps_dir s) p) ;;
    t <- has_decrease X (ps_par s) d ;;
    let '(Q, merit, ok) := t in
    if (ok : bool) then Ok (mkpst c d (ps_radius s) merit Q, true)
    else back_loop fuel O X jac hess (mkpst c d (ps_radius s * pr_dec Q)%num merit Q)
  end.

(** The line search: context as set by the last call of sleqp_linesearch_set_iterate
    (linesearch.c:134-150), if there was one, and caches. *)
Definition lsearch : Type := option lctx * lsd.

(** linesearch.c:134-150 *)
Definition ls_set (LS : lsearch) (X : lctx) : lsearch := (Some X, snd LS).

(** linesearch.c:152-315; without an iterate a null pointer is dereferenced in line 179. *)
Definition ls_cauchy (LS : lsearch) (d : dirn) : res (dirn * num * lsearch) :=
  match fst LS with
  | None => Trap
  | Some Y => r <- cauchy_step Y d (snd LS) ;; let '(d, _, v, L) := r in Ok (d, v, (Some Y, L))
  end.

(** parametric.c:246-330 *)
Definition search_back {C} (O : lpops C) (X : lctx) (jac : mat) (hess : vec -> vec -> res vec) (LS : lsearch) (s : pst C)
    : res (pst C * lsearch) :=
  r <- back_loop (pr_max (ps_par s)) O X jac hess s ;;
  let '(s, found) := r in
  if (found : bool) then Ok (s, LS)
  else
    r <- ls_cauchy LS (ps_dir s) ;;
    let '(d, v, LS) := r in
    Ok (mkpst (ps_c s) d (ps_radius s) v (ps_par s), LS).

(** parametric.c:332-421 *)
Definition par_solve {C} (O : lpops C) (X : lctx) (jac : mat) (hess : vec -> vec -> res vec) (mcache : vec)
    (Q : par) (LS : lsearch) (c : C) (lp_step : vec) (d : dirn) (radius : num) : res (pst C * lsearch) :=
  p <- vec_copy lp_step (d_primal d) ;;
  d <- dir_reset X jac hess (set_primal d p) ;;
  viol <- total_violation (lx_nc X) (lx_cons X) (lx_clb X) (lx_cub X) ;;
  t <- has_decrease X (par_set_viol Q viol) d ;;
  let '(Q, merit, ok) := t in
  if (ok : bool) then
    s <- search_forward O X hess mcache (mkpst c d (radius * pr_inc Q)%num merit Q) ;; Ok (s, LS)
  else search_back O X jac hess LS (mkpst c d (radius * pr_dec Q)%num merit Q).

(** trial_point/cauchy_step.c:190-202 and 217-220: penalty, search, and only then the line search
    gets to know the iterate.  [X] holds the iterate, the penalty and the trust radius. *)
Definition step_parametric {C} (O : lpops C) (X : lctx) (jac : mat) (hess : vec -> vec -> res vec) (mcache : vec)
    (Q : par) (LS : lsearch) (c : C) (lp_step : vec) (d : dirn) (radius : num) : res (pst C * lsearch) :=
  let Q := par_set_penalty Q (lx_pen X) in
  r <- par_solve O X jac hess mcache Q LS c lp_step d radius ;;
  let '(s, LS) := r in
  Ok (s, ls_set LS X).
End Parametric.
Arguments mklpops {N C}. Arguments po_radius {N C}. Arguments po_solve {N C}. Arguments po_step {N C}.
Arguments mkpst {N C}. Arguments ps_c {N C}. Arguments ps_dir {N C}. Arguments ps_radius {N C}.
Arguments ps_merit {N C}. Arguments ps_par {N C}.
