(** The solution loops: /repo/src/main/problem_solver/{solve,iteration,step}.c,
    /repo/src/main/solver/{solve,phase}.c, and the parts of /repo/src/main/solver.c, util.c,
    trial_point.c, deriv_check.c, timer.c they use.

    Everything outside these loops is an oracle: the user function, callbacks, the clock, the
    computation of trial points (LP, EQP, line search), second-order corrections, and the step rule
    answer arbitrarily, depending on an arbitrary world state [W] which they may change.

    Printing and logging are left out.  Points are those of [solver->problem], the scaled and
    preprocessed problem; the translation to the original problem is the subject of Scale.v. *)
From Verif Require Import Base Num Cmp Sparse Vec Mat WorkingSet Feas TrustRadius Problem Restoration.
Local Open Scope Z_scope.

(** /repo/src/main/solver.h (SLEQP_SOLVER_PHASE) *)
Inductive phase := Opt | Rest.
(** problem_solver_types.h:6-17 *)
Inductive pstatus := PUnknown | PRunning | POptimal | PUnbounded | PLocInf | PDeadpoint | PIter | PManual | PTime.
(** pub_types.h:62-73 *)
Inductive sstatus := SUnknown | SRunning | SOptimal | SInfeasible | SUnbounded | SDeadpoint | SIter | SManual | STime.
(** pub_types.h:118-125 *)
Inductive steptype := StNone | StAccepted | StFull | StSoc | StRejected.
(** SLEQP_VALUE_REASON, pub_func.h *)
Inductive reason := RNone | RInit | RDeriv | RAccepted | RTrying | RRejected.

Definition is_running (s : pstatus) : bool := match s with PRunning => true | _ => false end.
Definition is_unknown (s : pstatus) : bool := match s with PUnknown => true | _ => false end.

Section Solver.
Context {N : Num} {W : Type}.

(** A point as a list of stored entries. *)
Definition pt : Type := list (Z * num).

(** /repo/src/main/iterate.c:15-45, without the working set.  The last four fields are not in the
    code: they record the point at which the user function was when the objective, gradient,
    constraint values and Jacobian were computed. *)
Record iterate := mkit {
  it_x : vec; it_obj : num; it_grad : vec; it_cons : vec; it_jac : mat; it_cdual : vec; it_vdual : vec;
  it_oat : option pt; it_gat : option pt; it_cat : option pt; it_jat : option pt }.

(** Counters of problem_solver.h *)
Record cnt := mkcnt { c_iter : Z; c_elapsed : Z; c_acc : Z; c_soc : Z; c_rej : Z; c_fail : Z }.

(** problem_solver.h (struct SleqpProblemSolver); [p_timer]: the elapsed_timer of the trial point
    solver is running (timer.c:17) *)
Record ps := mkps {
  p_it : iterate; p_tr : iterate;
  p_slack : num; p_feas : num; p_stat : num;
  p_cnt : cnt;
  p_rad : num; p_lprad : num; p_pen : num;
  p_status : pstatus; p_abort : bool; p_ali : bool;
  p_nfeas : Z; p_nreset : Z; p_last : steptype; p_bdry : bool; p_timer : bool }.

(** What happened, most recent first. *)
Inductive ev :=
| EIter (ph : phase)                                      (* an iteration is begun *)
| ECount (ph : phase)                                     (* an iteration is counted *)
| EDrop (ph : phase)                                      (* a corrected step is given up without being counted *)
| EAbort (ph : phase)                                     (* the user requests an abort, in this phase *)
| EStart (ph : phase)                                     (* the main loop of a problem solver is entered *)
| EHess (ph : phase) (ucur rcur : option pt) (x : pt)     (* step computation at iterate [x]; points at which the functions are *)
| EEval (ph : phase) (ucur rcur : option pt) (x : pt)     (* evaluation for an iterate with primal [x] *)
| EPhase (ph : phase)                                     (* switched to this phase *)
| ELost (ph : phase) (c : code).                          (* an error is replaced by the status for an exhausted time limit *)

(** solver.h (struct SleqpSolver).  [s_cur]: the point last passed to the user function; [s_rcur]: to
    the restoration function; [s_rcons], [s_rjac]: constraint values and Jacobian cached in the
    restoration function (restoration.c:25-26) and the point they belong to; [s_timer]: elapsed_timer
    is running.  The restoration solver, created at the first switch (phase.c:67-96), exists from the
    start. *)
Record st := mkst {
  s_w : W; s_opt : ps; s_rest : ps; s_phase : phase;
  s_cur : option pt; s_rcur : option pt; s_rcons : option (vec * option pt); s_rjac : option (mat * option pt);
  s_status : sstatus; s_iters : Z; s_primal : vec; s_rprimal : vec; s_timer : bool; s_log : list ev }.

(** ** Oracles *)
(** The values of a function at its current point. *)
Record evals := mkev { ev_obj : num; ev_grad : vec; ev_cons : vec; ev_jac : mat }.
(** Result of the step computation: point before clipping, model merit value, failed EQP step, full
    Cauchy step, global penalty reset, penalty, norms of LP step, trial step; maximum norms of trial
    step and Cauchy step. *)
Record trial := mktrial {
  t_point : vec; t_model : num; t_failed : bool; t_full : bool; t_reset : bool; t_pen : num;
  t_lpnorm : num; t_norm : num; t_inf : num; t_cauchyinf : num }.
(** The step computation also changes the multipliers of both iterates, and for dynamic functions
    re-evaluates the function at the iterate. *)
Record tans := mktans {
  ta_cd : vec; ta_vd : vec; ta_tcd : vec; ta_tvd : vec; ta_refine : option evals; ta_res : res trial }.
(** Second-order correction: point before clipping (none for dynamic functions), norm, rejected. *)
Record soct := mksoc { so_point : option vec; so_norm : num; so_reject : bool }.

Inductive cbk := CbPush | CbAccepted | CbPerformed | CbFinished.

(** An answer: result, whether the user requests an abort in the course of it, new world. *)
Definition ans (A : Type) : Type := res A * bool * W.

Record oracles := mkor {
  or_set : W -> phase -> vec -> reason -> ans bool;       (* set_value; result: rejected *)
  or_eval : W -> phase -> ans evals;                      (* objective, gradient, constraints, Jacobian *)
  or_rcons : W -> ans vec;                                (* constraints of the problem, in restoration *)
  or_rjac : W -> ans mat;
  or_trial : W -> phase -> ps -> tans * bool * W;
  or_soc : W -> phase -> ps -> ans soct;
  or_rule : W -> phase -> num -> num -> num -> (bool * num) * W; (* acceptance and reduction ratio *)
  or_clock : W -> bool * W;                               (* time limit exhausted *)
  or_perturb : W -> phase -> vec -> Z -> vec * W;         (* point for the derivative check *)
  or_deriv : W -> phase -> ans unit;                      (* evaluations and comparisons of the check *)
  or_cb : W -> cbk -> ans unit;
  or_has_cb : W -> bool }.                                (* a handler for accepted iterates is registered *)

(** Settings and problem data.  The restoration problem has no constraints (restoration.c:473-479). *)
Record config := mkcf {
  cf_nv : Z; cf_nc : Z;
  cf_lb : vec; cf_ub : vec; cf_clb : vec; cf_cub : vec;
  cf_rlb : vec; cf_rub : vec;
  cf_eps : num; cf_zeps : num; cf_feas : num; cf_slack : num; cf_stat : num; cf_objlow : num; cf_dead : num;
  cf_quad : bool; cf_newton : bool; cf_perf_soc : bool; cf_resets : bool; cf_restoration : bool;
  cf_deriv : bool; cf_preproc : bool }.

Variable Or : oracles.
Variable cf : config.

Definition nvars (ph : phase) : Z := match ph with Opt => cf_nv cf | Rest => cf_nv cf + cf_nc cf end.
Definition ncons (ph : phase) : Z := match ph with Opt => cf_nc cf | Rest => 0 end.
Definition lbs (ph : phase) : vec := match ph with Opt => cf_lb cf | Rest => cf_rlb cf end.
Definition ubs (ph : phase) : vec := match ph with Opt => cf_ub cf | Rest => cf_rub cf end.
Definition clbs (ph : phase) : vec := match ph with Opt => cf_clb cf | Rest => evec 0 end.
Definition cubs (ph : phase) : vec := match ph with Opt => cf_cub cf | Rest => evec 0 end.

(** ** State-passing computations; the state survives errors, since SLEQP_ABORT_TIME is handled
    (problem_solver/solve.c:188).  [NoFuel]: the bound on the number of rounds of a loop given to the
    model is used up. *)
Inductive out (A : Type) : Type := Done (a : A) | Fail (c : code) | Stop | NoFuel.
Arguments Done {A} a.  Arguments Fail {A} c.  Arguments Stop {A}.  Arguments NoFuel {A}.
Definition M (A : Type) : Type := st -> out A * st.

Definition ret {A} (a : A) : M A := fun s => (Done a, s).
Definition bind {A B} (m : M A) (k : A -> M B) : M B := fun s =>
  match m s with
  | (Done a, s') => k a s'
  | (Fail c, s') => (Fail c, s')
  | (Stop, s') => (Stop, s')
  | (NoFuel, s') => (NoFuel, s')
  end.
Definition lift {A} (r : res A) : M A := fun s =>
  (match r with Ok a => Done a | Err c => Fail c | Trap => Stop end, s).
Definition get : M st := fun s => (Done s, s).
Definition modify (f : st -> st) : M unit := fun s => (Done tt, f s).
Definition assert_ (b : bool) : M unit := lift (check b).
Definition raise {A} (c : code) : M A := lift (Err c).
(** The return code is inspected rather than propagated. *)
Definition try (m : M unit) : M (option code) := fun s =>
  match m s with
  | (Done _, s') => (Done None, s')
  | (Fail c, s') => (Done (Some c), s')
  | (Stop, s') => (Stop, s')
  | (NoFuel, s') => (NoFuel, s')
  end.

Notation "'do' x <- m ; k" := (bind m (fun x => k)) (at level 200, x name, m at level 100, k at level 200).
Notation "m >> k" := (bind m (fun _ => k)) (at level 61, right associativity).

(** *** Fields *)
Definition ps_of (ph : phase) (s : st) : ps := match ph with Opt => s_opt s | Rest => s_rest s end.
Definition with_ps (ph : phase) (p : ps) (s : st) : st :=
  mkst (s_w s) (match ph with Opt => p | Rest => s_opt s end) (match ph with Opt => s_rest s | Rest => p end)
    (s_phase s) (s_cur s) (s_rcur s) (s_rcons s) (s_rjac s) (s_status s) (s_iters s) (s_primal s) (s_rprimal s) (s_timer s) (s_log s).
Definition with_w (w : W) (s : st) : st :=
  mkst w (s_opt s) (s_rest s) (s_phase s) (s_cur s) (s_rcur s) (s_rcons s) (s_rjac s) (s_status s) (s_iters s) (s_primal s) (s_rprimal s) (s_timer s) (s_log s).
Definition with_phase (ph : phase) (s : st) : st :=
  mkst (s_w s) (s_opt s) (s_rest s) ph (s_cur s) (s_rcur s) (s_rcons s) (s_rjac s) (s_status s) (s_iters s) (s_primal s) (s_rprimal s) (s_timer s) (s_log s).
Definition with_cur (c : option pt) (s : st) : st :=
  mkst (s_w s) (s_opt s) (s_rest s) (s_phase s) c (s_rcur s) (s_rcons s) (s_rjac s) (s_status s) (s_iters s) (s_primal s) (s_rprimal s) (s_timer s) (s_log s).
Definition with_rfunc (c : option pt) (v : option (vec * option pt)) (j : option (mat * option pt)) (s : st) : st :=
  mkst (s_w s) (s_opt s) (s_rest s) (s_phase s) (s_cur s) c v j (s_status s) (s_iters s) (s_primal s) (s_rprimal s) (s_timer s) (s_log s).
Definition with_status (x : sstatus) (s : st) : st :=
  mkst (s_w s) (s_opt s) (s_rest s) (s_phase s) (s_cur s) (s_rcur s) (s_rcons s) (s_rjac s) x (s_iters s) (s_primal s) (s_rprimal s) (s_timer s) (s_log s).
Definition with_iters (x : Z) (s : st) : st :=
  mkst (s_w s) (s_opt s) (s_rest s) (s_phase s) (s_cur s) (s_rcur s) (s_rcons s) (s_rjac s) (s_status s) x (s_primal s) (s_rprimal s) (s_timer s) (s_log s).
Definition with_primals (x r : vec) (s : st) : st :=
  mkst (s_w s) (s_opt s) (s_rest s) (s_phase s) (s_cur s) (s_rcur s) (s_rcons s) (s_rjac s) (s_status s) (s_iters s) x r (s_timer s) (s_log s).
Definition with_timer (b : bool) (s : st) : st :=
  mkst (s_w s) (s_opt s) (s_rest s) (s_phase s) (s_cur s) (s_rcur s) (s_rcons s) (s_rjac s) (s_status s) (s_iters s) (s_primal s) (s_rprimal s) b (s_log s).
Definition with_log (e : ev) (s : st) : st :=
  mkst (s_w s) (s_opt s) (s_rest s) (s_phase s) (s_cur s) (s_rcur s) (s_rcons s) (s_rjac s) (s_status s) (s_iters s) (s_primal s) (s_rprimal s) (s_timer s) (e :: s_log s).

Definition ps_its (a b : iterate) (p : ps) : ps := mkps a b (p_slack p) (p_feas p) (p_stat p) (p_cnt p) (p_rad p) (p_lprad p) (p_pen p) (p_status p) (p_abort p) (p_ali p) (p_nfeas p) (p_nreset p) (p_last p) (p_bdry p) (p_timer p).
Definition ps_res (a b c : num) (p : ps) : ps := mkps (p_it p) (p_tr p) a b c (p_cnt p) (p_rad p) (p_lprad p) (p_pen p) (p_status p) (p_abort p) (p_ali p) (p_nfeas p) (p_nreset p) (p_last p) (p_bdry p) (p_timer p).
Definition ps_cnt (c : cnt) (p : ps) : ps := mkps (p_it p) (p_tr p) (p_slack p) (p_feas p) (p_stat p) c (p_rad p) (p_lprad p) (p_pen p) (p_status p) (p_abort p) (p_ali p) (p_nfeas p) (p_nreset p) (p_last p) (p_bdry p) (p_timer p).
Definition ps_rad (a b c : num) (p : ps) : ps := mkps (p_it p) (p_tr p) (p_slack p) (p_feas p) (p_stat p) (p_cnt p) a b c (p_status p) (p_abort p) (p_ali p) (p_nfeas p) (p_nreset p) (p_last p) (p_bdry p) (p_timer p).
Definition ps_status (x : pstatus) (p : ps) : ps := mkps (p_it p) (p_tr p) (p_slack p) (p_feas p) (p_stat p) (p_cnt p) (p_rad p) (p_lprad p) (p_pen p) x (p_abort p) (p_ali p) (p_nfeas p) (p_nreset p) (p_last p) (p_bdry p) (p_timer p).
Definition ps_abort (b : bool) (p : ps) : ps := mkps (p_it p) (p_tr p) (p_slack p) (p_feas p) (p_stat p) (p_cnt p) (p_rad p) (p_lprad p) (p_pen p) (p_status p) b (p_ali p) (p_nfeas p) (p_nreset p) (p_last p) (p_bdry p) (p_timer p).
Definition ps_ali (b : bool) (p : ps) : ps := mkps (p_it p) (p_tr p) (p_slack p) (p_feas p) (p_stat p) (p_cnt p) (p_rad p) (p_lprad p) (p_pen p) (p_status p) (p_abort p) b (p_nfeas p) (p_nreset p) (p_last p) (p_bdry p) (p_timer p).
Definition ps_feas (a b : Z) (p : ps) : ps := mkps (p_it p) (p_tr p) (p_slack p) (p_feas p) (p_stat p) (p_cnt p) (p_rad p) (p_lprad p) (p_pen p) (p_status p) (p_abort p) (p_ali p) a b (p_last p) (p_bdry p) (p_timer p).
Definition ps_step (a : steptype) (b : bool) (p : ps) : ps := mkps (p_it p) (p_tr p) (p_slack p) (p_feas p) (p_stat p) (p_cnt p) (p_rad p) (p_lprad p) (p_pen p) (p_status p) (p_abort p) (p_ali p) (p_nfeas p) (p_nreset p) a b (p_timer p).
Definition ps_timer (b : bool) (p : ps) : ps := mkps (p_it p) (p_tr p) (p_slack p) (p_feas p) (p_stat p) (p_cnt p) (p_rad p) (p_lprad p) (p_pen p) (p_status p) (p_abort p) (p_ali p) (p_nfeas p) (p_nreset p) (p_last p) (p_bdry p) b.

Definition getp (ph : phase) : M ps := do s <- get; ret (ps_of ph s).
Definition modp (ph : phase) (f : ps -> ps) : M unit := modify (fun s => with_ps ph (f (ps_of ph s)) s).
Definition emit (e : ev) : M unit := modify (with_log e).

(** solver.c:424-432, called by the user; problem_solver.c:125-131.  [solver->abort_next] is never
    read. *)
Definition user_abort (b : bool) : M unit :=
  if b then do s <- get; emit (EAbort (s_phase s)) >> modp Opt (ps_abort true) else ret tt.

(** A question to an oracle under the control of the user. *)
Definition ask {A} (f : W -> ans A) : M A :=
  do s <- get;
  let '(r, a, w) := f (s_w s) in
  modify (with_w w) >> user_abort a >> lift r.
(** func.h:23-38: any code returned by a user function becomes an evaluation error. *)
Definition func_res {A} (r : res A) : res A := match r with Err _ => Err EFuncEval | _ => r end.
Definition ask_func {A} (f : W -> ans A) : M A :=
  ask (fun w => let '(r, a, w') := f w in (func_res r, a, w')).
(** A question to another oracle. *)
Definition tick {A} (f : W -> A * W) : M A :=
  do s <- get; let '(r, w) := f (s_w s) in modify (with_w w) >> ret r.

(** ** Functions *)

(** sleqp_problem_set_value (problem.c:460-474) of either problem; for the restoration problem this
    is lsq.c:47-64 and restoration.c:67-90: the caches are invalidated, and the variable part is
    passed to the user function. *)
Definition set_value (ph : phase) (x : vec) (r : reason) : M bool :=
  modify (fun s => match ph with
    | Opt => with_cur (Some (vent x)) s
    | Rest => with_cur (Some (take_below (cf_nv cf) (vent x))) (with_rfunc (Some (vent x)) None None s)
    end) >>
  ask_func (fun w => or_set Or w ph x r).

(** restoration.c:136-146, and 414-437 *)
Definition rest_cons : M vec :=
  do s <- get;
  match s_rcons s with
  | Some (v, _) => ret v
  | None =>
    do v <- ask_func (or_rcons Or);
    modify (fun t => with_rfunc (s_rcur t) (Some (v, s_cur s)) (s_rjac t) t) >> ret v
  end.
(** restoration.c:148-158 *)
Definition rest_jac : M mat :=
  do s <- get;
  match s_rjac s with
  | Some (v, _) => ret v
  | None =>
    do v <- ask_func (or_rjac Or);
    modify (fun t => with_rfunc (s_rcur t) (s_rcons t) (Some (v, s_cur s)) t) >> ret v
  end.

(** Which values are asked for. *)
Inductive what := WObjCons | WDerivs | WAll.

(** sleqp_problem_eval (problem.c:507-535) for an iterate with primal [x]; in restoration, values and
    gradient of the objective need the constraints (restoration.c:92-244). *)
Definition eval (ph : phase) (wh : what) (x : vec) : M evals :=
  do s <- get;
  emit (EEval ph (s_cur s) (s_rcur s) (vent x)) >>
  match ph with
  | Opt => ask_func (fun w => or_eval Or w Opt)
  | Rest =>
    do _ <- rest_cons;
    do _ <- match wh with WObjCons => ret emat | _ => rest_jac end;
    ask_func (fun w => or_eval Or w Rest)
  end.

(** The values of [wh] are written into an iterate; [c]: the point at which the function is. *)
Definition store (wh : what) (e : evals) (c : option pt) (i : iterate) : iterate :=
  match wh with
  | WObjCons => mkit (it_x i) (ev_obj e) (it_grad i) (ev_cons e) (it_jac i) (it_cdual i) (it_vdual i) c (it_gat i) c (it_jat i)
  | WDerivs => mkit (it_x i) (it_obj i) (ev_grad e) (ev_cons e) (ev_jac e) (it_cdual i) (it_vdual i) (it_oat i) c c c
  | WAll => mkit (it_x i) (ev_obj e) (ev_grad e) (ev_cons e) (ev_jac e) (it_cdual i) (it_vdual i) c c c c
  end.
Definition it_with_x (x : vec) (i : iterate) : iterate :=
  mkit x (it_obj i) (it_grad i) (it_cons i) (it_jac i) (it_cdual i) (it_vdual i) (it_oat i) (it_gat i) (it_cat i) (it_jat i).
Definition it_with_duals (c v : vec) (i : iterate) : iterate :=
  mkit (it_x i) (it_obj i) (it_grad i) (it_cons i) (it_jac i) c v (it_oat i) (it_gat i) (it_cat i) (it_jat i).

(** The point of the function of a phase, as seen by its problem solver. *)
Definition cur_of (ph : phase) (s : st) : option pt := match ph with Opt => s_cur s | Rest => s_rcur s end.
(** What the user function must be at for the iterate [x] of a phase. *)
Definition upart (ph : phase) (x : pt) : pt := match ph with Opt => x | Rest => take_below (cf_nv cf) x end.

(** step.c:5-40; [Some b]: the rejection is passed to the caller *)
Definition set_func_value (ph : phase) (x : vec) (r : reason) : M bool :=
  do rej <- set_value ph x r;
  if (rej : bool) then match r with RTrying => ret true | _ => raise EFuncEval end else ret false.

(** iteration.c:15-43 *)
Definition evaluate_at_trial (ph : phase) : M bool :=
  do p <- getp ph;
  do rej <- set_func_value ph (it_x (p_tr p)) RTrying;
  if (rej : bool) then ret true else
  do e <- eval ph WObjCons (it_x (p_tr p));
  do s <- get;
  modp ph (fun p => ps_its (p_it p) (store WObjCons e (cur_of ph s) (p_tr p)) p) >> ret false.

(** solver.c:57-85, 87-96: with the preprocessor, sleqp_restoration_restore_iterate
    (preprocessor/restore.c:738-) sets and evaluates the original function at the restored point of
    the current iterate of the optimisation problem. *)
Definition restore_original : M unit :=
  if cf_preproc cf then
    do p <- getp Opt;
    do rej <- set_value Opt (it_x (p_it p)) RNone;
    if (rej : bool) then raise EFuncEval else
    do _ <- eval Opt WAll (it_x (p_it p)); ret tt
  else ret tt.

(** phase.c:6-37 *)
Definition rest_accepted : M unit :=
  do c <- rest_cons;
  do v <- lift (max_violation (cf_nc cf) c (cf_clb cf) (cf_cub cf));
  if nleb v (cf_feas cf) then modp Rest (ps_abort true) else ret tt.

(** solver.c:241-275 *)
Definition opt_accepted : M unit :=
  ask (fun w => or_cb Or w CbPush) >>
  do s <- get;
  if or_has_cb Or (s_w s) then restore_original >> ask (fun w => or_cb Or w CbAccepted) else ret tt.

(** step.c:56-131 *)
Definition accept_step (ph : phase) : M unit :=
  do p <- getp ph;
  do _ <- set_func_value ph (it_x (p_tr p)) RAccepted;
  do e <- eval ph WDerivs (it_x (p_tr p));
  do s <- get;
  modp ph (fun p => ps_its (p_it p) (store WDerivs e (cur_of ph s) (p_tr p)) p) >>
  match ph with Opt => opt_accepted | Rest => rest_accepted end >>
  modp ph (fun p => ps_its (p_tr p) (p_it p) p).

(** step.c:42-54 *)
Definition reject_step (ph : phase) : M unit :=
  do p <- getp ph;
  do _ <- set_func_value ph (it_x (p_it p)) RRejected; ret tt.

(** iteration.c:45-62 *)
Definition residua (ph : phase) (i : iterate) : res (num * num * num) :=
  sl <- slackness_residuum (it_cons i) (clbs ph) (cubs ph) (it_cdual i) (it_x i) (lbs ph) (ubs ph) (it_vdual i) ;;
  fe <- max_violation (ncons ph) (it_cons i) (clbs ph) (cubs ph) ;;
  sr <- stationarity_residuum (it_jac i) (it_grad i) (it_cdual i) (it_vdual i) ;;
  Ok (sl, fe, sr).

(** iteration.c:64-145, with the assertions of trial_point.c:369-398; returns the merit value *)
Definition prepare_iteration (ph : phase) : M num :=
  do p <- getp ph;
  do m <- lift (merit_func (ncons ph) (it_obj (p_it p)) (it_cons (p_it p)) (clbs ph) (cubs ph) (p_pen p));
  do r <- lift (residua ph (p_it p));
  let '(sl, fe, sr) := r in
  modp ph (ps_res sl fe sr) >>
  modp ph (fun p => if is_feasible fe (cf_feas cf) then ps_feas (p_nfeas p + 1) (p_nreset p) p else p) >>
  assert_ (nltb n0 (p_rad p)) >> assert_ (nltb n0 (p_lprad p)) >> assert_ (nltb n0 (p_pen p)) >>
  ret m.

(** iteration.c:261-284: the feasibility residuum is that of the last call of [prepare_iteration] *)
Definition unbounded_test (p : ps) : bool :=
  nleb (it_obj (p_it p)) (cf_objlow cf) && is_feasible (p_feas p) (cf_feas cf).

(** trial_point.c:440-475 *)
Definition locally_infeasible (p : ps) (t : trial) : bool :=
  negb (nleb (p_feas p) (cf_feas cf)) && is_zero (t_lpnorm t) (cf_eps cf) && is_zero (t_norm t) (cf_eps cf).

(** trial_point.c:521-544, the sum being part of the answer of the oracle *)
Definition set_trial_point (ph : phase) (x : vec) : M unit :=
  do p <- getp ph;
  do y <- lift (vec_clip x (lbs ph) (ubs ph) (cf_zeps cf) (it_x (p_tr p)));
  modp ph (fun p => ps_its (p_it p) (it_with_x y (p_tr p)) p).

(** trial_point.c:936-978.  The timer is stopped only if there is no error. *)
Definition compute_trial (ph : phase) : M trial :=
  do p <- getp ph;
  assert_ (negb (p_timer p)) >>
  modp ph (ps_timer true) >>
  do s <- get;
  emit (EHess ph (s_cur s) (s_rcur s) (vent (it_x (p_it p)))) >>
  do s <- get;
  let '(a, ab, w) := or_trial Or (s_w s) ph (ps_of ph s) in
  modify (with_w w) >> user_abort ab >>
  modp ph (fun p => ps_its (it_with_duals (ta_cd a) (ta_vd a) (match ta_refine a with Some e => store WAll e (cur_of ph s) (p_it p) | None => p_it p end))
                           (it_with_duals (ta_tcd a) (ta_tvd a) (p_tr p)) p) >>
  do t <- lift (ta_res a);
  set_trial_point ph (t_point t) >>
  modp ph (ps_timer false) >>
  ret t.

(** trial_point.c:1075-1098; returns norm and rejection *)
Definition compute_soc (ph : phase) : M (num * bool) :=
  do p <- getp ph;
  assert_ (negb (p_timer p)) >>
  modp ph (ps_timer true) >>
  do p <- getp ph;
  do c <- ask (fun w => or_soc Or w ph p);
  match so_point c with Some x => set_trial_point ph x | None => ret tt end >>
  modp ph (ps_timer false) >>
  ret (so_norm c, so_reject c).

Definition cnt_acc (c : cnt) := mkcnt (c_iter c) (c_elapsed c) (c_acc c + 1) (c_soc c) (c_rej c) (c_fail c).
Definition cnt_soc (c : cnt) := mkcnt (c_iter c) (c_elapsed c) (c_acc c) (c_soc c + 1) (c_rej c) (c_fail c).
Definition cnt_rej (c : cnt) := mkcnt (c_iter c) (c_elapsed c) (c_acc c) (c_soc c) (c_rej c + 1) (c_fail c).
Definition cnt_fail (c : cnt) := mkcnt (c_iter c) (c_elapsed c) (c_acc c) (c_soc c) (c_rej c) (c_fail c + 1).
Definition cnt_elapsed (c : cnt) := mkcnt (c_iter c + 1) (c_elapsed c + 1) (c_acc c) (c_soc c) (c_rej c) (c_fail c).
Definition bump (ph : phase) (f : cnt -> cnt) : M unit := modp ph (fun p => ps_cnt (f (p_cnt p)) p).

(** iteration.c:429-456 and 516-543: evaluation at the trial iterate and step rule; returns
    acceptance and reduction ratio ([ratio] if the rule is not applied) *)
Definition try_step (ph : phase) (merit model ratio : num) : M (bool * num) :=
  do rej <- evaluate_at_trial ph;
  if (rej : bool) then ret (false, ratio) else
  do p <- getp ph;
  do m <- lift (merit_func (ncons ph) (it_obj (p_tr p)) (it_cons (p_tr p)) (clbs ph) (cubs ph) (p_pen p));
  tick (fun w => or_rule Or w ph merit m model).

(** iteration.c:485-563: the second-order correction *)
Definition soc_part (ph : phase) (merit model ratio : num) : M (bool * num) :=
  if (0 <? ncons ph) && cf_perf_soc cf then
    do c <- compute_soc ph;
    do p <- getp ph;
    let big := is_gt (fst c) (nmul (nlit 10 1) (p_rad p)) (cf_eps cf) in
    if negb (snd c) && negb big then
      do r <- try_step ph merit model ratio;
      (if fst r then modp ph (fun p => ps_step StSoc (p_bdry p) p) >> bump ph cnt_soc
       else bump ph cnt_rej) >>
      ret r
    else emit (EDrop ph) >> ret (false, ratio)
  else bump ph cnt_rej >> ret (false, ratio).

(** iteration.c:349-602.  compute_step_lengths (219-259) only serves printing. *)
Definition perform_iteration (ph : phase) : M unit :=
  do p <- getp ph;
  assert_ (is_running (p_status p)) >>
  do b <- lift (vec_is_boxed (it_x (p_it p)) (lbs ph) (ubs ph));
  assert_ b >>
  emit (EIter ph) >>
  if unbounded_test p then modp ph (ps_status PUnbounded) else
  do merit <- prepare_iteration ph;
  do p <- getp ph;
  if is_optimal (cf_feas cf) (cf_slack cf) (cf_stat cf) (p_feas p) (p_slack p) (p_stat p)
  then modp ph (ps_status POptimal) else
  do t <- compute_trial ph;
  (if t_failed t then bump ph cnt_fail else ret tt) >>
  do p <- getp ph;
  if locally_infeasible p t && p_ali p then modp ph (ps_status PLocInf) else
  (if t_reset t then modp ph (fun p => ps_feas 0 (p_nreset p + 1) p) else ret tt) >>
  do r <- try_step ph merit (t_model t) (nlit (-1) 1);
  do p <- getp ph;
  modp ph (ps_step StRejected (is_geq (t_norm t) (p_rad p) (cf_eps cf))) >>
  do r <- (if fst r then
             bump ph cnt_acc >>
             modp ph (fun p => ps_step (if t_full t then StFull else StAccepted) (p_bdry p) p) >>
             ret r
           else soc_part ph merit (t_model t) (snd r));
  modify (fun s => let p := ps_of ph s in with_log (ECount ph) (with_ps ph (ps_cnt (cnt_elapsed (p_cnt p)) p) s)) >>
  modp ph (fun p =>
    let rad := if cf_quad cf && cf_newton cf then update_radius (cf_eps cf) (snd r) (fst r) (t_norm t) (p_rad p) else p_rad p in
    let lp := update_lp_radius (fst r) (t_inf t) (t_cauchyinf t) (t_full t) (p_lprad p) in
    ps_rad rad lp (t_pen t) p) >>
  (if fst r then accept_step ph else reject_step ph) >>
  match ph with Opt => ask (fun w => or_cb Or w CbPerformed) | Rest => ret tt end.

(** ** problem_solver/solve.c *)

(** deriv_check.c:641-671, 742-792 *)
Fixpoint deriv_loop (ph : phase) (k : nat) (j : Z) : M unit :=
  match k with
  | O => ret tt
  | S k' =>
    do p <- getp ph;
    do y <- tick (fun w => or_perturb Or w ph (it_x (p_it p)) j);
    do rej <- set_value ph y RDeriv;
    (if (rej : bool) then ret tt else ask_func (fun w => or_deriv Or w ph)) >>
    do rej <- set_value ph (it_x (p_it p)) RDeriv;
    if (rej : bool) then raise EInternal else
    deriv_loop ph k' (j + 1)
  end.
Definition deriv_check (ph : phase) : M unit :=
  if cf_deriv cf then
    deriv_loop ph (Z.to_nat (nvars ph)) 0 >>
    ask (fun w => or_deriv Or w ph)
  else ret tt.

(** solve.c:156-209; [lim = -1] (SLEQP_NONE): no limit *)
Fixpoint ps_loop (fuel : nat) (ph : phase) (lim : Z) : M unit :=
  match fuel with
  | O => fun s => (NoFuel, s)
  | S f =>
    do t <- tick (or_clock Or);
    if (t : bool) then modp ph (ps_status PTime) else
    do p <- getp ph;
    if negb (lim =? -1) && (lim <=? c_elapsed (p_cnt p)) then modp ph (ps_status PIter) else
    if p_abort p then modp ph (ps_status PManual) else
    do e <- try (perform_iteration ph);
    do t <- match e with Some EAbortTime => ret true | _ => tick (or_clock Or) end;
    if (t : bool) then
      match e with Some EAbortTime | None => ret tt | Some c => emit (ELost ph c) end >>
      modp ph (ps_status PTime) else
    match e with
    | Some c => raise c
    | None =>
      do p <- getp ph;
      if nleb (p_lprad p) (cf_dead cf) || nleb (p_rad p) (cf_dead cf) then modp ph (ps_status PDeadpoint) else
      if is_running (p_status p) then ps_loop f ph lim else ret tt
    end
  end.

(** solve.c:94-214 *)
Definition ps_solve (fuel : nat) (ph : phase) (lim : Z) (ali : bool) : M unit :=
  modp ph (fun p => ps_status PRunning (ps_ali ali p)) >>
  do p <- getp ph;
  do _ <- lift (total_violation (ncons ph) (it_cons (p_it p)) (clbs ph) (cubs ph));
  deriv_check ph >>
  modp ph (fun p => ps_step StNone (p_bdry p) (ps_cnt (mkcnt (c_iter (p_cnt p)) 0 0 0 0 0) (ps_abort false (ps_status PRunning p)))) >>
  emit (EStart ph) >>
  ps_loop fuel ph lim >>
  do p <- getp ph;
  assert_ (negb (is_running (p_status p))).

(** ** solver/phase.c *)

(** phase.c:39-51 and 150-191, then 208; the second call of create_restoration_primal repeats the
    first *)
Definition to_restoration : M unit :=
  do s <- get;
  let i := p_it (s_opt s) in
  do x <- lift (restoration_transform (cf_nv cf) (cf_nc cf) (it_x i) (it_cons i) (cf_clb cf) (cf_cub cf) (s_rprimal s));
  modify (fun s => with_primals (s_primal s) x s) >>
  do y <- lift (vec_copy x (it_x (p_it (s_rest s))));
  modp Rest (fun p => ps_its (it_with_x y (p_it p)) (p_tr p) p) >>
  modify (with_rfunc (Some (vent x)) (Some (it_cons i, it_cat i)) (Some (it_jac i, it_jat i))) >>
  do s <- get;
  emit (EEval Rest (s_cur s) (s_rcur s) (vent x)) >>
  do e <- ask_func (fun w => or_eval Or w Rest);
  modp Rest (fun p =>
    ps_its (mkit (it_x (p_it p)) (ev_obj e) (ev_grad e) (it_cons (p_it p)) (it_jac (p_it p)) (it_cdual (p_it p)) (it_vdual (p_it p))
              (s_rcur s) (s_rcur s) (it_cat (p_it p)) (it_jat (p_it p))) (p_tr p) p) >>
  modify (with_phase Rest) >> emit (EPhase Rest).

(** phase.c:53-65 and 98-144, then 218 *)
Definition to_optimization : M unit :=
  do s <- get;
  do x <- lift (restoration_restore (cf_nv cf) (cf_nc cf) (it_x (p_it (s_rest s))) (s_primal s));
  modify (fun s => with_primals x (s_rprimal s) s) >>
  do y <- lift (vec_copy x (it_x (p_it (s_opt s))));
  modp Opt (fun p => ps_its (it_with_x y (p_it p)) (p_tr p) p) >>
  do cv <- rest_cons;
  do cj <- rest_jac;
  do s <- get;
  emit (EEval Opt (s_cur s) (s_rcur s) (vent x)) >>
  do e <- ask_func (fun w => or_eval Or w Opt);
  modp Opt (fun p =>
    ps_its (mkit (it_x (p_it p)) (ev_obj e) (ev_grad e) cv cj (it_cdual (p_it p)) (it_vdual (p_it p))
              (s_cur s) (s_cur s) (match s_rcons s with Some (_, c) => c | None => None end)
              (match s_rjac s with Some (_, c) => c | None => None end)) (p_tr p) p) >>
  modify (with_phase Opt) >> emit (EPhase Opt).

(** phase.c:193-222 *)
Definition toggle : M unit :=
  do s <- get; match s_phase s with Opt => to_restoration | Rest => to_optimization end.

(** ** solver/solve.c *)

(** util.c:12-48; the values are stored even if the point is rejected *)
Definition set_and_evaluate (r : reason) : M bool :=
  do p <- getp Opt;
  do rej <- set_value Opt (it_x (p_it p)) r;
  do e <- eval Opt WAll (it_x (p_it p));
  do s <- get;
  modp Opt (fun p => ps_its (store WAll e (s_cur s) (p_it p)) (p_tr p) p) >> ret rej.

(** solve.c:5-44 *)
Definition check_feasibility : M bool :=
  do rej <- set_and_evaluate RTrying;
  if (rej : bool) then ret false else
  do p <- getp Opt;
  do v <- lift (max_violation (cf_nc cf) (it_cons (p_it p)) (cf_clb cf) (cf_cub cf));
  ret (is_feasible v (cf_feas cf)).

(** solve.c:57-93 *)
Definition set_initial_iterate : M unit :=
  do s <- get;
  assert_ (match s_phase s with Opt => true | Rest => false end) >>
  do x <- lift (vec_clip (s_primal s) (cf_lb cf) (cf_ub cf) (cf_zeps cf) (it_x (p_it (s_opt s))));
  modp Opt (fun p => ps_its (it_with_x x (p_it p)) (p_tr p) p) >>
  do rej <- set_and_evaluate RInit;
  if (rej : bool) then raise EInternal else ret tt.

(** solve.c:110-251.  [fi]: bound on the rounds of each inner loop.  The check of lines 220-224 is
    only compiled into debug builds, and not modelled. *)
Fixpoint run_loop (fuel fi : nat) (remaining : Z) (unlimited enable : bool) : M unit :=
  match fuel with
  | O => fun s => (NoFuel, s)
  | S f =>
    assert_ ((0 <=? remaining) || unlimited) >>
    do t <- tick (or_clock Or);
    if (t : bool) then modify (with_status STime) else
    if remaining =? 0 then modify (with_status SIter) else
    do s <- get;
    let ph := s_phase s in
    modp ph (fun p => ps_cnt (mkcnt (s_iters s) (c_elapsed (p_cnt p)) (c_acc (p_cnt p)) (c_soc (p_cnt p)) (c_rej (p_cnt p)) (c_fail (p_cnt p))) p) >>
    ps_solve fi ph remaining enable >>
    do p <- getp ph;
    assert_ (negb (is_unknown (p_status p))) >> assert_ (negb (is_running (p_status p))) >>
    modify (fun s => with_iters (s_iters s + c_elapsed (p_cnt p)) s) >>
    let remaining := if unlimited then remaining else remaining - c_elapsed (p_cnt p) in
    match p_status p with
    | PIter => modify (with_status SIter)
    | PTime => modify (with_status STime)
    | PDeadpoint => modify (with_status SDeadpoint)
    | x =>
      match ph with
      | Opt =>
        match x with
        | POptimal => modify (with_status SOptimal)
        | PManual => modify (with_status SManual)
        | PUnbounded => modify (with_status SUnbounded)
        | PLocInf => (if enable then toggle else ret tt) >> run_loop f fi remaining unlimited enable
        | _ => assert_ false
        end
      | Rest =>
        toggle >>
        do feasible <- match x with
                       | PManual => ret true
                       | POptimal => check_feasibility
                       | _ => do _ <- assert_ false; ret false
                       end;
        run_loop f fi remaining unlimited (if feasible then enable else false)
      end
    end
  end.

Definition sstatus_unknown (x : sstatus) : bool := match x with SUnknown => true | _ => false end.

(** solve.c:95-254 *)
Definition run_solving_loop (fuel fi : nat) (lim : Z) : M unit :=
  modify (with_iters 0) >>
  set_initial_iterate >>
  run_loop fuel fi lim (lim =? -1) (cf_restoration cf) >>
  do s <- get;
  assert_ (negb (sstatus_unknown (s_status s))) >>
  match s_phase s with Opt => ret tt | Rest => toggle end.

(** solve.c:256-298, with the timer of timer.c:65-74, 101-118; polishing (Polish.v) only changes the
    working set *)
Definition solver_solve (fuel fi : nat) (lim : Z) : M unit :=
  do s <- get;
  match s_status s with
  | SInfeasible => ret tt
  | _ =>
    assert_ (negb (s_timer s)) >> modify (with_timer true) >>
    run_solving_loop fuel fi lim >>
    restore_original >>
    do p <- getp Opt;
    do _ <- lift (max_violation (cf_nc cf) (it_cons (p_it p)) (cf_clb cf) (cf_cub cf));
    ask (fun w => or_cb Or w CbFinished) >>
    modify (with_timer false)
  end.
End Solver.
