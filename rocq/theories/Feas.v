(** Constraint violation (/repo/src/main/feas.c), optimality residuals
    (/repo/src/main/iterate.c), the maximum step length (/repo/src/main/util.c:126-242)
    and the merit function (/repo/src/main/merit.c). *)
From Verif Require Import Base Num Cmp Sparse Vec Mat WorkingSet.
Local Open Scope Z_scope.

Section Feas.
Context {N : Num}.

(** The three-way loop head of all functions in feas.c (e.g. feas.c:33-60): index, constraint
    value, lower and upper bound, absent entries being zero. *)
Definition feas_rows (c lb ub : vec) : res (list (Z * (num * num * num))) :=
  rows <- align (vdim c) [vent c; vent lb; vent ub] ;;
  Ok (map (fun r => (fst r, match snd r with [a; l; u] => (oval a, oval l, oval u) | _ => (n0, n0, n0) end)) rows).

(** feas.c:63-64 etc. *)
Definition upper_viol (c u : num) : num := nmax (nsub c u) n0.
Definition lower_viol (c l : num) : num := nmax (nsub l c) n0.

(** [working_set && cons_state(working_set, idx) != INACTIVE] *)
Definition ws_skip (w : option wset) (i : Z) : res bool :=
  match w with None => Ok false | Some w => s <- ws_cons_state w i ;; Ok (active s) end.

(** feas.c:6-77 *)
Definition violated_multipliers (nc : Z) (c lb ub mult : vec) (w : option wset) : res vec :=
  r <- vec_reserve (vec_clear mult) nc ;;
  check (vdim lb =? vdim c) ;;; check (vdim ub =? vdim c) ;;; check (vdim r =? vdim c) ;;;
  rows <- feas_rows c lb ub ;;
  rfold (fun r row => let '(i, (cv, l, u)) := row in
    sk <- ws_skip w i ;;
    if (sk : bool) then Ok r else
    if nltb n0 (upper_viol cv u) then vec_push r i n1 else
    if nltb n0 (lower_viol cv l) then vec_push r i (nlit (-1) 1) else Ok r) r rows.

(** feas.c:79-145; the array has room for all constraints. *)
Definition violated_constraints (c lb ub : vec) : res (list Z) :=
  rows <- feas_rows c lb ub ;;
  Ok (map fst (filter (fun row => let '(i, (cv, l, u)) := row in
        nltb n0 (upper_viol cv u) || nltb n0 (lower_viol cv l)) rows)).

(** feas.c:147-216 *)
Definition violation_values (nc : Z) (c lb ub r : vec) : res vec :=
  check (vdim c =? nc) ;;; check (vdim c =? vdim lb) ;;; check (vdim c =? vdim ub) ;;;
  r <- vec_resize (vec_clear r) (vdim c) ;;
  r <- vec_reserve r (Z.min (vnnz lb + vnnz ub + vnnz c) nc) ;;
  rows <- feas_rows c lb ub ;;
  rfold (fun r row => let '(i, (cv, l, u)) := row in
    if nltb n0 (upper_viol cv u) then vec_push r i (nsub cv u) else
    if nltb n0 (lower_viol cv l) then vec_push r i (nsub cv l) else Ok r) r rows.

(** feas.c:218-326 *)
Definition feasibility_residuals (nc : Z) (c lb ub r : vec) (w : option wset) (signed : bool) : res vec :=
  check (vdim c =? nc) ;;; check (vdim c =? vdim lb) ;;; check (vdim c =? vdim ub) ;;;
  r <- vec_resize (vec_clear r) (vdim c) ;;
  r <- vec_reserve r (Z.min (vnnz lb + vnnz ub + vnnz c) nc) ;;
  rows <- feas_rows c lb ub ;;
  rfold (fun r row => let '(i, (cv, l, u)) := row in
    sk <- ws_skip w i ;;
    if (sk : bool) then Ok r else
    let up := upper_viol cv u in let lo := lower_viol cv l in
    check (neqb up n0 || neqb lo n0) ;;;
    let residual := if signed then (if negb (neqb up n0) then up else nopp lo) else nmax lo up in
    if negb (neqb residual n0) then vec_push r i residual else Ok r) r rows.

(** feas.c:328-390 *)
Definition max_violation (nc : Z) (c lb ub : vec) : res num :=
  check (vdim c =? nc) ;;; check (vdim c =? vdim lb) ;;; check (vdim c =? vdim ub) ;;;
  rows <- feas_rows c lb ub ;;
  Ok (fold_left (fun m row => let '(i, (cv, l, u)) := row in
        if nltb n0 (upper_viol cv u) then nmax (upper_viol cv u) m else
        if nltb n0 (lower_viol cv l) then nmax (lower_viol cv l) m else m) rows n0).

(** feas.c:392-454 *)
Definition total_violation (nc : Z) (c lb ub : vec) : res num :=
  check (vdim c =? nc) ;;; check (vdim c =? vdim lb) ;;; check (vdim c =? vdim ub) ;;;
  rows <- feas_rows c lb ub ;;
  Ok (fold_left (fun m row => let '(i, (cv, l, u)) := row in
        if nltb n0 (upper_viol cv u) then nadd m (upper_viol cv u) else
        if nltb n0 (lower_viol cv l) then nadd m (lower_viol cv l) else m) rows n0).

(** ** iterate.c *)

(** iterate.c:203-210 *)
Definition slack_val (v l u d : num) : num :=
  if nleb n0 d then nmul (nmax (nsub u v) n0) d else nmul (nmax (nsub v l) n0) d.

(** The loop iterate.c:174-233 (also 289-351): it ends when the multipliers, or all of the
    values and bounds, are used up. *)
Fixpoint slack_loop {S} (body : S -> Z -> num -> res S) (fuel : nat) (dim : Z) (lv ll lu ld : list (Z * num)) (s : S) : res S :=
  match fuel with
  | O => Trap
  | Datatypes.S f =>
    if all_nil [lv; ll; lu] || all_nil [ld] then Ok s else
    let i := min_head dim [ll; lu; ld; lv] in
    let at_ l := oval (head_val i l) in
    s <- body s i (slack_val (at_ lv) (at_ ll) (at_ lu) (at_ ld)) ;;
    slack_loop body f dim (advance i lv) (advance i ll) (advance i lu) (advance i ld) s
  end.

(** iterate.c:153-238 *)
Definition slack_residuum (v lb ub d : vec) : res num :=
  check (vdim lb =? vdim v) ;;; check (vdim ub =? vdim v) ;;; check (vdim d =? vdim v) ;;;
  slack_loop (fun r _ x => Ok (nmax r (nabs x)))
    (Datatypes.S (total_len [vent v; vent lb; vent ub; vent d])) (vdim v) (vent v) (vent lb) (vent ub) (vent d) n0.

(** iterate.c:268-356 *)
Definition slack_residuals (v lb ub d r : vec) (zero_eps : num) : res vec :=
  r <- vec_resize (vec_clear r) (vdim v) ;;
  r <- vec_reserve r (vdim v) ;;
  slack_loop (fun r i x => if is_zero x zero_eps then Ok r else vec_push r i x)
    (Datatypes.S (total_len [vent v; vent lb; vent ub; vent d])) (vdim v) (vent v) (vent lb) (vent ub) (vent d) r.

(** iterate.c:240-266; [cv cl cu cd]: constraint values, bounds, multipliers; [xv ...]: variables *)
Definition slackness_residuum (cv cl cu cd xv xl xu xd : vec) : res num :=
  a <- slack_residuum cv cl cu cd ;;
  let r := nmax n0 a in
  b <- slack_residuum xv xl xu xd ;;
  Ok (nmax r b).

(** iterate.c:440-467; one column of the Jacobian *)
Definition jac_column (dual : vec) (col : list (Z * num)) : num :=
  dot_loop (length (vent dual) + length col) (vent dual) col n0.

Definition add_at (a : list num) (e : Z * num) : res (list num) :=
  x <- arr_get a (fst e) ;; arr_set a (fst e) (nadd x (snd e)).

(** iterate.c:416-480 *)
Definition stationarity_cache (jac : mat) (grad cons_dual vars_dual : vec) : res (list num) :=
  cache <- rmapM (fun j => es <- col_entries jac j ;; Ok (jac_column cons_dual es)) (zrange (mnc jac)) ;;
  cache <- rfold add_at cache (vent vars_dual) ;;
  rfold add_at cache (vent grad).

(** iterate.c:498-517 *)
Definition stationarity_residuum (jac : mat) (grad cons_dual vars_dual : vec) : res num :=
  cache <- stationarity_cache jac grad cons_dual vars_dual ;;
  Ok (fold_left (fun r x => nmax r (nabs x)) cache n0).

(** iterate.c:482-496 *)
Definition stationarity_residuals (jac : mat) (grad cons_dual vars_dual r : vec) (zero_eps : num) : res vec :=
  cache <- stationarity_cache jac grad cons_dual vars_dual ;;
  vec_set_from_raw r cache zero_eps.

(** iterate.c:519-525 *)
Definition is_feasible (feas_res feas_eps : num) : bool := nleb feas_res feas_eps.
(** iterate.c:527-564 *)
Definition is_optimal (feas_eps slack_eps stat_eps feas_res slack_res stat_res : num) : bool :=
  if negb (is_feasible feas_res feas_eps) then false else
  if nleb stat_eps stat_res then false else
  if nleb slack_eps slack_res then false else true.

(** ** util.c *)

(** Loop body util.c:170-178 *)
Definition upper_step (m x d u : num) : num :=
  let diff := nsub u x in
  if (nltb n0 d && nltb n0 diff) || (nltb d n0 && nltb diff n0) then nmin m (ndiv diff d) else m.
(** Loop body util.c:219-227 *)
Definition lower_step (m x d l : num) : num :=
  let diff := nsub l x in
  if (nltb d n0 && nltb diff n0) || (nltb n0 d && nltb n0 diff) then nmin m (ndiv diff d) else m.

(** util.c:126-242; [m] is the initial value of the in/out parameter. *)
Definition max_step_length (x d l u : vec) (m : num) : res num :=
  check (vdim l =? vdim x) ;;; check (vdim u =? vdim x) ;;; check (vdim d =? vdim x) ;;; check (nltb n0 m) ;;;
  urows <- feas_rows x d u ;;
  let m := fold_left (fun m row => let '(i, (xv, dv, uv)) := row in upper_step m xv dv uv) urows m in
  lrows <- feas_rows x d l ;;
  let m := fold_left (fun m row => let '(i, (xv, dv, lv)) := row in lower_step m xv dv lv) lrows m in
  check (nleb n0 m) ;;; Ok m.

(** ** merit.c *)

(** merit.c:59-78 *)
Definition merit_func (nc : Z) (obj : num) (c lb ub : vec) (penalty : num) : res num :=
  t <- total_violation nc c lb ub ;; Ok (nadd obj (nmul penalty t)).

(** merit.c:79-111; [dobj] the directional derivative, [djac] the product of Jacobian and direction *)
Definition merit_linear (nc : Z) (obj dobj : num) (c djac lb ub : vec) (zero_eps penalty : num) (cache : vec) : res num :=
  comb <- vec_add djac c zero_eps cache ;;
  t <- total_violation nc comb lb ub ;; Ok (nadd (nadd obj dobj) (nmul penalty t)).

(** merit.c:113-138 *)
Definition merit_quadratic (nc : Z) (obj dobj : num) (c djac lb ub dprim dhess : vec) (zero_eps penalty : num) (cache : vec) : res num :=
  l <- merit_linear nc obj dobj c djac lb ub zero_eps penalty cache ;;
  b <- vec_dot dprim dhess ;; Ok (nadd l (nmul (nlit 1 2) b)).
End Feas.
