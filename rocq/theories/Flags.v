(** Function flags (/repo/src/main/func.c:262-311), timers (/repo/src/main/timer.c) and the value
    cache of dynamic functions (/repo/src/main/dyn.c). *)
From Verif Require Import Base Num Cmp.
Local Open Scope Z_scope.

(** ** Flags *)

(** func.h:15-21 *)
Definition HESS_INEXACT := 1.
Definition HESS_PSD := 2.
Definition FUNC_INTERNAL := 4.
Definition HESS_INTERNAL := 8.

(** func.c:280-311 *)
Definition flags_add (f m : Z) : Z := Z.lor f m.
Definition flags_remove (f m : Z) : Z := Z.land f (Z.lnot m).
Definition flags_set (f m : Z) (v : bool) : Z := if v then flags_add f m else flags_remove f m.
Definition has_flags (f m : Z) : bool := negb (Z.land f m =? 0).
Definition flags_copy (src tgt m : Z) : Z := flags_set tgt m (has_flags src m).

(** Flags of derived functions; func.c:55 and lsq.c:348-366 set the initial flags.
    fixed_var_func.c:484-489 and problem_scaling.c:368-374 (plain), fixed_var_func.c:548 and
    problem_scaling.c:410 (least squares, on top of lsq.c:362-365),
    fixed_var_func.c:596-598 (dynamic). *)
Definition derived_flags (src : Z) : Z := flags_add (flags_copy src 0 (Z.lor HESS_INEXACT HESS_PSD)) FUNC_INTERNAL.
Definition lsq_flags : Z := Z.lor (Z.lor HESS_PSD HESS_INEXACT) HESS_INTERNAL.
Definition derived_lsq_flags : Z := flags_add lsq_flags FUNC_INTERNAL.
Definition derived_dyn_flags (src : Z) : Z := flags_add (flags_copy src 0 HESS_PSD) FUNC_INTERNAL.

(** ** Timers *)
Section Timer.
Context {N : Num}.
Local Open Scope num_scope.

(** timer.c:13-23; clock readings are integers, CLOCKS_PER_SEC = 10^6. *)
Record timer := mktimer { t_start : Z; t_runs : Z; t_running : bool; t_total : num; t_total_sq : num; t_last : num }.

(** timer.c:76-82 *)
Definition timer_reset : timer := mktimer 0 0 false n0 n0 n0.
(** (double)(end - start) / CLOCKS_PER_SEC *)
Definition secs (ticks : Z) : num := nlit ticks 1 / nlit 1000000 1.
(** timer.c:65-74 *)
Definition timer_start (t : timer) (now : Z) : res timer :=
  check (negb (t_running t)) ;;; Ok (mktimer now (t_runs t) true (t_total t) (t_total_sq t) (t_last t)).
(** timer.c:84-118 *)
Definition timer_stop (t : timer) (now : Z) : res timer :=
  check (t_running t) ;;;
  let e := secs (now - t_start t)%Z in
  check (e >=? n0) ;;;
  Ok (mktimer (t_start t) (t_runs t + 1)%Z false (t_total t + e) (t_total_sq t + e * e) e).
(** timer.c:134-143 *)
Definition timer_add (t : timer) (v : num) : timer :=
  mktimer (t_start t) (t_runs t) (t_running t) (t_total t + v) (t_total_sq t + v * v) (t_last t + v).
(** timer.c:121-132 *)
Definition timer_current (t : timer) (now : Z) : num :=
  if t_running t then secs (now - t_start t)%Z else n0.
(** timer.c:145-149 *)
Definition timer_elapsed (t : timer) (now : Z) : num := t_last t + timer_current t now.
(** timer.c:151-162 *)
Definition timer_avg (t : timer) : res num :=
  check (negb (t_running t)) ;;; Ok (if (t_runs t =? 0)%Z then n0 else t_total t / nlit (t_runs t) 1).
(** timer.c:164-168 *)
Definition timer_ttl (t : timer) (now : Z) : num := t_total t + timer_current t now.
(** timer.c:170-183: the argument of the square root *)
Definition timer_var (t : timer) : res num :=
  if (t_runs t =? 0)%Z then Ok n0 else
  a <- timer_avg t ;; Ok (t_total_sq t / nlit (t_runs t) 1 - a * a).
(** timer.c:318-346; SLEQP_NONE = -1 *)
Definition remaining_time (elapsed limit : num) : num :=
  if limit =? nlit (-1) 1 then nlit (-1) 1 else nmax (limit - elapsed) n0.
Definition exhausted (t : timer) (now : Z) (limit : num) : bool :=
  if limit =? nlit (-1) 1 then false else remaining_time (timer_ttl t now) limit <=? n0.
End Timer.

(** ** Dynamic functions *)
Section Dyn.
Context {N : Num}.
(** Points, constraint values and weights are opaque; the user's evaluation is an oracle
    which sees the settings of the calls it received, and may depend on how often it was called. *)
Variables (Point Val Wt : Type).
Record dconf := mkdc { dc_point : option Point; dc_bound : option num; dc_wobj : option num; dc_wcons : option Wt }.
Variable eval : nat -> dconf -> res (num * Val * num).

Definition HAS_OBJ_WEIGHT := 1.
Definition HAS_CONS_WEIGHTS := 2.
Definition HAS_ERROR_BOUND := 4.
Definition HAS_VALUES := 8.

(** dyn.c:16-26; [d_conf] is what the user's callbacks have been told. *)
Record dyn := mkdyn { d_flags : Z; d_val : option (num * Val); d_bound : num; d_error : num; d_conf : dconf; d_calls : nat }.

(** dyn.c:234-252; all fields zero *)
Definition dyn_create : dyn := mkdyn 0 None n0 n0 (mkdc None None None None) 0.

(** dyn.c:32-50 *)
Definition dyn_set_value (d : dyn) (x : Point) : dyn :=
  let c := d_conf d in
  mkdyn (Z.land (d_flags d) (Z.lnot HAS_VALUES)) (d_val d) (d_bound d) (nlit (-1) 1)
        (mkdc (Some x) (dc_bound c) (dc_wobj c) (dc_wcons c)) (d_calls d).

(** dyn.c:292-309 *)
Definition dyn_set_bound (d : dyn) (b : num) : dyn :=
  let c := d_conf d in
  mkdyn (Z.land (Z.lor (d_flags d) HAS_ERROR_BOUND) (Z.lnot HAS_VALUES)) (d_val d) b (d_error d)
        (mkdc (dc_point c) (Some b) (dc_wobj c) (dc_wcons c)) (d_calls d).

(** dyn.c:354-370: clears bit [1 << HAS_VALUES], not [HAS_VALUES] *)
Definition dyn_set_wobj (d : dyn) (w : num) : dyn :=
  let c := d_conf d in
  mkdyn (Z.land (Z.lor (d_flags d) HAS_OBJ_WEIGHT) (Z.lnot (Z.shiftl 1 HAS_VALUES))) (d_val d) (d_bound d) (d_error d)
        (mkdc (dc_point c) (dc_bound c) (Some w) (dc_wcons c)) (d_calls d).

(** dyn.c:372-394 (with at least one constraint) *)
Definition dyn_set_wcons (d : dyn) (w : Wt) : dyn :=
  let c := d_conf d in
  mkdyn (Z.land (Z.lor (d_flags d) HAS_CONS_WEIGHTS) (Z.lnot (Z.shiftl 1 HAS_VALUES))) (d_val d) (d_bound d) (d_error d)
        (mkdc (dc_point c) (dc_bound c) (dc_wobj c) (Some w)) (d_calls d).

Definition has (d : dyn) (m : Z) : bool := negb (Z.land (d_flags d) m =? 0).

(** dyn.c:86-141 (with at least one constraint; the three asserts are debug-only) *)
Definition dyn_eval (d : dyn) : res dyn :=
  check (has d HAS_CONS_WEIGHTS) ;;; check (has d HAS_OBJ_WEIGHT) ;;; check (has d HAS_ERROR_BOUND) ;;;
  if has d HAS_VALUES then check (negb (neqb (d_error d) (nlit (-1) 1))) ;;; Ok d
  else
    v <- eval (d_calls d) (d_conf d) ;;
    let e := snd v in
    if neqb e (nlit (-1) 1) then Err EFuncEval
    else if nltb e n0 then Err EFuncEval
    else if nltb (d_bound d) e then Err EFuncEval
    else Ok (mkdyn (Z.lor (d_flags d) HAS_VALUES) (Some (fst v)) (d_bound d) e (d_conf d) (S (d_calls d))).

(** dyn.c:275-290 (obj_val and cons_val, dyn.c:143-177, read the same fields) *)
Definition dyn_values (d : dyn) : res (dyn * (num * Val) * num) :=
  d <- dyn_eval d ;;
  match d_val d with Some v => Ok (d, v, d_error d) | None => Trap end.
End Dyn.
