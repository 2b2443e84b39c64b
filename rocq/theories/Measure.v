(** The measurements of a trial point (/repo/src/main/measure.c). *)
From Verif Require Import Base Num Cmp Sparse Vec Mat Feas StepRule LineSearch.
Local Open Scope Z_scope.

Section Measure.
Context {N : Num}.
Local Open Scope num_scope.

(** The bounds of the constraints and zero_eps; an iterate: objective and values of the constraints *)
Record mprob := mkmprob { mp_nc : Z; mp_lb : vec; mp_ub : vec; mp_zero : num }.
Record miter := mkmiter { mi_obj : num; mi_cons : vec }.

(** measure.c:17-41 without [expected_cons_val], read only where it is computed *)
Record meas := mkmeas {
  me_pen : num; me_nsq : num; me_cur : num; me_lin : num; me_hess : num; me_trial : num;
  me_cviol : num; me_eviol : num; me_tviol : num; me_onl : num; me_cnl : vec }.

(** measure.c:71-90 *)
Definition obj_nonlin (lin trial nsq : num) : num := (lin - trial) * (nlit 2 1 / nsq).

(** measure.c:151-170, 71-90, 107-149, 172-180; [t] is [expected_cons_val], [M] the state before *)
Definition measure_set (P : mprob) (M : meas) (t : vec) (it tr : miter) (d : dirn) (pen : num) : res meas :=
  let nsq := vec_norm_sq (d_primal d) in
  hp <- vec_dot (d_primal d) (d_hess d) ;;
  let lin := mi_obj it + d_obj d in
  e <- vec_add (mi_cons it) (d_cons d) (mp_zero P) t ;;
  c <- vec_add_scaled e (mi_cons tr) n1 (nlit (-1) 1) (mp_zero P) (me_cnl M) ;;
  let c := vec_scale c (nlit 2 1 / nsq) in
  cv <- total_violation (mp_nc P) (mi_cons it) (mp_lb P) (mp_ub P) ;;
  ev <- total_violation (mp_nc P) e (mp_lb P) (mp_ub P) ;;
  tv <- total_violation (mp_nc P) (mi_cons tr) (mp_lb P) (mp_ub P) ;;
  check (n0 <? pen) ;;;
  Ok (mkmeas pen nsq (mi_obj it) lin hp (mi_obj tr) cv ev tv (obj_nonlin lin (mi_obj tr) nsq) c).

(** measure.c:92-105, 200-208 *)
Definition lag_nonlin (M : meas) (mu : vec) : res num := a <- vec_dot (me_cnl M) mu ;; Ok (me_onl M + a).
(** measure.c:194-198 *)
Definition step_norm (M : meas) : num := nsqrt (me_nsq M).

(** measure.c:218-234 *)
Definition percent_reduction (current trial : num) : num :=
  if current =? n0 then n0
  else let v := nlit 100 1 * (current - trial) / current in if current <? n0 then - v else v.

(** What is printed: three values with the reductions from the first to the second and to the third *)
Record line := mkline { l_cur : num; l_exp : num; l_act : num; l_pred : num; l_red : num }.
Definition mk3 (c e a : num) : line := mkline c e a (percent_reduction c e) (percent_reduction c a).

(** measure.c:236-256 *)
Definition report_merit (c e a : num) : line * num := (mk3 c e a, reduction_ratio (c - a) (c - e)).
(** measure.c:258-293: objective, violation, merit *)
Definition report_lsq (M : meas) : line * line * (line * num) :=
  let eo := me_lin M + nlit 1 2 * me_hess M in
  (mk3 (me_cur M) eo (me_trial M), mk3 (me_cviol M) (me_eviol M) (me_tviol M),
   report_merit (me_cur M + me_pen M * me_cviol M) (eo + me_pen M * me_eviol M) (me_trial M + me_pen M * me_tviol M)).
(** measure.c:328-351 *)
Definition report_func (M : meas) : line * num :=
  report_merit (me_cur M + me_pen M * me_cviol M) (me_lin M + me_pen M * me_eviol M + nlit 1 2 * me_hess M)
    (me_trial M + me_pen M * me_tviol M).
(** measure.c:295-319, 353-382: nonlinearities of objective, constraints (maximum) and Lagrangean if
    the step is longer than the cutoff of measure.c:15 *)
Definition cutoff : num := nlit 1 1000000.
Definition report_nonlin (M : meas) (mu : vec) : res (option (num * num * num)) :=
  if cutoff <? step_norm M then l <- lag_nonlin M mu ;; Ok (Some (me_onl M, vec_inf_norm (me_cnl M), l)) else Ok None.
(** measure.c:384-433: objective, violation, merit *)
Definition report_soc (P : mprob) (M : meas) (soc : miter) : res (line * line * line) :=
  v <- total_violation (mp_nc P) (mi_cons soc) (mp_lb P) (mp_ub P) ;;
  Ok (mk3 (me_cur M) (me_trial M) (mi_obj soc), mk3 (me_cviol M) (me_tviol M) v,
      mk3 (me_cur M + me_pen M * me_cviol M) (me_trial M + me_pen M * me_tviol M) (mi_obj soc + me_pen M * v)).
End Measure.
