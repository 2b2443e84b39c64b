(** Line searches on the merit function (/repo/src/main/linesearch.c) and directions
    (/repo/src/main/direction.c).  Left out: the checks that are compiled only with
    SLEQP_DEBUG or numerical assertions, the logging, the timer and the reference counts. *)
From Verif Require Import Base Num Cmp Sparse Vec WorkingSet Feas.
Local Open Scope Z_scope.

Section LineSearch.
Context {N : Num}.

(** direction.c:12-19 *)
Record dirn := mkdirn { d_primal : vec; d_obj : num; d_cons : vec; d_hess : vec }.

(** direction.c:183-193 *)
Definition dir_set_zero (d : dirn) : dirn :=
  mkdirn (vec_clear (d_primal d)) n0 (vec_clear (d_cons d)) (vec_clear (d_hess d)).

(** direction.c:195-229 *)
Definition dir_add_scaled (a b : dirn) (fa fb eps : num) (r : dirn) : res dirn :=
  p <- vec_add_scaled (d_primal a) (d_primal b) fa fb eps (d_primal r) ;;
  c <- vec_add_scaled (d_cons a) (d_cons b) fa fb eps (d_cons r) ;;
  h <- vec_add_scaled (d_hess a) (d_hess b) fa fb eps (d_hess r) ;;
  Ok (mkdirn p (nadd (nmul fa (d_obj a)) (nmul fb (d_obj b))) c h).

(** direction.c:231-243 *)
Definition dir_copy (a r : dirn) : res dirn :=
  p <- vec_copy (d_primal a) (d_primal r) ;;
  c <- vec_copy (d_cons a) (d_cons r) ;;
  h <- vec_copy (d_hess a) (d_hess r) ;;
  Ok (mkdirn p (d_obj a) c h).

(** The parts of the problem, the iterate and the settings that are read. *)
Record lctx := mklctx {
  lx_nc : Z; lx_clb : vec; lx_cub : vec; lx_vlb : vec; lx_vub : vec;
  lx_x : vec; lx_obj : num; lx_grad : vec; lx_cons : vec;
  lx_pen : num; lx_radius : num;
  lx_eps : num; lx_zero : num; lx_eta : num; lx_tau : num; lx_cutoff : num }.

(** linesearch.c:14-18 *)
Record bp := mkbp { b_change : num; b_point : num }.

(** linesearch.c:38-71: the caches; [l_max] is max_num_breakpoints. *)
Record lsd := mklsd {
  l_point : vec; l_cnj : vec; l_ccv : vec; l_viol : vec; l_comb : vec; l_cnd : vec;
  l_mult : vec; l_max : Z }.

(** LINESEARCH_MAX_IT, linesearch.c:12 *)
Definition max_it : nat := Z.to_nat 10000.

Definition lhalf : num := nlit 1 2.

(** ** linesearch.c:152-315 *)

(** Variables of the loop 227-288: product of Jacobian and direction, cache, hessian_product,
    objective_dot, delta, full_step. *)
Record cls := mkcls {
  s_cj : vec; s_comb : vec; s_hp : num; s_od : num; s_delta : num; s_full : bool }.

(** linesearch.c:227-290; the result is the state, the quadratic merit value and the flag
    zero_direction. *)
Fixpoint cauchy_loop (fuel : nat) (X : lctx) (exact_viol : num) (s : cls) : res (cls * num * bool) :=
  match fuel with
  | O => Trap
  | S fuel =>
    comb <- vec_add (lx_cons X) (s_cj s) (lx_zero X) (s_comb s) ;;
    lin_viol <- total_violation (lx_nc X) comb (lx_clb X) (lx_cub X) ;;
    let lin := nadd (nadd n0 (nadd (lx_obj X) (s_od s))) (nmul (lx_pen X) lin_viol) in
    let quad := nadd lin (nmul lhalf (s_hp s)) in
    if (lhalf * s_hp s <=?
        (lx_pen X * (exact_viol - lin_viol) - s_od s) * (n1 - lx_eta X))%num
    then Ok (mkcls (s_cj s) comb (s_hp s) (s_od s) (s_delta s) (s_full s), quad, false)
    else
      let tau := lx_tau X in
      let s := mkcls (vec_scale (s_cj s) tau) comb (s_hp s * (tau * tau))%num
                     (s_od s * tau)%num (s_delta s * tau)%num false in
      if is_zero (s_delta s) (lx_eps X) then Ok (s, quad, true)
      else cauchy_loop fuel X exact_viol s
  end.

(** linesearch.c:152-315: new direction, full_step, quadratic_merit_value and caches *)
Definition cauchy_step (X : lctx) (d : dirn) (L : lsd) : res (dirn * bool * num * lsd) :=
  exact_viol <- total_violation (lx_nc X) (lx_cons X) (lx_clb X) (lx_cub X) ;;
  hp <- vec_dot (d_primal d) (d_hess d) ;;
  let factor := (lx_radius X / vec_norm (d_primal d))%num in
  let s :=
    if (factor <? n1)%num then
      mkcls (vec_scale (d_cons d) factor) (l_comb L) (hp * (factor * factor))%num
            (d_obj d * factor)%num factor true
    else mkcls (d_cons d) (l_comb L) hp (d_obj d) n1 true in
  r <- cauchy_loop max_it X exact_viol s ;;
  let '(s, quad, zero) := r in
  let d' := mkdirn (vec_scale (d_primal d) (s_delta s)) (s_od s) (s_cj s)
                   (vec_scale (d_hess d) (s_delta s)) in
  let z := mkdirn (d_primal d) (d_obj d) (s_cj s) (d_hess d) in
  Ok (if (zero : bool) then dir_set_zero z else d', s_full s, quad,
      mklsd (l_point L) (l_cnj L) (l_ccv L) (l_viol L) (s_comb s) (l_cnd L) (l_mult L) (l_max L)).

(** ** linesearch.c:317-644 *)

(** The scalar products of linesearch.c:360-381 *)
Record prods := mkprods { q_cg : num; q_ng : num; q_cc : num; q_cn : num; q_nn : num }.

(** linesearch.c:465-509: quadratic merit value at a step length, and the two caches *)
Definition trial_merit (X : lctx) (P : prods) (cj nj : vec) (alpha : num) (ccv comb : vec)
    : res (num * vec * vec) :=
  let lin := nadd n0 (lx_obj X + ((n1 - alpha) * q_cg P) + alpha * q_ng P)%num in
  ccv <- vec_add_scaled (lx_cons X) cj n1 (n1 - alpha)%num (lx_zero X) ccv ;;
  comb <- vec_add_scaled ccv nj n1 alpha (lx_zero X) comb ;;
  v <- total_violation (lx_nc X) comb (lx_clb X) (lx_cub X) ;;
  let lin := (lin + lx_pen X * v)%num in
  let qt := nadd n0 (lhalf * (n1 - alpha) * (n1 - alpha) * q_cc P)%num in
  let qt := (qt + alpha * ((n1 - alpha) * q_cn P + lhalf * alpha * q_nn P))%num in
  Ok (lin + qt, ccv, comb)%num.

(** linesearch.c:463-597 with the assertion of line 635; [merit] is the quadratic merit value at
    the Cauchy point, [slope] is quadratic_merit_gradient_product. *)
Fixpoint trial_loop (fuel : nat) (X : lctx) (P : prods) (c n r : dirn) (merit slope alpha : num)
    (ccv comb : vec) : res (dirn * num * num * vec * vec) :=
  match fuel with
  | O => Trap
  | S fuel =>
    m <- trial_merit X P (d_cons c) (d_cons n) alpha ccv comb ;;
    let '(value, ccv, comb) := m in
    if (value <=? merit + lx_eta X * (alpha * slope))%num then
      t <- dir_add_scaled c n (n1 - alpha)%num alpha (lx_zero X) r ;;
      Ok (t, alpha, value, ccv, comb)
    else
      let alpha := (alpha * lx_tau X)%num in
      if (alpha <=? lx_cutoff X)%num then
        t <- dir_copy c r ;; Ok (t, n0, merit, ccv, comb)
      else trial_loop fuel X P c n r merit slope alpha ccv comb
  end.

(** linesearch.c:317-644: trial direction, step length, trial merit value, caches *)
Definition trial_step (X : lctx) (c : dirn) (merit : num) (n r : dirn) (L : lsd)
    : res (dirn * num * num * lsd) :=
  cnd <- vec_add_scaled (d_primal n) (d_primal c) n1 (nlit (-1) 1) (lx_zero X) (l_cnd L) ;;
  cc <- vec_dot (d_primal c) (d_hess c) ;;
  cn <- vec_dot (d_primal c) (d_hess n) ;;
  nn <- vec_dot (d_primal n) (d_hess n) ;;
  point <- vec_add (lx_x X) (d_primal c) (lx_zero X) (l_point L) ;;
  alpha <- max_step_length point cnd (lx_vlb X) (lx_vub X) n1 ;;
  check (n0 <=? alpha)%num ;;; check (alpha <=? n1)%num ;;;
  ccv <- vec_add (lx_cons X) (d_cons c) (lx_zero X) (l_ccv L) ;;
  mult <- violated_multipliers (lx_nc X) ccv (lx_clb X) (lx_cub X) (l_mult L) None ;;
  jc <- vec_dot mult (d_cons c) ;;
  jn <- vec_dot mult (d_cons n) ;;
  let gc := (d_obj c + jc + cc)%num in
  let gn := (d_obj n + jn + cn)%num in
  let slope := (gn - gc)%num in
  let caches ccv comb := mklsd point (l_cnj L) ccv (l_viol L) comb cnd mult (l_max L) in
  if (alpha <=? lx_cutoff X)%num then
    t <- dir_copy c r ;; Ok (t, n0, merit, caches ccv (l_comb L))
  else
    o <- trial_loop max_it X (mkprods (d_obj c) (d_obj n) cc cn nn) c n r merit slope alpha ccv (l_comb L) ;;
    let '(t, alpha, value, ccv, comb) := o in
    Ok (t, alpha, value, caches ccv comb).

(** ** linesearch.c:646-1051 *)

(** linesearch.c:684-716: what one constraint contributes to (violation, slope, breakpoints);
    [room] is the length of the array of breakpoints. *)
Definition add_bp (room : Z) (bps : list bp) (b : bp) : res (list bp) :=
  check (n0 <=? b_point b)%num ;;;
  if (b_point b <=? n1)%num then
    check (Z.of_nat (length bps) <? room) ;;; Ok (bps ++ [b])
  else Ok bps.

Definition collect_one (room : Z) (v d : num) (s : num * num * list bp) : res (num * num * list bp) :=
  let '(viol, slope, bps) := s in
  let viol := (viol + nmax v n0)%num in
  if (n0 <=? v)%num then
    bps <- (if (d <? n0)%num then add_bp room bps (mkbp (nlit (-1) 1 * d) (nlit (-1) 1 * v / d))%num
            else Ok bps) ;;
    Ok (viol, (slope + d)%num, bps)
  else
    bps <- (if (n0 <? d)%num then add_bp room bps (mkbp d (nlit (-1) 1 * v / d))%num
            else Ok bps) ;;
    Ok (viol, slope, bps).

(** linesearch.c:646-721: the loop runs while {e both} vectors have entries left. *)
Fixpoint collect_loop (fuel : nat) (dim room : Z) (lv ld : list (Z * num)) (s : num * num * list bp)
    : res (num * num * list bp) :=
  match lv, ld with
  | [], _ | _, [] => Ok s
  | _, _ =>
    match fuel with
    | O => Trap
    | S fuel =>
      let i := min_head dim [lv; ld] in
      s <- collect_one room (oval (head_val i lv)) (oval (head_val i ld)) s ;;
      collect_loop fuel dim room (advance i lv) (advance i ld) s
    end
  end.
Definition collect_breakpoints (dim room : Z) (v d : vec) (s : num * num * list bp) :=
  collect_loop (length (vent v) + length (vent d)) dim room (vent v) (vent d) s.

(** linesearch.c:723-791; [sort] is [qsort] with [compare_breakpoints] (20-36).  The product of
    the Jacobian and the direction is negated. *)
Definition compute_breakpoints (sort : list bp -> list bp) (X : lctx) (ccv cnj viol : vec) (maxb : Z)
    : res (num * num * list bp * vec * vec * Z) :=
  let nc := lx_nc X in
  let maxb := if maxb <? 2 * nc + 1 then 2 * nc + 1 else maxb in
  viol <- vec_add_scaled ccv (lx_cub X) n1 (nlit (-1) 1) (lx_zero X) viol ;;
  s <- collect_breakpoints nc maxb viol cnj (n0, n0, []) ;;
  viol <- vec_add_scaled ccv (lx_clb X) (nlit (-1) 1) n1 (lx_zero X) viol ;;
  let cnj := vec_scale cnj (nlit (-1) 1) in
  s <- collect_breakpoints nc maxb viol cnj s ;;
  let '(v0, sl, bps) := s in
  check (Z.of_nat (length bps) <? maxb) ;;;
  Ok (v0, sl, sort (bps ++ [mkbp n0 n1]), cnj, viol, maxb).

(** Variables of the loop 950-1018: offset, linear_term, min_value, min_alpha, last_point *)
Record xst := mkxst { x_off : num; x_lin : num; x_min : num; x_arg : num; x_last : num }.

(** linesearch.c:950-1018 *)
Definition exact_body (pen quad : num) (s : xst) (b : bp) : res xst :=
  let cur := b_point b in
  let diff := (cur - x_last s)%num in
  check (x_last s <=? cur)%num ;;;
  let value alpha := (x_off s + x_lin s * (alpha - x_last s) + lhalf * alpha * quad * alpha)%num in
  let '(mn, arg) :=
    if negb (quad =? n0)%num then
      let alpha := (nlit (-1) 1 * x_lin s / quad)%num in
      if (x_last s <=? alpha)%num && (alpha <=? cur)%num && (value alpha <? x_min s)%num
      then (value alpha, alpha) else (x_min s, x_arg s)
    else (x_min s, x_arg s) in
  let '(mn, arg) := if (value cur <? mn)%num then (value cur, cur) else (mn, arg) in
  Ok (mkxst (x_off s + diff * x_lin s)%num (x_lin s + pen * b_change b)%num mn arg cur).

(** linesearch.c:793-1051; the merit value at the Cauchy point and the multipliers that are
    passed are not used. *)
Definition exact_step (sort : list bp -> list bp) (X : lctx) (c n r : dirn) (L : lsd)
    : res (dirn * num * num * lsd) :=
  ccv <- vec_add (lx_cons X) (d_cons c) (lx_zero X) (l_ccv L) ;;
  cnd <- vec_add_scaled (d_primal n) (d_primal c) n1 (nlit (-1) 1) (lx_zero X) (l_cnd L) ;;
  cnj <- vec_add_scaled (d_cons n) (d_cons c) n1 (nlit (-1) 1) (lx_zero X) (l_cnj L) ;;
  od <- vec_dot (lx_grad X) (d_primal c) ;;
  hd <- vec_dot (d_primal c) (d_hess c) ;;
  let offset := (n0 + lx_obj X + od + lhalf * hd)%num in
  gd <- vec_dot (lx_grad X) cnd ;;
  md <- vec_dot cnd (d_hess c) ;;
  let lin := (n0 + gd + md)%num in
  ch <- vec_dot cnd (d_hess c) ;;
  nh <- vec_dot cnd (d_hess n) ;;
  let quad := (n0 + (nh - ch))%num in
  b <- compute_breakpoints sort X ccv cnj (l_viol L) (l_max L) ;;
  let '(v0, sl, bps, cnj, viol, maxb) := b in
  let offset := (offset + lx_pen X * v0)%num in
  let lin := (lin + lx_pen X * sl)%num in
  s <- rfold (exact_body (lx_pen X) quad) (mkxst offset lin offset n0 n0) bps ;;
  t <- dir_add_scaled c n (n1 - x_arg s)%num (x_arg s) (lx_zero X) r ;;
  Ok (t, x_arg s, x_min s,
      mklsd (l_point L) cnj ccv viol (l_comb L) cnd (l_mult L) maxb).

End LineSearch.
