(** The Gauss-Newton direction (/repo/src/main/gauss_newton.c).  Parameters that may fail: the
    residuals and the products with their Jacobian (/repo/src/main/lsq.c:431-516), the projection
    onto the nullspace of the working set and the product with the Hessian.  The vectors that are
    overwritten by each product ([gp_*] and [ga_*]) have their initial contents in each call.  Left
    out: the checks of debug builds, logging, timers and reference counts. *)
From Verif Require Import Base Num Cmp Sparse Vec Mat WorkingSet Feas Cauchy LineSearch WorkingStep Steihaug Lsqr.
Local Open Scope Z_scope.

Section GaussNewton.
Context {N : Num}.
Variable hyp : num -> num -> num.

(** gauss_newton.c:21-84: the vectors and the matrix of the solver *)
Record gnewton := mkgn {
  gn_res : vec; gn_lrhs : vec; gn_rhs : vec; gn_val : vec; gn_viol : vec; gn_cres : vec; gn_jac : mat; gn_sol : vec;
  gn_cache : vec; gn_lsqr : lsqr; gn_removed : list Z;
  gp_proj : vec; gp_cons : vec; gp_lsq : vec;
  ga_ldir : vec; ga_cdir : vec; ga_lprod : vec; ga_cprod : vec; ga_prod : vec }.

(** gauss_newton.c:93-189; [n] variables, [nc] constraints, [m] residuals *)
Definition gn_create (n nc m : Z) : res gnewton :=
  r <- vec_create_empty m ;; lr <- vec_create_empty m ;; rhs <- vec_create_empty 0 ;;
  val <- vec_create_empty nc ;; viol <- vec_create_empty nc ;; jac <- mat_create 0 n 0 ;; cres <- vec_create_empty 0 ;;
  ls <- lsqr_create n ;; sol <- vec_create_empty n ;; cache <- vec_create_empty nc ;;
  fl <- vec_create_empty m ;; fc <- vec_create_empty 0 ;; fp <- vec_create_empty n ;;
  ald <- vec_create_empty m ;; acd <- vec_create_empty 0 ;; alp <- vec_create_empty n ;; acp <- vec_create_empty n ;; ap <- vec_create_empty n ;;
  Ok (mkgn r lr rhs val viol cres jac sol cache ls [] fp fc fl ald acd alp acp ap).

(** gauss_newton.c:306-333: the rows without an entry in [mult] *)
Definition removed_step (s : list (Z * num) * list Z) (i : Z) : list (Z * num) * list Z :=
  match fst s with
  | e :: es => if i =? fst e then (es, snd s) else (fst s, snd s ++ [i])
  | [] => ([], snd s ++ [i])
  end.
Definition removed_cons (nc : Z) (mult : vec) : res (list Z) :=
  let s := fold_left removed_step (zrange nc) (vent mult, []) in
  check (match fst s with [] => true | _ => false end) ;;; Ok (snd s).

(** gauss_newton.c:202-226; [residuals] fills the vector. *)
Definition lsq_rhs (zero_eps : num) (residuals : vec -> res vec) (fwd : vec -> vec -> res vec) (step r prod rhs : vec) : res vec :=
  r <- residuals r ;; p <- fwd step prod ;; vec_add_scaled r p neg1 neg1 zero_eps rhs.

(** gauss_newton.c:229-276 *)
Definition cons_rhs (X : lctx) (jac : mat) (w : wset) (removed : list Z) (step cache val viol cres : vec) : res vec :=
  a <- mat_mult_vec jac step ;;
  s <- vec_set_from_raw cache (firstn (Z.to_nat (lx_nc X)) a) (lx_zero X) ;;
  v <- vec_add (lx_cons X) s (lx_zero X) val ;;
  r <- feasibility_residuals (lx_nc X) v (lx_clb X) (lx_cub X) viol (Some w) true ;;
  c <- vec_resize (vec_clear cres) (lx_nc X - Z.of_nat (length removed)) ;;
  c <- vec_remove_entries r c removed ;;
  Ok (vec_scale c (nlit (-1) 1 * lx_pen X)%num).

(** gauss_newton.c:279-303 *)
Definition cons_matrix (X : lctx) (n : Z) (jac : mat) (removed : list Z) (target : mat) : res mat :=
  t <- mat_resize (mat_clear target) (lx_nc X - Z.of_nat (length removed)) n ;;
  t <- mat_remove_rows jac t removed ;;
  Ok (mat_scale t (lx_pen X)).

(** gauss_newton.c:387-429 with 336-384; [T] is the step to the working set. *)
Definition gn_set_iterate (X : lctx) (n m : Z) (jac : mat) (w : wset) (residuals : vec -> res vec) (fwd : vec -> vec -> res vec)
    (T : wstep) (G : gnewton) : res gnewton :=
  rem <- removed_cons (lx_nc X) (t_mult T) ;;
  let nviol := lx_nc X - Z.of_nat (length rem) in
  let dim := m + nviol in
  acd <- vec_resize (ga_cdir G) nviol ;;
  rhs <- vec_resize (gn_rhs G) dim ;;
  fc <- vec_resize (gp_cons G) nviol ;;
  ls <- lsqr_resize (gn_lsqr G) n dim ;;
  lr <- lsq_rhs (lx_zero X) residuals fwd (d_primal (t_dir T)) (gn_res G) (gp_lsq G) (gn_lrhs G) ;;
  c <- cons_rhs X jac w rem (d_primal (t_dir T)) (gn_cache G) (gn_val G) (gn_viol G) (gn_cres G) ;;
  rhs <- vec_concat lr c (vec_clear rhs) ;;
  M <- cons_matrix X n jac rem (gn_jac G) ;;
  Ok (mkgn (gn_res G) lr rhs (gn_val G) (gn_viol G) c M (gn_sol G) (gn_cache G) ls rem
        (gp_proj G) fc (gp_lsq G) (ga_ldir G) acd (ga_lprod G) (ga_cprod G) (ga_prod G)).

(** gauss_newton.c:432-468 *)
Definition gn_forward (zero_eps : num) (n m : Z) (proj fwd : vec -> vec -> res vec) (G : gnewton) (direction product : vec) : res vec :=
  let nviol := vdim (gp_cons G) in
  check (vdim direction =? n) ;;; check (vdim product =? m + nviol) ;;;
  d <- proj direction (gp_proj G) ;;
  l <- fwd d (gp_lsq G) ;;
  a <- mat_mult_vec (gn_jac G) d ;;
  c <- vec_set_from_raw (gp_cons G) (firstn (Z.to_nat nviol) a) zero_eps ;;
  vec_concat l c product.

(** gauss_newton.c:486-512 *)
Definition gn_split (m : Z) (direction ldir cdir : vec) : res (vec * vec) :=
  l <- vec_reserve (vec_clear ldir) (Z.min m (vnnz direction)) ;;
  c <- vec_reserve (vec_clear cdir) (Z.min (vdim cdir) (vnnz direction)) ;;
  rfold (fun s e =>
    if fst e <? m then l <- vec_push (fst s) (fst e) (snd e) ;; Ok (l, snd s)
    else c <- vec_push (snd s) (fst e - m) (snd e) ;; Ok (fst s, c)) (l, c) (vent direction).

(** gauss_newton.c:471-533 *)
Definition gn_adjoint (zero_eps : num) (n m : Z) (proj adj : vec -> vec -> res vec) (G : gnewton) (direction product : vec) : res vec :=
  check (vdim product =? n) ;;; check (vdim direction =? m + vdim (ga_cdir G)) ;;;
  s <- gn_split m direction (ga_ldir G) (ga_cdir G) ;;
  l <- adj (fst s) (ga_lprod G) ;;
  c <- mat_mult_vec_trans (gn_jac G) (snd s) zero_eps (ga_cprod G) ;;
  p <- vec_add l c zero_eps (ga_prod G) ;;
  proj p product.

(** gauss_newton.c:20 *)
Definition tolerance_factor : num := nlit 1 100.

(** gauss_newton.c:558-606 with 536-555 *)
Definition gn_direction (X : lctx) (n m : Z) (jac : mat) (proj fwd adj hess : vec -> vec -> res vec) (stat_tol time_limit : num)
    (clock : Z -> num) (T : wstep) (G : gnewton) (d : dirn) : res (bool * dirn) :=
  r <- lsqr_solve hyp (gn_forward (lx_zero X) n m proj fwd G) (gn_adjoint (lx_zero X) n m proj adj G) n (m + vdim (gp_cons G))
         (lx_eps X) (lx_zero X) (stat_tol * tolerance_factor)%num (t_reduced T) time_limit clock (gn_lsqr G) (gn_rhs G) (gn_sol G) ;;
  let '(inner, sol, _) := r in
  p <- vec_add (d_primal (t_dir T)) sol (lx_zero X) (d_primal d) ;;
  d <- dir_reset X jac hess (mkdirn p (d_obj d) (d_cons d) (d_hess d)) ;;
  Ok (inner, d).
End GaussNewton.
