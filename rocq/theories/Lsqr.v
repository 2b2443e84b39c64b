(** Least squares by bidiagonalization (/repo/src/main/tr/lsqr.c).  The products with the matrix
    and its transpose are parameters that may fail, [hyp] is the function hypot of the C library.
    Left out: the logging, the objective computed in debug builds and the bookkeeping of the
    timer; the time that has elapsed at the end of an iteration is a parameter. *)
From Verif Require Import Base Num Cmp Sparse Vec WorkingSet Steihaug.
Local Open Scope Z_scope.

Section Lsqr.
Context {N : Num}.
Variable hyp : num -> num -> num.

(** The vectors of the solver, lsqr.c:25-34 *)
Record lsqr := mklsqr { ls_u : vec; ls_v : vec; ls_w : vec; ls_p : vec; ls_q : vec; ls_d : vec; ls_t : vec }.

(** lsqr.c:38-79 *)
Definition lsqr_create (forward_dim : Z) : res lsqr :=
  u <- vec_create_empty 0 ;; v <- vec_create_empty forward_dim ;; w <- vec_create_empty forward_dim ;;
  p <- vec_create_empty 0 ;; q <- vec_create_empty forward_dim ;; d <- vec_create_empty forward_dim ;; t <- vec_create_empty 0 ;;
  Ok (mklsqr u v w p q d t).

(** lsqr.c:89-109 *)
Definition lsqr_resize (s : lsqr) (forward_dim adjoint_dim : Z) : res lsqr :=
  v <- vec_resize (ls_v s) forward_dim ;; w <- vec_resize (ls_w s) forward_dim ;;
  q <- vec_resize (ls_q s) forward_dim ;; d <- vec_resize (ls_d s) forward_dim ;;
  u <- vec_resize (ls_u s) adjoint_dim ;; p <- vec_resize (ls_p s) adjoint_dim ;;
  Ok (mklsqr u v w p q d (ls_t s)).

(** lsqr.c:111-122 *)
Definition normalize (v : vec) : vec * num :=
  let norm := vec_norm v in
  if (norm =? n0)%num then (v, norm) else (vec_scale v (n1 / norm)%num, norm).

(** What is carried from one iteration to the next; [it_x] is the solution vector of the caller. *)
Record iter := mkiter { it_s : lsqr; it_x : vec; it_alpha : num; it_rhob : num; it_phib : num }.

(** lsqr.c:124-144: the dimensions are asserted. *)
Definition product (f : vec -> vec -> res vec) (from to : Z) (direction result : vec) : res vec :=
  check (vdim direction =? from) ;;; check (vdim result =? to) ;;; f direction result.

(** lsqr.c:200-231 *)
Definition lsqr_start (adj : vec -> vec -> res vec) (n m : Z) (s : lsqr) (rhs sol : vec) : res iter :=
  u <- vec_copy rhs (ls_u s) ;;
  let '(u, beta) := normalize u in
  v <- product adj m n u (ls_v s) ;;
  let '(v, alpha) := normalize v in
  w <- vec_copy v (ls_w s) ;;
  Ok (mkiter (mklsqr u v w (ls_p s) (ls_q s) (ls_d s) (ls_t s)) (vec_clear sol) alpha alpha beta).

(** One iteration stops at the boundary or yields the next state together with the residuum of the
    optimality condition. *)
Inductive lsqr_out := LBdry (x : vec) (s : lsqr) | LNext (i : iter) (opt_res : num).

(** lsqr.c:236-301; [radius] is -1 if there is none. *)
Definition lsqr_body (fwd adj : vec -> vec -> res vec) (n m : Z) (eps zero_eps radius : num) (i : iter) : res lsqr_out :=
  let s := it_s i in
  p <- product fwd n m (ls_v s) (ls_p s) ;;
  t <- vec_add_scaled p (ls_u s) n1 (- it_alpha i)%num zero_eps (ls_t s) ;;
  u <- vec_copy t (ls_u s) ;;
  let '(u, beta) := normalize u in
  q <- product adj m n u (ls_q s) ;;
  t <- vec_add_scaled q (ls_v s) n1 (- beta)%num zero_eps t ;;
  v <- vec_copy t (ls_v s) ;;
  let '(v, alpha) := normalize v in
  let rho := hyp (it_rhob i) beta in
  let c := (it_rhob i / rho)%num in
  let sn := (beta / rho)%num in
  let theta := (sn * alpha)%num in
  let rhob := ((- c) * alpha)%num in
  let phi := (c * it_phib i)%num in
  let phib := (sn * it_phib i)%num in
  t <- vec_add_scaled (it_x i) (ls_w s) n1 (phi / rho)%num zero_eps t ;;
  let norm := vec_norm t in
  if negb (radius =? nlit (-1) 1)%num && is_gt norm radius eps then
    d <- vec_add_scaled (it_x i) t (nlit (-1) 1) n1 zero_eps (ls_d s) ;;
    t <- bdry_sol (it_x i) d zero_eps radius t ;;
    x <- vec_copy t (it_x i) ;;
    Ok (LBdry x (mklsqr u v (ls_w s) p q d t))
  else
    x <- vec_copy t (it_x i) ;;
    t <- vec_add_scaled v (ls_w s) n1 ((- theta) / rho)%num zero_eps t ;;
    w <- vec_copy t (ls_w s) ;;
    Ok (LNext (mkiter (mklsqr u v w p q (ls_d s) t) x alpha rhob phib) (phib * alpha * nabs c)%num).

(** lsqr.c:234-337: the loop; [k] iterations are left, [j] is the number of the current one, the
    flag tells whether the solution is an interior one. *)
Fixpoint lsqr_loop (k : nat) (fwd adj : vec -> vec -> res vec) (n m : Z) (eps zero_eps rel_tol radius time_limit : num)
    (clock : Z -> num) (j : Z) (i : iter) : res (bool * vec * lsqr) :=
  match k with
  | 0%nat => Ok (true, it_x i, it_s i)
  | S k =>
    o <- lsqr_body fwd adj n m eps zero_eps radius i ;;
    match o with
    | LBdry x s => Ok (false, x, s)
    | LNext i opt_res =>
      if (opt_res <=? rel_tol)%num then Ok (true, it_x i, it_s i)
      else if time_hit time_limit clock j then Err EAbortTime
      else lsqr_loop k fwd adj n m eps zero_eps rel_tol radius time_limit clock (j + 1) i
    end
  end.

(** lsqr.c:172-337 *)
Definition lsqr_solve (fwd adj : vec -> vec -> res vec) (n m : Z) (eps zero_eps rel_tol radius time_limit : num)
    (clock : Z -> num) (s : lsqr) (rhs sol : vec) : res (bool * vec * lsqr) :=
  check (vdim rhs =? m) ;;; check (vdim sol =? n) ;;;
  i <- lsqr_start adj n m s rhs sol ;;
  lsqr_loop (Z.to_nat n) fwd adj n m eps zero_eps rel_tol radius time_limit clock 1 i.
End Lsqr.
