(** Functions with fixed variables (/repo/src/main/preprocessor/fixed_var_func.c). *)
From Verif Require Import Base Num Cmp Sparse Vec Mat Problem Registry.
Local Open Scope Z_scope.

Section FixedVar.
Context {N : Num}.

(** A user function with its objective (func.c, lsq.c): [fn_u] holds constraints, Jacobian and Hessian
    products; [fn_fwd], [fn_adj] the products of a least-squares function with its Jacobian.  The two
    nonzero hints are [None] for SLEQP_NONE; the remaining hints are not used by the wrapper. *)
Record func := mkfunc {
  fn_u : ufunc; fn_nr : Z;
  fn_obj : vec -> res num;
  fn_grad : vec -> vec -> res vec;         (* point, result *)
  fn_fwd : vec -> vec -> vec -> res vec;   (* point, direction, result *)
  fn_adj : vec -> vec -> vec -> res vec;
  fn_gnnz : option Z; fn_jnnz : option Z }.

(** func.c:79-100: the part seen before the callback; rejection is passed through and left out *)
Definition func_set_value (x : vec) : res vec :=
  check (vec_is_valid x) ;;; check (vec_is_finite x) ;;; Ok x.

(** func.c:129-147 *)
Definition func_obj_val (f : func) (x : vec) : res num :=
  v <- fn_obj f x ;; check (is_finite v) ;;; Ok v.

(** func.c:149-172 *)
Definition func_obj_grad (f : func) (x v : vec) : res vec :=
  v <- fn_grad f x (vec_clear v) ;; check (vec_is_valid v) ;;; check (vec_is_finite v) ;;; Ok v.

(** lsq.c:450-479 *)
Definition lsq_jac_forward (f : func) (x d p : vec) : res vec :=
  check (vdim d =? uf_nv (fn_u f)) ;;; check (vdim p =? fn_nr f) ;;; fn_fwd f x d (vec_clear p).

(** lsq.c:481-510 *)
Definition lsq_jac_adjoint (f : func) (x d p : vec) : res vec :=
  check (vdim d =? fn_nr f) ;;; check (vdim p =? uf_nv (fn_u f)) ;;; fn_adj f x d (vec_clear p).

(** fixed_var_func.c:11-28; [ff_point] is the point last set in the wrapped function *)
Record fixedf := mkff {
  ff_func : func; ff_fixed : list (Z * num);
  ff_point : option vec;
  ff_values : vec; ff_grad : vec; ff_dir : vec; ff_prod : vec; ff_jac : mat }.

Definition ff_idx (s : fixedf) : list Z := map fst (ff_fixed s).
Definition ff_nv (s : fixedf) : Z := uf_nv (fn_u (ff_func s)) - Z.of_nat (length (ff_fixed s)).

Definition at_point (s : fixedf) : res vec := match ff_point s with Some x => Ok x | None => Trap end.

(** fixed_var_func.c:402-415; the assertions abort *)
Fixpoint check_indices (n last : Z) (fs : list Z) : res unit :=
  match fs with
  | [] => Ok tt
  | i :: fs' => check (0 <=? i) ;;; check (i <? n) ;;; check (last <? i) ;;; check_indices n i fs'
  end.

(** fixed_var_func.c:377-442 *)
Definition ff_create (f : func) (fixed : list (Z * num)) : res fixedf :=
  let n := uf_nv (fn_u f) in
  check (Z.of_nat (length fixed) <=? n) ;;;
  check_indices n (-1) (map fst fixed) ;;;
  check (forallb (fun e => is_finite (snd e)) fixed) ;;;
  values <- vec_create_full n ;;
  grad <- vec_create_full n ;;
  dir <- vec_create_full n ;;
  prod <- vec_create_full n ;;
  jac <- mat_create (uf_nc (fn_u f)) n 0 ;;
  Ok (mkff f fixed None values grad dir prod jac).

(** fixed_var_func.c:30-49 *)
Definition ff_set (s : fixedf) (x : vec) : res fixedf :=
  v <- merge_entries x (ff_values s) (ff_fixed s) ;;
  p <- func_set_value v ;;
  Ok (mkff (ff_func s) (ff_fixed s) (Some p) v (ff_grad s) (ff_dir s) (ff_prod s) (ff_jac s)).

(** fixed_var_func.c:51-102; the adjusted hints reported upwards are left out *)
Definition ff_nonzeros (s : fixedf) : res fixedf :=
  let f := ff_func s in
  let n := uf_nv (fn_u f) in
  g <- vec_reserve (ff_grad s) (match fn_gnnz f with Some k => k | None => n end) ;;
  j <- mat_reserve (ff_jac s) (match fn_jnnz f with Some k => k | None => n * uf_nc (fn_u f) end) ;;
  Ok (mkff f (ff_fixed s) (ff_point s) (ff_values s) g (ff_dir s) (ff_prod s) j).

(** fixed_var_func.c:276-307 *)
Definition ff_lsq_nonzeros (s : fixedf) : res fixedf :=
  let f := ff_func s in
  j <- match fn_jnnz f with Some k => mat_reserve (ff_jac s) k | None => Ok (ff_jac s) end ;;
  Ok (mkff f (ff_fixed s) (ff_point s) (ff_values s) (ff_grad s) (ff_dir s) (ff_prod s) j).

(** fixed_var_func.c:104-110 *)
Definition ff_obj_val (s : fixedf) : res num := x <- at_point s ;; func_obj_val (ff_func s) x.

(** fixed_var_func.c:112-125 *)
Definition ff_obj_grad (s : fixedf) (target : vec) : res (fixedf * vec) :=
  x <- at_point s ;;
  g <- func_obj_grad (ff_func s) x (ff_grad s) ;;
  r <- vec_remove_entries g target (ff_idx s) ;;
  Ok (mkff (ff_func s) (ff_fixed s) (ff_point s) (ff_values s) g (ff_dir s) (ff_prod s) (ff_jac s), r).

(** fixed_var_func.c:127-133 *)
Definition ff_cons_val (s : fixedf) (target : vec) : res vec :=
  x <- at_point s ;; func_cons_val (fn_u (ff_func s)) x target.

(** fixed_var_func.c:135-148 *)
Definition ff_cons_jac (s : fixedf) (target : mat) : res (fixedf * mat) :=
  x <- at_point s ;;
  j <- func_cons_jac (fn_u (ff_func s)) x (ff_jac s) ;;
  r <- mat_remove_cols j target (ff_idx s) ;;
  Ok (mkff (ff_func s) (ff_fixed s) (ff_point s) (ff_values s) (ff_grad s) (ff_dir s) (ff_prod s) j, r).

(** fixed_var_func.c:150-175 *)
Definition ff_hess_prod (s : fixedf) (direction cons_duals target : vec) : res (fixedf * vec) :=
  x <- at_point s ;;
  d <- add_zero_entries direction (ff_dir s) (ff_idx s) ;;
  p <- func_hess_prod (fn_u (ff_func s)) x d cons_duals (ff_prod s) ;;
  r <- vec_remove_entries p target (ff_idx s) ;;
  Ok (mkff (ff_func s) (ff_fixed s) (ff_point s) (ff_values s) (ff_grad s) d p (ff_jac s), r).

(** fixed_var_func.c:257-274 *)
Definition ff_jac_forward (s : fixedf) (direction target : vec) : res (fixedf * vec) :=
  x <- at_point s ;;
  d <- add_zero_entries direction (ff_dir s) (ff_idx s) ;;
  r <- lsq_jac_forward (ff_func s) x d target ;;
  Ok (mkff (ff_func s) (ff_fixed s) (ff_point s) (ff_values s) (ff_grad s) d (ff_prod s) (ff_jac s), r).

(** fixed_var_func.c:309-329: the full product is put into the direction vector *)
Definition ff_jac_adjoint (s : fixedf) (direction target : vec) : res (fixedf * vec) :=
  x <- at_point s ;;
  d <- lsq_jac_adjoint (ff_func s) x direction (ff_dir s) ;;
  r <- vec_remove_entries d target (ff_idx s) ;;
  Ok (mkff (ff_func s) (ff_fixed s) (ff_point s) (ff_values s) (ff_grad s) d (ff_prod s) (ff_jac s), r).

End FixedVar.

(** Indices [a], ..., [b - 1]: the loop fixed_var_func.c:227. *)
Definition between (a b : Z) : list Z := map (fun k => a + k) (zrange (b - a)).

(** fixed_var_func.c:227-234: [fs] are the fixed indices not yet passed ([fixed_pos]) *)
Definition pass (acc : list Z * Z) (j : Z) : list Z * Z :=
  match fst acc with
  | f :: fs => if f =? j then (fs, snd acc + 1) else acc
  | [] => acc
  end.

(** fixed_var_func.c:203-247 *)
Definition fixed_hess_struct (source target : hstruct) (fixed : list Z) : res hstruct :=
  s <- rfold (fun (s : hstruct * list Z * Z) block =>
         let '(t, fs, offset) := s in
         r <- hs_range source block ;;
         let (b, e) := r : Z * Z in
         let (fs', next) := fold_left pass (between b e) (fs, offset) in
         t' <- (if b - offset =? e - next then Ok t else hs_push t (e - next)) ;;
         Ok (t', fs', next))
       (hs_clear target, fixed, 0) (zrange (snum source)) ;;
  Ok (fst (fst s)).
