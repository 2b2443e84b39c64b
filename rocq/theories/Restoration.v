(** The feasibility restoration problem (/repo/src/main/restoration.c) and least-squares
    functions (/repo/src/main/lsq.c). *)
From Verif Require Import Base Num Cmp Sparse Vec Mat.
Local Open Scope Z_scope.

Section Restoration.
Context {N : Num}.

(** restoration.c:34-65; [nv], [nc] are the dimensions of the two targets. *)
Definition split_primal (primal vp cp : vec) : res (vec * vec) :=
  vp <- vec_reserve (vec_clear vp) (Z.min (vnnz primal) (vdim vp)) ;;
  cp <- vec_reserve (vec_clear cp) (Z.min (vnnz primal) (vdim cp)) ;;
  rfold (fun t e =>
    if fst e <? vdim vp then v <- vec_push (fst t) (fst e) (snd e) ;; Ok (v, snd t)
    else c <- vec_push (snd t) (fst e - vdim vp) (snd e) ;; Ok (fst t, c)) (vp, cp) (vent primal).

(** restoration.c:491-569; [nv], [nc]: numbers of variables and constraints of the problem;
    the value of line 545 is that of vec.c:593-594 *)
Definition restoration_transform (nv nc : Z) (primal cons lb ub result : vec) : res vec :=
  check (vdim primal =? nv) ;;; check (vdim cons =? nc) ;;; check (vdim result =? nv + nc) ;;;
  r <- vec_reserve (vec_clear result) (vnnz primal + Z.min nc (vnnz lb + vnnz ub + vnnz cons)) ;;
  r <- push_all r (vent primal) ;;
  rows <- align (nc + 1) [vent lb; vent ub; vent cons] ;;
  rfold (fun r row => match snd row with
    | [l; u; c] => let v := clip_val (oval c) (oval l) (oval u) in
                   if negb (neqb v n0) then vec_push r (nv + fst row) v else Ok r
    | _ => Trap end) r rows.

(** restoration.c:571-599; [break] at the first index of a slack *)
Fixpoint below (n : Z) (l : list (Z * num)) : list (Z * num) :=
  match l with [] => [] | e :: l' => if n <=? fst e then [] else e :: below n l' end.
Definition restoration_restore (nv nc : Z) (input result : vec) : res vec :=
  check (vdim input =? nv + nc) ;;; check (vdim result =? nv) ;;;
  r <- vec_reserve (vec_clear result) (Z.min (vdim input) nv) ;;
  push_all r (below nv (vent input)).

(** ** The function of the restoration problem.  The constraints of the original problem are given
    as functions of the point last set in it ([rf_point]).  Cached vectors are [option]s: [None]
    stands for the flags has_cons_val, has_cons_jac (restoration.c:25-26) and has_lsq_residual
    (lsq.c:26) being false.  Storage that is overwritten before being read is allocated afresh. *)
Record base := mkbase { b_nv : Z; b_nc : Z; b_cons : vec -> res vec; b_jac : vec -> res mat; b_eps : num }.
Record rfunc := mkrf {
  rf_point : option vec;                    (* point last set in the original problem *)
  rf_x : vec; rf_s : vec;                   (* var_primal, cons_primal *)
  rf_cv : option vec; rf_cj : option mat;   (* cons_val, cons_jac *)
  rf_res : option vec }.                    (* lsq_residual *)

Definition fresh (d : Z) : vec := mkvec d 0 [].

(** lsq.c:47-64 calling restoration.c:67-90 *)
Definition rf_set (b : base) (f : rfunc) (value : vec) : res rfunc :=
  p <- split_primal value (rf_x f) (rf_s f) ;;
  Ok (mkrf (Some (fst p)) (fst p) (snd p) None None None).

Definition at_point {A} (f : rfunc) (k : vec -> res A) : res A :=
  match rf_point f with Some x => k x | None => Trap end.

(** restoration.c:136-146 *)
Definition compute_cons_val (b : base) (f : rfunc) : res (vec * rfunc) :=
  match rf_cv f with
  | Some c => Ok (c, f)
  | None => c <- at_point f (b_cons b) ;; Ok (c, mkrf (rf_point f) (rf_x f) (rf_s f) (Some c) (rf_cj f) (rf_res f))
  end.

(** restoration.c:168-179 *)
Definition compute_cons_jac (b : base) (f : rfunc) : res (mat * rfunc) :=
  match rf_cj f with
  | Some j => Ok (j, f)
  | None => j <- at_point f (b_jac b) ;; Ok (j, mkrf (rf_point f) (rf_x f) (rf_s f) (rf_cv f) (Some j) (rf_res f))
  end.

(** lsq.c:121-142 calling restoration.c:148-166 *)
Definition compute_residual (b : base) (f : rfunc) : res (vec * rfunc) :=
  match rf_res f with
  | Some r => Ok (r, f)
  | None =>
    cf <- compute_cons_val b f ;;
    r <- vec_add_scaled (fst cf) (rf_s (snd cf)) n1 (nlit (-1) 1) (b_eps b) (fresh (b_nc b)) ;;
    let f := snd cf in
    Ok (r, mkrf (rf_point f) (rf_x f) (rf_s f) (rf_cv f) (rf_cj f) (Some r))
  end.

(** lsq.c:144-154 *)
Definition rf_obj (b : base) (f : rfunc) : res (num * rfunc) :=
  rf <- compute_residual b f ;; Ok (nmul (nlit 1 2) (vec_norm_sq (fst rf)), snd rf).

(** restoration.c:181-218, with the assertions of lsq.c:451-480 *)
Definition jac_forward (b : base) (f : rfunc) (d : vec) : res (vec * rfunc) :=
  check (vdim d =? b_nv b + b_nc b) ;;;
  jf <- compute_cons_jac b f ;;
  p <- split_primal d (fresh (b_nv b)) (fresh (b_nc b)) ;;
  a <- mat_mult_vec (fst jf) (fst p) ;;
  v <- vec_set_from_raw (fresh (b_nc b)) a (b_eps b) ;;
  r <- vec_add_scaled v (snd p) n1 (nlit (-1) 1) (b_eps b) (fresh (b_nc b)) ;;
  Ok (r, snd jf).

(** restoration.c:220-248 *)
Definition concat_adjoint (p d result : vec) : res vec :=
  r <- vec_reserve (vec_clear result) (Z.min (vnnz p + vnnz d) (vdim result)) ;;
  r <- push_all r (vent p) ;;
  push_all r (map (fun e => (fst e + vdim p, nmul (nlit (-1) 1) (snd e))) (vent d)).

(** restoration.c:250-272, with the assertions of lsq.c:481-510 *)
Definition jac_adjoint (b : base) (f : rfunc) (d : vec) : res (vec * rfunc) :=
  check (vdim d =? b_nc b) ;;;
  jf <- compute_cons_jac b f ;;
  p <- mat_mult_vec_trans (fst jf) d (b_eps b) (fresh (b_nv b)) ;;
  r <- concat_adjoint p d (fresh (b_nv b + b_nc b)) ;;
  Ok (r, snd jf).

(** lsq.c:156-169 *)
Definition rf_grad (b : base) (f : rfunc) : res (vec * rfunc) :=
  rf <- compute_residual b f ;; jac_adjoint b (snd rf) (fst rf).

(** lsq.c:211-263; the Levenberg-Marquardt factor of the restoration function is 0 (restoration.c:376) *)
Definition rf_hess (b : base) (f : rfunc) (d : vec) : res (vec * rfunc) :=
  pf <- jac_forward b f d ;; jac_adjoint b (snd pf) (fst pf).

(** restoration.c:412-437: the flag of the least-squares function is left as it is. *)
Definition rf_init (f : rfunc) (primal cons : vec) (jac : mat) : res rfunc :=
  p <- split_primal primal (rf_x f) (rf_s f) ;;
  Ok (mkrf (rf_point f) (fst p) (snd p) (Some cons) (Some jac) (rf_res f)).

(** restoration.c:306-385: a new function.  The two flags has_cons_val and has_cons_jac are not
    initialised there (malloc); they are false here. *)
Definition rf_create (b : base) : rfunc := mkrf None (fresh (b_nv b)) (fresh (b_nc b)) None None None.
End Restoration.
