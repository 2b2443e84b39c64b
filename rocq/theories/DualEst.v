(** The augmented system without general constraints
    (/repo/src/main/aug_jac/aug_jac.c, box_constrained_aug_jac.c, unconstrained_aug_jac.c)
    and the estimation of multipliers (/repo/src/main/dual_estimation).  Timers and reference
    counts are left out. *)
From Verif Require Import Base Num Cmp Sparse Vec Mat WorkingSet.
Local Open Scope Z_scope.

Section DualEst.
Context {N : Num}.

(** ** box_constrained_aug_jac.c, with the assertions of aug_jac.c *)

(** aug_jac.c:61-76, box_constrained_aug_jac.c:26-47 *)
Definition box_min_norm (nv : Z) (w : wset) (rhs sol : vec) : res vec :=
  check (vdim sol =? nv) ;;; check (vdim rhs =? ws_size w) ;;;
  sol <- vec_reserve (vec_clear sol) (vnnz rhs) ;;
  rfold (fun sol e => j <- ws_content w (fst e) ;; vec_push sol j (snd e)) sol (vent rhs).

(** aug_jac.c:78-87, box_constrained_aug_jac.c:49-72 *)
Definition box_lsq (nv : Z) (w : wset) (rhs sol : vec) : res vec :=
  check (vdim rhs =? nv) ;;; check (vdim sol =? ws_size w) ;;;
  sol <- vec_reserve (vec_clear sol) (vnnz rhs) ;;
  rfold (fun sol e => k <- ws_var_index w (fst e) ;;
           if negb (k =? none) then vec_push sol k (snd e) else Ok sol) sol (vent rhs).

(** aug_jac.c:89-98, box_constrained_aug_jac.c:74-99 *)
Definition box_project (nv : Z) (w : wset) (rhs sol : vec) : res vec :=
  check (vdim rhs =? nv) ;;; check (vdim sol =? nv) ;;;
  sol <- vec_reserve (vec_clear sol) (vnnz rhs) ;;
  rfold (fun sol e => k <- ws_var_index w (fst e) ;;
           if k =? none then vec_push sol (fst e) (snd e) else Ok sol) sol (vent rhs).

(** ** unconstrained_aug_jac.c *)

(** unconstrained_aug_jac.c:5-18 *)
Definition unc_set_iterate (w : wset) : res unit := check (ws_size w =? 0).
(** aug_jac.c:61-76, unconstrained_aug_jac.c:20-27 *)
Definition unc_min_norm (nv : Z) (w : wset) (rhs sol : vec) : res vec :=
  check (vdim sol =? nv) ;;; check (vdim rhs =? ws_size w) ;;;
  check (vdim rhs =? 0) ;;; Ok (vec_clear sol).
(** aug_jac.c:89-98, unconstrained_aug_jac.c:29-35 *)
Definition unc_project (nv : Z) (w : wset) (rhs sol : vec) : res vec :=
  check (vdim rhs =? nv) ;;; check (vdim sol =? nv) ;;; vec_copy rhs sol.
(** aug_jac.c:78-87, unconstrained_aug_jac.c:37-42 *)
Definition unc_lsq (nv : Z) (w : wset) (rhs sol : vec) : res vec :=
  check (vdim rhs =? nv) ;;; check (vdim sol =? ws_size w) ;;;
  check (vdim sol =? 0) ;;; Ok sol.

(** ** dual_estimation_lsq.c *)

(** dual_estimation_lsq.c:69-98 and 107-136: one multiplier of an active variable or
    constraint; the result is the dual vector and the number of clipped multipliers. *)
Definition clip_dual (s : ast) (dual : vec) (clipped : Z) (index : Z) (value : num) : res (vec * Z) :=
  check (active s) ;;;
  match s with
  | ActUpper =>
    if (n0 <? value)%num then d <- vec_push dual index value ;; Ok (d, clipped)
    else if (value <? n0)%num then Ok (dual, clipped + 1) else Ok (dual, clipped)
  | ActLower =>
    if (value <? n0)%num then d <- vec_push dual index value ;; Ok (d, clipped)
    else if (n0 <? value)%num then Ok (dual, clipped + 1) else Ok (dual, clipped)
  | _ =>
    check (ast_eqb s ActBoth) ;;; d <- vec_push dual index value ;; Ok (d, clipped)
  end.

(** Estimated multipliers of constraints and variables and the numbers of clipped ones. *)
Record est := mkest { e_cons : vec; e_vars : vec; e_ccons : Z; e_cvars : Z }.

(** dual_estimation_lsq.c:57-138 *)
Definition est_body (nv : Z) (w : wset) (s : est) (e : Z * num) : res est :=
  index <- ws_content w (fst e) ;;
  if index <? nv then
    st <- ws_var_state w index ;;
    r <- clip_dual st (e_vars s) (e_cvars s) index (snd e) ;;
    Ok (mkest (e_cons s) (fst r) (e_ccons s) (snd r))
  else
    st <- ws_cons_state w (index - nv) ;;
    r <- clip_dual st (e_cons s) (e_ccons s) (index - nv) (snd e) ;;
    Ok (mkest (fst r) (e_vars s) (snd r) (e_cvars s)).

(** dual_estimation_lsq.c:19-146; [lsq] is [sleqp_aug_jac_solve_lsq]. *)
Definition est_lsq (nv : Z) (w : wset) (lsq : vec -> vec -> res vec)
    (grad neg_grad sol cons_dual vars_dual : vec) : res est :=
  sol <- vec_resize sol (ws_size w) ;;
  neg <- vec_copy grad neg_grad ;;
  sol <- lsq (vec_scale neg (nlit (-1) 1)) sol ;;
  cons_dual <- vec_reserve cons_dual (vnnz sol) ;;
  vars_dual <- vec_reserve vars_dual (vnnz sol) ;;
  rfold (est_body nv w) (mkest (vec_clear cons_dual) (vec_clear vars_dual) 0 0) (vent sol).

(** ** dual_estimation_mixed.c *)

(** dual_estimation_mixed.c:36-72 *)
Fixpoint dual_merge_loop (fuel : nat) (dim : Z) (lsq lp : list (Z * num)) (dual : vec) : res vec :=
  match lsq, lp with
  | [], [] => Ok dual
  | _, _ =>
    match fuel with
    | O => Trap
    | S fuel =>
      let i_lsq := match lsq with (i, _) :: _ => i | [] => dim end in
      let i_lp := match lp with (i, _) :: _ => i | [] => dim end in
      let i := Z.min i_lsq i_lp in
      dual <- (if i_lsq <=? i_lp then
                 match lsq with
                 | (_, x) :: _ => check (negb (x =? n0)%num) ;;; vec_push dual i_lsq x
                 | [] => Trap
                 end
               else
                 match lp with
                 | (_, x) :: _ => check (negb (x =? n0)%num) ;;; vec_push dual i_lp x
                 | [] => Trap
                 end) ;;
      dual_merge_loop fuel dim (if i =? i_lsq then tl lsq else lsq) (if i =? i_lp then tl lp else lp) dual
    end
  end.

(** dual_estimation_mixed.c:22-75 *)
Definition dual_merge (lsq : vec) (num_active : Z) (lp dual : vec) : res vec :=
  dual <- vec_reserve (vec_clear dual) num_active ;;
  check (vdim lsq =? vdim lp) ;;; check (vdim lsq =? vdim dual) ;;;
  dual_merge_loop (length (vent lsq) + length (vent lp)) (vdim lsq) (vent lsq) (vent lp) dual.

(** dual_estimation_mixed.c:77-90 *)
Definition copy_or_merge (clipped : bool) (num_active : Z) (lsq lp dual : vec) : res vec :=
  if negb clipped then vec_copy lsq dual else dual_merge lsq num_active lp dual.

(** dual_estimation_mixed.c:92-139; [lp] is the estimation by the linear program
    (dual_estimation_lp.c:3-17), which returns constraint and variable multipliers; [old_cons],
    [old_vars] are the caches it fills. *)
Definition est_mixed (w : wset) (lsq : res est) (lp : vec -> vec -> res (vec * vec))
    (old_cons old_vars cons_dual vars_dual : vec) : res (vec * vec) :=
  e <- lsq ;;
  let clipped := (0 <? e_ccons e) || (0 <? e_cvars e) in
  d <- (if clipped then lp old_cons old_vars else Ok (old_cons, old_vars)) ;;
  vars <- copy_or_merge (0 <? e_cvars e) (wnav w) (e_vars e) (snd d) vars_dual ;;
  cons <- copy_or_merge (0 <? e_ccons e) (wnac w) (e_cons e) (fst d) cons_dual ;;
  Ok (cons, vars).
End DualEst.
