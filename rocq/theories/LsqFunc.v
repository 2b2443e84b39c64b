(** Least-squares functions (/repo/src/main/lsq.c). *)
From Verif Require Import Base Num Cmp Sparse Vec Mat.
Local Open Scope Z_scope.

Section Lsq.
Context {N : Num} {U : Type}.
Local Open Scope num_scope.

(** The numbers reported by pub_lsq.h:57-63; -1 is SLEQP_NONE. *)
Record hints := mkhints { h_res : Z; h_fwd : Z; h_adj : Z; h_cons : Z; h_jac : Z }.
Definition no_hints := mkhints (-1) (-1) (-1) (-1) (-1).

(** The callbacks (pub_lsq.h:111-121).  Each of them may change the data [U] of the user, whether it
    succeeds or fails. *)
Record lsqcb := mklsqcb {
  cb_set : U -> vec -> U * res bool;
  cb_nnz : option (U -> U * res hints);
  cb_res : U -> vec -> U * res vec;
  cb_fwd : U -> vec -> vec -> U * res vec;
  cb_adj : U -> vec -> vec -> U * res vec;
  cb_cons : U -> vec -> U * res vec;
  cb_jac : U -> mat -> U * res mat }.

(** lsq.c:14-40 without the timers and [lsq_grad], which is never read; [lf_int] is the flag
    SLEQP_FUNC_INTERNAL, [lf_nc] the number of constraints of the function. *)
Record lsqf := mklsqf {
  lf_n : Z; lf_m : Z; lf_nc : Z; lf_int : bool; lf_eps : num;
  lf_cb : lsqcb; lf_lm : num;
  lf_fwd : vec; lf_res : vec; lf_has : bool; lf_hess : vec; lf_u : U }.

Definition set_u (F : lsqf) (u : U) : lsqf :=
  mklsqf (lf_n F) (lf_m F) (lf_nc F) (lf_int F) (lf_eps F) (lf_cb F) (lf_lm F) (lf_fwd F) (lf_res F) (lf_has F) (lf_hess F) u.
Definition set_has (F : lsqf) (b : bool) : lsqf :=
  mklsqf (lf_n F) (lf_m F) (lf_nc F) (lf_int F) (lf_eps F) (lf_cb F) (lf_lm F) (lf_fwd F) (lf_res F) b (lf_hess F) (lf_u F).
Definition set_res (F : lsqf) (v : vec) : lsqf :=
  mklsqf (lf_n F) (lf_m F) (lf_nc F) (lf_int F) (lf_eps F) (lf_cb F) (lf_lm F) (lf_fwd F) v (lf_has F) (lf_hess F) (lf_u F).
Definition set_fwd (F : lsqf) (v : vec) : lsqf :=
  mklsqf (lf_n F) (lf_m F) (lf_nc F) (lf_int F) (lf_eps F) (lf_cb F) (lf_lm F) v (lf_res F) (lf_has F) (lf_hess F) (lf_u F).
Definition set_hess (F : lsqf) (v : vec) : lsqf :=
  mklsqf (lf_n F) (lf_m F) (lf_nc F) (lf_int F) (lf_eps F) (lf_cb F) (lf_lm F) (lf_fwd F) (lf_res F) (lf_has F) v (lf_u F).

(** SLEQP_FUNC_CALL, func.h:23-38 *)
Definition func_call {A} (internal : bool) (r : res A) : res A :=
  match r with Err e => Err (if internal then e else EFuncEval) | _ => r end.

(** Sequencing of calls that keep the changes of a failed one *)
Definition obind {A B} (p : lsqf * res A) (k : lsqf -> A -> lsqf * res B) : lsqf * res B :=
  match snd p with Ok a => k (fst p) a | Err e => (fst p, Err e) | Trap => (fst p, Trap) end.
Definition ocall {A} (F : lsqf) (p : U * res A) : lsqf * res A := (set_u F (fst p), func_call (lf_int F) (snd p)).

(** lsq.c:297-369; line 307 is the assertion on the factor *)
Definition lsq_create (cb : lsqcb) (n nc m : Z) (lm eps : num) (u : U) : res lsqf :=
  check (n0 <=? lm) ;;;
  f <- vec_create_empty m ;; r <- vec_create_empty m ;; h <- vec_create_empty n ;;
  h <- (if (lm =? n0) then Ok h else vec_reserve h n) ;;
  Ok (mklsqf n m nc false eps cb lm f r false h u).

(** lsq.c:47-64 *)
Definition lsq_set (F : lsqf) (x : vec) : lsqf * res bool :=
  obind (ocall F (cb_set (lf_cb F) (lf_u F) x)) (fun F rej => (set_has F false, Ok rej)).

(** lsq.c:372-405 *)
Definition lsq_hints (F : lsqf) : lsqf * res hints :=
  match cb_nnz (lf_cb F) with None => (F, Ok no_hints) | Some f => ocall F (f (lf_u F)) end.

Definition reserve_hint (v : vec) (k : Z) : res vec := if (k =? -1)%Z then Ok v else vec_reserve v k.
(** lsq.c:66-119; the result: hints for the gradient, the constraints, their Jacobian and Hessian
    products (func.c:109-112) *)
Definition lsq_nonzeros (F : lsqf) : lsqf * res (Z * Z * Z * Z) :=
  obind (lsq_hints F) (fun F h =>
    match reserve_hint (lf_res F) (h_res h), reserve_hint (lf_fwd F) (h_fwd h), reserve_hint (lf_hess F) (h_fwd h) with
    | Ok r, Ok f, Ok p => (set_hess (set_fwd (set_res F r) f) p, Ok (h_adj h, h_cons h, h_jac h, h_fwd h))
    | _, _, _ => (F, Trap)
    end).

(** lsq.c:121-142 *)
Definition lsq_residual (F : lsqf) : lsqf * res unit :=
  if lf_has F then (F, Ok tt)
  else obind (ocall F (cb_res (lf_cb F) (lf_u F) (vec_clear (lf_res F)))) (fun F r => (set_has (set_res F r) true, Ok tt)).

(** lsq.c:144-154 *)
Definition lsq_obj (F : lsqf) : lsqf * res num :=
  obind (lsq_residual F) (fun F _ => (F, Ok (nlit 1 2 * vec_norm_sq (lf_res F)))).

(** lsq.c:450-479 *)
Definition lsq_forward (F : lsqf) (d p : vec) : lsqf * res vec :=
  if ((vdim d =? lf_n F)%Z && (vdim p =? lf_m F)%Z)%bool then ocall F (cb_fwd (lf_cb F) (lf_u F) d (vec_clear p)) else (F, Trap).
(** lsq.c:481-510 *)
Definition lsq_adjoint (F : lsqf) (d p : vec) : lsqf * res vec :=
  if ((vdim d =? lf_m F)%Z && (vdim p =? lf_n F)%Z)%bool then ocall F (cb_adj (lf_cb F) (lf_u F) d (vec_clear p)) else (F, Trap).

(** lsq.c:156-169 *)
Definition lsq_grad (F : lsqf) (g : vec) : lsqf * res vec :=
  obind (lsq_residual F) (fun F _ => lsq_adjoint F (lf_res F) (vec_clear g)).

(** lsq.c:432-448 *)
Definition lsq_residuals (F : lsqf) (t : vec) : lsqf * res vec :=
  if (vdim t =? lf_m F)%Z then obind (lsq_residual F) (fun F _ => (F, vec_copy (lf_res F) t)) else (F, Trap).

(** lsq.c:171-189, 191-209 *)
Definition lsq_cons (F : lsqf) (t : vec) : lsqf * res vec :=
  if (lf_nc F =? 0)%Z then (F, Ok (vec_clear t)) else ocall F (cb_cons (lf_cb F) (lf_u F) (vec_clear t)).
Definition lsq_jac (F : lsqf) (t : mat) : lsqf * res mat :=
  if (lf_nc F =? 0)%Z then (F, Ok (mat_clear t)) else ocall F (cb_jac (lf_cb F) (lf_u F) (mat_clear t)).

(** lsq.c:211-224 *)
Definition lsq_hess_base (F : lsqf) (d t : vec) : lsqf * res vec :=
  obind (lsq_forward F d (lf_fwd F)) (fun F f => lsq_adjoint (set_fwd F f) f t).
(** lsq.c:226-263; the multipliers are not used *)
Definition lsq_hess (F : lsqf) (d p : vec) : lsqf * res vec :=
  let F := set_hess (set_fwd F (vec_clear (lf_fwd F))) (vec_clear (lf_hess F)) in
  if negb (lf_lm F =? n0) then
    obind (lsq_hess_base F d (lf_hess F)) (fun F h => (set_hess F h, vec_add_scaled h d n1 (lf_lm F) (lf_eps F) p))
  else lsq_hess_base F d p.

(** lsq.c:548-560, 562-574 *)
Definition lsq_set_callbacks (F : lsqf) (cb : lsqcb) : lsqf :=
  mklsqf (lf_n F) (lf_m F) (lf_nc F) (lf_int F) (lf_eps F) cb (lf_lm F) (lf_fwd F) (lf_res F) (lf_has F) (lf_hess F) (lf_u F).
Definition lsq_set_lm (F : lsqf) (lm : num) : lsqf :=
  mklsqf (lf_n F) (lf_m F) (lf_nc F) (lf_int F) (lf_eps F) (lf_cb F) lm (lf_fwd F) (lf_res F) (lf_has F) (lf_hess F) (lf_u F).

(** ** Histories of calls *)
Inductive call :=
| CSet (x : vec) | CNnz | CObj | CGrad (g : vec) | CRes (t : vec) | CFwd (d p : vec) | CAdj (d p : vec)
| CCons (t : vec) | CJac (t : mat) | CHess (d p : vec) | CCallbacks (cb : lsqcb) | CLm (lm : num).
Inductive answer := ANone | ABool (b : bool) | ANum (a : num) | AVec (v : vec) | AMat (m : mat) | AHints (h : Z * Z * Z * Z).

Definition answered {A} (k : A -> answer) (p : lsqf * res A) : lsqf * res answer := (fst p, rmap k (snd p)).
Definition call_run (F : lsqf) (c : call) : lsqf * res answer :=
  match c with
  | CSet x => answered ABool (lsq_set F x)
  | CNnz => answered AHints (lsq_nonzeros F)
  | CObj => answered ANum (lsq_obj F)
  | CGrad g => answered AVec (lsq_grad F g)
  | CRes t => answered AVec (lsq_residuals F t)
  | CFwd d p => answered AVec (lsq_forward F d p)
  | CAdj d p => answered AVec (lsq_adjoint F d p)
  | CCons t => answered AVec (lsq_cons F t)
  | CJac t => answered AMat (lsq_jac F t)
  | CHess d p => answered AVec (lsq_hess F d p)
  | CCallbacks cb => (lsq_set_callbacks F cb, Ok ANone)
  | CLm lm => (lsq_set_lm F lm, Ok ANone)
  end.
(** The calls of a history with their answers *)
Fixpoint run (F : lsqf) (l : list call) : lsqf * list (call * res answer) :=
  match l with
  | [] => (F, [])
  | c :: l => let r := call_run F c in let s := run (fst r) l in (fst s, (c, snd r) :: snd s)
  end.
End Lsq.
