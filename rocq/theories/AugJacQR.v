(** Model of the solves of /repo/src/main/aug_jac/direct_aug_jac.c with a QR factorization
    (fact/fact_qr.c; the callbacks as in fact/fact_spqr.c, whose results are dense arrays that are
    copied into the target without a tolerance). *)
From Verif Require Import Base Num Cmp Sparse Vec Mat WorkingSet DualEst AugJac.
Local Open Scope Z_scope.

Section AugJacQR.
Context {N : Num}.

(** The callbacks of a QR factorization A = Q [R; 0] (fact_qr.h:8-18, 34-79): set_matrix, solve_tri,
    solve_tri_trans, mult_orth, mult_orth_trans *)
Record qr := mkqr { q_set : mat -> res unit; q_tri : mat -> vec -> res (list num); q_trit : mat -> vec -> res (list num);
  q_orth : mat -> vec -> res (list num); q_ortht : mat -> vec -> res (list num) }.

(** direct_aug_jac.c:8-20; [dj_held]: the matrix whose factorization the object holds *)
Record djac := mkdj { dj_prod : vec; dj_wj : mat; dj_mat : mat; dj_held : option mat }.

(** direct_aug_jac.c:274-294 *)
Definition dj_create : res djac :=
  p <- vec_create_empty 0 ;; wj <- mat_create 0 0 0 ;; m <- mat_create 0 0 0 ;; Ok (mkdj p wj m None).

(** direct_aug_jac.c:22-43, 129-152 with fact_qr.c:60-71; the outer result: assertions and memory, the
    inner one: the return code *)
Definition dj_set_iterate (F : qr) (j : djac) (w : wset) (jac : mat) : res (djac * res unit) :=
  p <- vec_resize (vec_clear (dj_prod j)) (mnr jac) ;;
  r <- direct_matrix w jac (dj_wj j) (dj_mat j) ;;
  let '(wj, t) := r in
  check (mnc t <=? mnr t) ;;;
  match q_set F t with
  | Trap => Trap
  | Err c => Ok (mkdj p wj t None, Err c)
  | Ok _ => Ok (mkdj p wj t (Some t), Ok tt)
  end.

(** fact_qr.c:73-120 and the end of the callbacks (fact_spqr.c:239-241, 264-266, 289-291, 318-320): the
    dimensions are asserted, the result is copied into the target *)
Definition qr_call (f : mat -> vec -> res (list num)) (held : option mat) (d : Z) (rhs sol : vec) : res vec :=
  check (vdim rhs =? d) ;;; check (vdim sol =? d) ;;;
  match held with
  | Some m => raw <- f m rhs ;; vec_set_from_raw sol raw n0
  | None => Err EInternal
  end.

Definition set_prod (j : djac) (p : vec) : djac := mkdj p (dj_wj j) (dj_mat j) (dj_held j).

(** direct_aug_jac.c:154-176 *)
Definition dj_min_norm (F : qr) (j : djac) (rhs sol : vec) : res (djac * vec) :=
  p <- vec_resize (vec_clear (dj_prod j)) (mnc (dj_mat j)) ;;
  p <- qr_call (q_trit F) (dj_held j) (mnc (dj_mat j)) rhs p ;;
  p <- vec_resize p (mnr (dj_mat j)) ;;
  sol <- qr_call (q_orth F) (dj_held j) (mnr (dj_mat j)) p sol ;;
  Ok (set_prod j p, sol).

(** direct_aug_jac.c:178-201 *)
Definition dj_lsq (F : qr) (j : djac) (rhs sol : vec) : res (djac * vec) :=
  check (vdim rhs =? mnr (dj_mat j)) ;;;
  p <- vec_resize (dj_prod j) (mnr (dj_mat j)) ;;
  p <- qr_call (q_ortht F) (dj_held j) (mnr (dj_mat j)) rhs p ;;
  p <- vec_resize p (mnc (dj_mat j)) ;;
  sol <- qr_call (q_tri F) (dj_held j) (mnc (dj_mat j)) p sol ;;
  Ok (set_prod j p, sol).

(** direct_aug_jac.c:217-239: the entries before the first index of at least [d] are dropped *)
Fixpoint drop_lt (d : Z) (l : list (Z * num)) : list (Z * num) :=
  match l with
  | (i, x) :: l' => if d <=? i then l else drop_lt d l'
  | [] => []
  end.

(** direct_aug_jac.c:203-244 *)
Definition dj_project (F : qr) (j : djac) (rhs sol : vec) : res (djac * vec) :=
  let p := mkvec (mnr (dj_mat j)) (vcap (dj_prod j)) (vent (dj_prod j)) in
  p <- qr_call (q_ortht F) (dj_held j) (mnr (dj_mat j)) rhs p ;;
  let p := mkvec (vdim p) (vcap p) (drop_lt (mnc (dj_mat j)) (vent p)) in
  sol <- qr_call (q_orth F) (dj_held j) (mnr (dj_mat j)) p sol ;;
  Ok (set_prod j p, sol).

End AugJacQR.
