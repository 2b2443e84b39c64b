(** Problems (/repo/src/main/problem.c) and the evaluation entry points of user functions
    (/repo/src/main/func.c). *)
From Verif Require Import Base Num Cmp Sparse Vec Mat.
Local Open Scope Z_scope.

Section Problem.
Context {N : Num}.

(** A user function (func.c, callbacks of pub_func.h): number of variables and constraints,
    and its callbacks at a point; each receives the (cleared) result object.  Gradients and
    objective values are passed through by the problem without change and are left out. *)
Record ufunc := mkufunc {
  uf_nv : Z; uf_nc : Z;
  uf_cons : vec -> vec -> res vec;               (* point, result *)
  uf_jac : vec -> mat -> res mat;
  uf_hess : vec -> vec -> vec -> vec -> res vec  (* point, direction, duals, result *) }.

(** func.c:174-202 *)
Definition func_cons_val (f : ufunc) (x v : vec) : res vec :=
  v <- (if uf_nc f =? 0 then Ok (vec_clear v) else uf_cons f x (vec_clear v)) ;;
  check (vec_is_valid v) ;;; check (vec_is_finite v) ;;; Ok v.

(** func.c:204-232 *)
Definition func_cons_jac (f : ufunc) (x : vec) (m : mat) : res mat :=
  m <- (if uf_nc f =? 0 then Ok (mat_clear m) else uf_jac f x (mat_clear m)) ;;
  b <- mat_is_valid m ;; check b ;;; b <- mat_is_finite m ;; check b ;;; Ok m.

(** func.c:373-408 *)
Definition func_hess_prod (f : ufunc) (x direction cons_duals product : vec) : res vec :=
  check (vdim cons_duals =? uf_nc f) ;;; check (vdim direction =? uf_nv f) ;;; check (vdim product =? uf_nv f) ;;;
  check (vec_is_valid cons_duals) ;;; check (vec_is_finite cons_duals) ;;;
  check (vec_is_valid direction) ;;; check (vec_is_finite direction) ;;;
  p <- uf_hess f x direction cons_duals (vec_clear product) ;;
  check (vec_is_valid p) ;;; check (vec_is_finite p) ;;; Ok p.

(** problem.c:16-51; [p_point] is the point last set in the function. *)
Record problem := mkproblem {
  p_func : ufunc; p_eps : num; p_point : vec;
  p_vlb : vec; p_vub : vec; p_clb : vec; p_cub : vec;
  p_glb : vec; p_gub : vec; p_lin : mat; p_llb : vec; p_lub : vec;
  p_nl : Z; p_primal : option vec;
  p_gval : vec; p_lval : vec; p_gdual : vec; p_gjac : mat }.

(** problem.c:53-120: the first index with [lb > ub] is an error. *)
Definition check_bounds (lb ub : vec) : res unit :=
  check (vdim lb =? vdim ub) ;;;
  rows <- align (vdim lb) [vent lb; vent ub] ;;
  rfold (fun _ row => match snd row with
    | [l; u] => if nltb (oval u) (oval l) then Err EIllegalArg else Ok tt
    | _ => Trap end) tt rows.

(** problem.c:122-134 with from = -INFINITY, to = -inf (convert_lb), and the converse;
    [data[k] == INFINITY] is written as "infinite and positive". *)
Definition map_lower (x : num) : num := if nisinf x && nltb x n0 then nopp sleqp_infinity else x.
Definition map_upper (x : num) : num := if nisinf x && nltb n0 x then sleqp_infinity else x.

(** problem.c:136-160, 163-197 *)
Definition convert (f : num -> num) (source : vec) (dim : Z) (target : option vec) : res vec :=
  check (vec_is_valid source) ;;; check (vdim source =? dim) ;;;
  t <- match target with
       | Some t => t <- vec_resize t dim ;; vec_reserve t (vnnz source)
       | None => vec_create dim (vnnz source)
       end ;;
  t <- vec_copy source t ;;
  let t := mkvec (vdim t) (vcap t) (map (fun e => (fst e, f (snd e))) (vent t)) in
  check (vec_is_finite t) ;;; Ok t.

(** problem.c:199-213; [c] the current (empty) stacked bounds *)
Definition stack_bounds (glb gub llb lub c : vec) : res (vec * vec) :=
  clb <- vec_concat glb llb c ;;
  cub <- vec_concat gub lub c ;;
  check_bounds clb cub ;;; Ok (clb, cub).

Definition evec (d : Z) : vec := mkvec d 0 [].
Definition emat : mat := mkmat 0 0 0 0 [0] [].

(** problem.c:215-271: variable bounds and general bounds. *)
Definition create_bounds (f : ufunc) (vlb vub glb gub : vec) : res (vec * vec * vec * vec) :=
  vl <- convert map_lower vlb (uf_nv f) None ;;
  vu <- convert map_upper vub (uf_nv f) None ;;
  gl <- convert map_lower glb (uf_nc f) None ;;
  gu <- convert map_upper gub (uf_nc f) None ;;
  check_bounds vl vu ;;; Ok (vl, vu, gl, gu).

(** problem.c:273-291; objects that stay NULL are never used, as there are no linear constraints *)
Definition problem_create_simple (f : ufunc) (vlb vub glb gub : vec) (eps : num) : res problem :=
  b <- create_bounds f vlb vub glb gub ;;
  let '(vl, vu, gl, gu) := b in
  lin <- mat_create 0 (uf_nv f) 0 ;;
  c <- stack_bounds gl gu (evec 0) (evec 0) (evec 0) ;;
  Ok (mkproblem f eps (evec (uf_nv f)) vl vu (fst c) (snd c) gl gu lin (evec 0) (evec 0) 0 None
        (evec 0) (evec 0) (evec 0) emat).

(** problem.c:292-362 *)
Definition problem_create (f : ufunc) (vlb vub glb gub : vec) (coeffs : mat) (llb lub : vec) (eps : num) : res problem :=
  b <- create_bounds f vlb vub glb gub ;;
  let '(vl, vu, gl, gu) := b in
  let nl := mnr coeffs in
  lin <- mat_create 0 (uf_nv f) 0 ;;
  lin <- mat_resize lin nl (uf_nv f) ;;
  lin <- mat_copy coeffs lin ;;
  b <- mat_is_valid lin ;; check b ;;; b <- mat_is_finite lin ;; check b ;;; check (mnc lin =? uf_nv f) ;;;
  ll <- convert map_lower llb nl (Some (evec 0)) ;;
  lu <- convert map_upper lub nl (Some (evec 0)) ;;
  gjac <- mat_create (uf_nc f) (uf_nv f) 0 ;;
  c <- stack_bounds gl gu ll lu (evec 0) ;;
  Ok (mkproblem f eps (evec (uf_nv f)) vl vu (fst c) (snd c) gl gu lin ll lu nl (Some (mkvec (uf_nv f) (uf_nv f) []))
        (evec (uf_nc f)) (evec nl) (evec (uf_nc f)) gjac).

(** problem.c:460-474; the callback of the function is taken to succeed.  The point is copied even
    if the function rejects it. *)
Definition problem_set_value (p : problem) (x : vec) : res problem :=
  pr <- match p_primal p with Some v => v <- vec_copy x v ;; Ok (Some v) | None => Ok None end ;;
  Ok (mkproblem (p_func p) (p_eps p) x (p_vlb p) (p_vub p) (p_clb p) (p_cub p) (p_glb p) (p_gub p) (p_lin p)
        (p_llb p) (p_lub p) (p_nl p) pr (p_gval p) (p_lval p) (p_gdual p) (p_gjac p)).

Definition get_primal (p : problem) : res vec := match p_primal p with Some v => Ok v | None => Trap end.

(** problem.c:549-585; only the result is returned, the work vectors are overwritten at the next call. *)
Definition problem_cons_val (p : problem) (v : vec) : res vec :=
  if p_nl p =? 0 then func_cons_val (p_func p) (p_point p) v else
  x <- get_primal p ;;
  a <- mat_mult_vec (p_lin p) x ;;
  if uf_nc (p_func p) =? 0 then vec_set_from_raw v a (p_eps p) else
  l <- vec_set_from_raw (p_lval p) a (p_eps p) ;;
  g <- func_cons_val (p_func p) (p_point p) (p_gval p) ;;
  vec_concat g l v.

(** problem.c:587-605 *)
Definition problem_cons_jac (p : problem) (m : mat) : res mat :=
  if p_nl p =? 0 then func_cons_jac (p_func p) (p_point p) m else
  if uf_nc (p_func p) =? 0 then mat_copy (p_lin p) m else
  g <- func_cons_jac (p_func p) (p_point p) (p_gjac p) ;;
  mat_vstack g (p_lin p) m.

Fixpoint take_below (n : Z) (l : list (Z * num)) : list (Z * num) :=
  match l with [] => [] | e :: l' => if n <=? fst e then [] else e :: take_below n l' end.

(** problem.c:607-630 *)
Definition prepare_cons_duals (p : problem) (duals : vec) : res vec :=
  d <- vec_reserve (p_gdual p) (vnnz duals) ;;
  push_all (vec_clear d) (take_below (uf_nc (p_func p)) (vent duals)).

(** problem.c:631-651 *)
Definition problem_hess_prod (p : problem) (direction duals product : vec) : res vec :=
  if p_nl p =? 0 then func_hess_prod (p_func p) (p_point p) direction duals product else
  d <- prepare_cons_duals p duals ;;
  func_hess_prod (p_func p) (p_point p) direction d product.

(** problem.c:675-695 *)
Definition vec_has_finite (v : vec) : res bool :=
  check (vec_is_valid v) ;;; check (vec_is_finite v) ;;;
  if negb (vnnz v =? vdim v) then Ok true else Ok (existsb (fun e => is_finite (nabs (snd e))) (vent v)).

(** problem.c:697-704 *)
Definition is_unconstrained (p : problem) : res bool :=
  a <- vec_has_finite (p_vlb p) ;; if (a : bool) then Ok false else
  b <- vec_has_finite (p_vub p) ;; if (b : bool) then Ok false else
  c <- vec_has_finite (p_clb p) ;; if (c : bool) then Ok false else
  d <- vec_has_finite (p_cub p) ;; Ok (negb d).
End Problem.
