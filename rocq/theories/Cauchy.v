(** Steps of the linear model without general constraints:
    /repo/src/main/cauchy/box_constrained_cauchy.c and
    /repo/src/main/cauchy/unconstrained_cauchy.c.

    The iterate which the C code holds a pointer to is passed as an argument.  The gradient,
    penalty and objective type passed to [solve] are not used by either function, and are
    left out. *)
From Verif Require Import Base Num Cmp Sparse Vec Mat WorkingSet.
Local Open Scope Z_scope.

Section Cauchy.
Context {N : Num}.

(** [while (k < v->nnz && v->indices[k] < j) ++k;] *)
Fixpoint drop_lt (j : Z) (l : list (Z * num)) : list (Z * num) :=
  match l with
  | [] => []
  | (i, x) :: l' => if i <? j then drop_lt j l' else l
  end.

(** [(k < v->nnz && v->indices[k] == j) ? v->data[k] : 0.] *)
Definition head_at (j : Z) (l : list (Z * num)) : num := oval (head_val j l).

(** The parts of an iterate that are read. *)
Record citer := mkciter { ci_x : vec; ci_obj : num; ci_grad : vec }.

(** box_constrained_cauchy.c:8-28; [cb_nv], [cb_lb], [cb_ub] belong to the problem. *)
Record cbox := mkcbox {
  cb_nv : Z; cb_lb : vec; cb_ub : vec; cb_zero : num;
  cb_radius : num; cb_ld : vec; cb_ud : vec;
  cb_dir : vec; cb_duals : vec; cb_st : list ast; cb_fixed : list bool; cb_obj : num }.

(** box_constrained_cauchy.c:30-72 *)
Definition compute_fixed_vars (nv : Z) (lb ub : vec) (fixed : list bool) : res (list bool) :=
  r <- rfold (fun s j =>
    let '(ll, lu, f) := s in
    let ll := drop_lt j ll in let lu := drop_lt j lu in
    let l := head_at j ll in let u := head_at j lu in
    f <- arr_set f j (is_finite l && is_finite u && (l =? u)%num) ;;
    Ok (ll, lu, f)) (vent lb, vent ub, fixed) (zrange nv) ;;
  Ok (snd r).

(** box_constrained_cauchy.c:364-404.  [st] and [fixed] are the contents of freshly
    allocated memory. *)
Definition cb_create (nv nc : Z) (lb ub : vec) (zero_eps : num) (st : list ast) (fixed : list bool) : res cbox :=
  check (nc =? 0) ;;;
  ld <- vec_create_empty nv ;; ud <- vec_create_empty nv ;;
  dir <- vec_create_full nv ;; duals <- vec_create_full nv ;;
  fixed <- compute_fixed_vars nv lb ub fixed ;;
  Ok (mkcbox nv lb ub zero_eps (nlit (-1) 1) ld ud dir duals st fixed n0).

(** box_constrained_cauchy.c:74-104 *)
Definition compute_diffs (c : cbox) (x : vec) : res cbox :=
  b <- vec_is_boxed x (cb_lb c) (cb_ub c) ;; check b ;;;
  ld <- vec_add_scaled (cb_lb c) x n1 (nlit (-1) 1) (cb_zero c) (cb_ld c) ;;
  ud <- vec_add_scaled (cb_ub c) x n1 (nlit (-1) 1) (cb_zero c) (cb_ud c) ;;
  Ok (mkcbox (cb_nv c) (cb_lb c) (cb_ub c) (cb_zero c) (cb_radius c) ld ud
             (cb_dir c) (cb_duals c) (cb_st c) (cb_fixed c) (cb_obj c)).

(** box_constrained_cauchy.c:126-134 *)
Definition cb_set_radius (c : cbox) (radius : num) : cbox :=
  mkcbox (cb_nv c) (cb_lb c) (cb_ub c) (cb_zero c) radius (cb_ld c) (cb_ud c)
         (cb_dir c) (cb_duals c) (cb_st c) (cb_fixed c) (cb_obj c).

(** box_constrained_cauchy.c:106-124 *)
Definition cb_set_iterate (c : cbox) (it : citer) (radius : num) : res cbox :=
  compute_diffs (cb_set_radius c radius) (ci_x it).

(** State of the loop of [solve]: what is left of the differences and of the gradient,
    direction, multipliers, states, objective. *)
Record cbst := mkcbst {
  sl : list (Z * num); su : list (Z * num); sg : list (Z * num);
  sdir : vec; sduals : vec; sst : list ast; sobj : num }.

(** box_constrained_cauchy.c:166-235 *)
Definition cb_body (tr : num) (fixed : list bool) (s : cbst) (j : Z) : res cbst :=
  let ll := drop_lt j (sl s) in let lu := drop_lt j (su s) in let lg := drop_lt j (sg s) in
  let l := head_at j ll in let u := head_at j lu in let g := head_at j lg in
  let ng := nopp g in
  if (n0 <=? ng)%num then
    if (tr <? u)%num then
      st <- arr_set (sst s) j Inactive ;;
      d <- vec_push (sdir s) j tr ;;
      Ok (mkcbst ll lu lg d (sduals s) st (nadd (sobj s) (nmul tr g)))
    else
      fx <- arr_get fixed j ;;
      st <- arr_set (sst s) j (if (fx : bool) then ActBoth else ActUpper) ;;
      d <- vec_push (sdir s) j u ;;
      m <- vec_push (sduals s) j ng ;;
      Ok (mkcbst ll lu lg d m st (nadd (sobj s) (nmul u g)))
  else
    if (l <? nopp tr)%num then
      st <- arr_set (sst s) j Inactive ;;
      d <- vec_push (sdir s) j (nopp tr) ;;
      Ok (mkcbst ll lu lg d (sduals s) st (nadd (sobj s) (nmul (nopp tr) g)))
    else
      fx <- arr_get fixed j ;;
      st <- arr_set (sst s) j (if (fx : bool) then ActBoth else ActLower) ;;
      d <- vec_push (sdir s) j l ;;
      m <- vec_push (sduals s) j ng ;;
      Ok (mkcbst ll lu lg d m st (nadd (sobj s) (nmul l g))).

(** box_constrained_cauchy.c:136-238 *)
Definition cb_solve (c : cbox) (it : citer) : res cbox :=
  s <- rfold (cb_body (cb_radius c) (cb_fixed c))
         (mkcbst (vent (cb_ld c)) (vent (cb_ud c)) (vent (ci_grad it))
                 (vec_clear (cb_dir c)) (vec_clear (cb_duals c)) (cb_st c) (ci_obj it))
         (zrange (cb_nv c)) ;;
  Ok (mkcbox (cb_nv c) (cb_lb c) (cb_ub c) (cb_zero c) (cb_radius c) (cb_ld c) (cb_ud c)
             (sdir s) (sduals s) (sst s) (cb_fixed c) (sobj s)).

(** box_constrained_cauchy.c:240-272 *)
Definition cb_obj_val (c : cbox) : num := cb_obj c.
Definition cb_working_set (c : cbox) (w : wset) : res wset :=
  rfold (fun w j => s <- arr_get (cb_st c) j ;; if active s then ws_add_var w j s else Ok w)
        (ws_reset w) (zrange (cb_nv c)).

(** box_constrained_cauchy.c:274-282 and 292-303; the constraint multipliers are not touched. *)
Definition cb_lp_step (c : cbox) (direction : vec) : res vec := vec_copy (cb_dir c) direction.
Definition cb_estimate_duals (c : cbox) (vars_dual : vec) : res vec := vec_copy (cb_duals c) vars_dual.

(** cauchy.c:36-69: the calls that lead to a step, with the iterate held by the solver;
    a step asked for before any iterate was set dereferences a null pointer. *)
Inductive cop := OIter (it : citer) (radius : num) | ORadius (radius : num) | OSolve.
Definition cb_exec (s : cbox * option citer) (o : cop) : res (cbox * option citer) :=
  match o with
  | OIter it r => c <- cb_set_iterate (fst s) it r ;; Ok (c, Some it)
  | ORadius r => Ok (cb_set_radius (fst s) r, snd s)
  | OSolve =>
    check (negb (cb_radius (fst s) =? nlit (-1) 1)%num) ;;;
    match snd s with
    | Some it => c <- cb_solve (fst s) it ;; Ok (c, Some it)
    | None => Trap
    end
  end.

(** ** unconstrained_cauchy.c *)

(** unconstrained_cauchy.c:6-16 *)
Record cunc := mkcunc { cu_nv : Z; cu_radius : num; cu_dir : vec; cu_obj : num }.

(** unconstrained_cauchy.c:198-224 *)
Definition cu_create (nv : Z) : res cunc :=
  d <- vec_create_full nv ;; Ok (mkcunc nv (nlit (-1) 1) d n0).
(** unconstrained_cauchy.c:19-45 *)
Definition cu_set_radius (c : cunc) (radius : num) : cunc :=
  mkcunc (cu_nv c) radius (cu_dir c) (cu_obj c).

(** unconstrained_cauchy.c:73-96 *)
Definition cu_body (tr : num) (s : list (Z * num) * vec * num) (j : Z) : res (list (Z * num) * vec * num) :=
  let '(lg, d, o) := s in
  let lg := drop_lt j lg in
  let g := head_at j lg in
  let ng := nopp g in
  if (n0 <=? ng)%num then d <- vec_push d j tr ;; Ok (lg, d, nadd o (nmul tr g))
  else d <- vec_push d j (nopp tr) ;; Ok (lg, d, nadd o (nmul (nopp tr) g)).

(** unconstrained_cauchy.c:47-99 *)
Definition cu_solve (c : cunc) (it : citer) : res cunc :=
  s <- rfold (cu_body (cu_radius c)) (vent (ci_grad it), vec_clear (cu_dir c), ci_obj it) (zrange (cu_nv c)) ;;
  let '(_, d, o) := s in Ok (mkcunc (cu_nv c) (cu_radius c) d o).

(** cauchy.c:36-69 *)
Definition cu_exec (s : cunc * option citer) (o : cop) : res (cunc * option citer) :=
  match o with
  | OIter it r => Ok (cu_set_radius (fst s) r, Some it)
  | ORadius r => Ok (cu_set_radius (fst s) r, snd s)
  | OSolve =>
    check (negb (cu_radius (fst s) =? nlit (-1) 1)%num) ;;;
    match snd s with
    | Some it => c <- cu_solve (fst s) it ;; Ok (c, Some it)
    | None => Trap
    end
  end.

(** unconstrained_cauchy.c:101-149 *)
Definition cu_obj_val (c : cunc) : num := cu_obj c.
Definition cu_working_set (c : cunc) (w : wset) : wset := ws_reset w.
Definition cu_lp_step (c : cunc) (direction : vec) : res vec := vec_copy (cu_dir c) direction.
Definition cu_estimate_duals (c : cunc) (cons_dual vars_dual : vec) : vec * vec :=
  (vec_clear cons_dual, vec_clear vars_dual).
End Cauchy.
