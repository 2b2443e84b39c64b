(** Power-of-two scaling (/repo/src/main/scale.c) and scaled problems
    (/repo/src/main/problem_scaling.c).  Overflow of the C [int] weights is not modelled. *)
From Coq Require Import Reals.
From Flocq Require Import Core BinarySingleNaN.
From Verif Require Import Base Num Cmp Sparse Vec Mat Problem.
Local Open Scope Z_scope.

(** The C functions [ldexp] and [frexp] (only the exponent of the latter is used). *)
Class Ldexp (N : Num) := { nldexp : num -> Z -> num; nfrexp : num -> Z }.

Definition f64_ldexp (x : f64) (e : Z) : f64 := Bldexp mode_NE x e.
Definition f64_frexp (x : f64) : Z := match x with B754_zero _ => 0 | _ => snd (Bfrexp x) end.
#[export] Instance F64_Ldexp : Ldexp F64 := {| nldexp := f64_ldexp; nfrexp := f64_frexp |}.

Definition r_ldexp (x : R) (e : Z) : R := (x * bpow radix2 e)%R.
Definition r_frexp (x : R) : Z := if Req_bool x 0 then 0 else mag radix2 x.
#[export] Instance RN_Ldexp : Ldexp RN := {| nldexp := r_ldexp; nfrexp := r_frexp |}.

Section Scale.
Context {N : Num} {L : Ldexp N}.

(** scale.c:19-32 without reference counter and caches *)
Record scaling := mkscaling { sc_nv : Z; sc_nc : Z; sc_ow : Z; sc_vw : list Z; sc_cw : list Z }.

(** scale.c:74-90 *)
Definition scaling_reset (s : scaling) : scaling :=
  mkscaling (sc_nv s) (sc_nc s) 0 (repeat 0 (Z.to_nat (sc_nv s))) (repeat 0 (Z.to_nat (sc_nc s))).

(** scale.c:93-134 *)
Definition scaling_create (nv nc : Z) : res scaling :=
  if nv <? 0 then Err EIllegalArg
  else if nc <? 0 then Err EIllegalArg
  else Ok (scaling_reset (mkscaling nv nc 0 [] [])).

(** scale.c:154-159 *)
Definition set_obj_weight (s : scaling) (w : Z) : scaling :=
  mkscaling (sc_nv s) (sc_nc s) w (sc_vw s) (sc_cw s).

(** scale.c:161-168 *)
Definition set_obj_weight_from_nominal (s : scaling) (x : num) : scaling := set_obj_weight s (nfrexp x).

(** scale.c:170-181 *)
Definition set_var_weight (s : scaling) (index w : Z) : res scaling :=
  if (index <? 0) || (sc_nv s <=? index) then Err EIllegalArg
  else vw <- arr_set (sc_vw s) index w ;; Ok (mkscaling (sc_nv s) (sc_nc s) (sc_ow s) vw (sc_cw s)).

(** scale.c:196-208 *)
Definition set_var_weight_from_nominal (s : scaling) (index : Z) (x : num) : res scaling :=
  if (index <? 0) || (sc_nv s <=? index) then Err EIllegalArg
  else vw <- arr_set (sc_vw s) index (nfrexp x) ;; Ok (mkscaling (sc_nv s) (sc_nc s) (sc_ow s) vw (sc_cw s)).

(** scale.c:182-193 *)
Definition set_var_weights_from_nominal (s : scaling) (xs : list num) : res scaling :=
  vw <- rfold (fun vw j => x <- arr_get xs j ;; arr_set vw j (nfrexp x)) (sc_vw s) (zrange (sc_nv s)) ;;
  Ok (mkscaling (sc_nv s) (sc_nc s) (sc_ow s) vw (sc_cw s)).

(** scale.c:211-221 *)
Definition set_cons_weight (s : scaling) (index w : Z) : res scaling :=
  if (index <? 0) || (sc_nc s <=? index) then Err EIllegalArg
  else cw <- arr_set (sc_cw s) index w ;; Ok (mkscaling (sc_nv s) (sc_nc s) (sc_ow s) (sc_vw s) cw).

(** scale.c:223-233 *)
Definition set_cons_weights_from_nominal (s : scaling) (xs : list num) : res scaling :=
  cw <- rfold (fun cw i => x <- arr_get xs i ;; arr_set cw i (nfrexp x)) (sc_cw s) (zrange (sc_nc s)) ;;
  Ok (mkscaling (sc_nv s) (sc_nc s) (sc_ow s) (sc_vw s) cw).

(** scale.c:34-43 *)
Definition apply_const_scaling (v : vec) (value : Z) : vec :=
  mkvec (vdim v) (vcap v) (map (fun e => (fst e, nldexp (snd e) value)) (vent v)).

(** scale.c:45-51 *)
Definition apply_const_unscaling (v : vec) (value : Z) : vec := apply_const_scaling v ((-1) * value).

(** scale.c:53-62 *)
Definition apply_unscaling (v : vec) (scales : list Z) (offset : Z) : res vec :=
  es <- rmapM (fun e => w <- arr_get scales (fst e) ;; Ok (fst e, nldexp (snd e) (w + offset))) (vent v) ;;
  Ok (mkvec (vdim v) (vcap v) es).

(** scale.c:64-73 *)
Definition apply_scaling (v : vec) (scales : list Z) (offset : Z) : res vec :=
  es <- rmapM (fun e => w <- arr_get scales (fst e) ;; Ok (fst e, nldexp (snd e) (-1 * w + offset))) (vent v) ;;
  Ok (mkvec (vdim v) (vcap v) es).

(** scale.c:262-272 *)
Definition scale_obj_val (s : scaling) (x : num) : num := nldexp x ((-1) * sc_ow s).
Definition scale_obj_weight (s : scaling) (x : num) : num := nldexp x ((-1) * sc_ow s).
Definition scale_lsq_obj_val (s : scaling) (x : num) : num := nldexp x ((-1) * 2 * sc_ow s).

(** scale.c:274-298 *)
Definition scale_lsq_residuals (s : scaling) (v : vec) : vec := apply_const_unscaling v (sc_ow s).
Definition scale_lsq_forward_direction (s : scaling) (v : vec) : res vec := apply_unscaling v (sc_vw s) 0.
Definition scale_lsq_adjoint_direction (s : scaling) (v : vec) : vec := apply_const_unscaling v (sc_ow s).

(** scale.c:300-324 *)
Definition scale_point (s : scaling) (v : vec) : res vec := apply_scaling v (sc_vw s) 0.
Definition scale_obj_grad (s : scaling) (v : vec) : res vec := apply_unscaling v (sc_vw s) ((-1) * sc_ow s).
Definition scale_cons_val (s : scaling) (v : vec) : res vec := apply_scaling v (sc_cw s) 0.

(** scale.c:326-340 *)
Definition scale_cons_weights (s : scaling) (ws : list num) : res (list num) :=
  rmapM (fun i => x <- arr_get ws i ;; w <- arr_get (sc_cw s) i ;; Ok (nldexp x (-1 * w))) (zrange (sc_nc s)).

(** scale.c:342-348 *)
Definition scale_cons_general (s : scaling) (v : vec) : res vec := apply_scaling v (sc_cw s) 0.

(** scale.c:350-360: the weights are read through the pointer [cons_weights + num_general]. *)
Definition scale_cons_linear (s : scaling) (v : vec) : res vec :=
  let num_general := sc_nc s - vdim v in
  es <- rmapM (fun e => w <- arr_get (sc_cw s) (num_general + fst e) ;; Ok (fst e, nldexp (snd e) (-1 * w + 0))) (vent v) ;;
  Ok (mkvec (vdim v) (vcap v) es).

(** [while (index >= cols[col + 1]) { ++col; }]; the fuel is the length of [cols], so running
    out of it means reading past the end of the array. *)
Fixpoint advance (fuel : nat) (cols : list Z) (index col : Z) : res Z :=
  match fuel with
  | O => Trap
  | S fuel => c <- arr_get cols (col + 1) ;; if c <=? index then advance fuel cols index (col + 1) else Ok col
  end.

(** The loop of scale.c:371-385, 405-420, 540-552 with the exponent given by row and column. *)
Definition mat_ldexp (m : mat) (w : Z -> Z -> res Z) : res mat :=
  st <- rfold (fun st index =>
    let '(col, ent) := st in
    col <- advance (S (length (mcols m))) (mcols m) index col ;;
    e <- arr_get ent index ;;
    k <- w (fst e) col ;;
    ent <- arr_set ent index (fst e, nldexp (snd e) k) ;;
    Ok (col, ent)) (0, ment m) (zrange (mnnz m)) ;;
  Ok (mkmat (mnr m) (mnc m) (mnnz m) (mcap m) (mcols m) (snd st)).

(** scale.c:362-388 *)
Definition scale_cons_jac (s : scaling) (m : mat) : res mat :=
  mat_ldexp m (fun row col => c <- arr_get (sc_cw s) row ;; v <- arr_get (sc_vw s) col ;; Ok ((-1) * c + v)).

(** scale.c:390-421; the constraint weights are read at [num_linear + row]. *)
Definition scale_linear_coeffs (s : scaling) (m : mat) : res mat :=
  let num_linear := mnr m in
  check (num_linear <=? sc_nc s) ;;;
  mat_ldexp m (fun row col => c <- arr_get (sc_cw s) (num_linear + row) ;; v <- arr_get (sc_vw s) col ;; Ok ((-1) * c + v)).

(** scale.c:423-450 *)
Definition scale_cons_duals (s : scaling) (v : vec) : res vec := apply_unscaling v (sc_cw s) ((-1) * sc_ow s).
Definition scale_var_duals (s : scaling) (v : vec) : res vec := apply_unscaling v (sc_vw s) ((-1) * sc_ow s).
Definition scale_hessian_product (s : scaling) (v : vec) : res vec := apply_unscaling v (sc_vw s) ((-1) * sc_ow s).

(** The parts of an iterate (iterate.c) that are scaled. *)
Record iter := mkiter {
  it_primal : vec; it_obj : num; it_grad : vec; it_cons : vec; it_jac : mat; it_cdual : vec; it_vdual : vec }.

(** scale.c:452-490 *)
Definition scale_iterate (s : scaling) (it : iter) (lsq : bool) : res iter :=
  p <- scale_point s (it_primal it) ;;
  let o := if lsq then scale_lsq_obj_val s (it_obj it) else scale_obj_val s (it_obj it) in
  g <- scale_obj_grad s (it_grad it) ;;
  c <- scale_cons_val s (it_cons it) ;;
  j <- scale_cons_jac s (it_jac it) ;;
  cd <- scale_cons_duals s (it_cdual it) ;;
  vd <- scale_var_duals s (it_vdual it) ;;
  Ok (mkiter p o g c j cd vd).

(** scale.c:492-502 *)
Definition unscale_obj_val (s : scaling) (x : num) : num := nldexp x (sc_ow s).
Definition unscale_lsq_obj_val (s : scaling) (x : num) : num := nldexp x (2 * sc_ow s).

(** scale.c:504-527 *)
Definition unscale_point (s : scaling) (v : vec) : res vec := apply_unscaling v (sc_vw s) 0.
Definition unscale_obj_grad (s : scaling) (v : vec) : res vec := apply_scaling v (sc_vw s) (sc_ow s).
Definition unscale_cons_val (s : scaling) (v : vec) : res vec := apply_unscaling v (sc_cw s) 0.

(** scale.c:529-555 *)
Definition unscale_cons_jac (s : scaling) (m : mat) : res mat :=
  mat_ldexp m (fun row col => v <- arr_get (sc_vw s) col ;; c <- arr_get (sc_cw s) row ;; Ok ((-1) * v + c)).

(** scale.c:557-574 *)
Definition unscale_cons_duals (s : scaling) (v : vec) : res vec := apply_scaling v (sc_cw s) (sc_ow s).
Definition unscale_var_duals (s : scaling) (v : vec) : res vec := apply_scaling v (sc_vw s) (sc_ow s).

(** scale.c:576-587 *)
Definition unscale_hessian_direction (s : scaling) (direction cons_duals : vec) : res (vec * vec) :=
  d <- apply_unscaling direction (sc_vw s) 0 ;;
  c <- apply_scaling cons_duals (sc_cw s) (sc_ow s) ;;
  Ok (d, c).

(** scale.c:589-628 *)
Definition unscale_iterate (s : scaling) (it : iter) (lsq : bool) : res iter :=
  p <- unscale_point s (it_primal it) ;;
  let o := if lsq then unscale_lsq_obj_val s (it_obj it) else unscale_obj_val s (it_obj it) in
  g <- unscale_obj_grad s (it_grad it) ;;
  c <- unscale_cons_val s (it_cons it) ;;
  j <- unscale_cons_jac s (it_jac it) ;;
  cd <- unscale_cons_duals s (it_cdual it) ;;
  vd <- unscale_var_duals s (it_vdual it) ;;
  Ok (mkiter p o g c j cd vd).

(** scale.c:12-17, CLIP_WEIGHT with MAX_WEIGHT = 30 (SLEQP_MIN/MAX on [int]) *)
Definition max_weight : Z := 30.
Definition clip_weight (w : Z) : Z := Z.min (Z.max w (- max_weight)) max_weight.

(** The weight for a largest absolute entry [max_val]: scale.c:655-664, 732-741 *)
Definition weight_of_max (max_val : num) : Z :=
  if neqb max_val n0 then 0 else clip_weight (nfrexp (ndiv n1 max_val) - 1).

(** scale.c:630-668 *)
Definition obj_scaling_from_grad (s : scaling) (g : vec) (eps : num) : res scaling :=
  let max_val := fold_left (fun mv e =>
    let cur := nabs (snd e) in if is_zero cur eps then mv else nmax mv cur) (vent g) n0 in
  check (neqb max_val n0 || nltb n0 max_val) ;;;
  Ok (set_obj_weight s (weight_of_max max_val)).

(** scale.c:670-745; [cache] is the array max_cache of scale.c:822-829 (uninitialised values are
    written before they are read). *)
Definition compute_scale_factors (m : mat) (column : bool) (factors prescaling : list Z) (cache : list num)
    (eps : num) : res (list Z) :=
  let size := if column then mnc m else mnr m in
  init <- rfold (fun st i => let '(c, f) := st in
            c <- arr_set c i n0 ;; f <- arr_set f i 0 ;; Ok (c, f)) (cache, factors) (zrange size) ;;
  let '(cache, factors) := init in
  st <- rfold (fun st index =>
    let '(col, c) := st in
    col <- advance (S (length (mcols m))) (mcols m) index col ;;
    e <- arr_get (ment m) index ;;
    let cur_entry := if column then col else fst e in
    let other_entry := if column then fst e else col in
    p <- arr_get prescaling other_entry ;;
    let cur := nabs (nldexp (snd e) p) in
    if is_zero cur eps then Ok (col, c)
    else old <- arr_get c cur_entry ;; c <- arr_set c cur_entry (nmax old cur) ;; Ok (col, c))
    (0, cache) (zrange (mnnz m)) ;;
  rfold (fun f i => mv <- arr_get (snd st) i ;;
    check (neqb mv n0 || nltb n0 mv) ;;; arr_set f i (weight_of_max mv)) factors (zrange size).

(** scale.c:750-812 *)
Definition max_matrix_ratio (m : mat) (column : bool) (mins maxs : list num) (eps : num) : res num :=
  let size := if column then mnc m else mnr m in
  init <- rfold (fun st i => let '(a, b) := st in
            a <- arr_set a i sleqp_infinity ;; b <- arr_set b i n0 ;; Ok (a, b)) (mins, maxs) (zrange size) ;;
  st <- rfold (fun st index =>
    let '(col, ab) := st in
    col <- advance (S (length (mcols m))) (mcols m) index col ;;
    e <- arr_get (ment m) index ;;
    let cur := nabs (snd e) in
    if is_zero cur eps then Ok (col, ab)
    else
      let entry := if column then col else fst e in
      a0 <- arr_get (fst ab) entry ;; a <- arr_set (fst ab) entry (nmin a0 cur) ;;
      b0 <- arr_get (snd ab) entry ;; b <- arr_set (snd ab) entry (nmax b0 cur) ;;
      Ok (col, (a, b)))
    (0, init) (zrange (mnnz m)) ;;
  let '(a, b) := snd st in
  rfold (fun r i => mx <- arr_get b i ;;
    if neqb mx n0 then Ok r
    else mn <- arr_get a i ;; check (nltb n0 mn) ;;; check (nltb n0 mx) ;;; Ok (nmax r (ndiv mx mn)))
    n0 (zrange size).

(** scale.c:815-870; [mins], [maxs] the caches of size max(num_constraints, num_variables) *)
Definition scaling_from_cons_jac (s : scaling) (m : mat) (mins maxs : list num) (eps : num) : res scaling :=
  let s := scaling_reset s in
  var_ratio <- max_matrix_ratio m true mins maxs eps ;;
  cons_ratio <- max_matrix_ratio m false mins maxs eps ;;
  if nltb var_ratio cons_ratio then
    vw <- compute_scale_factors m true (sc_vw s) (sc_cw s) maxs eps ;;
    cw <- compute_scale_factors m false (sc_cw s) vw maxs eps ;;
    Ok (mkscaling (sc_nv s) (sc_nc s) (sc_ow s) vw cw)
  else
    cw <- compute_scale_factors m false (sc_cw s) (sc_vw s) maxs eps ;;
    vw <- compute_scale_factors m true (sc_vw s) cw maxs eps ;;
    Ok (mkscaling (sc_nv s) (sc_nc s) (sc_ow s) vw cw).

(** ** Scaled problems *)

(** problem_scaling.c:33-66: the point at which the original function is evaluated.
    The floating point checks (math_error.c) are not modelled. *)
Definition scaled_point (s : scaling) (y buf : vec) : res vec := u <- vec_copy y buf ;; unscale_point s u.

(** problem_scaling.c:114-138, 140-187; callbacks of the scaled function created in
    problem_scaling.c:341-377 (func_create), which gets the number of all constraints. *)
Definition scaled_func (s : scaling) (f : ufunc) (nc : Z) : ufunc :=
  mkufunc (uf_nv f) nc
    (fun y v => x <- scaled_point s y (evec (uf_nv f)) ;;
       v <- func_cons_val f x v ;; scale_cons_val s v)
    (fun y m => x <- scaled_point s y (evec (uf_nv f)) ;;
       m <- func_cons_jac f x m ;; scale_cons_jac s m)
    (fun y direction cons_duals product =>
       x <- scaled_point s y (evec (uf_nv f)) ;;
       d <- vec_copy direction (evec (uf_nv f)) ;;
       c <- vec_copy cons_duals (evec nc) ;;
       dc <- unscale_hessian_direction s d c ;;
       p <- func_hess_prod f x (fst dc) (snd dc) product ;;
       scale_hessian_product s p).

(** problem_scaling.c:447-530 for a regular function *)
Definition problem_scaling_create (s : scaling) (p : problem) : res problem :=
  if negb (uf_nv (p_func p) =? sc_nv s) then Err EIllegalArg
  else if negb (uf_nc (p_func p) + p_nl p =? sc_nc s) then Err EIllegalArg
  else problem_create (scaled_func s (p_func p) (uf_nc (p_func p) + p_nl p)) (p_vlb p) (p_vub p) (p_glb p) (p_gub p)
         (p_lin p) (p_llb p) (p_lub p) (p_eps p).

(** problem_scaling.c:538-613; [q] is the scaled problem *)
Definition problem_scaling_flush (s : scaling) (p q : problem) : res problem :=
  vlb <- vec_copy (p_vlb p) (p_vlb q) ;; vlb <- scale_point s vlb ;;
  vub <- vec_copy (p_vub p) (p_vub q) ;; vub <- scale_point s vub ;;
  clb <- vec_copy (p_clb p) (p_clb q) ;; clb <- scale_cons_val s clb ;;
  cub <- vec_copy (p_cub p) (p_cub q) ;; cub <- scale_cons_val s cub ;;
  glb <- vec_copy (p_glb p) (p_glb q) ;; glb <- scale_cons_general s glb ;;
  gub <- vec_copy (p_gub p) (p_gub q) ;; gub <- scale_cons_general s gub ;;
  llb <- vec_copy (p_llb p) (p_llb q) ;; llb <- scale_cons_linear s llb ;;
  lub <- vec_copy (p_lub p) (p_lub q) ;; lub <- scale_cons_linear s lub ;;
  lin <- mat_copy (p_lin p) (p_lin q) ;; lin <- scale_linear_coeffs s lin ;;
  Ok (mkproblem (p_func q) (p_eps q) (p_point q) vlb vub clb cub glb gub lin llb lub (p_nl q) (p_primal q)
        (p_gval q) (p_lval q) (p_gdual q) (p_gjac q)).

End Scale.
