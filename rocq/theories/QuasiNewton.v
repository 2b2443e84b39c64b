(** Model of /repo/src/main/quasi_newton/{bfgs,sr1}.c and hess_struct.c.

    Work vectors (inner_cache, prod_cache, outer_cache, block_grad_diff, block_direction, ...)
    are modelled as fresh vectors of the right dimension: every use clears them first, so that
    only their capacity persists.  The numerical assertions (sleqp_assert_is_pos, ..., active only
    with SLEQP_ENABLE_NUM_ASSERTS) and the debug-only secant check bfgs.c:528-544 are left out. *)
From Verif Require Import Base Num Cmp Sparse Vec Mat Ring.
Local Open Scope Z_scope.

Section Model.
Context {N : Num}.
Local Open Scope num_scope.

(** ** hess_struct.c *)

(** hess_struct.c:7-13; [hs_cap] is the number of elements allocated for block_ends, the first
    num_blocks of which are initialised. The array itself is in Registry.v (property C18, which
    C18_abstraction connects with this record). *)
Record hstruct := mkhs { hs_cap : Z; hs_dim : Z; hs_ends : list Z }.

(** hess_struct.c:44-68 *)
Definition push_block (h : hstruct) (e : Z) : res hstruct :=
  if (hs_dim h <? e)%Z then Err EIllegalArg else
  if (hs_dim h <=? Z.of_nat (length (hs_ends h)))%Z then Err EIllegalArg else
  if negb (match hs_ends h with [] => true | _ => false end) && (e <=? last (hs_ends h) 0)%Z
  then Err EIllegalArg
  else check (Z.of_nat (length (hs_ends h)) <? hs_cap h)%Z ;;;
       Ok (mkhs (hs_cap h) (hs_dim h) (hs_ends h ++ [e])).

(** hess_struct.c:78-94; reading an element beyond num_blocks is uninitialised or out of
    bounds. *)
Definition block_range (h : hstruct) (block : Z) : res (Z * Z) :=
  if (Z.of_nat (length (hs_ends h)) <? block)%Z then Err EIllegalArg else
  b <- (if (0 <? block)%Z then arr_get (hs_ends h) (block - 1) else Ok 0%Z) ;;
  e <- arr_get (hs_ends h) block ;;
  Ok (b, e).

(** ** BFGS *)

(** bfgs.c:12-16 *)
Definition damping_factor : num := nlit 2 10.
Definition sizing_cutoff : num := nlit 1 10.
Definition initial_scale_min : num := nlit 1 1000000.
Definition damped_initial_scale_max : num := n1.

(** bfgs.c:22-65; [bb_sized]: sizing is SLEQP_BFGS_SIZING_CENTERED_OL (the other value is
    SLEQP_BFGS_SIZING_NONE). *)
Record bblock := mkbb {
  bb_dim : Z;
  bb_s : list vec;      (* point_diffs *)
  bb_y : list vec;      (* grad_diffs *)
  bb_Bs : list vec;     (* point_products *)
  bb_r : list vec;      (* damped_grad_diffs *)
  bb_rs : list num;     (* damped_grad_point_diff_dots *)
  bb_ys : list num;     (* grad_point_diff_dots *)
  bb_ss : list num;     (* point_diff_inner_dots *)
  bb_sBs : list num;    (* bidir_products *)
  bb_sig : list num;    (* sizing_factors *)
  bb_scale : num;
  bb_num : Z; bb_len : Z; bb_curr : Z;
  bb_damped : bool; bb_sized : bool }.

(** bfgs.c:96-157; [junk] is the contents of the arrays that are not initialised. *)
Definition bblock_create (dim nu : Z) (damped sized : bool) (junk : list num) : res bblock :=
  check (0 <? dim)%Z ;;; check (0 <? nu)%Z ;;;
  let vs := repeat (mkvec dim 0 []) (Z.to_nat nu) in
  Ok (mkbb dim vs vs vs vs (repeat n0 (Z.to_nat nu)) junk junk junk (repeat n1 (Z.to_nat nu))
           n0 nu 0 (-1) damped sized).

Definition bb_idx (b : bblock) (i : Z) : Z := data_index (bb_num b) (bb_len b) i.
Definition bb_begin (b : bblock) : Z := (bb_curr b - bb_len b + 1)%Z.

(** bfgs.c:291-346 *)
Definition hess_prod_range (zeps : num) (b : bblock) (direction product : vec) (final : Z) : res vec :=
  p <- vec_copy direction product ;;
  rfold (fun p prev =>
           let j := bb_idx b prev in
           bs <- arr_get (bb_Bs b) j ;;
           r <- arr_get (bb_r b) j ;;
           sig <- arr_get (bb_sig b) j ;;
           sbs <- arr_get (bb_sBs b) j ;;
           d1 <- vec_dot bs direction ;;
           d2 <- vec_dot r direction ;;
           inner <- vec_add_scaled p bs n1 (nlit (-1) 1 * d1 / sbs) zeps (mkvec (bb_dim b) 0 []) ;;
           rs <- arr_get (bb_rs b) j ;;
           vec_add_scaled inner r sig (d2 / rs) zeps p)
        (vec_scale p (bb_scale b)) (zseq (bb_begin b) final).

(** bfgs.c:348-380 *)
Definition bfgs_initial_scale (damped : bool) (s y : vec) : res num :=
  d <- vec_dot y s ;;
  let q := vec_norm_sq s in
  check (q >=? n0) ;;;
  if d =? n0 then Ok n1 else
  let x := nmax (q / d) initial_scale_min in
  Ok (if damped then nmin x damped_initial_scale_max else x).

(** bfgs.c:382-430 *)
Definition bfgs_compute_sizing (b : bblock) (v : Z) : res bblock :=
  let set sig := mkbb (bb_dim b) (bb_s b) (bb_y b) (bb_Bs b) (bb_r b) (bb_rs b) (bb_ys b) (bb_ss b)
                      (bb_sBs b) sig (bb_scale b) (bb_num b) (bb_len b) (bb_curr b) (bb_damped b)
                      (bb_sized b) in
  let j := bb_idx b v in
  if (bb_begin b =? v)%Z then rmap set (arr_set (bb_sig b) j n1) else
  check (bb_begin b <? v)%Z ;;;
  let i := bb_idx b (v - 1)%Z in
  check (negb (i =? j)%Z) ;;;
  if bb_sized b then
    let half := nlit 1 2 in
    ysi <- arr_get (bb_ys b) i ;; ssi <- arr_get (bb_ss b) i ;;
    ysj <- arr_get (bb_ys b) j ;; ssj <- arr_get (bb_ss b) j ;;
    rsi <- arr_get (bb_rs b) i ;; sBsj <- arr_get (bb_sBs b) j ;;
    let numerator := (n1 - half) * ysi / ssi + half * ysj / ssj in
    let denominator := (n1 - half) * rsi / ssi + half * sBsj in
    let f := nmin (nmax (numerator / denominator) sizing_cutoff) n1 in
    check (f >=? n0) ;;;
    rmap set (arr_set (bb_sig b) j f)
  else rmap set (arr_set (bb_sig b) j n1).

(** Loop body bfgs.c:446-526 *)
Definition bfgs_product_step (zeps : num) (b : bblock) (v : Z) : res bblock :=
  let i := bb_idx b v in
  s <- arr_get (bb_s b) i ;;
  y <- arr_get (bb_y b) i ;;
  product <- hess_prod_range zeps b s (mkvec (bb_dim b) 0 []) (v - 1)%Z ;;
  sBs <- vec_dot product s ;;
  check (sBs >? n0) ;;;
  dot <- vec_dot y s ;;
  ri <- arr_get (bb_r b) i ;;
  rd <- (if bb_damped b && (dot <? damping_factor * sBs) then
           let theta := (n1 - damping_factor) * sBs / (sBs - dot) in
           r <- vec_add_scaled y product theta (n1 - theta) zeps ri ;;
           dot <- vec_dot r s ;; Ok (r, dot)
         else r <- vec_copy y ri ;; Ok (r, dot)) ;;
  let '(r, dot) := rd in
  check (dot >? n0) ;;;
  rs <- arr_set (bb_rs b) i dot ;;
  rr <- arr_set (bb_r b) i r ;;
  bi <- arr_get (bb_Bs b) i ;;
  bi <- vec_copy product bi ;;
  Bs <- arr_set (bb_Bs b) i bi ;;
  sBs <- arr_set (bb_sBs b) i sBs ;;
  let b := mkbb (bb_dim b) (bb_s b) (bb_y b) Bs rr rs (bb_ys b) (bb_ss b) sBs (bb_sig b) (bb_scale b)
                (bb_num b) (bb_len b) (bb_curr b) (bb_damped b) (bb_sized b) in
  if bb_sized b then bfgs_compute_sizing b v else Ok b.

(** bfgs.c:432-549 *)
Definition bfgs_compute_products (zeps : num) (b : bblock) : res bblock :=
  check (0 <? bb_len b)%Z ;;;
  s <- arr_get (bb_s b) (bb_curr b) ;;
  y <- arr_get (bb_y b) (bb_curr b) ;;
  scale <- bfgs_initial_scale (bb_damped b) s y ;;
  let b := mkbb (bb_dim b) (bb_s b) (bb_y b) (bb_Bs b) (bb_r b) (bb_rs b) (bb_ys b) (bb_ss b) (bb_sBs b)
                (bb_sig b) scale (bb_num b) (bb_len b) (bb_curr b) (bb_damped b) (bb_sized b) in
  rfold (bfgs_product_step zeps) b (zseq (bb_begin b) (bb_curr b)).

(** bfgs.c:551-581 *)
Definition bfgs_block_push (zeps : num) (b : bblock) (s y : vec) : res bblock :=
  let next := bb_idx b (bb_curr b + 1)%Z in
  si <- arr_get (bb_s b) next ;; si <- vec_copy s si ;; ss' <- arr_set (bb_s b) next si ;;
  yi <- arr_get (bb_y b) next ;; yi <- vec_copy y yi ;; ys' <- arr_set (bb_y b) next yi ;;
  dots <- (if bb_sized b then
             a <- arr_set (bb_ss b) next (vec_norm_sq s) ;;
             d <- vec_dot s y ;;
             c <- arr_set (bb_ys b) next d ;; Ok (a, c)
           else Ok (bb_ss b, bb_ys b)) ;;
  let len := (if (bb_len b <? bb_num b)%Z then bb_len b + 1 else bb_len b)%Z in
  bfgs_compute_products zeps
    (mkbb (bb_dim b) ss' ys' (bb_Bs b) (bb_r b) (bb_rs b) (snd dots) (fst dots) (bb_sBs b) (bb_sig b)
          (bb_scale b) (bb_num b) len next (bb_damped b) (bb_sized b)).

(** Loop body of bfgs.c:697-710 *)
Definition bfgs_block_reset (b : bblock) : bblock :=
  mkbb (bb_dim b) (bb_s b) (bb_y b) (bb_Bs b) (bb_r b) (bb_rs b) (bb_ys b) (bb_ss b) (bb_sBs b)
       (bb_sig b) (bb_scale b) (bb_num b) 0 (bb_curr b) (bb_damped b) (bb_sized b).

(** ** SR1 *)

(** sr1.c:43 *)
Definition safeguard_factor : num := nlit 1 100000000.

(** sr1.c:45-62 *)
Record sblock := mksb {
  sb_dim : Z;
  sb_s : list vec;      (* step_diffs *)
  sb_y : list vec;      (* grad_diffs *)
  sb_p : list vec;      (* inner_prods *)
  sb_dot : list num;    (* inner_dots *)
  sb_scale : num;
  sb_num : Z; sb_len : Z; sb_curr : Z }.

(** sr1.c:90-124 *)
Definition sblock_create (dim nu : Z) (junk : list num) : res sblock :=
  check (0 <? dim)%Z ;;; check (0 <? nu)%Z ;;;
  let vs := repeat (mkvec dim 0 []) (Z.to_nat nu) in
  Ok (mksb dim vs vs vs junk n0 nu 0 (-1)).

Definition sb_idx (b : sblock) (i : Z) : Z := data_index (sb_num b) (sb_len b) i.
Definition sb_begin (b : sblock) : Z := (sb_curr b - sb_len b + 1)%Z.

(** sr1.c:208-231 *)
Definition sr1_initial_scale (s y : vec) : res num :=
  d <- vec_dot y s ;;
  let q := vec_norm_sq y in
  check (q >=? n0) ;;;
  Ok (if d >? n0 then q / d else nlit 1 10000).

(** The loops sr1.c:267-294 and 510-531: add the terms of [vals] with nonzero inner dot to
    [outer]; [dot] is the inner product with the direction. *)
Definition sr1_terms (zeps : num) (b : sblock) (dot : vec -> res num) (outer : vec) (vals : list Z) : res vec :=
  rfold (fun outer prev =>
           let j := sb_idx b prev in
           dj <- arr_get (sb_dot b) j ;;
           if dj =? n0 then Ok outer else
           pj <- arr_get (sb_p b) j ;;
           d <- dot pj ;;
           inner <- vec_add_scaled outer pj n1 (d / dj) zeps (mkvec (sb_dim b) 0 []) ;;
           vec_copy inner outer) outer vals.

(** Loop body sr1.c:253-328 *)
Definition sr1_inner_step (zeps : num) (b : sblock) (v : Z) : res sblock :=
  let i := sb_idx b v in
  s <- arr_get (sb_s b) i ;;
  y <- arr_get (sb_y b) i ;;
  outer <- vec_copy s (mkvec (sb_dim b) 0 []) ;;
  outer <- sr1_terms zeps b (fun p => vec_dot s p) (vec_scale outer (sb_scale b)) (zseq (sb_begin b) (v - 1)%Z) ;;
  pi <- arr_get (sb_p b) i ;;
  p <- vec_add_scaled outer y (nlit (-1) 1) n1 zeps pi ;;
  ps <- arr_set (sb_p b) i p ;;
  dot <- vec_dot s p ;;
  let np := vec_norm p in let ns := vec_norm s in
  check (np >=? n0) ;;; check (ns >=? n0) ;;;
  dots <- arr_set (sb_dot b) i (if nabs dot <? safeguard_factor * np * ns then n0 else dot) ;;
  Ok (mksb (sb_dim b) (sb_s b) (sb_y b) ps dots (sb_scale b) (sb_num b) (sb_len b) (sb_curr b)).

(** sr1.c:233-329 *)
Definition sr1_compute_inner_products (zeps : num) (b : sblock) : res sblock :=
  check (0 <? sb_len b)%Z ;;;
  let i := sb_idx b (sb_curr b) in
  s <- arr_get (sb_s b) i ;;
  y <- arr_get (sb_y b) i ;;
  scale <- sr1_initial_scale s y ;;
  let b := mksb (sb_dim b) (sb_s b) (sb_y b) (sb_p b) (sb_dot b) scale (sb_num b) (sb_len b) (sb_curr b) in
  rfold (sr1_inner_step zeps) b (zseq (sb_begin b) (sb_curr b)).

(** sr1.c:331-353 *)
Definition sr1_block_push (zeps : num) (b : sblock) (s y : vec) : res sblock :=
  let next := sb_idx b (sb_curr b + 1)%Z in
  si <- arr_get (sb_s b) next ;; si <- vec_copy s si ;; ss' <- arr_set (sb_s b) next si ;;
  yi <- arr_get (sb_y b) next ;; yi <- vec_copy y yi ;; ys' <- arr_set (sb_y b) next yi ;;
  let len := (if (sb_len b <? sb_num b)%Z then sb_len b + 1 else sb_len b)%Z in
  sr1_compute_inner_products zeps
    (mksb (sb_dim b) ss' ys' (sb_p b) (sb_dot b) (sb_scale b) (sb_num b) len next).

(** Loop body of sr1.c:466-480 *)
Definition sr1_block_reset (b : sblock) : sblock :=
  mksb (sb_dim b) (sb_s b) (sb_y b) (sb_p b) (sb_dot b) (sb_scale b) (sb_num b) 0 (sb_curr b).

(** sr1.c:482-535 *)
Definition sr1_block_hess_prod (zeps : num) (b : sblock) (direction product : vec) : res vec :=
  p <- vec_copy direction product ;;
  if (sb_len b =? 0)%Z then Ok p else
  sr1_terms zeps b (fun p => vec_dot p direction) (vec_scale p (sb_scale b)) (zseq (sb_begin b) (sb_curr b)).

(** ** Whole approximations, shared by bfgs.c:583-695, 712-779 and sr1.c:355-464, 535-611 *)

(** The entries with index below [n] and the rest: the [while (k < nnz && indices[k] < next_offset)]
    loops. *)
Fixpoint span_lt (n : Z) (es : list (Z * num)) : list (Z * num) * list (Z * num) :=
  match es with
  | [] => ([], [])
  | (i, x) :: es' => if (i <? n)%Z then let '(a, b) := span_lt n es' in ((i, x) :: a, b) else ([], es)
  end.
Definition shift_by (k : Z) (es : list (Z * num)) : list (Z * num) :=
  map (fun e => ((fst e + k)%Z, snd e)) es.

Section Blocks.
(** A block implementation: dimension, number of stored pairs, push and product. *)
Context {B : Type} (bdim blen : B -> Z) (bpush : B -> vec -> vec -> res B)
        (bprod : B -> vec -> vec -> res vec).

(** bfgs.c:627-695, sr1.c:404-464; [nv] is the capacity of the block vectors. *)
Fixpoint push_blocks (eps : num) (nv offset : Z) (bs : list B) (se ye : list (Z * num)) : res (list B) :=
  match bs with
  | [] => Ok []
  | b :: bs' =>
    let next := (offset + bdim b)%Z in
    let '(s1, s2) := span_lt next se in
    let '(y1, y2) := span_lt next ye in
    s <- push_all (mkvec (bdim b) nv []) (shift_by (- offset) s1) ;;
    y <- push_all (mkvec (bdim b) nv []) (shift_by (- offset) y1) ;;
    check (vec_is_finite s) ;;; check (vec_is_finite y) ;;;
    b' <- (if is_zero (vec_norm_sq s) eps then Ok b else bpush b s y) ;;
    rest <- push_blocks eps nv next bs' s2 y2 ;;
    Ok (b' :: rest)
  end.

(** bfgs.c:724-776, sr1.c:552-608 *)
Fixpoint prod_blocks (nv offset : Z) (bs : list B) (de : list (Z * num)) (product : vec) : res vec :=
  match bs with
  | [] => Ok product
  | b :: bs' =>
    let next := (offset + bdim b)%Z in
    let '(d1, d2) := span_lt next de in
    product <- (if (blen b =? 0)%Z then push_all product d1 else
                d <- push_all (mkvec (bdim b) nv []) (shift_by (- offset) d1) ;;
                p <- bprod b d (mkvec (bdim b) nv []) ;;
                push_all product (shift_by offset (vent p))) ;;
    prod_blocks nv next bs' d2 product
  end.

(** bfgs.c:583-695, sr1.c:355-464; (x0, g0, j0) and (x1, g1, j1) are primal point, objective
    gradient and constraint Jacobian of the previous and the current iterate. *)
Definition qn_push (eps zeps : num) (nv : Z) (bs : list B)
    (x0 g0 : vec) (j0 : mat) (x1 g1 : vec) (j1 : mat) (mult : vec) : res (list B) :=
  let cache := mkvec nv nv [] in
  p0 <- mat_mult_vec_trans j0 mult zeps cache ;;
  l0 <- vec_add p0 g0 zeps cache ;;
  p1 <- mat_mult_vec_trans j1 mult zeps cache ;;
  l1 <- vec_add p1 g1 zeps cache ;;
  y <- vec_add_scaled l0 l1 (nlit (-1) 1) n1 zeps cache ;;
  s <- vec_add_scaled x0 x1 (nlit (-1) 1) n1 zeps cache ;;
  push_blocks eps nv 0 bs (vent s) (vent y).

(** bfgs.c:712-779, sr1.c:535-611; sr1.c clears [product], bfgs.c relies on
    sleqp_func_hess_prod (func.c:389) for this. *)
Definition qn_hess_prod (nv : Z) (bs : list B) (direction product : vec) : res vec :=
  p <- vec_reserve product nv ;;
  prod_blocks nv 0 bs (vent direction) p.
End Blocks.

(** One block per range of the Hessian structure, bfgs.c:226-243, sr1.c:150-162. *)
Definition create_blocks {B} (h : hstruct) (create : Z -> res B) : res (list B) :=
  rmapM (fun k => r <- block_range h k ;; create (snd r - fst r)%Z)
        (zrange (Z.of_nat (length (hs_ends h)))).

Definition bfgs_push (eps zeps : num) nv bs := qn_push bb_dim (bfgs_block_push zeps) eps zeps nv bs.
Definition bfgs_hess_prod (zeps : num) nv bs :=
  qn_hess_prod bb_dim bb_len (fun b d p => hess_prod_range zeps b d p (bb_curr b)) nv bs.
Definition bfgs_reset (bs : list bblock) := map bfgs_block_reset bs.
Definition sr1_push (eps zeps : num) nv bs := qn_push sb_dim (sr1_block_push zeps) eps zeps nv bs.
Definition sr1_hess_prod (zeps : num) nv bs :=
  qn_hess_prod sb_dim sb_len (fun b d p => sr1_block_hess_prod zeps b d p) nv bs.
Definition sr1_reset (bs : list sblock) := map sr1_block_reset bs.
End Model.
