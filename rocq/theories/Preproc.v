(** The preprocessor: /repo/src/main/preprocessor/{preprocessor,preprocessing_state,transform}.c. *)
From Verif Require Import Base Num Cmp Sparse Vec Mat Problem.
Local Open Scope Z_scope.

Section Preproc.
Context {N : Num}.

(** ** preprocessing_state.h / preprocessing_state.c *)

(** SleqpVariableState, preprocessing_state.h:37-49.  [vs_value] is 0 for unchanged variables
    (zero-initialised compound literal, preprocessing_state.c:84). *)
Inductive vkind := VUnchanged | VBoundFixed | VForcingFixed.
Record vstate := mkvs { vs_kind : vkind; vs_value : num }.

(** SleqpConstraintState; the state SLEQP_CONS_FORCING is never used. *)
Inductive ckind := CUnchanged | CRedundant | CConverted (bound : Z).

(** SleqpConvertedBound; the two bits of the field [state] are [cb_low], [cb_up]. *)
Record cbound := mkcb { cb_cons : Z; cb_var : Z; cb_factor : num; cb_lb : num; cb_ub : num; cb_low : bool; cb_up : bool }.

(** SleqpForcingConstraint; [fc_vars] pairs the arrays [variables] and [factors], [fc_lower] is
    [state == SLEQP_LOWER_BOUND]. *)
Record fcons := mkfc { fc_cons : Z; fc_vars : list (Z * num); fc_lower : bool }.

(** The mutable part of SleqpPreprocessingState (preprocessing_state.c:7-36).  Bound requirements
    are bit sets: (redundant lower, redundant upper); (false, false) is SLEQP_BOUND_REQUIRED. *)
Record pst := mkpst {
  ps_vars : list vstate; ps_cons : list ckind;
  ps_vreq : list (bool * bool); ps_creq : list (bool * bool);
  ps_conv : list cbound; ps_forc : list fcons;
  ps_nred : Z; ps_nfix : Z; ps_nvb : Z; ps_ncb : Z }.

(** preprocessing_state.c:74-106 *)
Definition state_reset (nv nl : Z) : pst :=
  mkpst (repeat (mkvs VUnchanged n0) (Z.to_nat nv)) (repeat CUnchanged (Z.to_nat nl))
        (repeat (false, false) (Z.to_nat nv)) (repeat (false, false) (Z.to_nat nl)) [] [] 0 0 0 0.

Definition vunchanged (v : vstate) : bool := match vs_kind v with VUnchanged => true | _ => false end.
Definition cunchanged (c : ckind) : bool := match c with CUnchanged => true | _ => false end.

(** preprocessing_state.c:108-147.  The array of converted bounds has room for one entry per
    linear constraint; a write beyond it traps. *)
Definition state_convert (s : pst) (cons var : Z) (factor lb ub : num) (low up : bool) : res pst :=
  v <- arr_get (ps_vars s) var ;; check (vunchanged v) ;;;
  c <- arr_get (ps_cons s) cons ;; check (cunchanged c) ;;;
  check (Z.of_nat (length (ps_conv s)) <? Z.of_nat (length (ps_cons s))) ;;;
  cs <- arr_set (ps_cons s) cons (CConverted (Z.of_nat (length (ps_conv s)))) ;;
  Ok (mkpst (ps_vars s) cs (ps_vreq s) (ps_creq s) (ps_conv s ++ [mkcb cons var factor lb ub low up]) (ps_forc s)
        (ps_nred s) (ps_nfix s) (ps_nvb s) (ps_ncb s)).

(** preprocessing_state.c:282-302 *)
Definition state_remove_cons (s : pst) (cons : Z) : res pst :=
  c <- arr_get (ps_cons s) cons ;; check (cunchanged c) ;;;
  cs <- arr_set (ps_cons s) cons CRedundant ;;
  rq <- arr_set (ps_creq s) cons (true, true) ;;
  Ok (mkpst (ps_vars s) cs (ps_vreq s) rq (ps_conv s) (ps_forc s) (ps_nred s + 1) (ps_nfix s) (ps_nvb s) (ps_ncb s)).

(** preprocessing_state.c:304-324 *)
Definition state_fix_var (s : pst) (var : Z) (value : num) : res pst :=
  v <- arr_get (ps_vars s) var ;; check (vunchanged v) ;;;
  vs <- arr_set (ps_vars s) var (mkvs VBoundFixed value) ;;
  Ok (mkpst vs (ps_cons s) (ps_vreq s) (ps_creq s) (ps_conv s) (ps_forc s) (ps_nred s) (ps_nfix s + 1) (ps_nvb s) (ps_ncb s)).

(** The inner loops of preprocessing_state.c:181-201 and 222-270: the nonzero coefficient of a row
    in one column.  (At a stored zero the first loop continues and the second one breaks; as the
    rows of a column increase, neither reaches a further entry of the row.) *)
Fixpoint scan (row : Z) (es : list (Z * num)) : option num :=
  match es with
  | [] => None
  | (r, v) :: es' =>
    if r <? row then scan row es' else if row <? r then None else if neqb v n0 then None else Some v
  end.

(** preprocessing_state.c:177-202: the nonzero coefficients of one row, by column *)
Definition row_coeffs (m : mat) (nv row : Z) : res (list (Z * num)) :=
  rfold (fun acc col => es <- col_entries m col ;;
     Ok (match scan row es with Some v => acc ++ [(col, v)] | None => acc end)) [] (zrange nv).

(** preprocessing_state.c:241-269: one variable of a forcing constraint *)
Definition force_var (vlb vub : list num) (lower : bool) (s : pst) (e : Z * num) : res pst :=
  let pos := nltb n0 (snd e) in
  x <- (if negb (Bool.eqb pos lower) then arr_get vlb (fst e) else arr_get vub (fst e)) ;;
  check (is_finite x) ;;;
  v <- arr_get (ps_vars s) (fst e) ;;
  vs <- arr_set (ps_vars s) (fst e) (mkvs VForcingFixed x) ;;
  Ok (mkpst vs (ps_cons s) (ps_vreq s) (ps_creq s) (ps_conv s) (ps_forc s) (ps_nred s)
        (if vunchanged v then ps_nfix s + 1 else ps_nfix s) (ps_nvb s) (ps_ncb s)).

(** preprocessing_state.c:149-280 *)
Definition state_force (m : mat) (nv : Z) (vlb vub : list num) (s : pst) (cons : Z) (lower : bool) : res pst :=
  coeffs <- row_coeffs m nv cons ;;
  s <- state_remove_cons s cons ;;
  match coeffs with
  | [] => Ok s
  | _ =>
    check (Z.of_nat (length (ps_forc s)) <? Z.of_nat (length (ps_cons s))) ;;;
    s <- rfold (force_var vlb vub lower) s coeffs ;;
    Ok (mkpst (ps_vars s) (ps_cons s) (ps_vreq s) (ps_creq s) (ps_conv s) (ps_forc s ++ [mkfc cons coeffs lower])
          (ps_nred s) (ps_nfix s) (ps_nvb s) (ps_ncb s))
  end.

Definition required (r : bool * bool) : bool := negb (fst r) && negb (snd r).
Definition req_or (r q : bool * bool) : bool * bool := (fst r || fst q, snd r || snd q).

(** preprocessing_state.c:377-391 *)
Definition add_var_req (s : pst) (j : Z) (q : bool * bool) : res pst :=
  r <- arr_get (ps_vreq s) j ;;
  rq <- arr_set (ps_vreq s) j (req_or r q) ;;
  Ok (mkpst (ps_vars s) (ps_cons s) rq (ps_creq s) (ps_conv s) (ps_forc s) (ps_nred s) (ps_nfix s)
        (if required r then ps_nvb s + 1 else ps_nvb s) (ps_ncb s)).

(** preprocessing_state.c:393-407 *)
Definition add_cons_req (s : pst) (i : Z) (q : bool * bool) : res pst :=
  r <- arr_get (ps_creq s) i ;;
  rq <- arr_set (ps_creq s) i (req_or r q) ;;
  Ok (mkpst (ps_vars s) (ps_cons s) (ps_vreq s) rq (ps_conv s) (ps_forc s) (ps_nred s) (ps_nfix s)
        (ps_nvb s) (if required r then ps_ncb s + 1 else ps_ncb s)).

(** preprocessing_state.c:416-421 *)
Definition num_removed_cons (s : pst) : Z := ps_nred s + Z.of_nat (length (ps_conv s)).

(** preprocessing_state.c:437-474 *)
Definition create_fixed (s : pst) (nv : Z) : res (list (Z * num)) :=
  l <- rfold (fun acc j => v <- arr_get (ps_vars s) j ;;
         Ok (if vunchanged v then acc else acc ++ [(j, vs_value v)])) [] (zrange nv) ;;
  check (Z.of_nat (length l) =? ps_nfix s) ;;; Ok l.

(** preprocessing_state.c:476-508 *)
Definition create_removed (s : pst) (nl : Z) : res (list Z) :=
  l <- rfold (fun acc i => c <- arr_get (ps_cons s) i ;;
         Ok (if cunchanged c then acc else acc ++ [i])) [] (zrange nl) ;;
  check (Z.of_nat (length l) =? num_removed_cons s) ;;; Ok l.

(** ** preprocessor.c *)

(** The loops [for col ... for k = linear_cols[col] ...], e.g. preprocessor.c:92-107. *)
Definition each_entry {S} (m : mat) (nv : Z) (f : S -> Z -> Z -> num -> res S) (s : S) : res S :=
  rfold (fun s col => es <- col_entries m col ;; rfold (fun s e => f s col (fst e) (snd e)) s es) s (zrange nv).

(** preprocessor.c:70-110: [linear_cons_counts] and [linear_entries] (column and value) per row;
    [None] is an entry that has not been written. *)
Definition cons_counts (m : mat) (nv nl : Z) : res (list (Z * option (Z * num))) :=
  each_entry m nv (fun a col row value =>
    if neqb value n0 then Ok a else
    c <- arr_get a row ;; arr_set a row (fst c + 1, Some (col, value))) (repeat (0, None) (Z.to_nat nl)).

(** preprocessor.c:112-174 *)
Definition convert_cons (vlb vub llb lub : list num) (ents : list (Z * option (Z * num))) (s : pst) (i : Z) : res pst :=
  e <- arr_get ents i ;;
  match snd e with
  | None => Trap
  | Some (j, value) =>
    u <- arr_get lub i ;; l <- arr_get llb i ;;
    check (is_finite value) ;;;
    let ub := ndiv u value in let lb := ndiv l value in
    let lo := if nltb value n0 then ub else lb in
    let up := if nltb value n0 then lb else ub in
    vl <- arr_get vlb j ;; vu <- arr_get vub j ;;
    let better_lower := is_finite lo && nltb vl lo in
    let better_upper := is_finite up && nltb up vu in
    if better_lower || better_upper then state_convert s i j value lo up better_lower better_upper
    else state_remove_cons s i
  end.

(** preprocessor.c:293-352: contribution of one coefficient to (linear_min, linear_max).
    Line 341 tests the upper bound where the lower bound is used. *)
Definition lin_step (lb ub value : num) (mm : num * num) : num * num :=
  let '(mn, mx) := mm in
  if neqb value n0 then mm
  else if nltb n0 value then
    (if is_finite lb then (if is_finite mn then nadd mn (nmul value lb) else mn) else nopp sleqp_infinity,
     if is_finite ub then (if is_finite mx then nadd mx (nmul value ub) else mx) else sleqp_infinity)
  else if nltb value n0 then
    (if is_finite ub then (if is_finite mn then nadd mn (nmul value ub) else mn) else nopp sleqp_infinity,
     if is_finite ub then (if is_finite mx then nadd mx (nmul value lb) else mx) else sleqp_infinity)
  else mm.

(** preprocessor.c:261-357; the arrays linear_min and linear_max as one array of pairs *)
Definition linear_bounds (m : mat) (nv nl : Z) (vlb vub : list num) : res (list (num * num)) :=
  each_entry m nv (fun a col row value =>
    mm <- arr_get a row ;; lb <- arr_get vlb col ;; ub <- arr_get vub col ;;
    arr_set a row (lin_step lb ub value mm)) (repeat (n0, n0) (Z.to_nat nl)).

(** preprocessor.c:215-254: what one coefficient implies for (var_min, var_max) *)
Definition var_step (vl vu ll lu : num) (mm : num * num) (value : num) (b : num * num) : num * num :=
  if neqb value n0 then b else
  let b := if is_finite lu && is_finite (fst mm) && is_finite vl then
             let bound := nadd (nmul (ndiv n1 value) (nsub lu (fst mm))) vl in
             if nltb n0 value then (fst b, nmin (snd b) bound) else (nmax (fst b) bound, snd b)
           else b in
  if is_finite ll && is_finite (snd mm) && is_finite vu then
    let bound := nadd (nmul (ndiv n1 value) (nsub ll (snd mm))) vu in
    if nltb n0 value then (nmax (fst b) bound, snd b) else (fst b, nmin (snd b) bound)
  else b.

(** preprocessor.c:176-259; the arrays var_min and var_max as one array of pairs *)
Definition variable_bounds (m : mat) (nv : Z) (vlb vub llb lub : list num) (mms : list (num * num)) : res (list (num * num)) :=
  each_entry m nv (fun a col row value =>
    vl <- arr_get vlb col ;; vu <- arr_get vub col ;; ll <- arr_get llb row ;; lu <- arr_get lub row ;;
    mm <- arr_get mms row ;; b <- arr_get a col ;;
    arr_set a col (var_step vl vu ll lu mm value b)) (List.combine vlb vub).

(** preprocessor.c:391-432; the state and the flag [infeasible] *)
Definition check_cons_step (m : mat) (nv : Z) (vlb vub llb lub : list num) (mms : list (num * num)) (feas : num)
  (si : pst * bool) (i : Z) : res (pst * bool) :=
  let '(s, inf) := si in
  c <- arr_get (ps_cons s) i ;;
  if negb (cunchanged c) then Ok si else
  l <- arr_get llb i ;; u <- arr_get lub i ;; mm <- arr_get mms i ;;
  let slack_l := nsub (snd mm) l in
  let slack_u := nsub u (fst mm) in
  let low_inf := is_finite l && is_lt slack_l n0 feas in
  if is_finite l && negb (is_lt slack_l n0 feas) && is_eq slack_l n0 feas then
    s <- state_force m nv vlb vub s i true ;; Ok (s, inf)
  else
  let up_inf := is_finite u && is_lt slack_u n0 feas in
  if is_finite u && negb (is_lt slack_u n0 feas) && is_eq slack_u n0 feas then
    s <- state_force m nv vlb vub s i false ;; Ok (s, inf || low_inf)
  else Ok (s, inf || low_inf || up_inf).

(** preprocessor.c:435-463 *)
Definition cons_req_step (llb lub : list num) (mms : list (num * num)) (feas : num) (s : pst) (i : Z) : res pst :=
  c <- arr_get (ps_cons s) i ;;
  if negb (cunchanged c) then Ok s else
  l <- arr_get llb i ;; u <- arr_get lub i ;; mm <- arr_get mms i ;;
  s <- (if is_gt (fst mm) l feas && is_finite l then add_cons_req s i (true, false) else Ok s) ;;
  if is_lt (snd mm) u feas && is_finite u then add_cons_req s i (false, true) else Ok s.

(** preprocessor.c:374-466 *)
Definition check_cons (m : mat) (nv nl : Z) (vlb vub llb lub : list num) (mms : list (num * num)) (feas : num)
  (si : pst * bool) : res (pst * bool) :=
  si <- rfold (check_cons_step m nv vlb vub llb lub mms feas) si (zrange nl) ;;
  s <- rfold (cons_req_step llb lub mms feas) (fst si) (zrange nl) ;;
  Ok (s, snd si).

(** preprocessor.c:485-515 *)
Definition check_vars_step (vlb vub : list num) (bs : list (num * num)) (feas : num) (si : pst * bool) (j : Z) : res (pst * bool) :=
  let '(s, inf) := si in
  v <- arr_get (ps_vars s) j ;;
  if negb (vunchanged v) then Ok si else
  b <- arr_get bs j ;; vl <- arr_get vlb j ;; vu <- arr_get vub j ;;
  let inf := inf || is_lt (snd b) (fst b) feas in
  s <- (if is_gt (fst b) vl feas && is_finite vl then add_var_req s j (true, false) else Ok s) ;;
  s <- (if is_lt (snd b) vu feas && is_finite vu then add_var_req s j (false, true) else Ok s) ;;
  Ok (s, inf).

(** preprocessor.c:520-541 *)
Definition fix_vars (nv : Z) (vlb vub : list num) (s : pst) : res pst :=
  rfold (fun s j => vl <- arr_get vlb j ;; vu <- arr_get vub j ;;
    if neqb vl vu then state_fix_var s j vl else Ok s) s (zrange nv).

(** preprocessor.c:568-598 *)
Definition singleton_step (vlb vub llb lub : list num) (ents : list (Z * option (Z * num))) (si : pst * bool) (i : Z) : res (pst * bool) :=
  let '(s, inf) := si in
  c <- arr_get (ps_cons s) i ;;
  if negb (cunchanged c) then Ok si else
  e <- arr_get ents i ;; l <- arr_get llb i ;; u <- arr_get lub i ;;
  if is_infinite (nopp l) && is_infinite u then s <- state_remove_cons s i ;; Ok (s, inf)
  else if fst e =? 0 then
    if nltb n0 l || nltb u n0 then Ok (s, true) else s <- state_remove_cons s i ;; Ok (s, inf)
  else if fst e =? 1 then s <- convert_cons vlb vub llb lub ents s i ;; Ok (s, inf)
  else Ok si.

(** preprocessor.c:605-624 *)
Definition redundant_step (llb lub : list num) (mms : list (num * num)) (feas : num) (s : pst) (i : Z) : res pst :=
  c <- arr_get (ps_cons s) i ;;
  if negb (cunchanged c) then Ok s else
  l <- arr_get llb i ;; u <- arr_get lub i ;; mm <- arr_get mms i ;;
  if negb (is_infinite (nopp (fst mm))) && negb (is_infinite (snd mm)) && is_lt l (fst mm) feas && is_gt u (snd mm) feas
  then state_remove_cons s i else Ok s.

(** preprocessor.c:543-634 *)
Definition remove_redundant (p : problem) (feas : num) (vlb vub : list num) (s : pst) : res (pst * bool) :=
  let m := p_lin p in let nv := uf_nv (p_func p) in let nl := p_nl p in
  check ((mnr m =? nl) && (mnc m =? nv)) ;;;
  ents <- cons_counts m nv nl ;;
  llb <- vec_to_raw (p_llb p) ;; lub <- vec_to_raw (p_lub p) ;;
  si <- rfold (singleton_step vlb vub llb lub ents) (s, false) (zrange nl) ;;
  mms <- linear_bounds m nv nl vlb vub ;;
  s <- rfold (redundant_step llb lub mms feas) (fst si) (zrange nl) ;;
  si <- check_cons m nv nl vlb vub llb lub mms feas (s, snd si) ;;
  bs <- variable_bounds m nv vlb vub llb lub mms ;;
  rfold (check_vars_step vlb vub bs feas) si (zrange nv).

(** ** transform.c *)

Fixpoint skip_below (j : Z) (es : list (Z * num)) : list (Z * num) :=
  match es with [] => [] | e :: es' => if fst e <? j then skip_below j es' else es end.

(** transform.c:218-258; [sel r] is [requirement_states[j] == required_state], the position in the
    source vector is represented by its remaining entries. *)
Definition replace_bound (nrem : Z) (req : list (bool * bool)) (source target : vec) (sel : bool * bool -> bool) (value : num) : res vec :=
  t <- vec_reserve (vec_clear target) (Z.min (vdim source) (vnnz source + nrem)) ;;
  r <- rfold (fun te j => r <- arr_get req j ;;
    if sel r then t <- vec_push (fst te) j value ;; Ok (t, snd te) else
    match skip_below j (snd te) with
    | (i, x) :: es => if i =? j then t <- vec_push (fst te) j x ;; Ok (t, es) else Ok (fst te, (i, x) :: es)
    | [] => Ok (fst te, [])
    end) (t, vent source) (zrange (vdim source)) ;;
  Ok (fst r).

Definition only_lower (r : bool * bool) : bool := fst r && negb (snd r).
Definition only_upper (r : bool * bool) : bool := negb (fst r) && snd r.

(** transform.c:293-362 *)
Definition transformed_var_lb (p : problem) (s : pst) (fixed : list (Z * num)) (zeps : num) : res vec :=
  let nv := uf_nv (p_func p) in
  t <- vec_create nv nv ;;
  t <- replace_bound (ps_nvb s) (ps_vreq s) (p_vlb p) t only_lower (nopp sleqp_infinity) ;;
  d <- vec_to_raw t ;;
  d <- rfold (fun d cb => x <- arr_get d (cb_var cb) ;; arr_set d (cb_var cb) (nmax x (cb_lb cb))) d (ps_conv s) ;;
  c <- vec_create (nv - ps_nfix s) (nv - ps_nfix s) ;;
  c <- vec_set_from_raw c d zeps ;;
  vec_remove_entries c (evec (nv - ps_nfix s)) (keys fixed).

(** transform.c:364-433 *)
Definition transformed_var_ub (p : problem) (s : pst) (fixed : list (Z * num)) (zeps : num) : res vec :=
  let nv := uf_nv (p_func p) in
  t <- vec_create nv nv ;;
  t <- replace_bound (ps_nvb s) (ps_vreq s) (p_vub p) t only_upper sleqp_infinity ;;
  d <- vec_to_raw t ;;
  d <- rfold (fun d cb => x <- arr_get d (cb_var cb) ;; arr_set d (cb_var cb) (nmin x (cb_ub cb))) d (ps_conv s) ;;
  c <- vec_create (nv - ps_nfix s) (nv - ps_nfix s) ;;
  c <- vec_set_from_raw c d zeps ;;
  vec_remove_entries c (evec (nv - ps_nfix s)) (keys fixed).

(** transform.c:460-499: bounds of the linear constraints less the contribution of fixed variables *)
Definition fixed_linear (p : problem) (s : pst) (fixed : list (Z * num)) (zeps : num) : res (vec * vec) :=
  if 0 <? ps_nfix s then
    fv <- vec_reserve (evec (uf_nv (p_func p))) (ps_nfix s) ;;
    fv <- push_all fv fixed ;;
    a <- mat_mult_vec (p_lin p) fv ;;
    c <- vec_create (uf_nv (p_func p) - ps_nfix s) (uf_nv (p_func p) - ps_nfix s) ;;
    c <- vec_set_from_raw c a zeps ;;
    l <- vec_add_scaled (p_llb p) c n1 (nopp n1) zeps (evec (p_nl p)) ;;
    u <- vec_add_scaled (p_lub p) c n1 (nopp n1) zeps (evec (p_nl p)) ;;
    Ok (l, u)
  else Ok (p_llb p, p_lub p).

(** transform.c:435-561.  Room for the bounds of linear constraints is computed from the number of
    removed variable bounds (lines 501-527). *)
Definition transform_linear (p : problem) (s : pst) (fixed : list (Z * num)) (removed : list Z) (zeps : num) : res (vec * vec * mat) :=
  let nl := p_nl p in let nv := uf_nv (p_func p) in
  lu <- fixed_linear p s fixed zeps ;;
  lu <- (if negb (ps_nvb s =? 0) then
           l <- replace_bound (ps_nvb s) (ps_creq s) (fst lu) (evec nl) only_lower (nopp sleqp_infinity) ;;
           u <- replace_bound (ps_nvb s) (ps_creq s) (snd lu) (evec nl) only_upper sleqp_infinity ;;
           Ok (l, u)
         else Ok lu) ;;
  let nl' := nl - num_removed_cons s in
  l <- vec_remove_entries (fst lu) (evec nl') removed ;;
  u <- vec_remove_entries (snd lu) (evec nl') removed ;;
  a <- mat_create nl' (nv - ps_nfix s) 0 ;;
  a <- mat_remove_entries (p_lin p) a (keys fixed) removed ;;
  Ok (l, u, a).

(** transform.c:161-216.  The wrapper of fixed_var_func.c is the subject of FixedVar.v; here only
    its value at a point is needed: evaluate the function at the completed point. *)
Definition fixed_ufunc (f : ufunc) (fixed : list (Z * num)) : ufunc :=
  mkufunc (uf_nv f - Z.of_nat (length fixed)) (uf_nc f)
    (fun x v => y <- merge_entries x (evec (uf_nv f)) fixed ;; uf_cons f y v)
    (fun x m => y <- merge_entries x (evec (uf_nv f)) fixed ;; j <- mat_create (uf_nc f) (uf_nv f) 0 ;;
                j <- uf_jac f y j ;; mat_remove_cols j m (keys fixed))
    (fun x d y r => z <- merge_entries x (evec (uf_nv f)) fixed ;;
                    d <- merge_entries d (evec (uf_nv f)) (map (fun e => (fst e, n0)) fixed) ;;
                    h <- uf_hess f z d y (evec (uf_nv f)) ;; vec_remove_entries h r (keys fixed)).

Definition transformed_func (p : problem) (fixed : list (Z * num)) : ufunc :=
  match fixed with [] => p_func p | _ => fixed_ufunc (p_func p) fixed end.

(** transform.c:563-619 *)
Definition transformed_problem (p : problem) (s : pst) (fixed : list (Z * num)) (removed : list Z) (zeps : num) : res problem :=
  vl <- transformed_var_lb p s fixed zeps ;;
  vu <- transformed_var_ub p s fixed zeps ;;
  lua <- transform_linear p s fixed removed zeps ;;
  q <- problem_create (transformed_func p fixed) vl vu (p_glb p) (p_gub p) (snd lua) (fst (fst lua)) (snd (fst lua)) zeps ;;
  check (uf_nv (p_func q) + ps_nfix s =? uf_nv (p_func p)) ;;;
  check (uf_nc (p_func q) + p_nl q + num_removed_cons s =? uf_nc (p_func p) + p_nl p) ;;; Ok q.

(** ** Construction and use *)

Record preproc := mkpp { pp_orig : problem; pp_state : pst; pp_infeasible : bool;
  pp_fixed : list (Z * num); pp_removed : list Z; pp_trans : problem }.

(** preprocessor.c:636-743; [feas] and [zeps] are the settings feas_tol and zero_eps.  Timer,
    reference counts and the (never failing) construction of the restoration object are left out. *)
Definition pre_create (p : problem) (feas zeps : num) : res preproc :=
  let nv := uf_nv (p_func p) in
  vlb <- vec_to_raw (p_vlb p) ;; vub <- vec_to_raw (p_vub p) ;;
  s <- fix_vars nv vlb vub (state_reset nv (p_nl p)) ;;
  si <- remove_redundant p feas vlb vub s ;;
  fixed <- create_fixed (fst si) nv ;;
  removed <- create_removed (fst si) (p_nl p) ;;
  q <- transformed_problem p (fst si) fixed removed zeps ;;
  Ok (mkpp p (fst si) (snd si) fixed removed q).

(** preprocessor.c:745-770 *)
Inductive pre_result_t := PreInfeasible | PreSuccess | PreFailure.
Definition pre_result (pp : preproc) : pre_result_t :=
  if pp_infeasible pp then PreInfeasible
  else if (0 <? ps_nfix (pp_state pp)) || (0 <? num_removed_cons (pp_state pp)) || (0 <? ps_nvb (pp_state pp)) then PreSuccess
  else PreFailure.

(** preprocessor.c:778-787, transform.c:138-159 *)
Definition pre_transform_primal (pp : preproc) (x target : vec) : res vec :=
  vec_remove_entries x target (keys (pp_fixed pp)).

(** restore.c:151-173 *)
Definition restore_primal (pp : preproc) (x target : vec) : res vec := merge_entries x target (pp_fixed pp).

End Preproc.
