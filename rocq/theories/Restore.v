(** Restoration of iterates of a preprocessed problem: /repo/src/main/preprocessor/restore.c.
    [transformed_problem] (line 113 stores the original problem in it) is never read. *)
From Verif Require Import Base Num Cmp Sparse Vec Mat WorkingSet Feas Problem Preproc.
Local Open Scope Z_scope.

Section Restore.
Context {N : Num}.

(** The arrays of SleqpRestoration (restore.c:14-37) that are read after being written by
    [sleqp_restoration_restore_iterate]: working_var_states, working_cons_states, var_dual, cons_dual,
    dense_stationarity_residuals.  Each call initialises them. *)
Record rst := mkrst { r_vst : list ast; r_cst : list ast; r_vd : list num; r_cd : list num; r_res : list num }.

(** restore.c:39-88, one loop; [room] is the length of the allocated map, [keep j] the test for an
    unchanged item; the entry written is number [j - offset]. *)
Definition create_map (n room : Z) (keep : Z -> res bool) : res (list Z) :=
  rfold (fun m j => b <- keep j ;;
    if (b : bool) then check (Z.of_nat (length m) <? room) ;;; Ok (m ++ [j]) else Ok m) [] (zrange n).

Definition keep_var (s : pst) (j : Z) : res bool := v <- arr_get (ps_vars s) j ;; Ok (vunchanged v).
Definition keep_cons (s : pst) (i : Z) : res bool := c <- arr_get (ps_cons s) i ;; Ok (cunchanged c).

(** The loops of restore.c:283-299 and 308-323: the states of kept items, read at [base + j - offset]
    and written at [base + j] *)
Definition lift_states (n base : Z) (keep : Z -> res bool) (get_state : Z -> res ast) (states : list ast) : res (list ast) :=
  r <- rfold (fun ao j => b <- keep j ;;
    if (b : bool) then s <- get_state (base + j - snd ao) ;; a <- arr_set (fst ao) (base + j) s ;; Ok (a, snd ao)
    else Ok (fst ao, snd ao + 1)) (states, 0) (zrange n) ;;
  Ok (fst r).

(** restore.c:254-327 (with reset_working_set_states, 233-252) *)
Definition prepare_working_set (s : pst) (nv ng nl : Z) (t : wset) : res (list ast * list ast) :=
  vs <- lift_states nv 0 (keep_var s) (ws_var_state t) (repeat Inactive (Z.to_nat nv)) ;;
  cs <- rfold (fun a i => s <- ws_cons_state t i ;; arr_set a i s) (repeat Inactive (Z.to_nat (ng + nl))) (zrange ng) ;;
  cs <- lift_states nl ng (keep_cons s) (ws_cons_state t) cs ;;
  Ok (vs, cs).

(** restore.c:668-710 (with reset_duals, 329-348) *)
Definition prepare_duals (nv ng nl : Z) (vmap cmap : list Z) (vd cd : vec) : res (list num * list num) :=
  z <- rfold (fun a e => j <- arr_get vmap (fst e) ;; arr_set a j (snd e)) (repeat n0 (Z.to_nat nv)) (vent vd) ;;
  y <- rfold (fun a e => if fst e <? ng then arr_set a (fst e) (snd e)
         else i <- arr_get cmap (fst e - ng) ;; arr_set a (ng + i) (snd e)) (repeat n0 (Z.to_nat (ng + nl))) (vent cd) ;;
  Ok (z, y).

(** restore.c:209-231; the targets are the multipliers of the original iterate *)
Definition store_duals (r : rst) (zeps : num) (vdo cdo : vec) : res (vec * vec) :=
  z <- vec_set_from_raw vdo (r_vd r) zeps ;; y <- vec_set_from_raw cdo (r_cd r) zeps ;; Ok (z, y).

(** restore.c:712-736; gradient and Jacobian belong to the original iterate *)
Definition compute_residuals (nv : Z) (jac : mat) (grad z y : vec) (zeps : num) : res (list num) :=
  r <- stationarity_residuals jac grad y z (evec nv) zeps ;; vec_to_raw r.

(** restore.c:350-361 *)
Definition correct_residuum (r : rst) (j : Z) : res rst :=
  d <- arr_get (r_vd r) j ;; check (neqb d n0) ;;;
  x <- arr_get (r_res r) j ;;
  vd <- arr_set (r_vd r) j (nopp x) ;; rs <- arr_set (r_res r) j n0 ;;
  Ok (mkrst (r_vst r) (r_cst r) vd (r_cd r) rs).

Definition set_vst (r : rst) (j : Z) (s : ast) : res rst :=
  vs <- arr_set (r_vst r) j s ;; Ok (mkrst vs (r_cst r) (r_vd r) (r_cd r) (r_res r)).
Definition set_cst (r : rst) (i : Z) (s : ast) : res rst :=
  cs <- arr_set (r_cst r) i s ;; Ok (mkrst (r_vst r) cs (r_vd r) (r_cd r) (r_res r)).
Definition set_vd (r : rst) (j : Z) (x : num) : res rst :=
  vd <- arr_set (r_vd r) j x ;; Ok (mkrst (r_vst r) (r_cst r) vd (r_cd r) (r_res r)).
Definition set_cd (r : rst) (i : Z) (x : num) : res rst :=
  cd <- arr_set (r_cd r) i x ;; Ok (mkrst (r_vst r) (r_cst r) (r_vd r) cd (r_res r)).
Definition set_res (r : rst) (j : Z) (x : num) : res rst :=
  rs <- arr_set (r_res r) j x ;; Ok (mkrst (r_vst r) (r_cst r) (r_vd r) (r_cd r) rs).

(** restore.c:627-666 *)
Definition correct_fixed_variables (s : pst) (fixed : list (Z * num)) (r : rst) : res rst :=
  rfold (fun r e => v <- arr_get (ps_vars s) (fst e) ;;
    match vs_kind v with
    | VBoundFixed => r <- set_vst r (fst e) ActBoth ;; correct_residuum r (fst e)
    | _ => Ok r
    end) r fixed.

(** restore.c:506-581 *)
Definition correct_converted_bound (ng : Z) (r : rst) (cb : cbound) : res rst :=
  let i := cb_cons cb + ng in let j := cb_var cb in
  st <- arr_get (r_vst r) j ;; d <- arr_get (r_vd r) j ;;
  let flip := nltb (cb_factor cb) n0 in
  let cd := ndiv d (cb_factor cb) in
  c <- arr_get (r_cst r) i ;; check (ast_eqb c Inactive) ;;;
  y <- arr_get (r_cd r) i ;; check (neqb y n0) ;;;
  let st := match st with ActBoth => if nleb n0 d then ActUpper else ActLower | _ => st end in
  let move (a : ast) := r <- set_cst r i a ;; r <- set_cd r i cd ;; r <- set_vd r j n0 ;; set_vst r j Inactive in
  match st with
  | Inactive => check (neqb d n0) ;;; Ok r
  | ActLower => if cb_low cb then move (if flip then ActUpper else ActLower) else Ok r
  | _ => if cb_up cb then move (if flip then ActLower else ActUpper) else Ok r
  end.

(** restore.c:363-381: whether a variable of a forcing constraint is at its upper bound *)
Definition desired_upper (f : fcons) (factor : num) : bool :=
  let prod_at_upper := fc_lower f in
  if nltb n0 factor then prod_at_upper else negb prod_at_upper.
Definition desired (f : fcons) (factor : num) : ast := if desired_upper f factor then ActUpper else ActLower.

Definition enumerate {A} (l : list A) : list (Z * A) := List.combine (zrange (Z.of_nat (length l))) l.

(** restore.c:402-429: has_inverted_residual_sign, max_index ([None] until it is assigned), max_dual *)
Definition find_max (f : fcons) (r : rst) : res (bool * option Z * num) :=
  rfold (fun st ke =>
    let '(inv, mi, md) := st in let '(k, (j, factor)) := ke in
    x <- arr_get (r_res r) j ;;
    if Bool.eqb (desired_upper f factor) (nleb n0 (nopp x)) then Ok (inv, mi, md) else
    let cur := ndiv (nopp x) factor in
    if nltb (nabs md) (nabs cur) then Ok (true, Some k, cur) else Ok (true, mi, md))
  (false, None, n0) (enumerate (fc_vars f)).

(** restore.c:383-504.  [junk] is the value of the variable max_index if no assignment reaches it.
    The assertions of lines 476-483 only exist with SLEQP_ENABLE_NUM_ASSERTS and are left out. *)
Definition correct_forcing_constraint (ng junk : Z) (r : rst) (f : fcons) : res rst :=
  m <- find_max f r ;;
  let '(inv, mi, md) := m in
  if (inv : bool) then
    check (if fc_lower f then nleb md n0 else nleb n0 md) ;;;
    let i := ng + fc_cons f in
    r <- set_cst r i (if fc_lower f then ActLower else ActUpper) ;;
    y <- arr_get (r_cd r) i ;; check (neqb y n0) ;;;
    r <- set_cd r i md ;;
    let max_index := match mi with Some k => k | None => junk end in
    rfold (fun r ke => let '(k, (j, factor)) := ke in
      if k =? max_index then set_res r j n0 else
      r <- set_vst r j (desired f factor) ;;
      x <- arr_get (r_res r) j ;;
      r <- set_vd r j (nopp (nadd x (nmul factor md))) ;;
      set_res r j n0) r (enumerate (fc_vars f))
  else
    rfold (fun r e => r <- set_vst r (fst e) (desired f (snd e)) ;; correct_residuum r (fst e)) r (fc_vars f).

(** restore.c:175-207 *)
Definition store_working_set (nv nc : Z) (r : rst) (w : wset) : res wset :=
  w <- rfold (fun w j => s <- arr_get (r_vst r) j ;; if active s then ws_add_var w j s else Ok w) (ws_reset w) (zrange nv) ;;
  rfold (fun w i => s <- arr_get (r_cst r) i ;; if active s then ws_add_cons w i s else Ok w) w (zrange nc).

(** The parts of an iterate that are read or written. *)
Record diter := mkdi { di_primal : vec; di_ws : wset; di_cd : vec; di_vd : vec }.

(** restore.c:761-778: from the evaluated original iterate (gradient, Jacobian) and the reduced
    iterate [t] to the new working set and multipliers; [o] holds the previous contents. *)
Definition restore_multipliers (pp : preproc) (junk : Z) (zeps : num) (grad : vec) (jac : mat) (t o : diter) : res (wset * vec * vec) :=
  let p := pp_orig pp in let s := pp_state pp in
  let nv := uf_nv (p_func p) in let ng := uf_nc (p_func p) in let nl := p_nl p in
  vmap <- create_map nv (uf_nv (p_func (pp_trans pp))) (keep_var s) ;;
  cmap <- create_map nl (p_nl (pp_trans pp)) (keep_cons s) ;;
  vc <- prepare_working_set s nv ng nl (di_ws t) ;;
  zy <- prepare_duals nv ng nl vmap cmap (di_vd t) (di_cd t) ;;
  let r := mkrst (fst vc) (snd vc) (fst zy) (snd zy) [] in
  d <- store_duals r zeps (di_vd o) (di_cd o) ;;
  rs <- compute_residuals nv jac grad (fst d) (snd d) zeps ;;
  let r := mkrst (fst vc) (snd vc) (fst zy) (snd zy) rs in
  r <- correct_fixed_variables s (pp_fixed pp) r ;;
  r <- rfold (correct_converted_bound ng) r (ps_conv s) ;;
  r <- rfold (correct_forcing_constraint ng junk) r (ps_forc s) ;;
  w <- store_working_set nv (ng + nl) r (di_ws o) ;;
  d <- store_duals r zeps (fst d) (snd d) ;;
  Ok (w, snd d, fst d).

(** restore.c:738-823; [eval] stands for the evaluation of the original problem at the restored point
    (a rejected point is an error).  The assertions of lines 780-820 are compiled unless DEBUG is
    defined. *)
Definition restore_iterate (pp : preproc) (junk : Z) (zeps : num) (eval : vec -> res (vec * mat)) (t o : diter) : res diter :=
  x <- restore_primal pp (di_primal t) (di_primal o) ;;
  gj <- eval x ;;
  m <- restore_multipliers pp junk zeps (fst gj) (snd gj) t o ;;
  let '(w, cd, vd) := m in
  b <- ws_valid w ;; check b ;;;
  b <- supports_cons_dual (di_ws t) (di_cd t) ;; b' <- supports_cons_dual w cd ;; check (implb b b') ;;;
  b <- supports_vars_dual (di_ws t) (di_vd t) ;; b' <- supports_vars_dual w vd ;; check (implb b b') ;;;
  Ok (mkdi x w cd vd).

End Restore.
