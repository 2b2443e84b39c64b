(** Steps of the linear model with general constraints:
    /repo/src/main/cauchy/standard_cauchy.c.

    The LP solver behind /repo/src/main/lp/lpi.c is an argument: a function [solver] of the
    interface, that is of the LP and the starting basis it holds and of the number of solves
    made so far.  The numerical assertions ([sleqp_assert_is_leq], [sleqp_assert_is_geq]; active
    only with SLEQP_ENABLE_NUM_ASSERTS), timers, time limits, logging, [basis_condition], [print_stats] and the
    releasing of memory are left out. *)
From Verif Require Import Base Num Cmp Sparse Vec Mat WorkingSet Cauchy.
Local Open Scope Z_scope.

(** lp/lpi_types.h:16-22 *)
Inductive bstat := BLower | BBasic | BUpper | BZero.
Definition bstat_eqb (a b : bstat) : bool :=
  match a, b with
  | BLower, BLower | BBasic, BBasic | BUpper, BUpper | BZero, BZero => true
  | _, _ => false
  end.

(** cauchy_types.h:8-14; [SLACK_BASIS] is standard_cauchy.c:23-26 *)
Inductive otype := TDefault | TFeas | TMixed.
Definition otype_eqb (a b : otype) : bool :=
  match a, b with TDefault, TDefault | TFeas, TFeas | TMixed, TMixed => true | _, _ => false end.

Section StdCauchy.
Context {N : Num}.

(** What a solve leaves in an LP interface: status (optimal or not), objective value,
    primal values, base states and dual values. *)
Record lpsol := mksol {
  ls_opt : bool; ls_val : num; ls_x : list num;
  ls_vs : list bstat; ls_cs : list bstat; ls_z : list num; ls_y : list num }.

Definition basis := (list bstat * list bstat)%type.

(** lp/lpi.c: the LP last set, the basis to start from, the saved bases (by objective type,
    and [li_slack] for the fourth one), the number of solves and the last solution.  The
    matrix passed to set_coeffs is copied by the solver. *)
Record lpi := mklpi {
  li_nv : Z; li_nc : Z;
  li_obj : list num; li_clb : list num; li_cub : list num; li_vlb : list num; li_vub : list num;
  li_mat : option mat;
  li_start : option basis; li_saved : otype -> option basis; li_slack : option basis;
  li_calls : nat; li_sol : option lpsol }.

Definition lpi_create (nv nc : Z) : lpi :=
  mklpi nv nc [] [] [] [] [] None None (fun _ => None) None 0 None.
Definition lpi_set_bounds (L : lpi) (clb cub vlb vub : list num) : lpi :=
  mklpi (li_nv L) (li_nc L) (li_obj L) clb cub vlb vub (li_mat L) (li_start L) (li_saved L) (li_slack L) (li_calls L) (li_sol L).
Definition lpi_set_obj (L : lpi) (obj : list num) : lpi :=
  mklpi (li_nv L) (li_nc L) obj (li_clb L) (li_cub L) (li_vlb L) (li_vub L) (li_mat L) (li_start L) (li_saved L) (li_slack L) (li_calls L) (li_sol L).
Definition lpi_set_coeffs (L : lpi) (m : mat) : lpi :=
  mklpi (li_nv L) (li_nc L) (li_obj L) (li_clb L) (li_cub L) (li_vlb L) (li_vub L) (Some m) (li_start L) (li_saved L) (li_slack L) (li_calls L) (li_sol L).
Definition lpi_start_from (L : lpi) (b : option basis) : lpi :=
  mklpi (li_nv L) (li_nc L) (li_obj L) (li_clb L) (li_cub L) (li_vlb L) (li_vub L) (li_mat L) b (li_saved L) (li_slack L) (li_calls L) (li_sol L).
Definition lpi_set_slack (L : lpi) (b : basis) : lpi :=
  mklpi (li_nv L) (li_nc L) (li_obj L) (li_clb L) (li_cub L) (li_vlb L) (li_vub L) (li_mat L) (li_start L) (li_saved L) (Some b) (li_calls L) (li_sol L).
(** Saves the basis of the last solution. *)
Definition lpi_save (L : lpi) (t : otype) : lpi :=
  mklpi (li_nv L) (li_nc L) (li_obj L) (li_clb L) (li_cub L) (li_vlb L) (li_vub L) (li_mat L) (li_start L)
    (fun u => if otype_eqb u t then match li_sol L with Some s => Some (ls_vs s, ls_cs s) | None => None end else li_saved L u)
    (li_slack L) (li_calls L) (li_sol L).

(** lp/lpi.c:89-104 *)
Definition lpi_solve (solver : lpi -> res lpsol) (L : lpi) : res (lpi * lpsol) :=
  s <- solver L ;;
  Ok (mklpi (li_nv L) (li_nc L) (li_obj L) (li_clb L) (li_cub L) (li_vlb L) (li_vub L) (li_mat L)
        (Some (ls_vs s, ls_cs s)) (li_saved L) (li_slack L) (S (li_calls L)) (Some s), s).

(** The parts of the problem and of the settings that are read. *)
Record sprob := mksp {
  sp_nv : Z; sp_nc : Z; sp_vlb : vec; sp_vub : vec; sp_clb : vec; sp_cub : vec;
  sp_nonlinear : bool; sp_eps : num; sp_zero : num; sp_warm : bool; sp_resolves : bool }.

(** The parts of an iterate that are read. *)
Record siter := mksi { si_x : vec; si_obj : num; si_c : vec; si_jac : mat }.

(** The arrays of the LP, standard_cauchy.c:58-62 *)
Record lparr := mkla { la_obj : list num; la_clb : list num; la_cub : list num; la_vlb : list num; la_vub : list num }.

(** What was fetched, standard_cauchy.c:41-42, 51, 64-67; [cons_dual] is the tail of
    [vars_dual]. *)
Record fetched := mkfe {
  fe_vs : list bstat; fe_cs : list bstat; fe_x : list num; fe_dual : list num;
  fe_dbase : bool; fe_dprimal : bool; fe_ddual : bool }.

(** standard_cauchy.c:28-69 *)
Record scd := mksc {
  sc_radius : num; sc_it : option siter; sc_arr : lparr; sc_fe : fetched;
  sc_has : otype -> bool; sc_cur : option otype; sc_first : bool; sc_coef : bool; sc_reduced : bool;
  sc_def : lpi; sc_red : option lpi }.

Definition set_radius_it (s : scd) (r : num) (it : option siter) : scd :=
  mksc r it (sc_arr s) (sc_fe s) (sc_has s) (sc_cur s) (sc_first s) (sc_coef s) (sc_reduced s) (sc_def s) (sc_red s).
Definition set_arr (s : scd) (a : lparr) : scd :=
  mksc (sc_radius s) (sc_it s) a (sc_fe s) (sc_has s) (sc_cur s) (sc_first s) (sc_coef s) (sc_reduced s) (sc_def s) (sc_red s).
Definition set_fe (s : scd) (f : fetched) : scd :=
  mksc (sc_radius s) (sc_it s) (sc_arr s) f (sc_has s) (sc_cur s) (sc_first s) (sc_coef s) (sc_reduced s) (sc_def s) (sc_red s).
Definition set_def (s : scd) (L : lpi) : scd :=
  mksc (sc_radius s) (sc_it s) (sc_arr s) (sc_fe s) (sc_has s) (sc_cur s) (sc_first s) (sc_coef s) (sc_reduced s) L (sc_red s).

Definition dirty (f : fetched) : fetched := mkfe (fe_vs f) (fe_cs f) (fe_x f) (fe_dual f) true true true.

(** Stores [src] at the start of the array [dst]. *)
Definition store {A} (src dst : list A) : res (list A) :=
  check (length src <=? length dst)%nat ;;; Ok (src ++ skipn (length src) dst).

(** standard_cauchy.c:134-201.  The lists are the contents of freshly allocated memory. *)
Definition sc_create (P : sprob) (a : lparr) (vs cs : list bstat) (x dual : list num) : res scd :=
  let nv := sp_nv P in let nlp := nv + 2 * sp_nc P in
  vlb <- rfold (fun l j => arr_set l (nv + j) n0) (la_vlb a) (zrange (2 * sp_nc P)) ;;
  vub <- rfold (fun l j => arr_set l (nv + j) sleqp_infinity) (la_vub a) (zrange (2 * sp_nc P)) ;;
  Ok (mksc (nlit (-1) 1) None (mkla (la_obj a) (la_clb a) (la_cub a) vlb vub)
        (mkfe vs cs x dual false false false)
        (fun _ => false) None true false false (lpi_create nlp (sp_nc P)) None).

(** standard_cauchy.c:71-132; the array of base states is overwritten in place. *)
Definition slack_basis (P : sprob) (a : lparr) (f : fetched) : res (list bstat * list bstat) :=
  let nv := sp_nv P in let nc := sp_nc P in
  vs <- rfold (fun l j => arr_set l j BLower) (fe_vs f) (zrange nv) ;;
  rfold (fun s i =>
    let '(vs, cs) := s in
    vs <- arr_set vs (nv + i) BLower ;;
    vs <- arr_set vs (nv + nc + i) BLower ;;
    l <- arr_get (la_clb a) i ;;
    if (n0 <? l)%num then
      vs <- arr_set vs (nv + i) BBasic ;; cs <- arr_set cs i BLower ;; Ok (vs, cs)
    else
      u <- arr_get (la_cub a) i ;;
      if (u <? n0)%num then
        vs <- arr_set vs (nv + nc + i) BBasic ;; cs <- arr_set cs i BUpper ;; Ok (vs, cs)
      else cs <- arr_set cs i BBasic ;; Ok (vs, cs))
    (vs, fe_cs f) (zrange nc).
Definition set_slack_basis (P : sprob) (s : scd) : res scd :=
  b <- slack_basis P (sc_arr s) (sc_fe s) ;;
  let f := sc_fe s in
  let L := lpi_set_slack (sc_def s) b in
  Ok (set_def (set_fe s (mkfe (fst b) (snd b) (fe_x f) (fe_dual f) (fe_dbase f) (fe_dprimal f) (fe_ddual f)))
        (lpi_start_from L (li_slack L))).

(** standard_cauchy.c:203-243 *)
Definition append_identities (m : mat) (nv nc : Z) : res mat :=
  check (nc =? mnr m) ;;; check (nv =? mnc m) ;;;
  m1 <- mat_reserve m (mnnz m + 2 * nc) ;;
  m1 <- mat_resize m1 (mnr m) (mnc m + 2 * nc) ;;
  m1 <- rfold (fun t i => t <- mat_push_col t (nv + i) ;; mat_push t i (nv + i) n1) m1 (zrange nc) ;;
  rfold (fun t i => t <- mat_push_col t (nv + nc + i) ;; mat_push t i (nv + nc + i) (nlit (-1) 1)) m1 (zrange nc).

(** standard_cauchy.c:245-257 *)
Definition remove_identities (m : mat) (nv nc : Z) : res mat :=
  check (nc =? mnr m) ;;; check (nv + 2 * nc =? mnc m) ;;; mat_resize m nc nv.

(** standard_cauchy.c:259-325 *)
Definition create_cons_bounds (P : sprob) (it : siter) (a : lparr) : res lparr :=
  r <- rfold (fun s i =>
    let '(lc, ll, lu, clb, cub) := s in
    let lc := drop_lt i lc in let ll := drop_lt i ll in let lu := drop_lt i lu in
    let u := head_at i lu in let l := head_at i ll in let c := head_at i lc in
    check (negb (is_infinite l)) ;;; check (negb (is_infinite (nopp u))) ;;; check (is_finite c) ;;;
    let ub := if is_infinite u then sleqp_infinity else nsub u c in
    let lb := if is_infinite (nopp l) then nopp sleqp_infinity else nsub l c in
    cub <- arr_set cub i ub ;;
    clb <- arr_set clb i lb ;;
    check (lb <=? ub)%num ;;;
    Ok (lc, ll, lu, clb, cub)) (vent (si_c it), vent (sp_clb P), vent (sp_cub P), la_clb a, la_cub a) (zrange (sp_nc P)) ;;
  let '(_, clb, cub) := r in
  Ok (mkla (la_obj a) clb cub (la_vlb a) (la_vub a)).

(** standard_cauchy.c:327-396 *)
Definition create_var_bounds (P : sprob) (radius : num) (it : siter) (a : lparr) : res lparr :=
  check (n0 <? radius)%num ;;;
  r <- rfold (fun s j =>
    let '(lx, ll, lu, vlb, vub) := s in
    let lx := drop_lt j lx in let ll := drop_lt j ll in let lu := drop_lt j lu in
    let u := head_at j lu in let l := head_at j ll in let x := head_at j lx in
    check (negb (is_infinite l)) ;;; check (negb (is_infinite (nopp u))) ;;; check (is_finite x) ;;;
    let ub := if is_infinite u then radius else nmin (nsub u x) radius in
    let lb := if is_infinite (nopp l) then nopp radius else nmax (nsub l x) (nopp radius) in
    vub <- arr_set vub j ub ;;
    vlb <- arr_set vlb j lb ;;
    check (lb <=? ub)%num ;;;
    Ok (lx, ll, lu, vlb, vub)) (vent (si_x it), vent (sp_vlb P), vent (sp_vub P), la_vlb a, la_vub a) (zrange (sp_nv P)) ;;
  let '(_, vlb, vub) := r in
  Ok (mkla (la_obj a) (la_clb a) (la_cub a) vlb vub).

(** standard_cauchy.c:398-430 *)
Definition create_default_objective (P : sprob) (gradient : option vec) (penalty : num) (a : lparr) : res lparr :=
  let nv := sp_nv P in
  o <- rfold (fun l j => arr_set l j n0) (la_obj a) (zrange nv) ;;
  o <- rfold (fun l j => arr_set l (nv + j) penalty) o (zrange (2 * sp_nc P)) ;;
  o <- match gradient with
       | None => Ok o
       | Some g => check (vdim g =? nv) ;;; rfold (fun l e => arr_set l (fst e) (snd e)) o (vent g)
       end ;;
  Ok (mkla o (la_clb a) (la_cub a) (la_vlb a) (la_vub a)).

(** standard_cauchy.c:432-460; also the matrix of the iterate, which is changed in place. *)
Definition set_default_coefficients (P : sprob) (s : scd) (jac : mat) : res (scd * mat) :=
  if negb (sp_nonlinear P) && sc_coef s then Ok (s, jac) else
  let nv := mnc jac in let nc := mnr jac in
  m <- append_identities jac nv nc ;;
  b <- mat_is_valid m ;; check b ;;;
  let L := lpi_set_coeffs (sc_def s) m in
  m <- remove_identities m nv nc ;;
  b <- mat_is_valid m ;; check b ;;;
  Ok (mksc (sc_radius s) (sc_it s) (sc_arr s) (sc_fe s) (sc_has s) (sc_cur s) (sc_first s) true (sc_reduced s) L (sc_red s), m).

Definition send_bounds (s : scd) : scd :=
  let a := sc_arr s in set_def s (lpi_set_bounds (sc_def s) (la_clb a) (la_cub a) (la_vlb a) (la_vub a)).

(** standard_cauchy.c:462-498 *)
Definition sc_set_iterate (P : sprob) (s : scd) (it : siter) (radius : num) : res scd :=
  check (n0 <? radius)%num ;;;
  let s := set_radius_it s radius (Some it) in
  a <- create_var_bounds P radius it (sc_arr s) ;;
  a <- create_cons_bounds P it a ;;
  r <- set_default_coefficients P (send_bounds (set_arr s a)) (si_jac it) ;;
  Ok (set_radius_it (fst r) radius (Some (mksi (si_x it) (si_obj it) (si_c it) (snd r)))).

(** standard_cauchy.c:500-524 *)
Definition sc_set_trust_radius (P : sprob) (s : scd) (radius : num) : res scd :=
  match sc_it s with
  | None => Trap
  | Some it =>
    let s := set_radius_it s radius (Some it) in
    a <- create_var_bounds P radius it (sc_arr s) ;;
    Ok (send_bounds (set_arr s a))
  end.

(** The interface results are fetched from. *)
Definition the_sol (s : scd) : res lpsol :=
  let o := if sc_reduced s then match sc_red s with Some L => li_sol L | None => None end else li_sol (sc_def s) in
  match o with Some r => Ok r | None => Trap end.

(** standard_cauchy.c:526-564 *)
Definition fetch_base (s : scd) : res scd :=
  let f := sc_fe s in
  if fe_dbase f then
    r <- the_sol s ;;
    vs <- store (ls_vs r) (fe_vs f) ;;
    cs <- store (ls_cs r) (fe_cs f) ;;
    Ok (set_fe s (mkfe vs cs (fe_x f) (fe_dual f) false (fe_dprimal f) (fe_ddual f)))
  else Ok s.
Definition fetch_primal (s : scd) : res scd :=
  let f := sc_fe s in
  if fe_dprimal f then
    r <- the_sol s ;;
    x <- store (ls_x r) (fe_x f) ;;
    Ok (set_fe s (mkfe (fe_vs f) (fe_cs f) x (fe_dual f) (fe_dbase f) false (fe_ddual f)))
  else Ok s.
Definition fetch_dual (P : sprob) (s : scd) : res scd :=
  let f := sc_fe s in
  if fe_ddual f then
    r <- the_sol s ;;
    d <- store (ls_z r) (fe_dual f) ;;
    let nlp := Z.to_nat (sp_nv P + 2 * sp_nc P) in
    t <- store (ls_y r) (skipn nlp d) ;;
    Ok (set_fe s (mkfe (fe_vs f) (fe_cs f) (fe_x f) (firstn nlp d ++ t) (fe_dbase f) (fe_dprimal f) false))
  else Ok s.

(** standard_cauchy.c:566-662; the base states of the constraints that are kept. *)
Definition reduced_stats (P : sprob) (f : fetched) : res (list bstat) :=
  let nv := sp_nv P in let nc := sp_nc P in
  rmapM (fun i =>
    c <- arr_get (fe_cs f) i ;;
    if bstat_eqb c BBasic then Ok BBasic else
    l <- arr_get (fe_vs f) (nv + i) ;; u <- arr_get (fe_vs f) (nv + nc + i) ;;
    Ok (if bstat_eqb l BLower && bstat_eqb u BLower then c else BBasic)) (zrange nc).
Definition shift_bounds (P : sprob) (x : list num) (a : lparr) : res lparr :=
  let nv := sp_nv P in let nc := sp_nc P in
  r <- rfold (fun s i =>
    l <- arr_get x (nv + i) ;; u <- arr_get x (nv + nc + i) ;;
    let d := nsub l u in
    cl <- arr_get (fst s) i ;; clb <- arr_set (fst s) i (nadd cl d) ;;
    cu <- arr_get (snd s) i ;; cub <- arr_set (snd s) i (nadd cu d) ;;
    Ok (clb, cub)) (la_clb a, la_cub a) (zrange nc) ;;
  Ok (mkla (la_obj a) (fst r) (snd r) (la_vlb a) (la_vub a)).
Definition switch_to_reduced (solver : lpi -> res lpsol) (P : sprob) (s : scd) : res scd :=
  match sc_it s with
  | None => Trap
  | Some it =>
    let L := match sc_red s with Some L => L | None => lpi_create (sp_nv P) (sp_nc P) end in
    rcs <- reduced_stats P (sc_fe s) ;;
    s <- fetch_base s ;; s <- fetch_primal s ;;
    let L := lpi_set_obj L (firstn (Z.to_nat (sp_nv P)) (la_obj (sc_arr s))) in
    a <- shift_bounds P (fe_x (sc_fe s)) (sc_arr s) ;;
    let nv := Z.to_nat (sp_nv P) in
    let L := lpi_set_bounds L (la_clb a) (la_cub a) (firstn nv (la_vlb a)) (firstn nv (la_vub a)) in
    let L := lpi_set_coeffs L (si_jac it) in
    let L := lpi_start_from L (Some (firstn nv (fe_vs (sc_fe s)), rcs)) in
    r <- lpi_solve solver L ;;
    (if ls_opt (snd r) then Ok tt else Err EInternal) ;;;
    Ok (mksc (sc_radius s) (sc_it s) a (dirty (sc_fe s)) (sc_has s) (sc_cur s) (sc_first s) (sc_coef s) true (sc_def s) (Some (fst r)))
  end.

(** standard_cauchy.c:664-698 *)
Definition cauchy_cons_state (c l u : bstat) (equal_bounds : bool) : res ast :=
  check (bstat_eqb l BLower || bstat_eqb u BLower) ;;;
  Ok (match c with
      | BBasic | BZero => Inactive
      | BLower | BUpper =>
        if bstat_eqb l BLower && bstat_eqb u BLower then
          if equal_bounds then ActBoth else match c with BLower => ActLower | _ => ActUpper end
        else Inactive
      end).

(** The state of constraint [i], with the rest of the bounds. *)
Definition cons_state_at (P : sprob) (f : fetched) (ll lu : list (Z * num)) (i : Z) : res ast :=
  let l := head_at i ll in let u := head_at i lu in
  c <- arr_get (fe_cs f) i ;;
  sl <- arr_get (fe_vs f) (sp_nv P + i) ;; su <- arr_get (fe_vs f) (sp_nv P + sp_nc P + i) ;;
  cauchy_cons_state c sl su (is_eq l u (sp_eps P)).

(** standard_cauchy.c:700-787; the loop ends at the first non-zero slack. *)
Definition needs_resolve (P : sprob) (s : scd) : res (scd * bool) :=
  check (negb (sc_reduced s)) ;;;
  s <- fetch_base s ;; s <- fetch_primal s ;; s <- fetch_dual P s ;;
  let f := sc_fe s in let nv := sp_nv P in let nc := sp_nc P in
  r <- rfold (fun t i =>
    let '(ll, lu, feasible, needs) := t in
    if negb feasible then Ok t else
    let ll := drop_lt i ll in let lu := drop_lt i lu in
    st <- cons_state_at P f ll lu i ;;
    if active st then Ok (ll, lu, feasible, needs) else
    l <- arr_get (fe_x f) (nv + i) ;; u <- arr_get (fe_x f) (nv + nc + i) ;;
    y <- arr_get (fe_dual f) (nv + 2 * nc + i) ;;
    if negb ((l =? n0)%num && (u =? n0)%num) then Ok (ll, lu, false, needs)
    else Ok (ll, lu, feasible, needs || negb (y =? n0)%num))
    (vent (sp_clb P), vent (sp_cub P), true, false) (zrange nc) ;;
  let '(_, feasible, needs) := r in
  Ok (s, feasible && needs).

(** standard_cauchy.c:789-821 (only called, and asserted, in debug builds) *)
Definition nonbasic (l : list bstat) : Z := Z.of_nat (length (filter (fun b => negb (bstat_eqb b BBasic)) l)).
Definition check_basis (P : sprob) (s : scd) : res (scd * bool) :=
  s <- fetch_base s ;;
  let f := sc_fe s in
  Ok (s, nonbasic (fe_vs f) + nonbasic (fe_cs f) =? sp_nv P + 2 * sp_nc P).

(** standard_cauchy.c:823-840 *)
Definition restore_basis (P : sprob) (s : scd) (t : otype) : res scd :=
  if negb (match sc_cur s with Some u => otype_eqb u t | None => false end) && sc_has s t then
    Ok (set_def s (lpi_start_from (sc_def s) (li_saved (sc_def s) t)))
  else if sc_first s then
    s <- set_slack_basis P s ;;
    Ok (mksc (sc_radius s) (sc_it s) (sc_arr s) (sc_fe s) (sc_has s) (sc_cur s) false (sc_coef s) (sc_reduced s) (sc_def s) (sc_red s))
  else Ok s.

(** standard_cauchy.c:842-945, without time limits and without the debug assertion. *)
Definition sc_solve (solver : lpi -> res lpsol) (P : sprob) (s : scd) (gradient : option vec) (penalty : num) (t : otype) : res scd :=
  a <- create_default_objective P gradient penalty (sc_arr s) ;;
  let s := set_arr s a in
  let s := set_def s (lpi_set_obj (sc_def s) (la_obj a)) in
  s <- (if sp_warm P then
          match t with
          | TDefault | TFeas => restore_basis P s t
          | TMixed => match sc_cur s with Some TMixed => Ok s | _ => restore_basis P s TDefault end
          end
        else Ok s) ;;
  r <- lpi_solve solver (sc_def s) ;;
  let s := mksc (sc_radius s) (sc_it s) (sc_arr s) (dirty (sc_fe s)) (sc_has s) (Some t) (sc_first s) (sc_coef s) false (fst r) (sc_red s) in
  (if ls_opt (snd r) then Ok tt else Err EInternal) ;;;
  let L := if sp_warm P then lpi_save (sc_def s) t else sc_def s in
  let s := mksc (sc_radius s) (sc_it s) (sc_arr s) (sc_fe s) (fun u => otype_eqb u t || sc_has s u) (sc_cur s) (sc_first s) (sc_coef s) (sc_reduced s) L (sc_red s) in
  if sp_resolves P && otype_eqb t TDefault then
    r <- needs_resolve P s ;;
    if snd r then switch_to_reduced solver P (fst r) else Ok (fst r)
  else Ok s.

(** standard_cauchy.c:947-959 *)
Definition sc_obj_val (s : scd) : res num :=
  match li_sol (sc_def s), sc_it s with
  | Some r, Some it => Ok (nadd (ls_val r) (si_obj it))
  | _, _ => Trap
  end.

(** cauchy/cauchy.c:136-150; the radius kept in the wrapper is set together with the one here,
    cauchy/cauchy.c:37-55. *)
Definition sc_criticality (s : scd) (merit : num) : res num :=
  v <- sc_obj_val s ;;
  Ok (ndiv (nsub merit v) (nmin (sc_radius s) n1)).

(** standard_cauchy.c:961-1028; [it] is the iterate passed to working_set. *)
Definition add_vars (P : sprob) (s : scd) (x : vec) (w : wset) : res (scd * wset) :=
  s <- fetch_base s ;;
  let f := sc_fe s in let eps := sp_eps P in
  r <- rfold (fun t j =>
    let '(lx, ll, lu, w) := t in
    let lx := drop_lt j lx in let ll := drop_lt j ll in let lu := drop_lt j lu in
    let u := head_at j lu in let l := head_at j ll in let x := head_at j lx in
    b <- arr_get (fe_vs f) j ;;
    check (negb (bstat_eqb b BZero)) ;;;
    w <- (if is_eq l u eps then ws_add_var w j ActBoth
          else if bstat_eqb b BLower && (nsub x l <? sc_radius s)%num then ws_add_var w j ActLower
          else if bstat_eqb b BUpper && (nsub u x <? sc_radius s)%num then ws_add_var w j ActUpper
          else Ok w) ;;
    Ok (lx, ll, lu, w)) (vent x, vent (sp_vlb P), vent (sp_vub P), w) (zrange (sp_nv P)) ;;
  Ok (s, snd r).

(** standard_cauchy.c:1030-1084 *)
Definition add_cons (P : sprob) (s : scd) (w : wset) : res (scd * wset) :=
  s <- fetch_base s ;;
  let f := sc_fe s in
  r <- rfold (fun t i =>
    let '(ll, lu, w) := t in
    let ll := drop_lt i ll in let lu := drop_lt i lu in
    st <- cons_state_at P f ll lu i ;;
    w <- (if active st then ws_add_cons w i st else Ok w) ;;
    Ok (ll, lu, w)) (vent (sp_clb P), vent (sp_cub P), w) (zrange (sp_nc P)) ;;
  Ok (s, snd r).

(** standard_cauchy.c:1086-1128 *)
Definition reduced_working_set (P : sprob) (s : scd) (x : vec) (w : wset) : res (scd * wset) :=
  s <- fetch_base s ;;
  r <- add_vars P s x w ;;
  let s := fst r in let f := sc_fe s in
  w <- rfold (fun w i =>
    c <- arr_get (fe_cs f) i ;;
    match c with
    | BBasic | BZero => Ok w
    | _ =>
      l <- arr_get (fe_x f) (sp_nv P + i) ;; u <- arr_get (fe_x f) (sp_nv P + sp_nc P + i) ;;
      if (l =? n0)%num && (u =? n0)%num then
        ws_add_cons w i (match c with BLower => ActLower | _ => ActUpper end)
      else Ok w
    end) (snd r) (zrange (sp_nc P)) ;;
  Ok (s, w).

(** standard_cauchy.c:1130-1138 *)
Definition simple_working_set (P : sprob) (s : scd) (x : vec) (w : wset) : res (scd * wset) :=
  r <- add_vars P s x w ;; add_cons P (fst r) (snd r).

(** standard_cauchy.c:1140-1168; the final assertion is kept. *)
Definition sc_working_set (P : sprob) (s : scd) (x : vec) (w : wset) : res (scd * wset) :=
  let w := ws_reset w in
  r <- (if sc_reduced s then reduced_working_set P s x w else simple_working_set P s x w) ;;
  b <- ws_valid (snd r) ;; check b ;;;
  Ok r.

(** standard_cauchy.c:1170-1188 *)
Definition sc_lp_step (P : sprob) (s : scd) (direction : vec) : res (scd * vec) :=
  s <- fetch_primal s ;;
  d <- vec_set_from_raw direction (firstn (Z.to_nat (sp_nv P)) (fe_x (sc_fe s))) (sp_zero P) ;;
  Ok (s, d).

(** standard_cauchy.c:1190-1324; the bounds of the constraints are walked but not used. *)
Definition trust_region_active (P : sprob) (radius : num) (f : fetched) (x : vec) : res bool :=
  let eps := sp_eps P in
  r <- rfold (fun t j =>
    let '(lx, ll, lu, act) := t in
    if (act : bool) then Ok t else
    let lx := drop_lt j lx in let ll := drop_lt j ll in let lu := drop_lt j lu in
    let u := head_at j lu in let l := head_at j ll in let x := head_at j lx in
    b <- arr_get (fe_vs f) j ;;
    check (negb (bstat_eqb b BZero)) ;;;
    Ok (lx, ll, lu,
        if is_eq l u eps then false
        else if bstat_eqb b BLower && (radius <=? nsub x l)%num then true
        else bstat_eqb b BUpper && (radius <=? nsub u x)%num))
    (vent x, vent (sp_vlb P), vent (sp_vub P), false) (zrange (sp_nv P)) ;;
  Ok (snd r).
Definition feasible_direction (P : sprob) (f : fetched) : res bool :=
  rfold (fun ok i =>
    c <- arr_get (fe_cs f) i ;;
    if bstat_eqb c BBasic then Ok ok else
    l <- arr_get (fe_vs f) (sp_nv P + i) ;; u <- arr_get (fe_vs f) (sp_nv P + sp_nc P + i) ;;
    check (negb (bstat_eqb l BBasic) || negb (bstat_eqb u BBasic)) ;;;
    Ok (if bstat_eqb l BLower && bstat_eqb u BLower then ok else false)) true (zrange (sp_nc P)).
Definition sc_locally_infeasible (P : sprob) (s : scd) : res (scd * bool) :=
  match sc_it s with
  | None => Trap
  | Some it =>
    check (negb (sc_reduced s)) ;;;
    s <- fetch_base s ;;
    check (n0 <? sc_radius s)%num ;;;
    a <- trust_region_active P (sc_radius s) (sc_fe s) (si_x it) ;;
    fd <- feasible_direction P (sc_fe s) ;;
    Ok (s, negb (fd || a))
  end.

(** standard_cauchy.c:1331-1379.  An entry of the wrong sign is first moved and then
    dropped by raising the offset. *)
Definition trim_duals (states : list ast) (duals : vec) : res vec :=
  l <- rfold (fun acc e =>
    st <- arr_get states (fst e) ;;
    Ok (match st with
        | Inactive => acc
        | ActUpper => if (snd e <? n0)%num then acc else acc ++ [e]
        | ActLower => if (n0 <? snd e)%num then acc else acc ++ [e]
        | ActBoth => acc ++ [e]
        end)) [] (vent duals) ;;
  Ok (mkvec (vdim duals) (vcap duals) l).

(** standard_cauchy.c:1381-1442; both kinds of duals are copied to the start of
    [vars_dual]. *)
Definition one_dual (P : sprob) (s : scd) (vals : list num) (states : list ast) (n : Z) (d : vec) : res (scd * vec) :=
  check (vdim d =? n) ;;;
  let f := sc_fe s in
  raw <- store vals (fe_dual f) ;;
  let s := set_fe s (mkfe (fe_vs f) (fe_cs f) (fe_x f) raw (fe_dbase f) (fe_dprimal f) (fe_ddual f)) in
  d <- vec_set_from_raw d (firstn (Z.to_nat n) raw) (sp_zero P) ;;
  d <- trim_duals states (vec_scale d (nlit (-1) 1)) ;;
  Ok (s, d).
Definition sc_estimate_duals (P : sprob) (s : scd) (w : wset) (cd vd : vec) : res (scd * vec * vec) :=
  match li_sol (sc_def s) with
  | None => Trap
  | Some r =>
    rv <- one_dual P s (ls_z r) (wvst w) (sp_nv P) vd ;;
    rc <- one_dual P (fst rv) (ls_y r) (wcst w) (sp_nc P) cd ;;
    Ok (fst rc, snd rc, snd rv)
  end.

(** standard_cauchy.c:1444-1465; the dirty flags are left as they are. *)
Definition sc_violation (P : sprob) (s : scd) : res (scd * num) :=
  match li_sol (sc_def s) with
  | None => Trap
  | Some r =>
    let f := sc_fe s in
    x <- store (ls_x r) (fe_x f) ;;
    v <- rfold (fun acc j => v <- arr_get x (sp_nv P + j) ;; Ok (nadd acc v)) n0 (zrange (2 * sp_nc P)) ;;
    Ok (set_fe s (mkfe (fe_vs f) (fe_cs f) x (fe_dual f) (fe_dbase f) (fe_dprimal f) (fe_ddual f)), v)
  end.

End StdCauchy.
