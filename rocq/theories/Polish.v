(** Model of /repo/src/main/polish.c. *)
From Verif Require Import Base Num Cmp Sparse Vec Mat WorkingSet.
Local Open Scope Z_scope.

Section Polish.
Context {N : Num}.

(** [while (k < nnz && indices[k] < j) ++k], polish.c:75-78, 87-100, 154-157 *)
Fixpoint seek (j : Z) (l : list (Z * num)) : list (Z * num) :=
  match l with
  | (i, v) :: t => if i <? j then seek j t else l
  | [] => []
  end.
(** polish.c:102-109 *)
Definition here (j : Z) (l : list (Z * num)) : num := oval (head_val j l).

(** working_set.c:243-256 *)
Definition ws_state (w : wset) (constraint : bool) (j : Z) : res ast :=
  if constraint then ws_cons_state w j else ws_var_state w j.

(** polish.c:129-170.  State: target set, cursor, number of removed items. *)
Definition polish_zero_dual_range (source target : wset) (dual : vec) (constraints : bool) : res (wset * Z) :=
  s <- rfold (fun (s : wset * list (Z * num) * Z) i =>
      let '(t, k, removed) := s in
      a <- ws_state source constraints i ;;
      if ast_eqb a Inactive then Ok (t, k, removed) else
      let k := seek i k in
      match head_val i k with
      | Some _ => t' <- ws_add t i constraints a ;; Ok (t', k, removed)
      | None => Ok (t, k, removed + 1)
      end) (target, vent dual, 0) (zrange (vdim dual)) ;;
  Ok (fst (fst s), snd s).

(** polish.c:43-127.  State: target set, cursors (dual, lower, upper, primal), number of removed items. *)
Definition polish_inactive_range (source target : wset) (lb primal ub dual : vec) (constraints : bool) (feas_eps : num) : res (wset * Z) :=
  s <- rfold (fun (s : wset * (list (Z * num) * list (Z * num) * list (Z * num) * list (Z * num)) * Z) j =>
      let '(t, (kd, kl, ku, kp), removed) := s in
      a <- ws_state source constraints j ;;
      if ast_eqb a Inactive then Ok (t, (kd, kl, ku, kp), removed) else
      let kd := seek j kd in
      match head_val j kd with
      | Some _ => t' <- ws_add t j constraints a ;; Ok (t', (kd, kl, ku, kp), removed)
      | None =>
        let kl := seek j kl in let ku := seek j ku in let kp := seek j kp in
        let active_upper := is_eq (here j kp) (here j ku) feas_eps in
        let active_lower := is_eq (here j kl) (here j kp) feas_eps in
        if negb (active_lower || active_upper) then Ok (t, (kd, kl, ku, kp), removed + 1)
        else t' <- ws_add t j constraints a ;; Ok (t', (kd, kl, ku, kp), removed)
      end) (target, (vent dual, vent lb, vent ub, vent primal), 0) (zrange (vdim dual)) ;;
  Ok (fst (fst s), snd s).

(** What polishing reads of the problem and the iterate. *)
Record pdata := mkpd {
  pd_lb : vec; pd_x : vec; pd_ub : vec; pd_vd : vec;
  pd_clb : vec; pd_c : vec; pd_cub : vec; pd_cd : vec }.

(** pub_types.h: SLEQP_POLISHING_TYPE *)
Inductive ptype := PolNone | PolZeroDual | PolInactive.

(** polish.c:172-263.  [target] is the working set owned by the polishing object, [source] the one of
    the iterate; result: both afterwards. *)
Definition polish (t : ptype) (feas_eps : num) (d : pdata) (source target : wset) : res (wset * wset) :=
  match t with
  | PolNone => Ok (source, target)
  | PolZeroDual =>
    r <- polish_zero_dual_range source (ws_reset target) (pd_vd d) false ;;
    r <- polish_zero_dual_range source (fst r) (pd_cd d) true ;;
    s <- ws_copy (fst r) source ;; Ok (s, fst r)
  | PolInactive =>
    r <- polish_inactive_range source (ws_reset target) (pd_lb d) (pd_x d) (pd_ub d) (pd_vd d) false feas_eps ;;
    r <- polish_inactive_range source (fst r) (pd_clb d) (pd_c d) (pd_cub d) (pd_cd d) true feas_eps ;;
    s <- ws_copy (fst r) source ;; Ok (s, fst r)
  end.
End Polish.
