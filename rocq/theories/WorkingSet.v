(** Model of /repo/src/main/working_set.c. *)
From Verif Require Import Base Num Cmp Sparse Vec Mat.
Local Open Scope Z_scope.

(** SLEQP_ACTIVE_STATE, /repo/src/main/pub_types.h *)
Inductive ast := Inactive | ActLower | ActUpper | ActBoth.
Definition ast_eqb (a b : ast) : bool :=
  match a, b with
  | Inactive, Inactive | ActLower, ActLower | ActUpper, ActUpper | ActBoth, ActBoth => true
  | _, _ => false
  end.
Definition active (a : ast) : bool := negb (ast_eqb a Inactive).

(** pub_types.h:228 *)
Definition none : Z := -1.

(** working_set.c:6-31.  [wcont] has an uninitialised ([None]) tail. *)
Record wset := mkws {
  wnv : Z; wnc : Z;
  wvst : list ast; wcst : list ast;
  wvix : list Z; wcix : list Z;
  wcont : list (option Z);
  wnav : Z; wnac : Z }.

(** working_set.c:275-281 *)
Definition ws_size (w : wset) : Z := wnac w + wnav w.

(** working_set.c:69-90 *)
Definition ws_reset (w : wset) : wset :=
  mkws (wnv w) (wnc w)
    (repeat Inactive (Z.to_nat (wnv w))) (repeat Inactive (Z.to_nat (wnc w)))
    (repeat none (Z.to_nat (wnv w))) (repeat none (Z.to_nat (wnc w)))
    (wcont w) 0 0.

(** working_set.c:33-67; the arrays are allocated, then reset. *)
Definition ws_create (nv nc : Z) : wset :=
  ws_reset (mkws nv nc [] [] [] [] (repeat None (Z.to_nat (nv + nc))) 0 0).

(** working_set.c:92-115 *)
Definition ws_eq (a b : wset) : res bool :=
  check (wnc a =? wnc b) ;;; check (wnv a =? wnv b) ;;;
  r <- rfold (fun (ok : bool) j => if ok then x <- arr_get (wvix a) j ;; y <- arr_get (wvix b) j ;; Ok (x =? y) else Ok false)
        true (zrange (wnv a)) ;;
  rfold (fun (ok : bool) j => if ok then x <- arr_get (wcix a) j ;; y <- arr_get (wcix b) j ;; Ok (x =? y) else Ok false)
        r (zrange (wnc a)).

(** working_set.c:117-149.  The assertion on the active constraints precedes (and in
    debug builds hides) the INTERNAL_ERROR. *)
Definition ws_add_var (w : wset) (index : Z) (s : ast) : res wset :=
  check (0 <=? index) ;;; check (index <? wnv w) ;;; check (wnac w =? 0) ;;;
  old <- arr_get (wvst w) index ;;
  check (ast_eqb old Inactive) ;;; check (active s) ;;;
  (if wnac w =? 0 then Ok tt else Err EInternal) ;;;
  vix <- arr_set (wvix w) index (wnav w) ;;
  cont <- arr_set (wcont w) (ws_size w) (Some index) ;;
  vst <- arr_set (wvst w) index s ;;
  Ok (mkws (wnv w) (wnc w) vst (wcst w) vix (wcix w) cont (wnav w + 1) (wnac w)).

(** working_set.c:150-177 *)
Definition ws_add_cons (w : wset) (index : Z) (s : ast) : res wset :=
  check (0 <=? index) ;;; check (index <? wnc w) ;;;
  old <- arr_get (wcst w) index ;;
  check (ast_eqb old Inactive) ;;; check (active s) ;;;
  cix <- arr_set (wcix w) index (wnav w + wnac w) ;;
  cont <- arr_set (wcont w) (ws_size w) (Some (wnv w + index)) ;;
  cst <- arr_set (wcst w) index s ;;
  Ok (mkws (wnv w) (wnc w) (wvst w) cst (wvix w) cix cont (wnav w) (wnac w + 1)).

(** working_set.c:179-193 *)
Definition ws_add (w : wset) (index : Z) (constraint : bool) (s : ast) : res wset :=
  if constraint then ws_add_cons w index s else ws_add_var w index s.

(** working_set.c:195-253: queries (only the upper range is asserted). *)
Definition ws_cons_index (w : wset) (i : Z) : res Z := check (i <? wnc w) ;;; arr_get (wcix w) i.
Definition ws_var_index (w : wset) (j : Z) : res Z := check (j <? wnv w) ;;; arr_get (wvix w) j.
Definition ws_content (w : wset) (k : Z) : res Z :=
  o <- arr_get (wcont w) k ;; match o with Some x => Ok x | None => Trap end.
Definition ws_var_state (w : wset) (j : Z) : res ast := check (j <? wnv w) ;;; arr_get (wvst w) j.
Definition ws_cons_state (w : wset) (i : Z) : res ast := check (i <? wnc w) ;;; arr_get (wcst w) i.

(** working_set.c:304-327: count of items that are not inactive *)
Definition ws_count (st : Z -> res ast) (n : Z) : res Z :=
  rfold (fun c j => s <- st j ;; Ok (if active s then c + 1 else c)) 0 (zrange n).

(** working_set.c:329-363 and 365-396: every index different from NONE lies below
    [bound] and is unique; [Ok (Some c)] = all passed, [c] of them. *)
Definition ws_check_indices (ix : Z -> res Z) (n bound : Z) : res (option Z) :=
  rfold (fun acc j =>
    match acc with
    | None => Ok None
    | Some c =>
      a <- ix j ;;
      if a =? none then Ok (Some c) else
      if bound <=? a then Ok None else
      u <- rfold (fun (ok : bool) k => if ok then b <- ix k ;; Ok (Bool.eqb (j =? k) (a =? b)) else Ok false) true (zrange n) ;;
      Ok (if (u : bool) then Some (c + 1) else None)
    end) (Some 0) (zrange n).

(** working_set.c:400-444: the content maps back to active items and is unique. *)
Definition ws_check_content (w : wset) : res bool :=
  rfold (fun (ok : bool) k => if ok then
      a <- ws_content w k ;;
      if (a <? 0) || (wnv w + wnc w <=? a) then Ok false else
      s <- (if a <? wnv w then ws_var_state w a else ws_cons_state w (a - wnv w)) ;;
      if ast_eqb s Inactive then Ok false else
      rfold (fun (ok : bool) l => if ok then b <- ws_content w l ;; Ok (Bool.eqb (l =? k) (b =? a)) else Ok false)
        true (zrange (ws_size w))
    else Ok false) true (zrange (ws_size w)).

(** working_set.c:283-447 *)
Definition ws_valid (w : wset) : res bool :=
  check (wnav w <=? ws_size w) ;;; check (wnac w <=? ws_size w) ;;; check (ws_size w <=? wnv w) ;;;
  cv <- ws_count (ws_var_state w) (wnv w) ;;
  cc <- ws_count (ws_cons_state w) (wnc w) ;;
  if negb (cv =? wnav w) || negb (cc =? wnac w) then Ok false else
  iv <- ws_check_indices (ws_var_index w) (wnv w) (wnav w) ;;
  match iv with
  | None => Ok false
  | Some c => if negb (c =? wnav w) then Ok false else
    ic <- ws_check_indices (ws_cons_index w) (wnc w) (ws_size w) ;;
    match ic with
    | None => Ok false
    | Some c => if negb (c =? wnac w) then Ok false else ws_check_content w
    end
  end.

(** working_set.c:555-605; element-wise copies of equally long arrays. *)
Definition ws_copy (source target : wset) : res wset :=
  check (wnv source =? wnv target) ;;; check (wnc source =? wnc target) ;;;
  Ok source.

Section Supports.
Context {N : Num}.

(** working_set.c:449-489 (the switch) *)
Definition state_supports (s : ast) (v : num) : bool :=
  match s with
  | ActBoth => true
  | ActLower => negb (n0 <? v)%num
  | ActUpper => negb (v <? n0)%num
  | Inactive => (v =? n0)%num
  end.

Definition supports_range (dual : vec) (states : list ast) : res bool :=
  rfold (fun (ok : bool) e => if ok then s <- arr_get states (fst e) ;; Ok (state_supports s (snd e)) else Ok false)
    true (vent dual).

(** working_set.c:491-518 *)
Definition supports_cons_dual (w : wset) (dual : vec) : res bool :=
  check (vdim dual =? wnc w) ;;; supports_range dual (wcst w).
Definition supports_vars_dual (w : wset) (dual : vec) : res bool :=
  check (vdim dual =? wnv w) ;;; supports_range dual (wvst w).
End Supports.
