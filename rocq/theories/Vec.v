(** Model of /repo/src/main/sparse/vec.c and
    /repo/src/main/preprocessor/preprocessing.c (sparse vectors).

    A [SleqpVec] is its dimension, its capacity [nnz_max] and the list of the first
    [nnz] (index, value) pairs.  Entries beyond [nnz] are never read by the code
    and are not represented.  Allocation succeeds. *)
From Verif Require Import Base Num Cmp Sparse.
Local Open Scope Z_scope.

Section Vec.
Context {N : Num}.

Record vec := mkvec { vdim : Z; vcap : Z; vent : list (Z * num) }.

Definition vnnz (v : vec) : Z := Z.of_nat (length (vent v)).

(** vec.c:12-30 *)
Definition vec_create (dim nnz_max : Z) : res vec :=
  check (0 <=? dim) ;;; check (0 <=? nnz_max) ;;; Ok (mkvec dim nnz_max []).

(** vec.c:32-46 *)
Definition vec_create_empty (dim : Z) : res vec := vec_create dim 0.
Definition vec_create_full (dim : Z) : res vec := vec_create dim dim.

Definition last_idx (l : list (Z * num)) : option Z :=
  match rev l with [] => None | (i, _) :: _ => Some i end.

(** vec.c:48-69 *)
Definition vec_push (v : vec) (idx : Z) (value : num) : res vec :=
  check (vnnz v <? vcap v) ;;;
  check (idx <? vdim v) ;;;
  check (0 <=? idx) ;;;
  check (match last_idx (vent v) with None => true | Some j => j <? idx end) ;;;
  Ok (mkvec (vdim v) (vcap v) (vent v ++ [(idx, value)])).

Definition push_all (v : vec) (es : list (Z * num)) : res vec :=
  rfold (fun v e => vec_push v (fst e) (snd e)) v es.

(** vec.c:138-144 *)
Definition vec_clear (v : vec) : vec := mkvec (vdim v) (vcap v) [].

(** vec.c:146-162 *)
Definition vec_reserve (v : vec) (nnz_max : Z) : res vec :=
  check (0 <=? nnz_max) ;;;
  Ok (if nnz_max <=? vcap v then v else mkvec (vdim v) nnz_max (vent v)).

Fixpoint drop_ge (dim : Z) (l : list (Z * num)) : list (Z * num) :=
  match l with
  | (i, x) :: l' => if dim <=? i then drop_ge dim l' else l
  | [] => []
  end.

(** vec.c:164-180; the [while] loop pops entries from the back. *)
Definition vec_resize (v : vec) (dim : Z) : res vec :=
  check (0 <=? dim) ;;;
  Ok (mkvec dim (vcap v)
        (if dim <? vdim v then rev (drop_ge dim (rev (vent v))) else vent v)).

(** The dense array as (index, value) pairs: [for (i = 0; i < dim; ++i) values[i]] *)
Fixpoint enum_from {A} (i : Z) (l : list A) : list (Z * A) :=
  match l with [] => [] | a :: l' => (i, a) :: enum_from (i + 1) l' end.
Definition enum {A} (l : list A) : list (Z * A) := enum_from 0 l.

(** vec.c:71-103; [dim] is the length of [values]. *)
Definition vec_set_from_raw (v : vec) (values : list num) (zero_eps : num) : res vec :=
  let nnz := Z.of_nat (length (filter (fun e => negb (is_zero (snd e) zero_eps)) (enum values))) in
  let v := vec_clear v in
  v <- vec_resize v (Z.of_nat (length values)) ;;
  v <- vec_reserve v nnz ;;
  rfold (fun v e => if is_zero (snd e) zero_eps then Ok v else vec_push v (fst e) (snd e))
        v (enum values).

Fixpoint set_nth {A} (l : list A) (n : nat) (a : A) : list A :=
  match l, n with
  | [], _ => []
  | _ :: l', O => a :: l'
  | b :: l', S n' => b :: set_nth l' n' a
  end.

(** Write to an array at a C index; out of range traps. *)
Definition arr_set {A} (l : list A) (i : Z) (a : A) : res (list A) :=
  if (0 <=? i) && (i <? Z.of_nat (length l)) then Ok (set_nth l (Z.to_nat i) a) else Trap.
Definition arr_get {A} (l : list A) (i : Z) : res A :=
  if (0 <=? i) then match nth_error l (Z.to_nat i) with Some a => Ok a | None => Trap end else Trap.

(** vec.c:105-119; the array [values] has (at least) [dim] elements. *)
Definition vec_to_raw (v : vec) : res (list num) :=
  rfold (fun a e => arr_set a (fst e) (snd e)) (repeat n0 (Z.to_nat (vdim v))) (vent v).

(** vec.c:121-136 *)
Definition vec_copy (source target : vec) : res vec :=
  check (vdim source =? vdim target) ;;;
  t <- vec_reserve target (vnnz source) ;;
  push_all (vec_clear t) (vent source).

(** vec.c:182-206; the arguments are distinct objects. *)
Definition vec_concat (first second result : vec) : res vec :=
  r <- vec_reserve (vec_clear result) (vnnz first + vnnz second) ;;
  r <- vec_resize r (vdim first + vdim second) ;;
  r <- push_all r (vent first) ;;
  push_all r (map (fun e => (fst e + vdim first, snd e)) (vent second)).

Definition oval (o : option num) : num := match o with Some x => x | None => n0 end.

(** vec.c:208-248; the early [return false] is a [forallb]. *)
Definition vec_eq (first second : vec) (eps : num) : res bool :=
  check (vdim first =? vdim second) ;;;
  rows <- align (vdim first) [vent first; vent second] ;;
  Ok (forallb (fun r => match snd r with
                        | [a; b] => is_eq (oval a) (oval b) eps
                        | _ => true end) rows).

Fixpoint dot_loop (fuel : nat) (l1 l2 : list (Z * num)) (acc : num) : num :=
  match fuel with
  | O => acc
  | S f =>
    match l1, l2 with
    | (i, x) :: l1', (j, y) :: l2' =>
      if i =? j then dot_loop f l1' l2' (nadd acc (nmul x y))
      else if i <? j then dot_loop f l1' l2 acc
      else dot_loop f l1 l2' acc
    | _, _ => acc
    end
  end.

(** vec.c:250-281; [while (k_first < nnz && k_second < nnz)]: each pass advances
    at least one list, so the sum of the lengths is enough fuel. *)
Definition vec_dot (first second : vec) : res num :=
  check (vdim first =? vdim second) ;;;
  Ok (dot_loop (length (vent first) + length (vent second)) (vent first) (vent second) n0).

(** vec.c:283-303 *)
Definition vec_scale (v : vec) (factor : num) : vec :=
  if neqb factor n0 then vec_clear v
  else if neqb factor n1 then v
  else mkvec (vdim v) (vcap v) (map (fun e => (fst e, nmul (snd e) factor)) (vent v)).

(** vec.c:328-341 *)
Definition vec_norm_sq (v : vec) : num :=
  fold_left (fun s e => nadd s (nmul (snd e) (snd e))) (vent v) n0.
(** vec.c:305-311 *)
Definition vec_norm (v : vec) : num := nsqrt (vec_norm_sq v).
(** vec.c:313-326 *)
Definition vec_one_norm (v : vec) : num :=
  fold_left (fun s e => nadd s (nabs (snd e))) (vent v) n0.
(** vec.c:343-356 *)
Definition vec_inf_norm (v : vec) : num :=
  fold_left (fun s e => nmax (nabs (snd e)) s) (vent v) n0.

(** The value computed in the loop body, vec.c:406-418. *)
Definition combine (f g : num) (a b : option num) : num :=
  let v := n0 in
  let v := match a with Some x => nadd v (nmul f x) | None => v end in
  match b with Some y => nadd v (nmul g y) | None => v end.

(** vec.c:369-429; [result] is distinct from the arguments. *)
Definition vec_add_scaled (first second : vec) (first_factor second_factor eps : num)
                          (result : vec) : res vec :=
  check (vdim first =? vdim second) ;;;
  r <- vec_resize (vec_clear result) (vdim first) ;;
  r <- vec_reserve r (vnnz first + vnnz second) ;;
  rows <- align (vdim first) [vent first; vent second] ;;
  rfold (fun r row =>
           match snd row with
           | [a; b] =>
             let value := combine first_factor second_factor a b in
             if is_zero value eps then Ok r else vec_push r (fst row) value
           | _ => Trap
           end) r rows.

(** vec.c:358-367 *)
Definition vec_add (first second : vec) (eps : num) (result : vec) : res vec :=
  vec_add_scaled first second n1 n1 eps result.

(** vec.c:431-457 *)
Definition vec_fill (v : vec) (value : num) : res vec :=
  if neqb value n0 then Ok (vec_clear v) else
  v <- vec_reserve v (vdim v) ;;
  Ok (mkvec (vdim v) (vcap v) (enum (repeat value (Z.to_nat (vdim v))))).

(** vec.c:459-473 *)
Definition vec_at (v : vec) (index : Z) : res (option num) :=
  check (index <? vdim v) ;;; Ok (get (vent v) index).
(** vec.c:475-481 *)
Definition vec_value_at (v : vec) (index : Z) : res num :=
  o <- vec_at v index ;; Ok (oval o).

(** vec.c:483-538 *)
Definition vec_is_boxed (x lb ub : vec) : res bool :=
  check (vdim lb =? vdim x) ;;; check (vdim ub =? vdim x) ;;;
  rows <- align (vdim x) [vent x; vent lb; vent ub] ;;
  Ok (forallb (fun r => match snd r with
                        | [a; l; u] => negb (nltb (oval a) (oval l)) && negb (nltb (oval u) (oval a))
                        | _ => true end) rows).

(** vec.c:593-594 *)
Definition clip_val (x l u : num) : num := nmax (nmin x u) l.

(** vec.c:540-620; the objects are distinct. *)
Definition vec_clip (x lb ub : vec) (eps : num) (xclip : vec) : res vec :=
  check (vdim lb =? vdim x) ;;; check (vdim ub =? vdim x) ;;; check (vdim xclip =? vdim x) ;;;
  let c := vec_clear xclip in
  let nnz := Z.max (vnnz lb) (vnnz x) + Z.max (vnnz ub) (vnnz x) in
  c <- vec_reserve c (Z.min nnz (vdim x)) ;;
  rows <- align (vdim x) [vent x; vent lb; vent ub] ;;
  c <- rfold (fun c row =>
           match snd row with
           | [a; l; u] =>
             let x_val := clip_val (oval a) (oval l) (oval u) in
             if is_zero x_val eps then Ok c else vec_push c (fst row) x_val
           | _ => Trap
           end) c rows ;;
  b <- vec_is_boxed c lb ub ;;
  check b ;;;
  Ok c.

(** The inner loop vec.c:642-646: [while (k_f < num && entry_indices[k_f] < i)]. *)
Fixpoint skip_lt (fs : list Z) (off i : Z) : list Z * Z :=
  match fs with
  | f :: fs' => if f <? i then skip_lt fs' (off + 1) i else (fs, off)
  | [] => ([], off)
  end.

Fixpoint remove_loop (fs : list Z) (off : Z) (es : list (Z * num)) (target : vec) : res vec :=
  match es with
  | [] => Ok target
  | (i, x) :: es' =>
    let (fs', off') := skip_lt fs off i in
    match fs' with
    | f :: _ => if f =? i then remove_loop fs' off' es' target
                else t <- vec_push target (i - off') x ;; remove_loop fs' off' es' t
    | [] => t <- vec_push target (i - off') x ;; remove_loop fs' off' es' t
    end
  end.

(** vec.c:622-657 *)
Definition vec_remove_entries (source target : vec) (entry_indices : list Z) : res vec :=
  let t := vec_clear target in
  check (vdim source =? vdim t + Z.of_nat (length entry_indices)) ;;;
  t <- vec_reserve t (vnnz source) ;;
  remove_loop entry_indices 0 (vent source) t.

(** vec.c:721-756 *)
Fixpoint idx_increasing (l : list Z) : bool :=
  match l with
  | i :: ((j :: _) as l') => (i <? j) && idx_increasing l'
  | _ => true
  end.
Definition vec_is_valid (v : vec) : bool :=
  if (vcap v <? vnnz v) then false else
  match vent v with
  | [] => true
  | _ =>
    forallb (fun e => 0 <=? fst e) (vent v)
    && idx_increasing (keys (vent v))
    && match last_idx (vent v) with Some i => i <? vdim v | None => true end
  end.

(** vec.c:758-770; note the loop bound [nnz - 1]. *)
Definition vec_is_finite (v : vec) : bool :=
  forallb (fun e => negb (nisnan (snd e) || nisinf (snd e))) (removelast (vent v)).

(** ** preprocessing.c *)

(** Inner loop preprocessing.c:25-33: pushes the fixed entries preceding [i + off]. *)
Fixpoint push_le (fs : list (Z * num)) (off i : Z) (target : vec) : res (list (Z * num) * Z * vec) :=
  match fs with
  | (f, y) :: fs' =>
    if f <=? i + off then t <- vec_push target f y ;; push_le fs' (off + 1) i t
    else Ok (fs, off, target)
  | [] => Ok ([], off, target)
  end.

Fixpoint merge_loop (fs : list (Z * num)) (off : Z) (es : list (Z * num)) (target : vec) : res vec :=
  match es with
  | [] => push_all target fs
  | (i, x) :: es' =>
    s <- push_le fs off i target ;;
    let '(fs', off', t) := s in
    t <- vec_push t (i + off') x ;;
    merge_loop fs' off' es' t
  end.

(** preprocessing.c:5-46; [entries] pairs entry_indices with entry_values. *)
Definition merge_entries (source target : vec) (entries : list (Z * num)) : res vec :=
  let t := vec_clear target in
  check (vdim source + Z.of_nat (length entries) =? vdim t) ;;;
  t <- vec_reserve t (vnnz source + Z.of_nat (length entries)) ;;
  merge_loop entries 0 (vent source) t.

(** Inner loop preprocessing.c:66-70. *)
Fixpoint skip_le (fs : list Z) (off i : Z) : list Z * Z :=
  match fs with
  | f :: fs' => if f <=? i + off then skip_le fs' (off + 1) i else (fs, off)
  | [] => ([], off)
  end.

Fixpoint add_zero_loop (fs : list Z) (off : Z) (es : list (Z * num)) (target : vec) : res vec :=
  match es with
  | [] => Ok target
  | (i, x) :: es' =>
    let (fs', off') := skip_le fs off i in
    t <- vec_push target (i + off') x ;; add_zero_loop fs' off' es' t
  end.

(** preprocessing.c:48-76 *)
Definition add_zero_entries (source target : vec) (entry_indices : list Z) : res vec :=
  t <- vec_reserve (vec_clear target) (vnnz source) ;;
  add_zero_loop entry_indices 0 (vent source) t.

End Vec.
