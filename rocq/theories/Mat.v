(** Model of /repo/src/main/sparse/mat.c (compressed-column sparse matrices).

    A [SleqpMat] is its shape, capacity [nnz_max], counter [nnz], the [cols] array as
    allocated, and the initialised prefix of the parallel [rows]/[data] arrays as one
    list of (row, value) pairs.  Entries at positions [>= nnz] are kept, since
    [sleqp_mat_resize] can bring them back. *)
From Verif Require Import Base Num Cmp Sparse Vec.
Local Open Scope Z_scope.

(** [for (int i = 0; i < n; ++i)] *)
Definition zrange (n : Z) : list Z := map Z.of_nat (seq 0 (Z.to_nat n)).

Section Mat.
Context {N : Num}.

Record mat := mkmat { mnr : Z; mnc : Z; mnnz : Z; mcap : Z; mcols : list Z; ment : list (Z * num) }.

(** mat.c:26-53 *)
Definition mat_create (num_rows num_cols nnz_max : Z) : res mat :=
  check ((0 <=? num_rows) && (0 <=? num_cols) && (0 <=? nnz_max)) ;;;
  Ok (mkmat num_rows num_cols 0 nnz_max (repeat 0 (S (Z.to_nat num_cols))) []).

(** mat.c:55-71 *)
Definition mat_reserve (m : mat) (nnz : Z) : res mat :=
  check (0 <=? nnz) ;;;
  Ok (if nnz <=? mcap m then m else mkmat (mnr m) (mnc m) (mnnz m) nnz (mcols m) (ment m)).


(** mat.c:73-102 *)
Definition mat_resize (m : mat) (num_rows num_cols : Z) : res mat :=
  check ((0 <=? num_rows) && (0 <=? num_cols)) ;;;
  if mnc m <? num_cols then
    (* realloc, then [cols[index] = cols[index-1]] for the new columns *)
    c0 <- (if mnc m =? 0 then Ok 0 else arr_get (mcols m) (mnc m)) ;;
    let kept := (if mnc m =? 0 then [0] else firstn (S (Z.to_nat (mnc m))) (mcols m)) in
    let cols := kept ++ repeat c0 (Z.to_nat (num_cols - mnc m)) in
    (* columns allocated beyond num_cols + 1 keep their old contents and are not read *)
    Ok (mkmat num_rows num_cols (mnnz m) (mcap m) cols (ment m))
  else if num_cols <? mnc m then
    c <- arr_get (mcols m) num_cols ;;
    Ok (mkmat num_rows num_cols c (mcap m) (mcols m) (ment m))
  else Ok (mkmat num_rows num_cols (mnnz m) (mcap m) (mcols m) (ment m)).

(** mat.c:650-661 *)
Definition mat_clear (m : mat) : mat :=
  mkmat (mnr m) (mnc m) 0 (mcap m) (repeat 0 (S (Z.to_nat (mnc m)))) (ment m).

(** mat.c:104-120 *)
Definition mat_scale (m : mat) (scale : num) : mat :=
  if neqb scale n0 then mat_clear m
  else mkmat (mnr m) (mnc m) (mnnz m) (mcap m) (mcols m)
         (map (fun e => (fst e, nmul (snd e) scale)) (firstn (Z.to_nat (mnnz m)) (ment m))
          ++ skipn (Z.to_nat (mnnz m)) (ment m)).

(** Store at position [n] of the [rows]/[data] arrays ([n] at most the initialised length). *)
Definition put (l : list (Z * num)) (n : Z) (e : Z * num) : res (list (Z * num)) :=
  if (0 <=? n) && (n <=? Z.of_nat (length l)) then
    Ok (firstn (Z.to_nat n) l ++ e :: skipn (S (Z.to_nat n)) l)
  else Trap.

(** mat.c:177-190 *)
Definition mat_push (m : mat) (row col : Z) (value : num) : res mat :=
  check (mnnz m <? mcap m) ;;; check (row <? mnr m) ;;; check (col <? mnc m) ;;;
  ent <- put (ment m) (mnnz m) (row, value) ;;
  c <- arr_get (mcols m) (col + 1) ;;
  cols <- arr_set (mcols m) (col + 1) (c + 1) ;;
  Ok (mkmat (mnr m) (mnc m) (mnnz m + 1) (mcap m) cols ent).

(** mat.c:216-224 *)
Definition mat_push_col (m : mat) (col : Z) : res mat :=
  check (col <? mnc m) ;;;
  c <- arr_get (mcols m) col ;;
  cols <- arr_set (mcols m) (col + 1) c ;;
  Ok (mkmat (mnr m) (mnc m) (mnnz m) (mcap m) cols (ment m)).

Fixpoint put_all (l : list (Z * num)) (n : Z) (es : list (Z * num)) : res (list (Z * num)) :=
  match es with
  | [] => Ok l
  | e :: es' => l' <- put l n e ;; put_all l' (n + 1) es'
  end.

(** mat.c:192-214 *)
Definition mat_push_vec (m : mat) (col : Z) (v : vec) : res mat :=
  c0 <- arr_get (mcols m) col ;;
  c1 <- arr_get (mcols m) (col + 1) ;;
  check (c0 =? c1) ;;; check (vdim v =? mnr m) ;;;
  check (vnnz v <=? mcap m - mnnz m) ;;;
  ent <- put_all (ment m) (mnnz m) (vent v) ;;
  cols <- arr_set (mcols m) (col + 1) (c1 + vnnz v) ;;
  Ok (mkmat (mnr m) (mnc m) (mnnz m + vnnz v) (mcap m) cols ent).

(** mat.c:226-237 *)
Definition mat_pop_col (m : mat) (col : Z) : res mat :=
  check (col <? mnc m) ;;;
  c0 <- arr_get (mcols m) col ;;
  c1 <- arr_get (mcols m) (col + 1) ;;
  cols <- arr_set (mcols m) (col + 1) c0 ;;
  Ok (mkmat (mnr m) (mnc m) (mnnz m - (c1 - c0)) (mcap m) cols (ment m)).

(** The entries visited by [for (k = cols[col]; k < cols[col+1]; ++k)]. *)
Definition slice (l : list (Z * num)) (a b : Z) : res (list (Z * num)) :=
  if b <=? a then Ok []
  else if (0 <=? a) && (b <=? Z.of_nat (length l)) then
    Ok (firstn (Z.to_nat (b - a)) (skipn (Z.to_nat a) l))
  else Trap.

Definition col_entries (m : mat) (col : Z) : res (list (Z * num)) :=
  a <- arr_get (mcols m) col ;;
  b <- arr_get (mcols m) (col + 1) ;;
  slice (ment m) a b.

Definition push_entries (m : mat) (col : Z) (es : list (Z * num)) : res mat :=
  rfold (fun m e => mat_push m (fst e) col (snd e)) m es.

(** mat.c:239-280; [result] is distinct from the arguments. *)
Definition mat_vstack (first second result : mat) : res mat :=
  let r := mkmat (mnr result) (mnc result) 0 (mcap result) (mcols result) (ment result) in
  check (mnc first =? mnc second) ;;;
  r <- mat_resize r (mnr first + mnr second) (mnc first) ;;
  r <- mat_reserve r (mnnz first + mnnz second) ;;
  rfold (fun r col =>
    r <- mat_push_col r col ;;
    es1 <- col_entries first col ;;
    r <- push_entries r col es1 ;;
    es2 <- col_entries second col ;;
    push_entries r col (map (fun e => (mnr first + fst e, snd e)) es2))
    r (zrange (mnc first)).

(** mat.c:282-309; [result] holds [num_rows] doubles. *)
Definition mat_mult_vec (m : mat) (v : vec) : res (list num) :=
  check (mnc m =? vdim v) ;;;
  rfold (fun r e =>
    es <- col_entries m (fst e) ;;
    rfold (fun r me =>
      old <- arr_get r (fst me) ;;
      arr_set r (fst me) (nadd old (nmul (snd e) (snd me)))) r es)
    (repeat n0 (Z.to_nat (mnr m))) (vent v).

Definition nonempty_cols (m : mat) : res Z :=
  rfold (fun n col =>
    a <- arr_get (mcols m) col ;; b <- arr_get (mcols m) (col + 1) ;;
    Ok (if 0 <? b - a then n + 1 else n)) 0 (zrange (mnc m)).

(** mat.c:311-363; the inner [while] is the merge of [vec_dot]. *)
Definition mat_mult_vec_trans (m : mat) (v : vec) (eps : num) (result : vec) : res vec :=
  check (mnr m =? vdim v) ;;; check (mnc m =? vdim result) ;;;
  col_size <- nonempty_cols m ;;
  r <- vec_reserve (vec_clear result) col_size ;;
  rfold (fun r col =>
    es <- col_entries m col ;;
    let sum := dot_loop (length (vent v) + length es) (vent v) es n0 in
    if is_zero sum eps then Ok r else vec_push r col sum) r (zrange (mnc m)).

(** mat.c:365-388 *)
Definition mat_value_at (m : mat) (row col : Z) : res num :=
  check (row <? mnr m) ;;; check (col <? mnc m) ;;;
  es <- col_entries m col ;;
  Ok (oval (get es row)).

(** mat.c:390-408 *)
Definition mat_col (m : mat) (col : Z) (v : vec) : res vec :=
  check (mnr m =? vdim v) ;;; check (0 <=? col) ;;; check (col <? mnc m) ;;;
  a <- arr_get (mcols m) col ;; b <- arr_get (mcols m) (col + 1) ;;
  v <- vec_reserve v (b - a) ;;
  es <- col_entries m col ;;
  push_all (vec_clear v) es.

(** mat.c:410-427 *)
Definition mat_is_lower (m : mat) : res bool :=
  rfold (fun (b : bool) col => es <- col_entries m col ;; Ok (b && forallb (fun e => col <=? fst e) es))
        true (zrange (mnc m)).

(** mat.c:446-485: one column.  Note the second test, [first_valid || ...]: it
    consumes the first matrix' entry even when its row is the larger one. *)
Fixpoint eq_loop (fuel : nat) (l1 l2 : list (Z * num)) (eps : num) : res bool :=
  match fuel with
  | O => Trap
  | S f =>
    match l1, l2 with
    | (i, x) :: l1', (j, y) :: l2' =>
      if i =? j then if is_eq x y eps then eq_loop f l1' l2' eps else Ok false
      else if is_zero x eps then eq_loop f l1' l2 eps else Ok false
    | (i, x) :: l1', [] => if is_zero x eps then eq_loop f l1' [] eps else Ok false
    | [], (j, y) :: l2' => if is_zero y eps then eq_loop f [] l2' eps else Ok false
    | [], [] => Ok true
    end
  end.

(** mat.c:429-488 *)
Definition mat_eq (first second : mat) (eps : num) : res bool :=
  check (mnr first =? mnr second) ;;; check (mnc first =? mnc second) ;;;
  rfold (fun (b : bool) col =>
    if b then
      es1 <- col_entries first col ;; es2 <- col_entries second col ;;
      eq_loop (S (length es1 + length es2)) es1 es2 eps
    else Ok false) true (zrange (mnc first)).

(** The row renumbering loop shared by remove_rows (mat.c:519-534) and
    remove_entries (mat.c:583-601). *)
Fixpoint mremove_loop (fs : list Z) (off : Z) (es : list (Z * num)) (col : Z) (target : mat) : res mat :=
  match es with
  | [] => Ok target
  | (i, x) :: es' =>
    let (fs', off') := skip_lt fs off i in
    match fs' with
    | f :: _ => if f =? i then mremove_loop fs' off' es' col target
                else t <- mat_push target (i - off') col x ;; mremove_loop fs' off' es' col t
    | [] => t <- mat_push target (i - off') col x ;; mremove_loop fs' off' es' col t
    end
  end.

(** mat.c:490-538 *)
Definition mat_remove_rows (source target : mat) (rows : list Z) : res mat :=
  t <- mat_reserve target (mnnz source) ;;
  let t := mat_clear t in
  check (mnc source =? mnc t) ;;;
  check (mnr source =? mnr t + Z.of_nat (length rows)) ;;;
  rfold (fun t col =>
    t <- mat_push_col t col ;;
    es <- col_entries source col ;;
    mremove_loop rows 0 es col t) t (zrange (mnc source)).

(** Column loop of remove_entries / remove_cols (mat.c:571-600, 634-646). *)
Fixpoint mremove_cols_loop (source : mat) (rows : list Z) (cols : list Z) (js : list Z) (off : Z) (t : mat) : res mat :=
  match js with
  | [] => Ok t
  | col :: js' =>
    match cols with
    | c :: cols' =>
      if c <=? col then mremove_cols_loop source rows cols' js' (off + 1) t
      else t <- mat_push_col t (col - off) ;; es <- col_entries source col ;;
           t <- mremove_loop rows 0 es (col - off) t ;; mremove_cols_loop source rows cols js' off t
    | [] => t <- mat_push_col t (col - off) ;; es <- col_entries source col ;;
            t <- mremove_loop rows 0 es (col - off) t ;; mremove_cols_loop source rows cols js' off t
    end
  end.

(** mat.c:540-603 *)
Definition mat_remove_entries (source target : mat) (cols rows : list Z) : res mat :=
  t <- mat_reserve target (mnnz source) ;;
  let t := mat_clear t in
  check (mnc source =? mnc t + Z.of_nat (length cols)) ;;;
  check (mnr source =? mnr t + Z.of_nat (length rows)) ;;;
  mremove_cols_loop source rows cols (zrange (mnc source)) 0 t.

(** mat.c:605-648; with no rows to remove the row loop pushes every entry. *)
Definition mat_remove_cols (source target : mat) (cols : list Z) : res mat :=
  t <- mat_reserve target (mnnz source) ;;
  let t := mat_clear t in
  check (mnc source =? mnc t + Z.of_nat (length cols)) ;;;
  check (mnr source =? mnr t) ;;;
  mremove_cols_loop source [] cols (zrange (mnc source)) 0 t.

(** mat.c:772-821 *)
Definition mat_is_valid (m : mat) : res bool :=
  if mcap m <? mnnz m then Ok false
  else if (mnc m <? 0) || (mnr m <? 0) then Ok false
  else if mnnz m =? 0 then Ok true
  else
    b <- rfold (fun (b : bool) col =>
      if b then
        c0 <- arr_get (mcols m) col ;; c1 <- arr_get (mcols m) (col + 1) ;;
        if c1 <? c0 then Ok false
        else es <- col_entries m col ;;
             Ok (idx_increasing (keys es) && forallb (fun e => (0 <=? fst e) && (fst e <? mnr m)) es)
      else Ok false) true (zrange (mnc m)) ;;
    if b then c <- arr_get (mcols m) (mnc m) ;; Ok (c =? mnnz m) else Ok false.

(** mat.c:743-770 *)
Definition mat_copy (source target : mat) : res mat :=
  check (mnc source =? mnc target) ;;; check (mnr source =? mnr target) ;;;
  b <- mat_is_valid source ;; check b ;;;
  t <- mat_reserve (mat_clear target) (mnnz source) ;;
  es <- slice (ment source) 0 (mnnz source) ;;
  ent <- put_all (ment t) 0 es ;;
  cols <- rfold (fun c i => x <- arr_get (mcols source) i ;; arr_set c i x) (mcols t) (zrange (mnc t + 1)) ;;
  let t := mkmat (mnr t) (mnc t) (mnnz source) (mcap t) cols ent in
  b <- mat_is_valid t ;; check b ;;; Ok t.

(** mat.c:823-843 *)
Definition row_sums (m : mat) : res (list Z) :=
  es <- slice (ment m) 0 (mnnz m) ;;
  rfold (fun rs e => c <- arr_get rs (fst e) ;; arr_set rs (fst e) (c + 1))
        (repeat 0 (Z.to_nat (mnr m))) es.

(** mat.c:908-917 with fill_transpose 845-903; [target] is distinct from [source];
    the uninitialised storage of [target] is an array of [None]. *)
Definition mat_trans (source target : mat) : res mat :=
  sums <- row_sums source ;;
  let nnz := mnnz source in
  t <- mat_reserve (mat_clear target) nnz ;;
  t <- mat_resize t (mnc source) (mnr source) ;;
  cols <- rfold (fun (s : list Z * Z) j =>
            let (cols, offset) := s in
            x <- arr_get sums j ;;
            cols <- arr_set cols (j + 1) (offset + x) ;;
            Ok (cols, offset + x)) (0 :: tl (mcols t), 0) (zrange (mnr source)) ;;
  let cols := fst cols in
  s <- rfold (fun (s : list Z * list (option (Z * num))) col =>
         es <- col_entries source col ;;
         rfold (fun (s : list Z * list (option (Z * num))) e =>
           let (sums, arr) := s in
           c <- arr_get cols (fst e) ;;
           k <- arr_get sums (fst e) ;;
           sums <- arr_set sums (fst e) (k + 1) ;;
           arr <- arr_set arr (c + k) (Some (col, snd e)) ;;
           Ok (sums, arr)) s es)
       (repeat 0 (Z.to_nat (mnr source)), repeat None (Z.to_nat nnz)) (zrange (mnc source)) ;;
  ent <- rmapM (fun o => match o with Some e => Ok e | None => Trap end) (snd s) ;;
  let t := mkmat (mnc source) (mnr source) nnz (mcap t) cols ent in
  b <- mat_is_valid t ;; check b ;;; Ok t.

(** mat.c:919-931 *)
Definition mat_is_finite (m : mat) : res bool :=
  es <- slice (ment m) 0 (mnnz m) ;; Ok (forallb (fun e => is_finite (snd e)) es).

End Mat.
