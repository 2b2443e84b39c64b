(** Model of /repo/src/main/aug_jac/standard_aug_jac.c, reduced_aug_jac.c and direct_aug_jac.c:
    systems with the rows of the working set, solved by a factorization.

    The factorizations (/repo/src/main/fact) are parameters: [f_set] is the call that hands over a
    matrix (it may fail), [f_solve M b] the dense solution of the system with the matrix [M] handed
    over last.  Timers and condition numbers are left out. *)
From Verif Require Import Base Num Cmp Sparse Vec Mat WorkingSet.
Local Open Scope Z_scope.

Section AugJac.
Context {N : Num}.

(** fact.h, pub_types.h: the flag [SLEQP_FACT_FLAGS_LOWER] and the callbacks (fact.c:62-113).
    All implementations of [solution] store a part of the dense solution by
    [sleqp_vec_set_from_raw] (e.g. fact_lapack.c:156-170). *)
Record fact := mkfact {
  f_lower : bool;
  f_set : mat -> res unit;
  f_solve : mat -> vec -> res (list num) }.

(** A part of the dense solution, [begin <= i < end]. *)
Definition part (raw : list num) (b e : Z) : res (list num) :=
  if (0 <=? b) && (b <=? e) && (e <=? Z.of_nat (length raw)) then
    Ok (firstn (Z.to_nat (e - b)) (skipn (Z.to_nat b) raw))
  else Trap.
Definition fact_solution (raw : list num) (sol : vec) (b e : Z) (zeps : num) : res vec :=
  p <- part raw b e ;; vec_set_from_raw sol p zeps.

(** ** standard_aug_jac.c *)

(** standard_aug_jac.c:180-206, the entries of the column [col] of the constraint Jacobian in the
    rows of the working set, behind row [n] *)
Definition push_cons (w : wset) (n col : Z) (m : mat) (es : list (Z * num)) : res mat :=
  rfold (fun m e =>
    k <- ws_cons_index w (fst e) ;;
    s <- ws_cons_state w (fst e) ;;
    if negb (k =? none) then check (active s) ;;; mat_push m (n + k) col (snd e)
    else check (negb (active s)) ;;; Ok m) m es.

(** standard_aug_jac.c:153-207, one column *)
Definition fill_col (w : wset) (n : Z) (jac m : mat) (col : Z) : res mat :=
  m <- mat_push_col m col ;;
  m <- mat_push m col col n1 ;;
  k <- ws_var_index w col ;;
  s <- ws_var_state w col ;;
  m <- (if negb (k =? -1) then check (active s) ;;; mat_push m (n + k) col n1
        else check (negb (active s)) ;;; Ok m) ;;
  es <- col_entries jac col ;;
  push_cons w n col m es.

Definition set_cols (m : mat) (cols : list Z) : mat :=
  mkmat (mnr m) (mnc m) (mnnz m) (mcap m) cols (ment m).

(** standard_aug_jac.c:34-104.  [ci] is the array [col_indices].  The arrays are read in the first
    [n] columns and written behind them; what was stored behind [nnz] is not kept. *)
Definition add_upper (n : Z) (m : mat) (ci : list Z) : res (mat * list Z) :=
  let size := mnc m in
  let up := map (fun k => n + 1 + k) (zrange (size - n)) in
  (* 47-50 *)
  cols <- rfold (fun c k => arr_set c k 0) (mcols m) up ;;
  (* 53-64 *)
  cols <- rfold (fun cols col =>
            es <- col_entries (set_cols m cols) col ;;
            rfold (fun cols e =>
              if fst e <? n then Ok cols else
              x <- arr_get cols (fst e + 1) ;; arr_set cols (fst e + 1) (x + 1)) cols es)
          cols (zrange n) ;;
  (* 67-71 *)
  s <- rfold (fun (s : list Z * list Z) col =>
         let (cols, ci) := s in
         x <- arr_get cols col ;; y <- arr_get cols (col - 1) ;;
         cols <- arr_set cols col (x + y) ;;
         ci <- arr_set ci col 0 ;;
         Ok (cols, ci)) (cols, ci) up ;;
  let (cols, ci) := (s : list Z * list Z) in
  (* 76-99 *)
  old <- slice (ment m) 0 (mnnz m) ;;
  let store := map Some old ++ repeat None (Z.to_nat (mcap m - mnnz m)) in
  s <- rfold (fun (s : list Z * list (option (Z * num)) * Z) col =>
         es <- col_entries (set_cols m cols) col ;;
         rfold (fun (s : list Z * list (option (Z * num)) * Z) e =>
           let '(ci, store, nnz) := s in
           if fst e <? n then Ok s else
           c <- arr_get cols (fst e) ;;
           k <- arr_get ci (fst e + 1) ;;
           ci <- arr_set ci (fst e + 1) (k + 1) ;;
           store <- arr_set store (c + k) (Some (col, snd e)) ;;
           Ok (ci, store, nnz + 1)) s es) (ci, store, mnnz m) (zrange n) ;;
  let '(ci, store, nnz) := (s : list Z * list (option (Z * num)) * Z) in
  ent <- rmapM (fun o => match o with Some e => Ok e | None => Trap end) (firstn (Z.to_nat nnz) store) ;;
  Ok (mkmat (mnr m) (mnc m) nnz (mcap m) cols ent, ci).

(** standard_aug_jac.c:106-133 *)
Definition reserve_aug (n : Z) (w : wset) (jac m : mat) (lower : bool) : res mat :=
  let k := mnnz jac + wnav w in
  mat_reserve m (if lower then n + k else n + k + k).

(** standard_aug_jac.c:135-237 *)
Definition fill_aug (n : Z) (w : wset) (jac m : mat) (ci : list Z) (lower : bool) : res (mat * list Z) :=
  let size := n + ws_size w in
  m <- mat_resize (mat_clear m) size size ;;
  m <- rfold (fill_col w n jac) m (zrange n) ;;
  s <- (if lower then
          m <- rfold mat_push_col m (map (fun k => n + k) (zrange (ws_size w))) ;;
          b <- mat_is_lower m ;; check b ;;; Ok (m, ci)
        else add_upper n m ci) ;;
  b <- mat_is_valid (fst s) ;; check b ;;; Ok s.

(** standard_aug_jac.c:11-32.  [sj_held]: the matrix of the last successful [f_set]. *)
Record sjac := mksj {
  sj_n : Z; sj_m : mat; sj_ci : list Z; sj_ws : option wset;
  sj_has : bool; sj_size : Z; sj_held : option mat }.

(** standard_aug_jac.c:463-510 with working_set.c:33-67; [fixed]: no nonlinear constraints *)
Definition sj_create (n nc : Z) (fixed : bool) (junk : Z -> Z) : res sjac :=
  m <- mat_create 0 0 0 ;;
  Ok (mksj n m (map junk (zrange (n + (nc + n) + 1)))
        (if fixed then Some (ws_create n nc) else None) false 0 None).

(** standard_aug_jac.c:239-293.  The second component is the returned code. *)
Definition sj_set_iterate (F : fact) (j : sjac) (w : wset) (jac : mat) : res (sjac * res unit) :=
  hit <- match sj_ws j with
         | None => Ok false
         | Some u => e <- ws_eq w u ;; Ok (e && sj_has j)
         end ;;
  if (hit : bool) then Ok (j, Ok tt) else
  u <- match sj_ws j with None => Ok None | Some u => v <- ws_copy w u ;; Ok (Some v) end ;;
  m <- reserve_aug (sj_n j) w jac (sj_m j) (f_lower F) ;;
  s <- fill_aug (sj_n j) w jac m (sj_ci j) (f_lower F) ;;
  let (m, ci) := (s : mat * list Z) in
  match f_set F m with
  | Trap => Trap
  | Err c => Ok (mksj (sj_n j) m ci u (sj_has j) (ws_size w) None, Err c)
  | Ok _ =>
    check (mnr m =? mnc m) ;;; check (mnc m =? sj_n j + ws_size w) ;;;
    Ok (mksj (sj_n j) m ci u true (ws_size w) (Some m), Ok tt)
  end.

(** A solve without a factorization fails (fact_umfpack.c etc.). *)
Definition held_solve (F : fact) (held : option mat) (rhs : vec) : res (list num) :=
  match held with Some m => f_solve F m rhs | None => Err EInternal end.

Definition shift_vec (d : Z) (v : vec) : vec :=
  mkvec (vdim v + d) (vcap v) (map (fun e => (fst e + d, snd e)) (vent v)).

(** standard_aug_jac.c:306-350: the right hand side afterwards and the solution *)
Definition sj_min_norm (F : fact) (j : sjac) (zeps : num) (rhs sol : vec) : res (vec * vec) :=
  check (vdim sol =? sj_n j) ;;;
  let rhs := shift_vec (sj_n j) rhs in
  raw <- held_solve F (sj_held j) rhs ;;
  sol <- fact_solution raw sol 0 (sj_n j) zeps ;;
  Ok (shift_vec (- sj_n j) rhs, sol).

(** standard_aug_jac.c:352-394 *)
Definition sj_lsq (F : fact) (j : sjac) (zeps : num) (rhs sol : vec) : res (vec * vec) :=
  check (vdim rhs =? sj_n j) ;;;
  rhs <- vec_resize rhs (sj_n j + sj_size j) ;;
  raw <- held_solve F (sj_held j) rhs ;;
  check (vdim sol =? sj_size j) ;;;
  sol <- fact_solution raw sol (sj_n j) (sj_n j + sj_size j) zeps ;;
  rhs <- vec_resize rhs (sj_n j) ;;
  Ok (rhs, sol).

(** standard_aug_jac.c:396-435 *)
Definition sj_project (F : fact) (j : sjac) (zeps : num) (rhs sol : vec) : res (vec * vec) :=
  check (vdim rhs =? sj_n j) ;;;
  rhs <- vec_resize rhs (sj_n j + sj_size j) ;;
  raw <- held_solve F (sj_held j) rhs ;;
  check (vdim sol =? sj_n j) ;;;
  sol <- fact_solution raw sol 0 (sj_n j) zeps ;;
  rhs <- vec_resize rhs (sj_n j) ;;
  Ok (rhs, sol).

(** ** reduced_aug_jac.c *)

(** reduced_aug_jac.c:12-39: the rows of the working set in [rj_counts] (row starts), [rj_sys]
    (column, value).  Fields kept from one call to the next only as allocated memory are not
    represented; arrays come back uninitialised ([None]) whenever they are reallocated. *)
Record rjac := mkrj {
  rj_n : Z; rj_nc : Z; rj_m : mat; rj_rhs : vec; rj_dir : vec; rj_rows : Z;
  rj_counts : list Z; rj_sys : list (Z * num); rj_ws : option wset;
  rj_has : bool; rj_held : option mat }.

(** reduced_aug_jac.c:112-160 *)
Definition row_counts (w : wset) (jac : mat) : res (list Z * Z) :=
  let size := ws_size w in
  rfold (fun s col =>
    es <- col_entries jac col ;;
    rfold (fun (s : list Z * Z) e =>
      let (cnt, nnz) := s in
      k <- ws_cons_index w (fst e) ;;
      if k =? none then Ok s else
      check (wnav w <=? k) ;;; check (k <? size) ;;;
      c <- arr_get cnt k ;; cnt <- arr_set cnt k (c + 1) ;;
      Ok (cnt, nnz + 1)) s es)
    (repeat 1 (Z.to_nat (wnav w)) ++ repeat 0 (Z.to_nat (size - wnav w)), wnav w) (zrange (mnc jac)).

(** reduced_aug_jac.c:175-186: prefix sums.  The loop also reads the element behind the last
    count, uninitialised, and adds it to [offset], which is not used afterwards. *)
Fixpoint starts_from (o : Z) (l : list Z) : list Z :=
  match l with [] => [o] | x :: l' => o :: starts_from (o + x) l' end.

(** reduced_aug_jac.c:188-259 *)
Definition fill_system (n : Z) (w : wset) (jac : mat) (starts : list Z) (nnz : Z) : res (list (Z * num)) :=
  (* 203-220: values and column indices of the rows of the variables; an entry is complete once
     both are written, the values come first *)
  check (wnav w <=? nnz) ;;;
  arr <- rfold (fun a j =>
           k <- ws_var_index w j ;;
           if k =? none then Ok a else arr_set a k (Some (j, n1)))
         (repeat None (Z.to_nat nnz)) (zrange n) ;;
  s <- rfold (fun s col =>
    es <- col_entries jac col ;;
    rfold (fun (s : list Z * list (option (Z * num))) e =>
      let (off, a) := s in
      k <- ws_cons_index w (fst e) ;;
      if k =? none then Ok s else
      check (wnav w <=? k) ;;;
      c <- arr_get starts k ;; o <- arr_get off (k - wnav w) ;;
      a <- arr_set a (c + o) (Some (col, snd e)) ;;
      off <- arr_set off (k - wnav w) (o + 1) ;;
      Ok (off, a)) s es) (repeat 0 (Z.to_nat (wnac w)), arr) (zrange (mnc jac)) ;;
  rmapM (fun o => match o with Some e => Ok e | None => Trap end) (snd s).

(** reduced_aug_jac.c:261-280 *)
Definition more_and_push (m : mat) (row col : Z) (v : num) : res mat :=
  m <- (if mnnz m =? mcap m then mat_reserve m (Z.min (mnc m * mnr m) (2 * mnnz m + 1)) else Ok m) ;;
  mat_push m row col v.

(** The row [k] of the system: [for (index = rows[k]; index < rows[k+1]; ...)] *)
Definition sys_row (starts : list Z) (sys : list (Z * num)) (k : Z) : res (list (Z * num)) :=
  a <- arr_get starts k ;; b <- arr_get starts (k + 1) ;; slice sys a b.

(** reduced_aug_jac.c:282-321, the merge of [vec_dot] with the factors in the order row, col.
    [*nonzero] is [true] from the start, so every product is pushed. *)
Definition inner (r c : list (Z * num)) : num := dot_loop (length r + length c) r c n0.

(** reduced_aug_jac.c:323-377 *)
Definition matrix_lower (m : mat) (nav size : Z) (starts : list Z) (sys : list (Z * num)) : res mat :=
  m <- mat_resize (mat_clear m) size size ;;
  m <- rfold (fun m col =>
         m <- mat_push_col m col ;;
         c <- sys_row starts sys col ;;
         m <- (if col <? nav then more_and_push m col col n1
               else more_and_push m col col (fold_left (fun s e => nadd s (nmul (snd e) (snd e))) c n0)) ;;
         rfold (fun m row => r <- sys_row starts sys row ;; more_and_push m row col (inner r c))
           m (map (fun k => col + 1 + k) (zrange (size - (col + 1))))) m (zrange size) ;;
  b <- mat_is_lower m ;; check b ;;; Ok m.

(** reduced_aug_jac.c:379-413 *)
Definition matrix_general (m : mat) (size : Z) (starts : list Z) (sys : list (Z * num)) : res mat :=
  m <- mat_resize (mat_clear m) size size ;;
  rfold (fun m col =>
    m <- mat_push_col m col ;;
    c <- sys_row starts sys col ;;
    rfold (fun m row => r <- sys_row starts sys row ;; more_and_push m row col (inner r c)) m (zrange size))
    m (zrange size).

(** reduced_aug_jac.c:42-86 *)
Definition rj_create (n nc : Z) (fixed : bool) : res rjac :=
  m <- mat_create 0 0 0 ;;
  Ok (mkrj n nc m (mkvec 0 0 []) (mkvec n n []) none [] []
        (if fixed then Some (ws_create n nc) else None) false None).

(** reduced_aug_jac.c:88-110, the part concerning [rhs] *)
Definition reserve_rhs (j : rjac) (w : wset) : res vec :=
  if rj_rows j =? ws_size w then Ok (rj_rhs j) else
  v <- vec_resize (rj_rhs j) (ws_size w) ;; vec_reserve v (ws_size w).

(** reduced_aug_jac.c:432-477 *)
Definition rj_set_iterate (F : fact) (j : rjac) (w : wset) (jac : mat) : res (rjac * res unit) :=
  hit <- match rj_ws j with
         | None => Ok false
         | Some u => e <- ws_eq w u ;; Ok (e && rj_has j)
         end ;;
  if (hit : bool) then Ok (j, Ok tt) else
  u <- match rj_ws j with None => Ok None | Some u => v <- ws_copy w u ;; Ok (Some v) end ;;
  rhs <- reserve_rhs j w ;;
  s <- row_counts w jac ;;
  let starts := starts_from 0 (fst s) in
  sys <- fill_system (rj_n j) w jac starts (snd s) ;;
  m <- (if f_lower F then matrix_lower (rj_m j) (wnav w) (ws_size w) starts sys
        else matrix_general (rj_m j) (ws_size w) starts sys) ;;
  match f_set F m with
  | Trap => Trap
  | Err c => Ok (mkrj (rj_n j) (rj_nc j) m rhs (rj_dir j) (ws_size w) starts sys u (rj_has j) None, Err c)
  | Ok _ => Ok (mkrj (rj_n j) (rj_nc j) m rhs (rj_dir j) (ws_size w) starts sys u true (Some m), Ok tt)
  end.

(** Does the merge of reduced_aug_jac.c:506-526 find a common column? *)
Definition meets_row (r : list (Z * num)) (d : list (Z * num)) : bool :=
  existsb (fun e => existsb (fun f => fst e =? fst f) d) r.

(** reduced_aug_jac.c:479-533 *)
Definition rj_product (j : rjac) (d p : vec) : res vec :=
  p <- vec_reserve (vec_clear p) (rj_rows j) ;;
  rfold (fun p row =>
    r <- sys_row (rj_counts j) (rj_sys j) row ;;
    if meets_row r (vent d) then vec_push p row (dot_loop (length r + length (vent d)) r (vent d) n0) else Ok p)
    p (zrange (rj_rows j)).

(** reduced_aug_jac.c:535-563 *)
Definition rj_trans_product (j : rjac) (d : vec) : res (list num) :=
  rfold (fun cache e =>
    r <- sys_row (rj_counts j) (rj_sys j) (fst e) ;;
    rfold (fun cache x =>
      old <- arr_get cache (fst x) ;;
      arr_set cache (fst x) (nadd old (nmul (snd e) (snd x)))) cache r)
    (repeat n0 (Z.to_nat (rj_n j))) (vent d).

Definition set_rhs (j : rjac) (rhs dir : vec) : rjac :=
  mkrj (rj_n j) (rj_nc j) (rj_m j) rhs dir (rj_rows j) (rj_counts j) (rj_sys j) (rj_ws j) (rj_has j) (rj_held j).

(** reduced_aug_jac.c:565-588 *)
Definition rj_min_norm (F : fact) (j : rjac) (zeps : num) (rhs sol : vec) : res (rjac * vec) :=
  raw <- held_solve F (rj_held j) rhs ;;
  y <- fact_solution raw (rj_rhs j) 0 (rj_rows j) zeps ;;
  cache <- rj_trans_product j y ;;
  sol <- vec_set_from_raw sol cache zeps ;;
  Ok (set_rhs j y (rj_dir j), sol).

(** reduced_aug_jac.c:590-609 *)
Definition rj_lsq (F : fact) (j : rjac) (zeps : num) (rhs sol : vec) : res (rjac * vec) :=
  p <- rj_product j rhs (rj_rhs j) ;;
  raw <- held_solve F (rj_held j) p ;;
  sol <- fact_solution raw sol 0 (rj_rows j) zeps ;;
  Ok (set_rhs j p (rj_dir j), sol).

(** reduced_aug_jac.c:611-643 *)
Definition rj_project (F : fact) (j : rjac) (zeps : num) (rhs sol : vec) : res (rjac * vec) :=
  p <- rj_product j rhs (rj_rhs j) ;;
  raw <- held_solve F (rj_held j) p ;;
  y <- fact_solution raw p 0 (rj_rows j) zeps ;;
  cache <- rj_trans_product j y ;;
  d <- vec_set_from_raw (rj_dir j) cache zeps ;;
  sol <- vec_add_scaled rhs d n1 (nopp n1) zeps sol ;;
  Ok (set_rhs j y d, sol).

(** ** direct_aug_jac.c *)

(** [rows[i]], [data[i]] of an array of capacity [cap] whose contents behind the initialised
    prefix are unknown *)
Definition store_of (m : mat) : list (option (Z * num)) :=
  map Some (firstn (Z.to_nat (mcap m)) (ment m)) ++ repeat None (Z.to_nat (mcap m) - length (ment m)).

(** direct_aug_jac.c:92-97: the entries of a column move by [off] positions and [nav] rows,
    last one first *)
Fixpoint move_up (nav off : Z) (positions : list Z) (a : list (option (Z * num))) : res (list (option (Z * num))) :=
  match positions with
  | [] => Ok a
  | i :: is =>
    o <- arr_get a i ;;
    match o with
    | None => Trap
    | Some e => a <- arr_set a (i + off) (Some (fst e + nav, snd e)) ;; move_up nav off is a
    end
  end.

(** direct_aug_jac.c:87-113; the columns from the last to the first *)
Fixpoint push_vars (w : wset) (nav off : Z) (js : list Z) (cols : list Z) (a : list (option (Z * num)))
  : res (list Z * list (option (Z * num)) * Z) :=
  match js with
  | [] => Ok (cols, a, off)
  | col :: js' =>
    b <- arr_get cols col ;; e <- arr_get cols (col + 1) ;;
    a <- move_up nav off (rev (map (fun k => b + k) (zrange (e - b)))) a ;;
    cols <- arr_set cols (col + 1) (e + off) ;;
    s <- ws_var_state w col ;;
    if active s then
      a <- arr_set a (b + off - 1) (Some (off - 1, n1)) ;;
      if off - 1 =? 0 then Ok (cols, a, off - 1) else push_vars w nav (off - 1) js' cols a
    else push_vars w nav off js' cols a
  end.

(** direct_aug_jac.c:45-127; [rs]: the length of the array [row_sums], which also receives the
    removed rows *)
Definition working_jac (w : wset) (jac wj : mat) (rs : Z) : res mat :=
  removed <- rfold (fun l i =>
      s <- ws_cons_state w i ;;
      if active s then Ok l else check (Z.of_nat (length l) <? rs) ;;; Ok (l ++ [i])) [] (zrange (mnr jac)) ;;
  wj <- mat_remove_rows jac wj removed ;;
  if wnav w =? 0 then Ok wj else
  let nnz := mnnz wj + wnav w in
  wj <- mat_reserve wj nnz ;;
  wj <- mat_resize wj (ws_size w) (mnc jac) ;;
  s <- push_vars w (wnav w) (wnav w) (rev (zrange (mnc jac))) (mcols wj) (store_of wj) ;;
  let '(cols, a, off) := (s : list Z * list (option (Z * num)) * Z) in
  check (off =? 0) ;;;
  ent <- rmapM (fun o => match o with Some e => Ok e | None => Trap end) (firstn (Z.to_nat nnz) a) ;;
  let wj := mkmat (mnr wj) (mnc wj) nnz (mcap wj) cols ent in
  b <- mat_is_valid wj ;; check b ;;; Ok wj.

(** direct_aug_jac.c:22-43 and 129-152, up to the factorization: the working Jacobian and its
    transpose.  [sleqp_mat_trans] clears and uses one counter per row of its argument
    (mat.c:823-843, 873-903), so [row_sums] has to be that long. *)
Definition direct_matrix (w : wset) (jac wj t : mat) : res (mat * mat) :=
  wj <- mat_resize wj (wnac w) (mnc jac) ;;
  wj <- working_jac w jac wj (mnr jac) ;;
  check (mnr wj <=? mnr jac) ;;;
  t <- mat_trans wj t ;;
  Ok (wj, t).

End AugJac.
