(** Model of /repo/src/main/step/step_rule_*.c. *)
From Verif Require Import Base Num Cmp Sparse Vec Mat Ring.
Local Open Scope Z_scope.

Section Model.
Context {N : Num}.
Local Open Scope num_scope.

(** ** Direct rule *)

(** DBL_EPSILON = 2^-52 times eps_factor, util.c:10 *)
Definition ratio_eps : num := nlit 10 (2 ^ 52).

(** util.c:244-262 *)
Definition reduction_ratio (exact model : num) : num :=
  let cm := model - ratio_eps in
  let ce := exact - ratio_eps in
  if (nabs cm <=? ratio_eps) && (nabs ce <=? ratio_eps) then n1 else ce / cm.

(** step_rule_direct.c:11-35; result: accepted?, ratio.  [thr] is
    SLEQP_SETTINGS_REAL_ACCEPTED_REDUCTION. *)
Definition direct_apply (thr iterate exact model : num) : bool * num :=
  let ratio := reduction_ratio (iterate - exact) (iterate - model) in
  (ratio >=? thr, ratio).

(** ** Window rule *)

(** step_rule_window.c:8-22; the arrays exact_merit_values and model_reductions, always
    accessed at the same index, are one array of pairs. *)
Record wrule := mkwr { w_num : Z; w_len : Z; w_curr : Z; w_data : list (num * num) }.

(** step_rule_window.c:226-258, 190-198; [junk] is the uninitialised array contents. *)
Definition window_create (n : Z) (junk : list (num * num)) : res wrule :=
  check (0 <=? n)%Z ;;; Ok (mkwr n 0 (-1)%Z junk).
Definition window_reset (r : wrule) : wrule := mkwr (w_num r) 0 (-1)%Z (w_data r).

Definition w_read (r : wrule) (i : Z) : res (num * num) :=
  arr_get (w_data r) (data_index (w_num r) (w_len r) i).

(** step_rule_window.c:37-47 *)
Definition w_begin (r : wrule) : Z := (w_curr r - w_len r + 1)%Z.

(** step_rule_window.c:49-73 *)
Definition window_ref_index (r : wrule) : res Z :=
  check (0 <? w_len r)%Z ;;;
  s <- rfold (fun s i => e <- w_read r i ;;
              Ok (if fst e >? snd s then (i, fst e) else s))
             (0%Z, nopp sleqp_infinity) (zseq (w_begin r) (w_curr r)) ;;
  Ok (fst s).

(** step_rule_window.c:75-117 *)
Definition window_ratio (r : wrule) (iterate exact model_red : num) : res num :=
  let current := (iterate - exact) / model_red in
  if (w_len r =? 0)%Z then Ok current else
  k <- window_ref_index r ;;
  e <- w_read r k ;;
  if fst e <? exact then Ok current else
  check ((w_begin r <=? k)%Z && (k <=? w_curr r)%Z) ;;;
  sum <- rfold (fun s i => e <- w_read r i ;; Ok (s + snd e)) n0 (zseq k (w_curr r)) ;;
  Ok ((fst e - exact) / (sum + model_red)).

(** step_rule_window.c:119-150; [eps] is SLEQP_SETTINGS_REAL_EPS *)
Definition window_add (eps : num) (r : wrule) (iterate model_red : num) : res wrule :=
  if (w_num r =? 0)%Z then Ok r else
  check (is_geq model_red n0 eps) ;;;
  data <- arr_set (w_data r) (data_index (w_num r) (w_len r) (w_curr r + 1)) (iterate, model_red) ;;
  Ok (mkwr (w_num r) (if (w_len r <? w_num r)%Z then w_len r + 1 else w_len r)%Z (w_curr r + 1)%Z data).

(** step_rule_window.c:152-198 *)
Definition current_ratio (iterate exact model : num) : num :=
  let er := iterate - exact in
  let mr := iterate - model in
  if er =? mr then n1 else er / mr.

Definition window_apply (eps thr : num) (r : wrule) (iterate exact model : num) : res (wrule * bool * num) :=
  let mr := iterate - model in
  h <- window_ratio r iterate exact mr ;;
  let ratio := nmax (current_ratio iterate exact model) h in
  if ratio >=? thr then
    r' <- window_add eps r iterate mr ;; Ok (r', true, ratio)
  else Ok (r, false, ratio).

(** ** Minimum step rule *)

(** step_rule_minstep.c:8-37 (last_exact_merit only feeds a log message) *)
Record mrule := mkmr { m_init : bool; m_min : num; m_ref : num; m_max : num;
                       m_sum_ref : num; m_sum_max : num; m_count : Z; m_limit : Z }.

(** step_rule_minstep.c:167-175, 194-219 *)
Definition minstep_reset (r : mrule) : mrule :=
  mkmr false (m_min r) (m_ref r) (m_max r) (m_sum_ref r) (m_sum_max r) (m_count r) (m_limit r).

(** step_rule_minstep.c:39-56, 81-90 *)
Definition minstep_start (r : mrule) (merit : num) : res mrule :=
  if m_init r then check (m_max r >=? m_min r) ;;; Ok r
  else Ok (mkmr true merit merit merit n0 n0 0%Z (m_limit r)).

(** step_rule_minstep.c:125-163: bookkeeping after an accepted step *)
Definition minstep_accept (r : mrule) (iterate model_red : num) : mrule :=
  let sref := m_sum_ref r + model_red in
  let smax := m_sum_max r + model_red in
  let newmin := iterate <? m_min r in
  let mn := if newmin then iterate else m_min r in
  let mx := if newmin then iterate else m_max r in
  let sref := if newmin then n0 else sref in
  let smax := if newmin then n0 else smax in
  let count := if newmin then 0%Z else (m_count r + 1)%Z in
  let newmax := iterate >? mx in
  let mx := if newmax then iterate else mx in
  let smax := if newmax then n0 else smax in
  let hit := (count =? m_limit r)%Z in
  mkmr true mn (if hit then mx else m_ref r) mx (if hit then smax else sref) smax count (m_limit r).

(** step_rule_minstep.c:70-165 *)
Definition minstep_apply (thr : num) (r : mrule) (iterate exact model : num) : res (mrule * bool * num) :=
  let mr := iterate - model in
  r <- minstep_start r iterate ;;
  let h := (m_ref r - exact) / (m_sum_ref r + mr) in
  let ratio := nmax (current_ratio iterate exact model) h in
  if ratio >=? thr then Ok (minstep_accept r iterate mr, true, ratio) else Ok (r, false, ratio).

End Model.
