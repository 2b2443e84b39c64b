(** Property theorems C43 (timers) and C53 (dynamic functions). *)
From Coq Require Import Reals Lra Psatz.
From Flocq Require Import Core BinarySingleNaN.
From Verif Require Import Base Num Cmp Order F64Facts RSum VecReal StepRuleFacts Flags PropsVec.
Local Open Scope Z_scope.

(** ** C43 *)
Inductive top := TStart (now : Z) | TStop (now : Z) | TAdd (v : R) | TReset.
Definition tapply (t : @timer RN) (o : top) : res (@timer RN) :=
  match o with
  | TStart z => timer_start t z
  | TStop z => timer_stop t z
  | TAdd v => Ok (timer_add t v)
  | TReset => Ok timer_reset
  end.

(** Specification: what has been measured since the last reset - the start of an open
    interval, the lengths (seconds) of the closed ones, and the corrections added. *)
Record tspec := mkts' { s_open : option Z; s_runs : list R; s_adds : list R }.
Definition tmeasure (s : tspec) (o : top) : tspec :=
  match o with
  | TStart z => mkts' (Some z) (s_runs s) (s_adds s)
  | TStop z => match s_open s with
               | Some z0 => mkts' None (IZR (z - z0) / 1000000 :: s_runs s)%R (s_adds s)
               | None => s
               end
  | TAdd v => mkts' (s_open s) (s_runs s) (v :: s_adds s)
  | TReset => mkts' None [] []
  end.
Definition sum (l : list R) : R := fold_right Rplus 0%R l.
Definition sumsq (l : list R) : R := sum (map (fun x => x * x)%R l).

Lemma rn_secs z : @secs RN z = (IZR z / 1000000)%R.
Proof. unfold secs. rewrite !rn_lit1. reflexivity. Qed.

Definition tholds (t : @timer RN) (s : tspec) : Prop :=
  t_running t = (match s_open s with Some _ => true | None => false end)
  /\ (forall z, s_open s = Some z -> t_start t = z)
  /\ t_runs t = Z.of_nat (length (s_runs s))
  /\ t_total t = (sum (s_runs s) + sum (s_adds s))%R
  /\ t_total_sq t = (sumsq (s_runs s) + sumsq (s_adds s))%R
  /\ (forall x, In x (s_runs s) -> (0 <= x)%R).

Lemma tapply_holds t s o t' : tholds t s -> tapply t o = Ok t' -> tholds t' (tmeasure s o).
Proof.
  intros (A & B & C & D & E & F). destruct o as [z|z|v|]; cbn [tapply].
  - unfold timer_start. destruct (t_running t) eqn:Er; cbn [negb check rbind]; [discriminate|].
    intros [= <-]. unfold tholds. cbn. split; [reflexivity|]. split; [intros ? [= <-]; reflexivity|]. auto.
  - unfold timer_stop. destruct (t_running t) eqn:Er; cbn [check rbind]; [|discriminate].
    destruct (s_open s) as [z0|] eqn:Eo; [|discriminate].
    destruct (nleb n0 (secs (z - t_start t))) eqn:El; cbn [check rbind]; [|discriminate].
    apply rn_leb in El. rewrite rn_n0 in El. rewrite (B z0 eq_refl), rn_secs in *. intros H.
    assert (t' = mktimer z0 (t_runs t + 1) false (t_total t + IZR (z - z0) / 1000000)%R (t_total_sq t + IZR (z - z0) / 1000000 * (IZR (z - z0) / 1000000))%R (IZR (z - z0) / 1000000)%R) as ->.
    { injection H as <-. reflexivity. }
    clear H. cbn [tmeasure]. rewrite Eo. unfold tholds. cbn [t_running t_start t_runs t_total t_total_sq s_open s_runs s_adds length sum fold_right].
    unfold sumsq in *. cbn [map]. unfold sum in *. cbn [fold_right]. split; [reflexivity|]. split; [discriminate|]. split; [rewrite C; lia|].
    rnum. split; [rewrite D; lra|]. split; [rewrite E; lra|]. intros x [<-|Hx]; [exact El|auto].
  - intros [= <-]. unfold timer_add, tholds. cbn [tmeasure t_running t_start t_runs t_total t_total_sq s_open s_runs s_adds].
    unfold sumsq in *. cbn [map]. unfold sum in *. cbn [fold_right]. rops. split; [exact A|]. split; [exact B|]. split; [exact C|].
    split; [rewrite D; lra|]. split; [rewrite E; lra|exact F].
  - intros [= <-]. unfold timer_reset, tholds. cbn [tmeasure t_running t_start t_runs t_total t_total_sq s_open s_runs s_adds].
    unfold sumsq, sum. cbn [map fold_right length]. rewrite rn_n0. rnum. split; [reflexivity|]. split; [discriminate|]. split; [reflexivity|].
    split; [lra|]. split; [lra|]. intros x [].
Qed.

Lemma trun_holds ops : forall t s t', tholds t s -> rfold tapply t ops = Ok t' -> tholds t' (fold_left tmeasure ops s).
Proof.
  induction ops as [|o ops IH]; intros t s t' Ht; cbn [rfold fold_left].
  - intros [= <-]. exact Ht.
  - intros H. apply rbind_ok in H. destruct H as (t1 & H1 & H2). apply (IH t1); [|exact H2]. now apply (tapply_holds t).
Qed.

Lemma tholds_reset : tholds timer_reset (mkts' None [] []).
Proof.
  unfold tholds, timer_reset, sumsq, sum. cbn [t_running t_start t_runs t_total t_total_sq s_open s_runs s_adds map fold_right length]. rewrite rn_n0. rnum. split; [reflexivity|]. split; [discriminate|]. split; [reflexivity|].
  split; [lra|]. split; [lra|]. intros x [].
Qed.

(** For every history of calls and clock readings the timer accepts: the number of runs, and the
    total time as the sum of all intervals (including the open one) and corrections; the remaining
    time is the limit minus that, cut at zero, and the limit is exhausted iff it is zero. *)
Theorem C43_total : forall ops t now limit, rfold tapply timer_reset ops = Ok t ->
  let s := fold_left tmeasure ops (mkts' None [] []) in
  let total := (match s_open s with Some z => IZR (now - z) / 1000000 | None => 0 end + sum (s_runs s) + sum (s_adds s))%R in
  t_runs t = Z.of_nat (length (s_runs s))
  /\ timer_ttl t now = total
  /\ (limit <> -1 -> @remaining_time RN (timer_ttl t now) limit = Rmax (limit - total) 0)%R
  /\ @remaining_time RN (timer_ttl t now) (-1)%R = (-1)%R
  /\ (exhausted t now limit = true <-> limit <> -1 /\ limit <= total)%R.
Proof.
  intros ops t now limit H s total. pose proof (trun_holds ops _ _ _ tholds_reset H) as (A & B & C & D & E & F). fold s in A, B, C, D, E, F.
  assert (T : timer_ttl t now = total).
  { unfold timer_ttl, timer_current, total. rewrite A. destruct (s_open s) as [z|].
    - rewrite (B z eq_refl), rn_secs. rops. rewrite D. lra.
    - rewrite rn_n0. rops. rewrite D. lra. }
  assert (L : @nlit RN (-1) 1 = (-1)%R) by (rewrite rn_lit1; reflexivity).
  split; [exact C|]. split; [exact T|]. split; [|split].
  - intros Hl. unfold remaining_time. rewrite L. rewrite (proj2 (rn_eqb_false limit (-1)) Hl). rewrite rn_max, rn_n0, T. reflexivity.
  - unfold remaining_time. rewrite L. rewrite (proj2 (rn_eqb (-1) (-1)) eq_refl). reflexivity.
  - unfold exhausted, remaining_time. rewrite L. destruct (neqb limit (-1)%R) eqn:Ee.
    + apply rn_eqb in Ee. split; [discriminate|]. intros [? _]. rnum. lra.
    + apply rn_eqb_false in Ee. rewrite rn_max, rn_n0, T, rn_leb. rops. split.
      * intros Hm. split; [exact Ee|]. pose proof (Rmax_l (limit - total) 0). lra.
      * intros [_ Hm]. unfold Rmax. destruct (Rle_dec _ _); lra.
Qed.
Print Assumptions C43_total.

Lemma sum_bounds l lo hi : (forall x, In x l -> lo <= x <= hi)%R -> (INR (length l) * lo <= sum l <= INR (length l) * hi)%R.
Proof.
  induction l as [|a l IH]; intros H; cbn [length sum fold_right]; [cbn; lra|]. fold (sum l).
  rewrite S_INR. destruct (H a (or_introl eq_refl)). specialize (IH (fun x Hx => H x (or_intror Hx))). lra.
Qed.

Lemma cauchy_schwarz l : (sum l * sum l <= INR (length l) * sumsq l)%R.
Proof.
  unfold sumsq. induction l as [|a l IH]; cbn [length sum map fold_right]; [cbn; lra|]. fold (sum l). fold (sum (map (fun x => x * x)%R l)).
  rewrite S_INR. set (n := INR (length l)) in *. set (s := sum l) in *. set (q := sum (map _ l)) in *.
  assert (Hn : (0 <= n)%R) by apply pos_INR.
  assert (K : (2 * a * s <= n * (a * a) + q)%R).
  { clear IH. unfold n, s, q. clear. induction l as [|b l IH]; cbn [length sum map fold_right]; [cbn; lra|].
    fold (sum l). fold (sum (map (fun x => x * x)%R l)). rewrite S_INR. pose proof (Rle_0_sqr (a - b)) as Hs. unfold Rsqr in Hs. lra. }
  replace ((a + s) * (a + s))%R with (a * a + 2 * a * s + s * s)%R by ring. lra.
Qed.

(** Without corrections, the average lies between any bounds of the intervals and the quantity
    under the square root of the standard deviation is not negative (exact arithmetic). *)
Theorem C43_avg_partial : forall ops t, rfold tapply timer_reset ops = Ok t ->
  let s := fold_left tmeasure ops (mkts' None [] []) in
  s_open s = None -> s_adds s = [] -> s_runs s <> [] ->
  exists a v, timer_avg t = Ok a /\ timer_var t = Ok v /\ (0 <= v)%R /\
    (forall lo hi, (forall x, In x (s_runs s) -> lo <= x <= hi) -> lo <= a <= hi)%R.
Proof.
  intros ops t H s Ho Ha Hr. pose proof (trun_holds ops _ _ _ tholds_reset H) as (A & B & C & D & E & F). fold s in A, B, C, D, E, F.
  rewrite Ho in A. rewrite Ha in D, E. change (sum []) with 0%R in D. change (sumsq []) with 0%R in E. rewrite Rplus_0_r in D, E.
  assert (Hl : (0 < length (s_runs s))%nat) by (destruct (s_runs s); [congruence|cbn; lia]).
  assert (Hn : (0 < INR (length (s_runs s)))%R) by (apply lt_0_INR; lia).
  assert (Hlit : @nlit RN (t_runs t) 1 = INR (length (s_runs s))) by (rewrite rn_lit1, C, <- INR_IZR_INZ; reflexivity).
  assert (Ea : timer_avg t = Ok (sum (s_runs s) / INR (length (s_runs s)))%R).
  { unfold timer_avg. rewrite A. cbn [negb check rbind]. destruct (Z.eqb_spec (t_runs t) 0); [lia|]. rewrite Hlit, D. reflexivity. }
  exists (sum (s_runs s) / INR (length (s_runs s)))%R, (sumsq (s_runs s) / INR (length (s_runs s)) - sum (s_runs s) / INR (length (s_runs s)) * (sum (s_runs s) / INR (length (s_runs s))))%R.
  split; [exact Ea|]. split; [|split].
  - unfold timer_var. destruct (Z.eqb_spec (t_runs t) 0); [lia|]. rewrite Ea. cbn [rbind]. rewrite Hlit, E. reflexivity.
  - pose proof (cauchy_schwarz (s_runs s)) as CS. set (n := INR (length (s_runs s))) in *.
    replace (sumsq (s_runs s) / n - sum (s_runs s) / n * (sum (s_runs s) / n))%R
      with ((n * sumsq (s_runs s) - sum (s_runs s) * sum (s_runs s)) * / (n * n))%R by (field; lra).
    apply Rmult_le_pos; [lra|]. apply Rlt_le, Rinv_0_lt_compat. apply Rmult_lt_0_compat; lra.
  - intros lo hi Hb. apply sum_bounds in Hb. set (n := INR (length (s_runs s))) in *. split.
    + apply (Rmult_le_reg_r n); [exact Hn|]. unfold Rdiv. rewrite Rmult_assoc, Rinv_l by lra. lra.
    + apply (Rmult_le_reg_r n); [exact Hn|]. unfold Rdiv. rewrite Rmult_assoc, Rinv_l by lra. lra.
Qed.
Print Assumptions C43_avg_partial.

(** With corrections both fail: one interval of one second and two corrections of one second
    give average three and variance -6.  On doubles the variance is negative already for three
    intervals of 9 microseconds, so the standard deviation is not a number. *)
Theorem C43_avg_refuted :
  (exists ops t, rfold tapply timer_reset ops = Ok t /\ s_runs (fold_left tmeasure ops (mkts' None [] [])) = [(1000000 / 1000000)%R]
     /\ timer_avg t = Ok 3%R /\ timer_var t = Ok (-6)%R)
  /\ rmap (fun v : f64 => (@nltb F64 v n0, @nisnan F64 (nsqrt v)))
       (t1 <- @timer_start F64 timer_reset 0 ;; t2 <- timer_stop t1 9 ;; t3 <- timer_start t2 9 ;; t4 <- timer_stop t3 18 ;;
        t5 <- timer_start t4 18 ;; t6 <- timer_stop t5 27 ;; timer_var t6) = Ok (true, true).
Proof.
  split.
  - eexists [TStart 0; TStop 1000000; TAdd 1%R; TAdd 1%R], _.
    assert (G : rfold tapply timer_reset [TStart 0; TStop 1000000; TAdd 1%R; TAdd 1%R] = Ok (@mktimer RN 0 1 false 3%R 3%R 3%R)).
    { cbn [rfold tapply]. unfold timer_start, timer_stop, timer_reset. cbn [t_running negb check rbind t_start Z.sub Z.opp Z.add].
      rewrite rn_secs. replace (nleb n0 (1000000 / 1000000)%R) with true by (symmetry; apply rn_leb; rewrite rn_n0; rnum; lra).
      cbn [check rbind]. unfold timer_add. cbn [t_start t_runs t_running t_total t_total_sq t_last Z.add]. rewrite rn_n0. rops.
      f_equal. f_equal; rnum; lra. }
    split; [exact G|]. split; [reflexivity|].
    assert (Ea : @timer_avg RN (mktimer 0 1 false 3%R 3%R 3%R) = Ok 3%R).
    { unfold timer_avg. cbn [t_running negb check rbind t_runs Z.eqb t_total]. f_equal. rewrite rn_lit1. rops. lra. }
    split; [exact Ea|]. unfold timer_var. rewrite Ea. cbn [t_runs Z.eqb rbind t_total_sq]. f_equal. rewrite rn_lit1. rops. lra.
  - vm_compute. reflexivity.
Qed.
Print Assumptions C43_avg_refuted.

(** [timer_elapsed] of a restarted timer still contains the previous interval. *)
Theorem C43_elapsed_refuted : exists t now,
  rfold tapply timer_reset [TStart 0; TStop 2000000; TStart 5000000] = Ok t /\ now = 6000000 /\
  timer_current t now = 1%R /\ timer_elapsed t now = 3%R.
Proof.
  exists (@mktimer RN 5000000 1 true 2%R 4%R 2%R), 6000000. split; [|split; [reflexivity|split]].
  - cbn [rfold tapply]. unfold timer_start, timer_stop, timer_reset. cbn [t_running negb check rbind t_start Z.sub Z.opp Z.add].
    rewrite rn_secs. replace (nleb n0 (2000000 / 1000000)%R) with true by (symmetry; apply rn_leb; rewrite rn_n0; rnum; lra).
    cbn [check rbind t_start t_runs t_running t_total t_total_sq t_last negb Z.add]. rewrite rn_n0. rops. f_equal. f_equal; rnum; lra.
  - unfold timer_current. cbn [t_running t_start]. rewrite rn_secs. cbn. rnum. lra.
  - unfold timer_elapsed, timer_current. cbn [t_running t_start t_last]. rewrite rn_secs. rops. replace (6000000 - 5000000) with 1000000 by lia. lra.
Qed.
Print Assumptions C43_elapsed_refuted.

(** Two intervals of one and three seconds and an open one of one second, limit four seconds. *)
Example C43_example :
  rmap (fun t => (t_runs t, @neqb F64 (timer_ttl t 9000000) (fz 5), exhausted t 9000000 (fz 4), rmap (fun a => @neqb F64 a (fz 2)) (timer_avg (mktimer 0 (t_runs t) false (t_total t) (t_total_sq t) (t_last t)))))
    (t1 <- @timer_start F64 timer_reset 0 ;; t2 <- timer_stop t1 1000000 ;; t3 <- timer_start t2 4000000 ;; t4 <- timer_stop t3 7000000 ;; timer_start t4 8000000)
  = Ok (2, true, true, Ok true).
Proof. vm_compute. reflexivity. Qed.

(** ** C53 *)
Section Dynamic.
Context {N : Num}.
Variables (Point Val Wt : Type) (eval : nat -> dconf Point Wt -> res (num * Val * num)).

Inductive dop := DPoint (x : Point) | DBound (b : num) | DObj (w : num) | DCons (w : Wt) | DEval.
Definition dapply (d : dyn Point Val Wt) (o : dop) : res (dyn Point Val Wt) :=
  match o with
  | DPoint x => Ok (dyn_set_value _ _ _ d x)
  | DBound b => Ok (dyn_set_bound _ _ _ d b)
  | DObj w => Ok (dyn_set_wobj _ _ _ d w)
  | DCons w => Ok (dyn_set_wcons _ _ _ d w)
  | DEval => dyn_eval _ _ _ eval d
  end.

(** Specification: the settings in force are the last ones made. *)
Definition last_of {A} (f : dop -> option A) (ops : list dop) : option A :=
  fold_left (fun a o => match f o with Some x => Some x | None => a end) ops None.
Definition point_of o := match o with DPoint x => Some x | _ => None end.
Definition bound_of o := match o with DBound b => Some b | _ => None end.
Definition obj_of o := match o with DObj b => Some b | _ => None end.
Definition cons_of o := match o with DCons b => Some b | _ => None end.

Definition dcurrent (ops : list dop) (d : dyn Point Val Wt) : Prop :=
  d_conf _ _ _ d = mkdc _ _ (last_of point_of ops) (last_of bound_of ops) (last_of obj_of ops) (last_of cons_of ops)
  /\ (forall b, last_of bound_of ops = Some b -> d_bound _ _ _ d = b)
  /\ (has _ _ _ d HAS_ERROR_BOUND = true -> exists b, last_of bound_of ops = Some b)
  /\ (has _ _ _ d HAS_VALUES = true -> has _ _ _ d HAS_ERROR_BOUND = true /\
      exists v k c, d_val _ _ _ d = Some v /\ eval k c = Ok (v, d_error _ _ _ d)
        /\ dc_point _ _ c = last_of point_of ops /\ dc_bound _ _ c = last_of bound_of ops
        /\ neqb (d_error _ _ _ d) (nlit (-1) 1) = false /\ nltb (d_error _ _ _ d) n0 = false /\ nltb (d_bound _ _ _ d) (d_error _ _ _ d) = false).

Lemma last_of_snoc {A} (f : dop -> option A) ops o : last_of f (ops ++ [o]) = match f o with Some x => Some x | None => last_of f ops end.
Proof. unfold last_of. rewrite fold_left_app. reflexivity. Qed.

Lemma land_mask f a b m : Z.land a m = 0 -> Z.land (Z.lnot b) m = m -> Z.land (Z.land (Z.lor f a) (Z.lnot b)) m = Z.land f m.
Proof. intros H1 H2. rewrite <- Z.land_assoc, H2, Z.land_lor_distr_l, H1, Z.lor_0_r. reflexivity. Qed.

Lemma land_off f b m : Z.land (Z.lnot b) m = 0 -> Z.land (Z.land f (Z.lnot b)) m = 0.
Proof. intros H. now rewrite <- Z.land_assoc, H, Z.land_0_r. Qed.

Lemma dapply_ok ops d o d' : dcurrent ops d -> dapply d o = Ok d' -> dcurrent (ops ++ [o]) d'.
Proof.
  intros (A & B & C & D). unfold dcurrent. rewrite !last_of_snoc. destruct o as [x|b|w|w|]; cbn [dapply point_of bound_of obj_of cons_of].
  - intros [= <-]. unfold dyn_set_value, has in *. cbn [d_conf d_bound d_flags d_val d_error]. rewrite A. cbn [dc_point dc_bound dc_wobj dc_wcons].
    split; [reflexivity|]. split; [exact B|]. split.
    + rewrite <- Z.land_assoc. exact C.
    + rewrite land_off by reflexivity. discriminate.
  - intros [= <-]. unfold dyn_set_bound, has in *. cbn [d_conf d_bound d_flags d_val d_error]. rewrite A. cbn [dc_point dc_bound dc_wobj dc_wcons].
    split; [reflexivity|]. split; [intros ? [= <-]; reflexivity|]. split; [eauto|].
    rewrite land_off by reflexivity. discriminate.
  - intros [= <-]. unfold dyn_set_wobj, has in *. cbn [d_conf d_bound d_flags d_val d_error]. rewrite A. cbn [dc_point dc_bound dc_wobj dc_wcons].
    split; [reflexivity|]. split; [exact B|]. rewrite !land_mask by reflexivity. split; [exact C|exact D].
  - intros [= <-]. unfold dyn_set_wcons, has in *. cbn [d_conf d_bound d_flags d_val d_error]. rewrite A. cbn [dc_point dc_bound dc_wobj dc_wcons].
    split; [reflexivity|]. split; [exact B|]. rewrite !land_mask by reflexivity. split; [exact C|exact D].
  - unfold dyn_eval. intros H. apply rbind_ok in H. destruct H as ([] & _ & H). apply rbind_ok in H. destruct H as ([] & _ & H).
    apply rbind_ok in H. destruct H as ([] & Hb & H). apply check_ok in Hb. destruct (has _ _ _ d HAS_VALUES) eqn:Hv.
    + apply rbind_ok in H. destruct H as ([] & _ & H). injection H as <-. split; [exact A|]. split; [exact B|]. split; [exact C|]. rewrite Hv. auto.
    + apply rbind_ok in H. destruct H as ([v e] & He & H). cbn [fst snd] in H.
      destruct (neqb e (nlit (-1) 1)) eqn:E1; [discriminate|]. destruct (nltb e n0) eqn:E2; [discriminate|].
      destruct (nltb (d_bound _ _ _ d) e) eqn:E3; [discriminate|]. injection H as <-. unfold has. cbn [d_conf d_bound d_flags d_val d_error].
      split; [exact A|]. split; [exact B|]. rewrite !Z.land_lor_distr_l. change (Z.land HAS_VALUES HAS_ERROR_BOUND) with 0. rewrite Z.lor_0_r.
      split; [exact C|]. intros _. split; [exact Hb|]. exists v, (d_calls _ _ _ d), (d_conf _ _ _ d). split; [reflexivity|]. split; [exact He|].
      rewrite A. auto.
Qed.

Lemma drun_ok ops d : rfold dapply (dyn_create _ _ _) ops = Ok d -> dcurrent ops d.
Proof.
  revert d. induction ops as [|o ops IH] using rev_ind; intros d H.
  - injection H as <-. unfold dcurrent, has, dyn_create. cbn. split; [reflexivity|]. split; [discriminate|]. split; discriminate.
  - rewrite rfold_app in H. apply rbind_ok in H. destruct H as (d1 & H1 & H2). cbn [rfold] in H2. apply rbind_ok in H2.
    destruct H2 as (d2 & H2 & [= <-]). apply (dapply_ok ops d1); auto.
Qed.
End Dynamic.

(** After every history of calls, what is returned comes from an evaluation by the user's function
    at the current point under the current error bound, and the error reported with it is not
    negative and does not exceed that bound (a NaN error is accepted).  Missing: the weights the
    evaluation saw need not be the current ones (see below). *)
Theorem C53_values_partial : forall {N : Num} (Point Val Wt : Type) (eval : nat -> dconf Point Wt -> res (num * Val * num)) ops d d' v e,
  rfold (dapply Point Val Wt eval) (dyn_create Point Val Wt) ops = Ok d -> dyn_values Point Val Wt eval d = Ok (d', v, e) ->
  exists k c b, eval k c = Ok (v, e) /\ dc_point _ _ c = last_of Point Wt (point_of Point Wt) ops
    /\ last_of Point Wt (bound_of Point Wt) ops = Some b /\ dc_bound _ _ c = Some b
    /\ nltb e n0 = false /\ nltb b e = false.
Proof.
  intros N Point Val Wt eval ops d d' v e H Hv. pose proof (drun_ok _ _ _ _ _ _ H) as I. unfold dyn_values in Hv.
  apply rbind_ok in Hv. destruct Hv as (d1 & He & Hv). pose proof (dapply_ok _ _ _ _ _ _ (DEval Point Wt) _ I He) as (A & B & C & D).
  destruct (d_val _ _ _ d1) as [v1|] eqn:Ev; [|discriminate]. injection Hv as <- <- <-.
  assert (F : has _ _ _ d1 HAS_VALUES = true).
  { unfold dyn_eval in He. apply rbind_ok in He. destruct He as ([] & _ & He). apply rbind_ok in He. destruct He as ([] & _ & He).
    apply rbind_ok in He. destruct He as ([] & _ & He). destruct (has _ _ _ d HAS_VALUES) eqn:Hv.
    - apply rbind_ok in He. destruct He as ([] & _ & He). injection He as <-. exact Hv.
    - apply rbind_ok in He. destruct He as ([w e] & _ & He). cbn [fst snd] in He.
      destruct (neqb e _); [discriminate|]. destruct (nltb e n0); [discriminate|]. destruct (nltb _ e); [discriminate|]. injection He as <-.
      unfold has. cbn [d_flags]. rewrite Z.land_lor_distr_l. change (Z.land HAS_VALUES HAS_VALUES) with 8.
      apply negb_true_iff, Z.eqb_neq. intros K. apply Z.lor_eq_0_iff in K. lia. }
  destruct (D F) as (F1 & v2 & k & c & Q1 & Q2 & Q3 & Q4 & Q5 & Q6 & Q7). injection Q1 as <-. destruct (C F1) as [b Hb].
  rewrite !last_of_snoc in *. cbn [point_of bound_of] in *. exists k, c, b. split; [exact Q2|]. split; [exact Q3|]. split; [exact Hb|].
  split; [congruence|]. split; [exact Q6|]. rewrite <- (B b Hb). exact Q7.
Qed.
Print Assumptions C53_values_partial.

(** Finding: the objective weight is changed after an evaluation, and the next evaluation returns
    the value computed with the old weight; the user's function is not called again. *)
Definition dyn_user (k : nat) (c : @dconf F64 Z Z) : res (@num F64 * Z * @num F64) :=
  match dc_wobj _ _ c, dc_bound _ _ c with
  | Some w, Some b => Ok (w, 7, b)
  | _, _ => Err EFuncEval
  end.
Theorem C53_weights_refuted : forall w1 w2 b : @num F64, @nltb F64 b n0 = false -> @neqb F64 b (nlit (-1) 1) = false -> @nltb F64 b b = false ->
  exists d d', rfold (dapply Z Z Z dyn_user) (dyn_create Z Z Z) [DPoint _ _ 5; DBound _ _ b; DObj _ _ w1; DCons _ _ 1; DEval _ _; DObj _ _ w2] = Ok d
    /\ dc_wobj _ _ (d_conf _ _ _ d) = Some w2 /\ dyn_values Z Z Z dyn_user d = Ok (d', (w1, 7), b) /\ d_calls _ _ _ d' = 1%nat.
Proof.
  intros w1 w2 b H1 H2 H3. eexists _, _.
  cbn [rfold dapply rbind]. unfold dyn_eval at 1. unfold dyn_set_value, dyn_set_bound, dyn_set_wobj, dyn_set_wcons, dyn_create.
  cbn [d_conf d_bound d_flags d_val d_error d_calls dc_point dc_bound dc_wobj dc_wcons].
  unfold has at 1 2 3 4. cbn [d_flags]. cbn [check rbind Z.land Z.lor Z.lnot Z.shiftl Z.eqb negb HAS_VALUES HAS_ERROR_BOUND HAS_OBJ_WEIGHT HAS_CONS_WEIGHTS].
  unfold dyn_user at 1. cbn -[nltb neqb nlit n0]. rewrite H1, H2, H3. cbn [d_conf d_bound d_flags d_val d_error d_calls dc_point dc_bound dc_wobj dc_wcons].
  split; [reflexivity|]. split; [reflexivity|]. unfold dyn_values, dyn_eval, has. cbn [d_flags d_error d_val Z.land Z.eqb negb check rbind HAS_CONS_WEIGHTS HAS_OBJ_WEIGHT HAS_ERROR_BOUND HAS_VALUES Pos.land]. cbn -[nltb neqb nlit n0]. rewrite H2. cbn. split; reflexivity.
Qed.
Print Assumptions C53_weights_refuted.

(** A concrete history with a change of point in between: the returned value belongs to the second point. *)
Definition dyn_user2 (k : nat) (c : @dconf F64 Z Z) : res (@num F64 * Z * @num F64) :=
  match dc_point _ _ c, dc_bound _ _ c with
  | Some x, Some b => Ok (fz x, x * 10, fz 0)
  | _, _ => Err EFuncEval
  end.
Example C53_example :
  rmap (fun r => (@neqb F64 (fst (snd (fst r))) (fz 6), snd (snd (fst r)), d_calls _ _ _ (fst (fst r))))
    (d <- rfold (dapply Z Z Z dyn_user2) (dyn_create Z Z Z) [DPoint _ _ 5; DBound _ _ (fz 1); DObj _ _ (fz 1); DCons _ _ 1; DEval _ _; DEval _ _; DPoint _ _ 6] ;;
     dyn_values Z Z Z dyn_user2 d) = Ok (true, 60, 2%nat).
Proof. vm_compute. reflexivity. Qed.
