(** Property theorems C33-C36, C46, C58, C59: the solver loop.

    Specification vocabulary: the log of events of a run ([ev], Solver.v), most recent first; [n_ev f l]
    = number of events of [l] satisfying [f] (SolverIter.v); [is_iter]: an iteration is begun,
    [is_count]: an iteration is counted, [is_start]: the main loop of a problem solver is entered,
    [is_drop]: a corrected step is given up; [has_abort l]: the user requests an abort in [l].  All
    statements hold for every choice of the oracles [Or] (user functions, LP solver, step
    computation, step rule, clock, callbacks). *)
From Verif Require Import Base Num Cmp Sparse Vec Mat WorkingSet Feas TrustRadius Problem Restoration Solver SolverFacts SolverIter SolverLoop SolverEvents SolverCoh PropsVec SolverToy.
Local Open Scope Z_scope.

(** ** Facts about a finished computation *)
Lemma wp_run {N W A} (m : @M N W A) Q (E : option code -> _ -> Prop) s o s' : wp m Q E s -> m s = (o, s') ->
  match o with Done _ a => Q a s' | Fail _ c => E (Some c) s' | Stop _ => True | NoFuel _ => E None s' end.
Proof. unfold wp. intros H E0. rewrite E0 in H. destruct o; auto. Qed.

(** Statuses with which a call may end. *)
Definition is_final (x : sstatus) : bool :=
  match x with SOptimal | SUnbounded | SDeadpoint | SIter | SManual | STime => true | _ => false end.

(** ** C33 *)
Theorem C33_limit_partial {N W} : forall (Or : @oracles N W) cf fuel fi lim s o s',
  lim = -1 \/ 0 <= lim -> s_status s <> SInfeasible -> solver_solve Or cf fuel fi lim s = (o, s') -> o <> Stop _ ->
  exists l, s_log s' = l ++ s_log s /\ (lim = -1 \/ n_ev is_count l <= lim) /\
    (o = Done _ tt -> s_iters s' = n_ev is_count l /\ s_phase s' = Opt /\ is_final (s_status s') = true /\
                      (s_status s' = SIter -> n_ev is_count l = lim)).
Proof.
  intros Or cf fuel fi lim s o s' Hl Hi E Ho. pose proof (wp_run _ _ _ _ _ _ (solver_solve_spec Or cf fuel fi lim s Hl Hi) E) as H.
  destruct o as [[]|c| |]; try congruence.
  - destruct H as (l & n & L & C & Hn & Hlim & It & P & _ & St). subst n. exists l. split; [exact L|]. split; [exact Hlim|]. intros _.
    split; [exact It|]. split; [exact P|]. split; [destruct (s_status s'); auto; contradiction|]. intros E'. rewrite E' in St. apply St.
  - destruct H as (l & n & L & C & Hlim). subst n. exists l. split; [exact L|]. split; [exact Hlim|discriminate].
  - destruct H as (l & n & L & C & Hlim). subst n. exists l. split; [exact L|]. split; [exact Hlim|discriminate].
Qed.
Print Assumptions C33_limit_partial.
(** The bounds on the numbers of rounds given to the model are never reached. *)
Theorem C33_returns {N W} : forall (Or : @oracles N W) cf fuel fi lim s,
  0 <= lim -> lim < Z.of_nat fi -> 2 * lim + 2 <= Z.of_nat fuel -> s_phase s = Opt ->
  fst (solver_solve Or cf fuel fi lim s) <> NoFuel _.
Proof. intros. apply solver_solve_terminates; auto. Qed.
Print Assumptions C33_returns.
(** Iterations are begun only if they are counted, except the last one of each main loop. *)
Theorem C33_begun {N W} : forall (Or : @oracles N W) cf fuel fi lim s o s',
  solver_solve Or cf fuel fi lim s = (o, s') -> o <> Stop _ ->
  exists l, s_log s' = l ++ s_log s /\ n_ev is_iter l <= n_ev is_count l + n_ev is_start l.
Proof.
  intros Or cf fuel fi lim s o s' E Ho. pose proof (wp_run _ _ _ _ _ _ (solver_solve_over Or cf fuel fi lim s) E) as H.
  destruct o; try congruence; destruct H as (l & L & H); exists l; (split; [exact L|lia]).
Qed.
Print Assumptions C33_begun.

Definition d0 : @config F64 := tcf true true false (-1000).
Example C33_ex : let r := solver_solve (toy false) d0 8 4 3 (tstart []) in
  fst r = Done _ tt /\ s_status (snd r) = SIter /\ s_iters (snd r) = 3 /\ n_ev is_iter (s_log (snd r)) = 3.
Proof. vm_compute. auto. Qed.

(** Not always: the lower objective bound is also applied to the restoration problem, and the
    resulting status is not handled (an assertion fails). *)
Theorem C33_refuted : exists (Or : @oracles F64 tape) cf fuel fi lim s,
  0 <= lim < Z.of_nat fi /\ 2 * lim + 2 <= Z.of_nat fuel /\ s_phase s = Opt /\ s_status s = SUnknown /\ s_timer s = false /\
  p_timer (s_opt s) = false /\ p_timer (s_rest s) = false /\ fst (solver_solve Or cf fuel fi lim s) = Stop _.
Proof.
  exists (toy false), (tcf true true false 5), 8%nat, 4%nat, 3, (tstart [0; 10; 0; 0; 10]).
  split; [cbn; lia|]. split; [cbn; lia|]. vm_compute. auto 10.
Qed.
Print Assumptions C33_refuted.
(** Steps are computed for more iterations than the limit. *)
Theorem C33_begun_refuted : exists (Or : @oracles F64 tape) cf fuel fi s,
  let r := solver_solve Or cf fuel fi 1 s in
  fst r = Done _ tt /\ s_log s = [] /\ n_ev is_iter (s_log (snd r)) = 2 /\ n_ev is_hess (s_log (snd r)) = 2.
Proof.
  exists (toy false), d0, 8%nat, 4%nat, (tstart [0; 10; 0; 0; 10]). split; [vm_compute; reflexivity|]. split; [reflexivity|].
  split; vm_compute; reflexivity.
Qed.
Print Assumptions C33_begun_refuted.

(** ** C34 *)
Theorem C34_optimal {N W} : forall (Or : @oracles N W) cf fuel fi lim s s',
  lim = -1 \/ 0 <= lim -> s_status s <> SInfeasible -> solver_solve Or cf fuel fi lim s = (Done _ tt, s') -> s_status s' = SOptimal ->
  let i := p_it (s_opt s') in
  exists sl fe sr,
    slackness_residuum (it_cons i) (cf_clb cf) (cf_cub cf) (it_cdual i) (it_x i) (cf_lb cf) (cf_ub cf) (it_vdual i) = Ok sl /\
    max_violation (cf_nc cf) (it_cons i) (cf_clb cf) (cf_cub cf) = Ok fe /\
    stationarity_residuum (it_jac i) (it_grad i) (it_cdual i) (it_vdual i) = Ok sr /\
    nleb fe (cf_feas cf) = true /\ nleb (cf_slack cf) sl = false /\ nleb (cf_stat cf) sr = false.
Proof.
  intros Or cf fuel fi lim s s' Hl Hi E Hs i. pose proof (wp_run _ _ _ _ _ _ (solver_solve_spec Or cf fuel fi lim s Hl Hi) E) as H.
  destruct H as (l & n & _ & _ & _ & _ & _ & _ & _ & St). rewrite Hs in St. destruct St as (sl & fe & sr & R & O). fold i in R.
  unfold residua in R. cbn [clbs cubs lbs ubs ncons] in R.
  apply rbind_ok in R as (a & Ea & R). apply rbind_ok in R as (b & Eb & R). apply rbind_ok in R as (c & Ec & R).
  assert ((a, b, c) = (sl, fe, sr)) as Eq by congruence. assert (a = sl) by congruence. assert (b = fe) by congruence. assert (c = sr) by congruence. subst a b c.
  exists sl, fe, sr. unfold is_optimal, is_feasible in O. destruct (nleb fe (cf_feas cf)); [|discriminate]. cbn [negb] in O.
  destruct (nleb (cf_stat cf) sr); [discriminate|]. destruct (nleb (cf_slack cf) sl); [discriminate|]. auto 10.
Qed.
Print Assumptions C34_optimal.
Example C34_optimal_ex : let r := solver_solve (toy false) d0 8 4 3 (tstart [0; 0; 0; 0; 0; 0; 0; 10; 0; 20]) in
  fst r = Done _ tt /\ s_status (snd r) = SOptimal /\ s_iters (snd r) = 1.
Proof. vm_compute. auto. Qed.

(** For unboundedness only the objective is guaranteed; the feasibility of the final iterate is
    missing. *)
Theorem C34_unbounded_partial {N W} : forall (Or : @oracles N W) cf fuel fi lim s s',
  lim = -1 \/ 0 <= lim -> s_status s <> SInfeasible -> solver_solve Or cf fuel fi lim s = (Done _ tt, s') -> s_status s' = SUnbounded ->
  nleb (it_obj (p_it (s_opt s'))) (cf_objlow cf) = true.
Proof.
  intros Or cf fuel fi lim s s' Hl Hi E Hs. pose proof (wp_run _ _ _ _ _ _ (solver_solve_spec Or cf fuel fi lim s Hl Hi) E) as H.
  destruct H as (l & n & _ & _ & _ & _ & _ & _ & _ & St). rewrite Hs in St. exact St.
Qed.
Print Assumptions C34_unbounded_partial.
(** An infeasible initial point with small objective is reported as proof of unboundedness. *)
Theorem C34_unbounded_refuted : exists (Or : @oracles F64 tape) cf fuel fi lim s,
  let r := solver_solve Or cf fuel fi lim s in
  fst r = Done _ tt /\ s_status (snd r) = SUnbounded /\
  match max_violation (cf_nc cf) (it_cons (p_it (s_opt (snd r)))) (cf_clb cf) (cf_cub cf) with
  | Ok v => nltb (nlit 2 1) v && nltb (cf_feas cf) (nlit 1 1)
  | _ => false
  end = true.
Proof. exists (toy false), (tcf true true false (-50)), 8%nat, 4%nat, 3, (tstart [0; 30]). vm_compute. auto. Qed.
Print Assumptions C34_unbounded_refuted.

(** An iteration that does not fail at an iterate passing the optimality test ends with status
    optimal... *)
Theorem C34_converse_partial {N W} : forall (Or : @oracles N W) cf ph s s' sl fe sr,
  perform_iteration Or cf ph s = (Done _ tt, s') ->
  residua cf ph (p_it (ps_of ph s)) = Ok (sl, fe, sr) -> is_optimal (cf_feas cf) (cf_slack cf) (cf_stat cf) fe sl sr = true ->
  unbounded_test cf (ps_of ph s) = false ->
  p_status (ps_of ph s') = POptimal /\ p_it (ps_of ph s') = p_it (ps_of ph s).
Proof.
  intros Or cf ph s s' sl fe sr E R O U.
  assert (K : wp (perform_iteration Or cf ph) (fun _ s' => p_status (ps_of ph s') = POptimal /\ p_it (ps_of ph s') = p_it (ps_of ph s)) (fun _ _ => True) s).
  2: { exact (wp_run _ _ _ _ _ _ K E). }
  unfold perform_iteration. apply wp_bind, wp_getp, wp_bind, wp_assert. intros _. apply wp_bind, wp_lift; [|auto]. intros b _.
  apply wp_bind, wp_assert. intros _. apply wp_bind, wp_emit. rewrite U. apply wp_bind. unfold prepare_iteration.
  apply wp_bind, wp_getp. rewrite ps_of_log. apply wp_bind, wp_lift; [|auto]. intros m _. apply wp_bind, wp_lift; [|auto]. intros r Hr.
  assert (r = (sl, fe, sr)) by congruence. subst r. apply wp_bind, wp_modp, wp_bind, wp_modp.
  do 3 (apply wp_bind, wp_assert; intros _). apply wp_ret. apply wp_bind, wp_getp. rewrite ps_of_with, ps_of_with, ps_of_log.
  assert (F : forall a b c : num, forall p : ps, (if is_feasible fe (cf_feas cf) then ps_feas (p_nfeas p + 1) (p_nreset p) p else p) = p \/
     (if is_feasible fe (cf_feas cf) then ps_feas (p_nfeas p + 1) (p_nreset p) p else p) = ps_feas (p_nfeas p + 1) (p_nreset p) p)
    by (intros; destruct is_feasible; auto).
  destruct (F fe fe fe (ps_res sl fe sr (ps_of ph s))) as [-> | ->]; cbn [ps_res ps_feas p_feas p_slack p_stat]; rewrite O; apply wp_modp; rewrite !ps_of_with;
    destruct (is_feasible fe (cf_feas cf)); split; reflexivity.
Qed.
Print Assumptions C34_converse_partial.
Example C34_converse_ex : let s := with_ps Opt (ps_status PRunning (tps Opt)) (tstart []) in
  match residua d0 Opt (p_it (s_opt s)) with
  | Ok (sl, fe, sr) => is_optimal (cf_feas d0) (cf_slack d0) (cf_stat d0) fe sl sr && negb (unbounded_test d0 (s_opt s))
  | _ => false
  end = true /\ fst (perform_iteration (toy false) d0 Opt s) = Done _ tt.
Proof. vm_compute. auto. Qed.
(** ...but the status is replaced if the time limit is exhausted meanwhile, *)
Theorem C34_time_refuted : exists (Or : @oracles F64 tape) cf fuel fi lim s,
  let r := solver_solve Or cf fuel fi lim s in
  fst r = Done _ tt /\ s_status (snd r) = STime /\ n_ev is_iter (s_log (snd r)) = 1 /\
  match residua cf Opt (p_it (s_opt (snd r))) with
  | Ok (sl, fe, sr) => is_optimal (cf_feas cf) (cf_slack cf) (cf_stat cf) fe sl sr
  | _ => false
  end = true.
Proof. exists (toy false), d0, 8%nat, 4%nat, 3, (tstart [0; 20; 0; 0; 4]). vm_compute. auto. Qed.
Print Assumptions C34_time_refuted.
(** or if a trust radius is small, as it is in every call that follows one that ended with status
    deadpoint. *)
Theorem C34_deadpoint_refuted : exists (Or : @oracles F64 tape) cf fuel fi lim s,
  let r := solver_solve Or cf fuel fi lim s in
  fst r = Done _ tt /\ s_status (snd r) = SDeadpoint /\ n_ev is_iter (s_log (snd r)) = 1 /\
  match residua cf Opt (p_it (s_opt (snd r))) with
  | Ok (sl, fe, sr) => is_optimal (cf_feas cf) (cf_slack cf) (cf_stat cf) fe sl sr
  | _ => false
  end = true.
Proof.
  exists (toy false), d0, 8%nat, 4%nat, 3, (with_ps Opt (ps_rad (nlit 1 1000000000) (nlit 1 1000000000) (fz 10) (tps Opt)) (tstart [0; 20])).
  vm_compute. auto.
Qed.
Print Assumptions C34_deadpoint_refuted.

(** ** C35 *)
(** An iteration is begun after a request to abort. *)
Definition ignored {N} (l : list (@ev N)) : Prop := exists l1 ph l2, l = l1 ++ EAbort ph :: l2 /\ 0 < n_ev is_iter l1.
Fixpoint ignoredb {N} (it : bool) (l : list (@ev N)) : bool :=
  match l with
  | [] => false
  | EAbort _ :: t => it || ignoredb it t
  | EIter _ :: t => ignoredb true t
  | _ :: t => ignoredb it t
  end.
Lemma ignoredb_sound {N} (l : list (@ev N)) : ignoredb false l = true -> ignored l.
Proof.
  assert (G : forall l b, ignoredb b l = true -> exists l1 ph l2, l = l1 ++ EAbort ph :: l2 /\ (b = false -> 0 < n_ev is_iter l1)).
  { clear l. induction l as [|e l IH]; intros b H; [discriminate|].
    assert (K : forall b', ignoredb b' l = true -> (b' = b \/ is_iter e = true) -> exists l1 ph l2, e :: l = l1 ++ EAbort ph :: l2 /\ (b = false -> 0 < n_ev is_iter l1)).
    { intros b' H' Hb. destruct (IH _ H') as (l1 & ph & l2 & -> & I). exists (e :: l1), ph, l2. split; [reflexivity|]. intros E.
      change (e :: l1) with ([e] ++ l1). rewrite n_ev_app. pose proof (n_ev_pos is_iter l1). destruct Hb as [->|Hb].
      - specialize (I E). pose proof (n_ev_pos is_iter [e]). lia.
      - assert (n_ev is_iter [e] = 1) as -> by (unfold n_ev; cbn; now rewrite Hb). lia. }
    destruct e; cbn in H; try (apply (K _ H); auto).
    apply orb_true_iff in H as [H|H]; [|apply (K _ H); auto]. subst b. exists [], ph, l. split; [reflexivity|discriminate]. }
  intros H. destruct (G _ _ H) as (l1 & ph & l2 & E & I). exists l1, ph, l2. split; [exact E|auto].
Qed.

(** A request during the evaluation of the initial point, *)
Theorem C35_initial_refuted : exists (Or : @oracles F64 tape) cf fuel fi lim s,
  let r := solver_solve Or cf fuel fi lim s in fst r = Done _ tt /\ s_status (snd r) = SIter /\ ignored (s_log (snd r)).
Proof.
  exists (toy false), d0, 8%nat, 4%nat, 3, (tstart [0; 3]). split; [vm_compute; reflexivity|]. split; [vm_compute; reflexivity|].
  apply ignoredb_sound. vm_compute. reflexivity.
Qed.
Print Assumptions C35_initial_refuted.
(** during restoration, *)
Theorem C35_restoration_refuted : exists (Or : @oracles F64 tape) cf fuel fi lim s,
  let r := solver_solve Or cf fuel fi lim s in fst r = Done _ tt /\ s_status (snd r) = SIter /\ ignored (s_log (snd r)) /\
  existsb (fun e => match e with EAbort Rest => true | _ => false end) (s_log (snd r)) = true.
Proof.
  exists (toy false), d0, 8%nat, 4%nat, 3, (tstart [0; 10; 0; 0; 10; 0; 0; 0; 0; 0; 3]). split; [vm_compute; reflexivity|]. split; [vm_compute; reflexivity|].
  split; [|vm_compute; reflexivity]. apply ignoredb_sound. vm_compute. reflexivity.
Qed.
Print Assumptions C35_restoration_refuted.
(** or in an iteration that leads to restoration is ignored. *)
Theorem C35_infeasible_refuted : exists (Or : @oracles F64 tape) cf fuel fi lim s,
  let r := solver_solve Or cf fuel fi lim s in fst r = Done _ tt /\ s_status (snd r) = SIter /\ ignored (s_log (snd r)) /\
  existsb (fun e => match e with EAbort Rest => true | _ => false end) (s_log (snd r)) = false.
Proof.
  exists (toy false), d0, 8%nat, 4%nat, 3, (tstart [0; 10; 0; 0; 13]). split; [vm_compute; reflexivity|]. split; [vm_compute; reflexivity|].
  split; [|vm_compute; reflexivity]. apply ignoredb_sound. vm_compute. reflexivity.
Qed.
Print Assumptions C35_infeasible_refuted.
(** Within one call of the optimisation solver, no iteration is begun after a request that comes after
    the start of its main loop, and the request is not forgotten. *)
Theorem C35_main_loop_partial {N W} : forall (Or : @oracles N W) cf fuel lim ali s s',
  lim = -1 \/ 0 <= lim -> ps_solve Or cf fuel Opt lim ali s = (Done _ tt, s') ->
  exists l l0, s_log s' = l ++ EStart Opt :: l0 ++ s_log s /\ n_ev is_iter l0 = 0 /\ ~ ignored l /\ p_abort (s_opt s') = has_abort l /\
    (p_status (s_opt s') = PManual -> has_abort l = true).
Proof.
  intros Or cf fuel lim ali s s' Hl E. pose proof (wp_run _ _ _ _ _ _ (ps_solve_spec Or cf fuel Opt lim ali s Hl) E) as H.
  destruct H as (n & x & So & _). destruct (so_log _ _ _ _ _ _ _ _ So) as (l & l0 & L & Q & _ & O & _ & _ & A).
  exists l, l0. split; [exact L|]. split; [apply (quiet_counts _ _ Q)|]. split.
  - intros (l1 & ph & l2 & -> & I). specialize (O eq_refl l1 (EAbort ph :: l2) eq_refl eq_refl). lia.
  - split; [exact A|]. intros Hm. pose proof (so_pstatus _ _ _ _ _ _ _ _ So) as P. cbn [ps_of] in P. rewrite Hm in P. subst x.
    pose proof (so_verdict _ _ _ _ _ _ _ _ So) as V. cbn in V. congruence.
Qed.
Print Assumptions C35_main_loop_partial.
(** Without restoration, the same holds for the whole call; the status tells the user. *)
Theorem C35_no_restoration_partial {N W} : forall (Or : @oracles N W) cf fuel fi lim s s',
  cf_restoration cf = false -> s_phase s = Opt -> s_status s <> SInfeasible -> lim = -1 \/ 0 <= lim ->
  solver_solve Or cf fuel fi lim s = (Done _ tt, s') ->
  exists l a, s_log s' = l ++ a ++ s_log s /\ n_ev is_iter a = 0 /\ ~ ignored l /\
    (n_ev is_iter l = 0 \/ exists a', a = EStart Opt :: a') /\ (s_status s' = SManual -> has_abort l = true).
Proof.
  intros Or cf fuel fi lim s s' Hr Hp Hi Hl E.
  assert (K : wp (solver_solve Or cf fuel fi lim) (fun _ z => exists l2 (s2 s3 : @st N W) l4, s_log s2 = l2 ++ s_log s /\ n_ev is_iter l2 = 0 /\ single s2 s3 /\
     (s_status s3 = SManual -> p_abort (s_opt s3) = true) /\ s_status z = s_status s3 /\ s_log z = l4 ++ s_log s3 /\ n_ev is_iter l4 = 0) (fun _ _ => True) s).
  { unfold solver_solve. apply wp_bind, wp_get.
    assert (B : forall A (a b : A), match s_status s with SInfeasible => a | _ => b end = b) by (intros; destruct (s_status s); congruence).
    rewrite B. clear B. apply wp_bind, wp_assert. intros Ht. apply wp_bind, wp_modify, wp_bind. unfold run_solving_loop.
    apply wp_bind, wp_modify, wp_bind. eapply wp_cons; [apply set_initial_iterate_fr| |]; cbv beta; intros c s2 H2; [|exact I].
    pose proof (silent_fr _ _ _ H2) as S2. assert (P2 : s_phase s2 = Opt) by (rewrite (fr_phase _ _ _ H2); exact Hp). clear H2.
    destruct S2 as (_ & _ & _ & l2 & L2 & C2 & I2). cbn [s_log with_iters with_timer] in L2.
    apply wp_bind. rewrite Hr.
    assert (U1 : (lim =? -1) = true -> lim = -1) by lia. assert (U2 : (lim =? -1) = false -> 0 <= lim) by lia.
    eapply wp_cons; [apply (wp_and _ _ _ _ _ _ (run_loop_single Or cf fi fuel lim (lim =? -1) s2 P2 U1 U2) (run_loop_spec Or cf fi fuel s2 lim (lim =? -1) false U1 U2))| |]; cbv beta; [|auto].
    intros _ s3 ((S3 & P3) & (x3 & n3 & _ & _ & _ & _ & _ & _ & F3)).
    apply wp_bind, wp_get, wp_bind, wp_assert. intros _. rewrite P3. apply wp_ret.
    apply wp_bind. eapply wp_cons; [apply restore_original_fs| |]; cbv beta; intros c' s5 S5; pose proof (silent_fs _ _ S5) as S5'; [|exact I]. clear S5.
    apply wp_bind, wp_getp, wp_bind, wp_lift; intros v _; [|exact I].
    apply wp_bind, wp_ask; intros ? s6 S6; [|exact I]. apply fs_ua in S6; pose proof (po_trans _ silent_preo _ _ _ S5' (silent_fs _ _ S6)) as (_ & St6 & _ & l4 & L4 & _ & I4).
    apply wp_modify. exists l2, s2, s3, l4. repeat (split; [assumption|]). split; [|split; [|split; [exact L4|exact I4]]].
    - intros Em. unfold final_status in F3. rewrite Em in F3. apply F3.
    - exact St6. }
  apply (fun K => wp_run _ _ _ _ _ _ K E) in K. destruct K as (l2 & s2 & s3 & l4 & L2 & I2 & (l & L & H) & A3 & S4 & L4 & I4).
  destruct H as [(I3 & NM)|(k1 & k2 & -> & Q & _ & O & A)].
  - exists (l4 ++ l), l2. rewrite L4, L, L2, <- app_assoc. split; [reflexivity|]. split; [exact I2|].
    assert (Z0 : n_ev is_iter (l4 ++ l) = 0) by (rewrite n_ev_app; lia).
    split; [|split; [now left|congruence]]. intros (a & ph & b & Eab & I0). rewrite Eab, n_ev_app in Z0. pose proof (n_ev_pos is_iter (EAbort ph :: b)). lia.
  - exists (l4 ++ k1), (EStart Opt :: k2 ++ l2). rewrite L4, L, L2. split; [now rewrite <- !app_assoc, <- !app_comm_cons, <- app_assoc|].
    split. { change (EStart Opt :: k2 ++ l2) with ([EStart Opt] ++ k2 ++ l2). rewrite !n_ev_app, I2. destruct (quiet_counts _ _ Q) as (-> & _). reflexivity. }
    split; [|split; [right; eauto|]].
    + intros (a & ph & b & Eab & I0). apply app_split in Eab as [(c & -> & Ec)|(c & -> & Ec)].
      * rewrite n_ev_app, I4, (O c (EAbort ph :: b) Ec eq_refl) in I0. lia.
      * rewrite n_ev_app in I4. pose proof (n_ev_pos is_iter c). lia.
    + intros Em. rewrite S4 in Em. apply A3 in Em. rewrite has_abort_app, <- A, Em. apply orb_true_r.
Qed.
Print Assumptions C35_no_restoration_partial.
Example C35_ex : let r := solver_solve (toy false) (tcf true false false (-1000)) 8 4 3 (tstart [0; 0; 0; 0; 3]) in
  fst r = Done _ tt /\ s_status (snd r) = SManual /\ s_iters (snd r) = 1 /\ has_abort (s_log (snd r)) = true.
Proof. vm_compute. auto. Qed.

(** ** C36 *)
(** Corrected steps that are given up are not counted as rejected. *)
Theorem C36_sum_partial {N W} : forall (Or : @oracles N W) cf fuel ph lim ali s s',
  lim = -1 \/ 0 <= lim -> ps_solve Or cf fuel ph lim ali s = (Done _ tt, s') ->
  exists l, s_log s' = l ++ s_log s /\
    let c := p_cnt (ps_of ph s') in
    c_elapsed c = n_ev is_count l /\ c_acc c + c_soc c + c_rej c + n_ev is_drop l = c_elapsed c /\
    c_iter c = c_iter (p_cnt (ps_of ph s)) + n_ev is_count l.
Proof.
  intros Or cf fuel ph lim ali s s' Hl E. pose proof (wp_run _ _ _ _ _ _ (ps_solve_spec Or cf fuel ph lim ali s Hl) E) as (n & x & So & Hn & _).
  destruct (so_log _ _ _ _ _ _ _ _ So) as (l & l0 & L & Q & F & _ & C & S & _). destruct (quiet_counts _ _ Q) as (_ & Qc & Qd).
  exists (l ++ EStart ph :: l0). split; [rewrite L, <- app_assoc; reflexivity|]. cbv zeta.
  assert (Ec : n_ev is_count (l ++ EStart ph :: l0) = n) by (rewrite n_ev_app; change (EStart ph :: l0) with ([EStart ph] ++ l0); rewrite n_ev_app, Qc; cbn; lia).
  assert (Ed : n_ev is_drop (l ++ EStart ph :: l0) = n_ev is_drop l) by (rewrite n_ev_app; change (EStart ph :: l0) with ([EStart ph] ++ l0); rewrite n_ev_app, Qd; cbn; lia).
  rewrite Ec, Ed, (so_elapsed _ _ _ _ _ _ _ _ So), (so_iter _ _ _ _ _ _ _ _ So). unfold steps in S. lia.
Qed.
Print Assumptions C36_sum_partial.
(** Without second-order corrections (no constraints, or the option is off) the counters add up. *)
Theorem C36_no_correction_partial {N W} : forall (Or : @oracles N W) cf fuel ph lim ali s s',
  lim = -1 \/ 0 <= lim -> ncons cf ph <= 0 \/ cf_perf_soc cf = false -> ps_solve Or cf fuel ph lim ali s = (Done _ tt, s') ->
  let c := p_cnt (ps_of ph s') in c_acc c + c_soc c + c_rej c = c_elapsed c.
Proof.
  intros Or cf fuel ph lim ali s s' Hl Hs E c. destruct (C36_sum_partial _ _ _ _ _ _ _ _ Hl E) as (l & L & _ & H & _).
  assert (NS : (0 <? ncons cf ph) && cf_perf_soc cf = false) by (destruct Hs as [H'| ->]; [replace (0 <? ncons cf ph) with false by lia; reflexivity|apply andb_false_r]).
  pose proof (wp_run _ _ _ _ _ _ (ps_solve_d Or cf ph NS fuel lim ali s) E) as (l' & L' & D). cbv beta in L'.
  assert (l = l') by (apply (app_inv_tail (s_log s)); congruence). subst l'. fold c in H. rewrite (no_drop _ D) in H. lia.
Qed.
Print Assumptions C36_no_correction_partial.
Theorem C36_refuted : exists (Or : @oracles F64 tape) cf fuel fi lim s,
  let r := solver_solve Or cf fuel fi lim s in let c := p_cnt (s_opt (snd r)) in
  fst r = Done _ tt /\ s_iters (snd r) = 1 /\ c_elapsed c = 1 /\ c_acc c + c_soc c + c_rej c = 0.
Proof. exists (toy false), d0, 8%nat, 4%nat, 1, (tstart [0; 0; 0; 0; 0; 0; 0; 0; 10]). vm_compute. auto. Qed.
Print Assumptions C36_refuted.
Example C36_ex : let r := solver_solve (toy false) d0 8 4 3 (tstart [0; 0; 0; 0; 0; 0; 0; 10]) in let c := p_cnt (s_opt (snd r)) in
  fst r = Done _ tt /\ c_elapsed c = 3 /\ c_acc c = 1 /\ c_rej c = 2 /\ s_iters (snd r) = 3.
Proof. vm_compute. auto. Qed.

Example C36_no_correction_ex : let cf := tcf false true false (-1000) in
  let s := snd (solver_solve (toy false) cf 8 4 1 (tstart [0; 0; 0; 0; 0; 0; 0; 10])) in
  let r := ps_solve (toy false) cf 8 Opt 3 true s in let c := p_cnt (s_opt (snd r)) in
  fst r = Done _ tt /\ c_elapsed c = 3 /\ c_iter c = 4 /\ c_rej c = 3.
Proof. vm_compute. auto. Qed.

(** ** C46, C59 *)
Lemma toy_sane has soc rest pre low : sane (toy has) (tcf soc rest pre low).
Proof.
  assert (NN : forall l, Forall (fun e : Z * Z => 0 <= fst e) l -> nn (vent (ve 1 l)) /\ nn (vent (ve 0 l))).
  { intros l H. unfold ve. cbn [vent]. split; (induction H; [constructor|constructor; [exact H|assumption]]). }
  assert (P0 : nn (vent (ve 1 [])) /\ nn (vent (ve 0 []))) by (apply (NN []); constructor).
  assert (P1 : nn (vent (ve 1 [(0, 3)]))) by (apply (NN [(0, 3)]); constructor; [cbn; lia|constructor]).
  constructor.
  - apply Z.le_0_1.
  - apply (NN [(0, -10)]). constructor; [cbn; lia|constructor].
  - apply (NN []). constructor.
  - intros w ph e H. unfold toy in H. cbn [or_eval] in H. unfold act in H. destruct (pop w) as [c t]. cbn [fst] in H.
    assert (e = tevs ph (c / 10)) as -> by (destruct (c mod 10) as [|[|[]|]|]; cbn in H; congruence || (repeat (destruct p; cbn in H; try congruence))).
    destruct ph; [|apply P0]. unfold tevs. cbn [ev_cons]. destruct (c / 10) as [|[[|[]|]|[]|]|]; first [apply P0 | exact P1].
  - intros w e H. unfold toy in H. cbn [or_rcons] in H. unfold act in H. destruct (pop w) as [c t]. cbn [fst] in H.
    assert (e = match c / 10 with 1 => ve 1 [] | _ => ve 1 [(0, 3)] end) as -> by (destruct (c mod 10) as [|[|[]|]|]; cbn in H; congruence || (repeat (destruct p; cbn in H; try congruence))).
    destruct (c / 10) as [|[]|]; first [apply P0 | exact P1].
  - intros w ph p e H. unfold toy in H. cbn [or_trial] in H. unfold act in H. destruct (pop w) as [c t]. cbn in H. discriminate.
Qed.

(** Whenever a step is computed (Hessian products are requested) the functions are at the iterate:
    [EHess ph u r x] records the point [u] last given to the user function, the point [r] last given
    to the restoration function and the iterate [x]; [upart cf ph x] is the user's part of [x]. *)
Theorem C46_hessian_partial {N W} : forall (Or : @oracles N W) cf fuel fi lim s o s',
  sane Or cf -> (cf_preproc cf = false \/ forall w, or_has_cb Or w = false) ->
  solver_solve Or cf fuel fi lim s = (o, s') -> o <> Stop _ ->
  exists l, s_log s' = l ++ s_log s /\
    forall ph u r x, In (EHess ph u r x) l -> u = Some (upart cf ph x) /\ (ph = Rest -> r = Some x).
Proof.
  intros Or cf fuel fi lim s o s' Sn Cb E Ho.
  assert (S0 : okl cf (s_log s) s) by (exists []; split; [reflexivity|constructor]).
  pose proof (wp_run _ _ _ _ _ _ (solver_solve_H Or cf (s_log s) Sn Cb fuel fi lim s S0) E) as H.
  destruct o; try congruence; destruct H as (l & L & H); exists l; (split; [exact L|]); intros ph u r x Hi; apply (H _ Hi eq_refl).
Qed.
Print Assumptions C46_hessian_partial.
Definition count_hess (cf : @config F64) (b : bool) (l : list (@ev F64)) : Z :=
  n_ev (fun e => match tagof cf e with (THess c, _) => Bool.eqb b c | _ => false end) l.
Example C46_ex : let r := solver_solve (toy false) d0 8 4 3 (tstart [0; 10; 0; 0; 10; 0; 0; 0; 0; 0; 0]) in
  fst r = Done _ tt /\ count_hess d0 true (s_log (snd r)) = 4 /\ count_hess d0 false (s_log (snd r)) = 0 /\ n_ev is_start (s_log (snd r)) = 2.
Proof. vm_compute. auto. Qed.
(** With preprocessing and a callback for accepted iterates, the function is moved to the restored
    point and not back. *)
Lemma same_not (a : option (@pt F64)) x : same a x = false -> Forall (fun e => @neqb F64 (snd e) (snd e) = true) x -> a <> Some x.
Proof.
  intros H F ->. unfold same in H. rewrite Nat.eqb_refl in H. cbn [andb] in H. induction F as [|e x He F IH]; [discriminate|].
  cbn [List.combine forallb fst snd] in H. rewrite Z.eqb_refl, He in H. exact (IH H).
Qed.
Definition stale (cf : @config F64) (e : @ev F64) : bool :=
  match e with EHess ph u _ x => negb (same u (upart cf ph x)) && forallb (fun e => @neqb F64 (snd e) (snd e)) (upart cf ph x) | _ => false end.
Lemma stale_sound cf l : existsb (stale cf) l = true -> exists ph u r x, In (EHess ph u r x) l /\ u <> Some (upart cf ph x).
Proof.
  intros H. apply existsb_exists in H as (e & Hi & H). destruct e; try discriminate. cbn in H. apply andb_true_iff in H as (H1 & H2).
  do 4 eexists. split; [exact Hi|]. apply same_not; [now apply negb_true_iff|]. apply Forall_forall. intros y Hy. eapply forallb_forall in H2; eauto.
Qed.
Theorem C46_refuted : exists (Or : @oracles F64 tape) cf fuel fi lim s,
  let r := solver_solve Or cf fuel fi lim s in
  fst r = Done _ tt /\ sane Or cf /\ exists ph u r' x, In (EHess ph u r' x) (s_log (snd r)) /\ u <> Some (upart cf ph x).
Proof.
  exists (toy true), (tcf true true true (-1000)), 8%nat, 4%nat, 2, (tstart [0; 0; 0; 0; 0; 0; 0; 10]).
  split; [vm_compute; reflexivity|]. split; [apply toy_sane|]. apply stale_sound. vm_compute. reflexivity.
Qed.
Print Assumptions C46_refuted.

(** The values stored with the final iterate were computed at its primal point, unless an error was
    replaced by the time limit during restoration. *)
Theorem C59_values_partial {N W} : forall (Or : @oracles N W) cf fuel fi lim s s',
  sane Or cf -> (cf_preproc cf = false \/ forall w, or_has_cb Or w = false) -> s_status s <> SInfeasible ->
  solver_solve Or cf fuel fi lim s = (Done _ tt, s') ->
  let i := p_it (s_opt s') in let x := Some (vent (it_x i)) in
  (it_oat i = x /\ it_gat i = x /\ it_cat i = x /\ it_jat i = x) \/
  (exists l c, s_log s' = l ++ s_log s /\ In (ELost Rest c) l).
Proof.
  intros Or cf fuel fi lim s s' Sn Cb Hi E i x.
  assert (S0 : okl cf (s_log s) s) by (exists []; split; [reflexivity|constructor]).
  destruct (wp_run _ _ _ _ _ _ (solver_solve_K Or cf (s_log s) Sn Cb fuel fi lim s S0) E) as [H|[H|(_ & (H1 & H2) & H3 & H4)]]; [contradiction|now right|].
  left. destruct (H2 eq_refl) as (H5 & _). auto.
Qed.
Print Assumptions C59_values_partial.
(** The recorded points are sound: a record changes only together with the value it belongs to. *)
Theorem C59_records {N} : forall (wh : what) (e : @evals N) c (i : @iterate N),
  let j := store wh e c i in
  it_x j = it_x i
  /\ (it_oat j = it_oat i /\ it_obj j = it_obj i \/ it_oat j = c /\ it_obj j = ev_obj e)
  /\ (it_gat j = it_gat i /\ it_grad j = it_grad i \/ it_gat j = c /\ it_grad j = ev_grad e)
  /\ (it_cat j = it_cat i /\ it_cons j = it_cons i \/ it_cat j = c /\ it_cons j = ev_cons e)
  /\ (it_jat j = it_jat i /\ it_jac j = it_jac i \/ it_jat j = c /\ it_jac j = ev_jac e).
Proof. intros [] e c i; cbn; auto 10. Qed.
Print Assumptions C59_records.
(** Only a trial point may be rejected; the rejection of an accepted or restored point is an error. *)
Theorem C59_rejection {N W} : forall (Or : @oracles N W) cf ph x r s s',
  set_value Or cf ph x r s = (Done _ true, s') ->
  set_func_value Or cf ph x r s = (match r with RTrying => Done _ true | _ => Fail _ EFuncEval end, s').
Proof. intros Or cf ph x r s s' E. unfold set_func_value. cbv [bind]. rewrite E. destruct r; reflexivity. Qed.
Print Assumptions C59_rejection.
Example C59_rejection_ex :
  fst (set_value (toy false) d0 Opt (ve 1 [(0, 1)]) RAccepted (tstart [1])) = Done _ true
  /\ fst (set_func_value (toy false) d0 Opt (ve 1 [(0, 1)]) RAccepted (tstart [1])) = Fail _ EFuncEval.
Proof. vm_compute. auto. Qed.
Example C59_ex : let r := solver_solve (toy false) d0 8 4 3 (tstart [0; 0; 0; 0; 0; 0; 0; 10]) in let i := p_it (s_opt (snd r)) in
  fst r = Done _ tt /\ map fst (vent (it_x i)) = [0] /\ same (it_oat i) (vent (it_x i)) = true /\ existsb (fun e => match e with ELost _ _ => true | _ => false end) (s_log (snd r)) = false.
Proof. vm_compute. auto. Qed.
Theorem C59_refuted : exists (Or : @oracles F64 tape) cf fuel fi lim s,
  let r := solver_solve Or cf fuel fi lim s in let i := p_it (s_opt (snd r)) in
  fst r = Done _ tt /\ s_status (snd r) = STime /\ sane Or cf /\ map fst (vent (it_x i)) = [] /\ option_map (map fst) (it_oat i) = Some [0].
Proof.
  exists (toy false), d0, 8%nat, 4%nat, 3, (tstart [0; 10; 0; 0; 10; 0; 0; 0; 0; 0; 2; 4]).
  split; [vm_compute; reflexivity|]. split; [vm_compute; reflexivity|]. split; [apply toy_sane|]. split; [vm_compute; reflexivity|].
  vm_compute. reflexivity.
Qed.
Print Assumptions C59_refuted.

(** ** C58 *)
(** The main timer is stopped when a call returns normally. *)
Theorem C58_timer_partial {N W} : forall (Or : @oracles N W) cf fuel fi lim s s',
  lim = -1 \/ 0 <= lim -> s_status s <> SInfeasible -> solver_solve Or cf fuel fi lim s = (Done _ tt, s') ->
  s_timer s' = false /\ s_phase s' = Opt /\ s_status s' <> SRunning /\ s_status s' <> SUnknown.
Proof.
  intros Or cf fuel fi lim s s' Hl Hi E. pose proof (wp_run _ _ _ _ _ _ (solver_solve_spec Or cf fuel fi lim s Hl Hi) E) as (l & n & _ & _ & _ & _ & _ & P & T & St).
  repeat split; auto; intros E'; rewrite E' in St; exact St.
Qed.
Print Assumptions C58_timer_partial.
(** The timer of the trial point solver is not: after a time limit the next call ends in an assertion. *)
Theorem C58_refuted : exists (Or : @oracles F64 tape) cf fuel fi lim s,
  let r := solver_solve Or cf fuel fi lim s in
  fst r = Done _ tt /\ s_status (snd r) = STime /\ fst (solver_solve Or cf fuel fi lim (snd r)) = Stop _.
Proof. exists (toy false), d0, 8%nat, 4%nat, 2, (tstart [0; 0; 0; 0; 4]). vm_compute. auto. Qed.
Print Assumptions C58_refuted.
(** After an error the main timer keeps running. *)
Theorem C58_error_refuted : exists (Or : @oracles F64 tape) cf fuel fi lim s,
  let r := solver_solve Or cf fuel fi lim s in
  fst r = Fail _ EFuncEval /\ fst (solver_solve Or cf fuel fi lim (snd r)) = Stop _.
Proof. exists (toy false), d0, 8%nat, 4%nat, 2, (tstart [0; 2]). vm_compute. auto. Qed.
Print Assumptions C58_error_refuted.
Example C58_ex : let r := solver_solve (toy false) d0 8 4 3 (tstart []) in let r2 := solver_solve (toy false) d0 8 4 3 (snd r) in
  fst r = Done _ tt /\ fst r2 = Done _ tt /\ s_iters (snd r2) = 3 /\ n_ev is_count (s_log (snd r2)) = 6.
Proof. vm_compute. auto. Qed.
