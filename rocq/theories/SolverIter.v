(** What an iteration, a problem solver and the solver change: counters, statistics, abort flags and
    status. *)
From Verif Require Import Base Num Cmp Sparse Vec Mat WorkingSet Feas TrustRadius Problem Restoration Solver SolverFacts.
Local Open Scope Z_scope.

Section Iter.
Context {N : Num} {W : Type}.
Variable Or : @oracles N W.
Variable cf : @config N.
Notation st := (@st N W).
Notation M := (@M N W).
Notation ev := (@ev N).

(** Numbers of events. *)
Definition n_ev (f : ev -> bool) (l : list ev) : Z := Z.of_nat (length (filter f l)).
Definition is_count (e : ev) : bool := match e with ECount _ => true | _ => false end.
Definition is_drop (e : ev) : bool := match e with EDrop _ => true | _ => false end.
Definition is_iter (e : ev) : bool := match e with EIter _ => true | _ => false end.
Lemma n_ev_app f l1 l2 : n_ev f (l1 ++ l2) = n_ev f l1 + n_ev f l2.
Proof. unfold n_ev. rewrite filter_app, app_length. lia. Qed.
Lemma n_ev_pos f l : 0 <= n_ev f l.
Proof. unfold n_ev. lia. Qed.

Definition steps (c : cnt) : Z := c_acc c + c_soc c + c_rej c.
(** Events inside an iteration of phase [ph] while the solver is in phase [q]. *)
Definition inner (ph q : phase) (e : ev) : Prop :=
  match e with
  | EAbort x => x = q
  | EIter x | ECount x | EDrop x | ELost x _ => x = ph
  | EHess _ _ _ _ | EEval _ _ _ _ => True
  | EStart _ | EPhase _ => False
  end.

(** No iteration is begun after a request to abort. *)
Definition ord (l : list ev) : Prop := forall l1 l2, l = l1 ++ l2 -> has_abort l2 = true -> n_ev is_iter l1 = 0.
Lemma ord_quiet l : n_ev is_iter l = 0 -> ord l.
Proof. intros H l1 l2 -> _. rewrite n_ev_app in H. pose proof (n_ev_pos is_iter l1). pose proof (n_ev_pos is_iter l2). lia. Qed.
Lemma app_split {A} (a b l1 l2 : list A) : a ++ b = l1 ++ l2 ->
  (exists c, l1 = a ++ c /\ b = c ++ l2) \/ (exists c, a = l1 ++ c /\ l2 = c ++ b).
Proof.
  revert l1. induction a as [|x a IH]; intros l1 E.
  - left. exists l1. auto.
  - destruct l1 as [|y l1].
    + right. exists (x :: a). auto.
    + cbn in E. assert (x = y) by congruence. subst y. assert (E' : a ++ b = l1 ++ l2) by congruence.
      destruct (IH _ E') as [(c & -> & ->)|(c & -> & ->)]; [left|right]; exists c; auto.
Qed.
Lemma ord_app l l' : ord l -> n_ev is_iter l' = 0 -> ord (l' ++ l).
Proof.
  intros O I l1 l2 E A. pose proof (n_ev_pos is_iter) as P. destruct (app_split _ _ _ _ E) as [(c & -> & ->)|(c & -> & ->)].
  - rewrite n_ev_app, I. apply (O c l2 eq_refl A).
  - rewrite n_ev_app in I. pose proof (P l1). pose proof (P c). lia.
Qed.
Lemma ord_app' l l' : ord l' -> has_abort l = false -> ord (l' ++ l).
Proof.
  intros O I l1 l2 E A. destruct (app_split _ _ _ _ E) as [(c & -> & ->)|(c & -> & ->)].
  - rewrite has_abort_app, A, orb_true_r in I. discriminate.
  - apply (O l1 c eq_refl). rewrite has_abort_app, I, orb_false_r in A. exact A.
Qed.

(** From [s] to [s'], steps and dropped corrections increase by [d], counted iterations by [k], and [i]
    iterations are begun; the restoration solver is told to stop only if [r]. *)
Record prn (ph : phase) (i d k : Z) (r : bool) (s s' : st) : Prop := {
  pr_phase : s_phase s' = s_phase s;
  pr_status : s_status s' = s_status s;
  pr_iters : s_iters s' = s_iters s;
  pr_primal : s_primal s' = s_primal s;
  pr_rprimal : s_rprimal s' = s_rprimal s;
  pr_timer : s_timer s' = s_timer s;
  pr_pstatus : p_status (ps_of ph s') = p_status (ps_of ph s);
  pr_ali : p_ali (ps_of ph s') = p_ali (ps_of ph s);
  pr_other : match ph with Opt => s_rest s' = s_rest s | Rest => exists ab, s_opt s' = ps_abort ab (s_opt s) end;
  pr_rabort : p_abort (s_rest s') = true -> p_abort (s_rest s) = true \/ r = true;
  pr_elapsed : c_elapsed (p_cnt (ps_of ph s')) = c_elapsed (p_cnt (ps_of ph s)) + k;
  pr_iter : c_iter (p_cnt (ps_of ph s')) = c_iter (p_cnt (ps_of ph s)) + k;
  pr_log : exists l, s_log s' = l ++ s_log s /\ Forall (inner ph (s_phase s)) l /\ ord l /\ n_ev is_iter l = i /\ n_ev is_count l = k /\
             steps (p_cnt (ps_of ph s')) + n_ev is_drop l = steps (p_cnt (ps_of ph s)) + d /\
             p_abort (s_opt s') = p_abort (s_opt s) || has_abort l }.

Lemma quiet_counts q l : quiet q l -> n_ev is_iter l = 0 /\ n_ev is_count l = 0 /\ n_ev is_drop l = 0.
Proof.
  induction 1 as [|e l H _ (IH1 & IH2 & IH3)]; [repeat split|].
  unfold n_ev in *. destruct e; try tauto; cbn [filter is_iter is_count is_drop]; auto.
Qed.
Lemma quiet_inner ph q l : quiet q l -> Forall (inner ph q) l.
Proof. apply Forall_impl. intros e. destruct e; cbn; tauto. Qed.

Lemma fr_prn ph s s' : fr ph s s' -> prn ph 0 0 0 false s s'.
Proof.
  intros []. destruct fr_ps as (a & b & tm & ab & Ep). constructor; try assumption.
  - rewrite Ep. reflexivity.
  - rewrite Ep. reflexivity.
  - rewrite fr_rabort. auto.
  - rewrite Ep. cbn. lia.
  - rewrite Ep. cbn. lia.
  - destruct fr_log as (l & L & Q & A). destruct (quiet_counts _ _ Q) as (I & C & D). exists l. rewrite Ep, D.
    repeat split; auto; [now apply quiet_inner|now apply ord_quiet].
Qed.
Lemma prn_trans ph i1 d1 k1 r1 d2 k2 r2 s1 s2 s3 :
  prn ph i1 d1 k1 r1 s1 s2 -> prn ph 0 d2 k2 r2 s2 s3 -> prn ph i1 (d1 + d2) (k1 + k2) (r1 || r2) s1 s3.
Proof.
  intros [] []. constructor; try congruence.
  - destruct ph; [congruence|]. destruct pr_other0 as (ab & E1), pr_other1 as (ab' & E2). rewrite E2, E1. eexists. reflexivity.
  - intros H. rewrite orb_true_iff. destruct (pr_rabort1 H) as [H1|H1]; [destruct (pr_rabort0 H1) as [H2|H2]|]; auto.
  - lia.
  - lia.
  - destruct pr_log0 as (l & L1 & F1 & O1 & I1 & C1 & D1 & A1), pr_log1 as (l' & L2 & F2 & O2 & I2 & C2 & D2 & A2). exists (l' ++ l).
    rewrite !n_ev_app, has_abort_app, L2, L1, app_assoc, A2, A1. repeat split; try lia.
    + apply Forall_app. split; [rewrite <- pr_phase0|]; assumption.
    + now apply ord_app.
    + now rewrite <- orb_assoc, (orb_comm (has_abort l')).
Qed.
Lemma prn_fr ph i d k r s s1 s2 : prn ph i d k r s s1 -> fr ph s1 s2 -> prn ph i d k r s s2.
Proof.
  intros H1 H2. apply fr_prn in H2. pose proof (prn_trans _ _ _ _ _ _ _ _ _ _ _ H1 H2) as H.
  now rewrite !Z.add_0_r, orb_false_r in H.
Qed.
Lemma prn_refl ph s : prn ph 0 0 0 false s s.
Proof. apply fr_prn, fr_preo. Qed.

(** Updates of the problem solver that leave status, flags and counters alone. *)
Lemma prn_upd ph (f : ps -> ps) s :
  p_status (f (ps_of ph s)) = p_status (ps_of ph s) -> p_ali (f (ps_of ph s)) = p_ali (ps_of ph s) ->
  p_abort (f (ps_of ph s)) = p_abort (ps_of ph s) ->
  c_elapsed (p_cnt (f (ps_of ph s))) = c_elapsed (p_cnt (ps_of ph s)) -> c_iter (p_cnt (f (ps_of ph s))) = c_iter (p_cnt (ps_of ph s)) ->
  prn ph 0 (steps (p_cnt (f (ps_of ph s))) - steps (p_cnt (ps_of ph s))) 0 false s (with_ps ph (f (ps_of ph s)) s).
Proof.
  intros. constructor; rewrite ?ps_of_with; try assumption; try reflexivity; try lia.
  - destruct ph; [reflexivity|]. cbn. eexists. apply ps_eta_abort.
  - destruct ph; cbn in *; [auto|]. rewrite H1. auto.
  - exists []. cbn [app n_ev filter length Z.of_nat has_abort existsb]. repeat split; [constructor|now apply ord_quiet|cbn; lia|].
    rewrite orb_false_r. destruct ph; [assumption|reflexivity].
Qed.
Lemma prn_ev ph e s : match e with EIter x | EDrop x => x = ph | _ => False end ->
  prn ph (match e with EIter _ => 1 | _ => 0 end) (match e with EDrop _ => 1 | _ => 0 end) 0 false s (with_log e s).
Proof.
  intros H. constructor; rewrite ?ps_of_log; try reflexivity; try lia; auto.
  - destruct ph; [reflexivity|]. eexists. apply ps_eta_abort.
  - exists [e]. cbn [app]. repeat split.
    + repeat constructor. destruct e; cbn; try tauto; auto.
    + intros [|x l1] l2 E A; [reflexivity|]. assert (l1 = [] /\ l2 = []) as [-> ->] by (destruct l1, l2; try discriminate; auto). discriminate.
    + destruct e; try tauto; reflexivity.
    + destruct e; try tauto; reflexivity.
    + destruct e; try tauto; cbn; lia.
    + destruct e; try tauto; cbn; now rewrite orb_false_r.
Qed.
Lemma prn_count ph s :
  prn ph 0 0 1 false s (with_log (ECount ph) (with_ps ph (ps_cnt (cnt_elapsed (p_cnt (ps_of ph s))) (ps_of ph s)) s)).
Proof.
  constructor; rewrite ?ps_of_log, ?ps_of_with; try reflexivity.
  - destruct ph; [reflexivity|]. cbn. eexists. apply ps_eta_abort.
  - destruct ph; cbn; auto.
  - exists [ECount ph]. cbn [app]. repeat split; [repeat constructor|now apply ord_quiet|]. destruct ph; cbn; now rewrite orb_false_r.
Qed.

(** Accepting a step in restoration may tell the restoration solver to stop. *)
Lemma rest_accepted_prn s : wp (rest_accepted Or cf) (fun _ s' => prn Rest 0 0 0 true s s') (fun _ s' => prn Rest 0 0 0 true s s') s.
Proof.
  unfold rest_accepted.
  assert (L : forall s', fr Rest s s' -> prn Rest 0 0 0 true s s').
  { intros s' H. apply fr_prn in H. destruct H. constructor; try assumption. auto. }
  apply wp_bind. eapply wp_cons; [apply (rest_cons_fr Or Rest)| |]; intros c s' H; [|apply L; assumption].
  apply wp_bind, wp_lift; intros v Hv; [|apply L; assumption].
  destruct (nleb v (cf_feas cf)); [|apply wp_ret; auto].
  apply wp_modp. apply L in H. destruct H. constructor; auto; cbn [ps_of with_ps s_rest s_opt] in *; auto.
Qed.
Lemma accept_step_prn ph s : wp (accept_step Or cf ph) (fun _ s' => prn ph 0 0 0 true s s') (fun _ s' => prn ph 0 0 0 true s s') s.
Proof.
  assert (L : forall s', fr ph s s' -> prn ph 0 0 0 true s s').
  { intros s' H. apply fr_prn in H. destruct H. constructor; try assumption. auto. }
  unfold accept_step. apply wp_bind, wp_getp.
  apply wp_bind. eapply wp_cons; [apply (set_func_value_fr Or cf ph)| |]; intros rej s1 H1; [|apply L; assumption].
  apply wp_bind. eapply wp_cons; [apply (eval_fr Or ph)| |]; intros e s2 H2; (eapply (po_trans _ (fr_preo ph)) in H2; [|exact H1]); [|apply L; assumption].
  apply wp_bind, wp_get, wp_bind. eapply wp_cons; [apply (its_fr ph)| |]; intros u s3 H3; (eapply (po_trans _ (fr_preo ph)) in H3; [|exact H2]); [|apply L; assumption].
  apply wp_bind. eapply (wp_cons _ (fun _ s' => prn ph 0 0 0 true s s') _ (fun _ s' => prn ph 0 0 0 true s s')).
  - destruct ph.
    + eapply wp_cons; [apply (opt_accepted_fr Or cf Opt)| |]; intros ? ? H4; apply L; eapply (po_trans _ (fr_preo Opt)); eauto.
    + eapply wp_cons; [apply rest_accepted_prn| |]; intros ? ? H4; pose proof (prn_trans _ _ _ _ _ _ _ _ _ _ _ (fr_prn _ _ _ H3) H4) as H5; exact H5.
  - intros ? s4 H4. eapply wp_cons; [apply (its_fr ph)| |]; intros ? ? H5; eapply prn_fr; eauto.
  - intros ? ? K; exact K.
Qed.

(** ** An iteration *)
(** It either ends with a final status before being counted, or is counted with status unchanged. *)
Definition early (ph : phase) (s s' : st) : Prop :=
  exists s1 x, prn ph 1 0 0 false s s1 /\ s' = with_ps ph (ps_status x (ps_of ph s1)) s1 /\
    match x with
    | PUnbounded => unbounded_test cf (ps_of ph s) = true /\ p_it (ps_of ph s1) = p_it (ps_of ph s)
    | POptimal => p_it (ps_of ph s1) = p_it (ps_of ph s) /\ exists sl fe sr, residua cf ph (p_it (ps_of ph s)) = Ok (sl, fe, sr) /\
                  is_optimal (cf_feas cf) (cf_slack cf) (cf_stat cf) fe sl sr = true
    | PLocInf => p_ali (ps_of ph s) = true /\ exists sl fe sr, residua cf ph (p_it (ps_of ph s)) = Ok (sl, fe, sr) /\
                  nleb fe (cf_feas cf) = false
    | _ => False
    end.
Definition failing (ph : phase) (s s' : st) : Prop :=
  exists i, (i = 0 \/ i = 1) /\ (prn ph i 0 0 false s s' \/ prn ph i 1 1 true s s').

Lemma with_ps_self ph (s : st) : with_ps ph (ps_of ph s) s = s.
Proof. destruct ph, s; reflexivity. Qed.

Lemma soc_part_prn ph a b c s :
  wp (soc_part Or cf ph a b c) (fun _ s' => prn ph 0 1 0 false s s') (fun _ s' => prn ph 0 0 0 false s s') s.
Proof.
  unfold soc_part. destruct ((0 <? ncons cf ph) && cf_perf_soc cf).
  - apply wp_bind. eapply wp_cons; [apply compute_soc_fr| |]; intros r s1 H1; [|now apply fr_prn].
    apply wp_bind, wp_getp. destruct (negb (snd r) && negb _).
    + apply wp_bind. eapply wp_cons; [apply try_step_fr| |]; intros r' s2 H2; (eapply (po_trans _ (fr_preo ph)) in H2; [|exact H1]); [|now apply fr_prn].
      apply wp_bind. destruct (fst r').
      * apply wp_bind, wp_modp, wp_bump, wp_ret.
        pose proof (prn_upd ph (fun p => ps_cnt (cnt_soc (p_cnt p)) (ps_step StSoc (p_bdry p) p)) s2 eq_refl eq_refl eq_refl eq_refl eq_refl) as H3.
        cbn [ps_cnt ps_step p_cnt] in H3. pose proof (prn_trans _ _ _ _ _ _ _ _ _ _ _ (fr_prn _ _ _ H2) H3) as H4.
        replace (0 + (steps _ - steps _)) with 1 in H4 by (unfold steps; cbn; lia). rewrite ps_of_with. destruct ph; exact H4.
      * apply wp_bump, wp_ret.
        pose proof (prn_upd ph (fun p => ps_cnt (cnt_rej (p_cnt p)) p) s2 eq_refl eq_refl eq_refl eq_refl eq_refl) as H3.
        pose proof (prn_trans _ _ _ _ _ _ _ _ _ _ _ (fr_prn _ _ _ H2) H3) as H4.
        replace (0 + (steps _ - steps _)) with 1 in H4 by (unfold steps; cbn; lia). exact H4.
    + apply wp_bind, wp_emit, wp_ret. exact (prn_trans _ _ _ _ _ _ _ _ _ _ _ (fr_prn _ _ _ H1) (prn_ev ph (EDrop ph) s1 eq_refl)).
  - apply wp_bind, wp_bump, wp_ret.
    pose proof (prn_upd ph (fun p => ps_cnt (cnt_rej (p_cnt p)) p) s eq_refl eq_refl eq_refl eq_refl eq_refl) as H3.
    replace (steps _ - steps _) with 1 in H3 by (unfold steps; cbn; lia). exact H3.
Qed.

Lemma prn_upd0 ph (f : ps -> ps) s :
  p_status (f (ps_of ph s)) = p_status (ps_of ph s) -> p_ali (f (ps_of ph s)) = p_ali (ps_of ph s) ->
  p_abort (f (ps_of ph s)) = p_abort (ps_of ph s) ->
  c_elapsed (p_cnt (f (ps_of ph s))) = c_elapsed (p_cnt (ps_of ph s)) -> c_iter (p_cnt (f (ps_of ph s))) = c_iter (p_cnt (ps_of ph s)) ->
  steps (p_cnt (f (ps_of ph s))) = steps (p_cnt (ps_of ph s)) ->
  prn ph 0 0 0 false s (with_ps ph (f (ps_of ph s)) s).
Proof. intros. pose proof (prn_upd ph f s) as K. rewrite H4, Z.sub_diag in K. auto. Qed.

Lemma prn_then ph i d k r s s1 s2 : prn ph i d k r s s1 -> prn ph 0 0 0 false s1 s2 -> prn ph i d k r s s2.
Proof. intros H1 H2. pose proof (prn_trans _ _ _ _ _ _ _ _ _ _ _ H1 H2) as H. now rewrite !Z.add_0_r, orb_false_r in H. Qed.

Lemma perform_iteration_spec ph s :
  wp (perform_iteration Or cf ph)
     (fun _ s' => is_running (p_status (ps_of ph s)) = true /\ (early ph s s' \/ prn ph 1 1 1 true s s')) (fun _ s' => failing ph s s') s.
Proof.
  unfold perform_iteration. apply wp_bind, wp_getp, wp_bind, wp_assert. intros Hrun.
  apply wp_bind, wp_lift; intros b Hb; [|exists 0; split; [auto|left; apply prn_refl]].
  apply wp_bind, wp_assert. intros ->. apply wp_bind, wp_emit.
  set (s0 := with_log (EIter ph) s).
  assert (H0 : prn ph 1 0 0 false s s0) by exact (prn_ev ph (EIter ph) s eq_refl).
  assert (P0 : ps_of ph s0 = ps_of ph s) by apply ps_of_log.
  destruct (unbounded_test cf (ps_of ph s)) eqn:Eu.
  { apply wp_modp. split; [exact Hrun|]. left. exists s0, PUnbounded. split; [exact H0|]. split; [reflexivity|]. split; [exact Eu|].
    now rewrite P0. }
  assert (F : forall s' i, i = 1 -> prn ph i 0 0 false s s' -> failing ph s s') by (intros ? i ? ?; exists i; auto).
  assert (F' : forall s' i, i = 1 -> prn ph i 1 1 true s s' -> failing ph s s') by (intros ? i ? ?; exists i; auto).
  apply wp_bind. unfold prepare_iteration at 1. apply wp_bind, wp_getp, wp_bind, wp_lift; intros m Hm; [|eapply F; eauto].
  apply wp_bind, wp_lift; intros r0 Hr; [|eapply F; eauto]. destruct r0 as [[sl fe] sr].
  apply wp_bind, wp_modp, wp_bind, wp_modp.
  rewrite ps_of_with.
  set (p1 := if is_feasible fe (cf_feas cf) then _ else _).
  set (s1 := with_ps ph p1 _).
  assert (E1 : s1 = with_ps ph p1 s0) by (unfold s1; destruct ph; reflexivity). clearbody s1.
  assert (Hp1 : p_it p1 = p_it (ps_of ph s) /\ p_slack p1 = sl /\ p_feas p1 = fe /\ p_stat p1 = sr).
  { unfold p1. destruct (is_feasible fe (cf_feas cf)); cbn; rewrite P0; auto. }
  assert (H1 : prn ph 1 0 0 false s s1).
  { eapply prn_then; [exact H0|]. rewrite E1.
    apply (prn_upd0 ph (fun _ => p1)); unfold p1; destruct (is_feasible fe (cf_feas cf)); reflexivity. }
  assert (P1 : ps_of ph s1 = p1) by (rewrite E1; apply ps_of_with). clear E1.
  clearbody p1. destruct Hp1 as (Hit & Hsl & Hfe & Hsr).
  rewrite P0 in Hr.
  apply wp_bind, wp_assert. intros _. apply wp_bind, wp_assert. intros _. apply wp_bind, wp_assert. intros _. apply wp_ret.
  apply wp_bind, wp_getp. rewrite P1, Hsl, Hfe, Hsr.
  destruct (is_optimal _ _ _ fe sl sr) eqn:Eo.
  { apply wp_modp. split; [exact Hrun|]. left. exists s1, POptimal. split; [exact H1|]. split; [reflexivity|].
    rewrite P1. split; [exact Hit|]. exists sl, fe, sr. auto. }
  apply wp_bind. eapply wp_cons; [apply compute_trial_fr| |]; intros t s2 H2; [|eapply F; [reflexivity|]; eapply prn_fr; eauto].
  assert (Hf2 : p_feas (ps_of ph s2) = fe /\ p_ali (ps_of ph s2) = p_ali (ps_of ph s)).
  { destruct (fr_ps _ _ _ H2) as (x & y & tm & ab & E). rewrite E. cbn. rewrite P1. split; [exact Hfe|]. rewrite <- P1. exact (pr_ali _ _ _ _ _ _ _ H1). }
  assert (H2' : prn ph 1 0 0 false s s2) by (eapply prn_fr; eauto).
  apply wp_bind.
  eapply (wp_cons _ (fun _ s3 => prn ph 1 0 0 false s s3 /\ p_feas (ps_of ph s3) = fe /\ p_ali (ps_of ph s3) = p_ali (ps_of ph s)) _ (fun _ s' => failing ph s s')).
  { destruct (t_failed t); [apply wp_bump|apply wp_ret]; [|auto]. split; [|rewrite ps_of_with; exact Hf2].
    eapply prn_then; [exact H2'|]. apply (prn_upd0 ph (fun p => ps_cnt (cnt_fail (p_cnt p)) p)); reflexivity. }
  2: intros ? ? K; exact K.
  intros _ s3 (H3 & Hf3 & Ha3). clear H2 Hf2 H2'. apply wp_bind, wp_getp.
  destruct (locally_infeasible cf (ps_of ph s3) t && p_ali (ps_of ph s3)) eqn:El.
  { apply wp_modp. split; [exact Hrun|]. left. exists s3, PLocInf. split; [exact H3|]. split; [reflexivity|].
    apply andb_true_iff in El. destruct El as (El & Ea). split; [congruence|]. exists sl, fe, sr. split; [exact Hr|].
    unfold locally_infeasible in El. rewrite Hf3 in El. destruct (nleb fe (cf_feas cf)); [discriminate|reflexivity]. }
  apply wp_bind.
  eapply (wp_cons _ (fun _ s4 => prn ph 1 0 0 false s s4) _ (fun _ s' => failing ph s s')).
  { destruct (t_reset t); [apply wp_modp|apply wp_ret]; [|auto]. eapply prn_then; [exact H3|].
    apply (prn_upd0 ph (fun p => ps_feas 0 (p_nreset p + 1) p)); reflexivity. }
  2: intros ? ? K; exact K.
  intros _ s4 H4. clear H3 Hf3 Ha3 El.
  apply wp_bind. eapply wp_cons; [apply try_step_fr| |]; intros r s5 H5; (eapply prn_fr in H5; [|exact H4]); [|eapply F; eauto].
  apply wp_bind, wp_getp, wp_bind, wp_modp.
  match goal with |- wp _ _ _ ?x => set (s6 := x) end.
  assert (H6 : prn ph 1 0 0 false s s6).
  { eapply prn_then; [exact H5|]. apply (prn_upd0 ph (ps_step StRejected _)); reflexivity. }
  clearbody s6. clear H5 H4.
  apply wp_bind.
  eapply (wp_cons _ (fun _ s7 => prn ph 1 1 0 false s s7) _ (fun _ s' => failing ph s s')).
  { destruct (fst r).
    - apply wp_bind, wp_bump, wp_bind, wp_modp, wp_ret. rewrite ps_of_with.
      pose proof (prn_upd ph (fun p => ps_step (if t_full t then StFull else StAccepted) (p_bdry p) (ps_cnt (cnt_acc (p_cnt p)) p)) s6 eq_refl eq_refl eq_refl eq_refl eq_refl) as K.
      cbn [ps_cnt ps_step p_cnt] in K. pose proof (prn_trans _ _ _ _ _ _ _ _ _ _ _ H6 K) as K'.
      replace (0 + (steps _ - steps _)) with 1 in K' by (unfold steps; cbn; lia). destruct ph; exact K'.
    - eapply wp_cons; [apply soc_part_prn| |]; intros ? s7 H7.
      + exact (prn_trans _ _ _ _ _ _ _ _ _ _ _ H6 H7).
      + eapply F; [reflexivity|]. eapply prn_then; eauto. }
  2: intros ? ? K; exact K.
  intros r' s7 H7. apply wp_bind, wp_modify, wp_bind, wp_modp. rewrite ps_of_log, ps_of_with.
  match goal with |- wp _ _ _ ?x => set (s8 := x) end.
  assert (H8 : prn ph 1 1 1 false s s8).
  { pose proof (prn_trans _ _ _ _ _ _ _ _ _ _ _ H7 (prn_count ph s7)) as K. cbn [orb] in K.
    change (prn ph 1 1 1 false s (with_log (ECount ph) (with_ps ph (ps_cnt (cnt_elapsed (p_cnt (ps_of ph s7))) (ps_of ph s7)) s7))) in K.
    eapply prn_then; [exact K|].
    match goal with |- prn _ _ _ _ _ ?x _ => set (sx := x) in * end.
    pose proof (prn_upd0 ph (fun p => ps_rad (if cf_quad cf && cf_newton cf then update_radius (cf_eps cf) (snd r') (fst r') (t_norm t) (p_rad p) else p_rad p)
       (update_lp_radius (fst r') (t_inf t) (t_cauchyinf t) (t_full t) (p_lprad p)) (t_pen t) p) sx eq_refl eq_refl eq_refl eq_refl eq_refl eq_refl) as K2.
    replace (ps_of ph sx) with (ps_cnt (cnt_elapsed (p_cnt (ps_of ph s7))) (ps_of ph s7)) in K2 by (unfold sx; now rewrite ps_of_log, ps_of_with).
    exact K2. }
  clearbody s8. clear H7 H6.
  apply wp_bind.
  eapply (wp_cons _ (fun _ s9 => prn ph 1 1 1 true s s9) _ (fun _ s9 => prn ph 1 1 1 true s s9)).
  { destruct (fst r').
    - eapply wp_cons; [apply accept_step_prn| |]; intros ? s9 H9; exact (prn_trans _ _ _ _ _ _ _ _ _ _ _ H8 H9).
    - assert (L : forall s9, fr ph s8 s9 -> prn ph 1 1 1 true s s9).
      { intros s9 H9. eapply prn_fr in H9; [|exact H8]. destruct H9. constructor; try assumption. auto. }
      eapply wp_cons; [apply reject_step_fr| |]; intros ? s9 H9; apply L; exact H9. }
  2: { intros ? s9 H9. eapply F'; eauto. }
  intros _ s9 H9. destruct ph.
  - apply wp_ask; intros ? s10 H10; (eapply prn_fr in H9; [|exact (fr_ua _ _ _ H10)]); [auto|eapply F'; eauto].
  - apply wp_ret. auto.
Qed.
End Iter.
