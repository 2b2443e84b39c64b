(** Events that cannot occur, and runs without restoration. *)
From Verif Require Import Base Num Cmp Sparse Vec Mat WorkingSet Feas TrustRadius Problem Restoration Solver SolverFacts SolverIter SolverLoop.
Local Open Scope Z_scope.

Section Events.
Context {N : Num} {W : Type}.
Variable Or : @oracles N W.
Variable cf : @config N.
Notation st := (@st N W).
Notation M := (@M N W).
Notation ev := (@ev N).

(** No event in [f] is added to the log. *)
Definition avoid (f : ev -> bool) (s s' : st) : Prop := exists l, s_log s' = l ++ s_log s /\ forall e, In e l -> f e = false.
Lemma avoid_preo f : preo (avoid f).
Proof.
  constructor.
  - intros s. exists []. split; [reflexivity|intros e []].
  - intros a b c (l & L & H) (l' & L' & H'). exists (l' ++ l). rewrite L', L, app_assoc. split; [reflexivity|].
    intros e He. apply in_app_or in He. destruct He; auto.
Qed.
Lemma avoid_same f (s s' : st) : s_log s' = s_log s -> avoid f s s'.
Proof. intros E. exists []. split; [exact E|intros e []]. Qed.
Lemma avoid_ev f e (s : st) : f e = false -> avoid f s (with_log e s).
Proof. intros E. exists [e]. split; [reflexivity|]. intros x [<-|[]]. exact E. Qed.
Lemma avoid_ua f (s s' : st) : (forall ph, f (EAbort ph) = false) -> ua s s' -> avoid f s s'.
Proof.
  intros Hf (w & [->| ->]); [apply avoid_same; reflexivity|]. exists [EAbort (s_phase s)]. split; [reflexivity|]. intros x [<-|[]]. apply Hf.
Qed.
Lemma avoid_fs f (s s' : st) : (forall q l, quiet q l -> forall e, In e l -> f e = false) -> fs s s' -> avoid f s s'.
Proof. intros Hf F. destruct (fs_log _ _ F) as (l & L & Q & _). exists l. split; [exact L|]. eapply Hf, Q. Qed.
Lemma avoid_fr f ph (s s' : st) : (forall q l, quiet q l -> forall e, In e l -> f e = false) -> fr ph s s' -> avoid f s s'.
Proof. intros Hf F. destruct (fr_log _ _ _ F) as (l & L & Q & _). exists l. split; [exact L|]. eapply Hf, Q. Qed.
Lemma quiet_drop q (l : list ev) : quiet q l -> forall e, In e l -> is_drop e = false.
Proof. intros H e He. eapply Forall_forall in H; [|exact He]. destruct e; try reflexivity. destruct H. Qed.

(** ** No step computations outside iterations *)
Definition is_hess (e : ev) : bool := match e with EHess _ _ _ _ => true | _ => false end.
Ltac hstep := first [ kstep (avoid_preo is_hess)
  | apply kp_ask; intros ? ? ?; apply avoid_ua; [reflexivity|assumption]
  | apply kp_ask_func; intros ? ? ?; apply avoid_ua; [reflexivity|assumption]
  | apply kp_tick; intros ? ? ?; apply avoid_ua; [reflexivity|assumption]
  | apply kp_emit; intros ?; apply avoid_ev; reflexivity
  | apply kp_modify; intros ?; apply avoid_same; reflexivity
  | apply kp_modp; intros ?; apply avoid_same; reflexivity ].
Lemma set_value_h q x r : kp (avoid is_hess) (set_value Or cf q x r).
Proof. unfold set_value. repeat hstep. apply kp_modify. intros s. destruct q; apply avoid_same; reflexivity. Qed.
Lemma rest_cons_h : kp (avoid is_hess) (rest_cons Or).
Proof. unfold rest_cons. repeat hstep. Qed.
Lemma rest_jac_h : kp (avoid is_hess) (rest_jac Or).
Proof. unfold rest_jac. repeat hstep. Qed.
Lemma eval_h q wh x : kp (avoid is_hess) (eval Or q wh x).
Proof. unfold eval. repeat (hstep || apply rest_cons_h || apply rest_jac_h). Qed.
Lemma restore_original_h : kp (avoid is_hess) (restore_original Or cf).
Proof. unfold restore_original. repeat (hstep || apply set_value_h || apply eval_h). Qed.
Lemma to_restoration_h : kp (avoid is_hess) (to_restoration Or cf).
Proof. unfold to_restoration. repeat hstep. Qed.
Lemma to_optimization_h : kp (avoid is_hess) (to_optimization Or cf).
Proof. unfold to_optimization. repeat (hstep || apply rest_cons_h || apply rest_jac_h). Qed.
Lemma toggle_h : kp (avoid is_hess) (toggle Or cf).
Proof. unfold toggle. repeat (hstep || apply to_restoration_h || apply to_optimization_h). Qed.

(** ** No corrected step is given up if there are no corrections *)
Section NoSoc.
Variable ph : phase.
Hypothesis NoSoc : (0 <? ncons cf ph) && cf_perf_soc cf = false.
Ltac dstep := first [ kstep (avoid_preo is_drop)
  | apply kp_ask; intros ? ? ?; apply avoid_ua; [reflexivity|assumption]
  | apply kp_ask_func; intros ? ? ?; apply avoid_ua; [reflexivity|assumption]
  | apply kp_tick; intros ? ? ?; apply avoid_ua; [reflexivity|assumption]
  | apply kp_emit; intros ?; apply avoid_ev; reflexivity
  | apply kp_modp; intros ?; apply avoid_same; reflexivity
  | apply kp_modify; intros ?; apply avoid_same; reflexivity
  | apply (kp_weaken (fr ph)); [intros ? ?; apply avoid_fr, quiet_drop|first [apply compute_trial_fr | apply try_step_fr | apply reject_step_fr]] ].
Lemma accept_step_d : kp (avoid is_drop) (accept_step Or cf ph).
Proof.
  unfold accept_step.
  repeat (dstep || (apply (kp_weaken fs); [intros ? ?; apply avoid_fs, quiet_drop|first [apply set_func_value_fs | apply eval_fs | apply opt_accepted_fs | apply rest_cons_fs]])
          || unfold rest_accepted).
Qed.
Lemma perform_iteration_d : kp (avoid is_drop) (perform_iteration Or cf ph).
Proof.
  unfold perform_iteration, soc_part, prepare_iteration, bump. rewrite NoSoc.
  repeat (dstep || apply accept_step_d). apply kp_modify. intros s. exists [ECount ph]. split; [reflexivity|]. intros e [<-|[]]. reflexivity.
Qed.
Lemma ps_loop_d lim fuel : kp (avoid is_drop) (ps_loop Or cf fuel ph lim).
Proof.
  induction fuel as [|fuel IH]; cbn [ps_loop].
  - intros s. apply wp_nofuel, avoid_same. reflexivity.
  - repeat (dstep || apply IH). intros s. apply wp_try. eapply wp_cons; [apply perform_iteration_d| |]; cbv beta; [auto|]. intros [c|]; auto.
Qed.
Lemma ps_solve_d fuel lim ali : kp (avoid is_drop) (ps_solve Or cf fuel ph lim ali).
Proof.
  unfold ps_solve. repeat (dstep || apply ps_loop_d). apply (kp_weaken fs); [intros ? ?; apply avoid_fs, quiet_drop|apply deriv_check_fs].
Qed.
End NoSoc.

(** ** Without restoration the main loop is entered at most once *)
Lemma no_drop (l : list ev) : (forall e, In e l -> is_drop e = false) -> n_ev is_drop l = 0.
Proof.
  intros H. unfold n_ev. induction l as [|e l IH]; [reflexivity|]. cbn. rewrite (H e); [|now left]. apply IH. intros x Hx. apply H. now right.
Qed.

Definition single (s s' : st) : Prop :=
  exists l, s_log s' = l ++ s_log s /\
    ((n_ev is_iter l = 0 /\ s_status s' <> SManual) \/
     exists l1 l2, l = l1 ++ EStart Opt :: l2 /\ quiet Opt l2 /\ Forall (inner Opt Opt) l1 /\ ord l1 /\ p_abort (s_opt s') = has_abort l1).
Lemma run_loop_single fi fuel remaining unlimited s : s_phase s = Opt -> (unlimited = true -> remaining = -1) -> (unlimited = false -> 0 <= remaining) ->
  wp (run_loop Or cf fuel fi remaining unlimited false) (fun _ s' => single s s' /\ s_phase s' = Opt) (fun _ _ => True) s.
Proof.
  intros Hp HU HL. destruct fuel as [|fuel]; cbn [run_loop]; [now apply wp_nofuel|].
  apply wp_bind, wp_assert. intros _. apply wp_bind, wp_tick. intros t w.
  assert (B0 : forall x, x <> SManual -> single s (with_status x (with_w w s)) /\ s_phase (with_status x (with_w w s)) = Opt).
  { intros x Hx. split; [|exact Hp]. exists []. split; [reflexivity|]. left. split; [reflexivity|exact Hx]. }
  destruct t; [apply wp_modify, B0; discriminate|]. destruct (remaining =? 0); [apply wp_modify, B0; discriminate|]. clear B0.
  apply wp_bind, wp_get. cbv zeta. cbn [s_phase with_w]. rewrite Hp. apply wp_bind, wp_modp.
  match goal with |- wp _ _ _ ?z => set (s1 := z) end.
  assert (P1 : s_phase s1 = Opt) by exact Hp. assert (L1 : s_log s1 = s_log s) by reflexivity. clearbody s1.
  apply wp_bind. eapply wp_cons; [apply (ps_solve_spec Or cf fi Opt remaining false s1); destruct unlimited; auto| |auto]; cbv beta.
  intros _ s2 (n & x & So & _). pose proof (so_phase _ _ _ _ _ _ _ _ So) as P2. destruct (so_log _ _ _ _ _ _ _ _ So) as (l1 & l2 & L2 & Q & F & Ho & _ & _ & A). specialize (Ho eq_refl).
  pose proof (so_pstatus _ _ _ _ _ _ _ _ So) as Ex. pose proof (so_verdict _ _ _ _ _ _ _ _ So) as V. rewrite P1 in *. rewrite L1 in L2. cbn [ps_of] in *.
  apply wp_bind, wp_getp, wp_bind, wp_assert. intros _. apply wp_bind, wp_assert. intros _. apply wp_bind, wp_modify. cbn [ps_of]. rewrite Ex.
  assert (B1 : forall y, single s (with_status y (with_iters (s_iters s2 + c_elapsed (p_cnt (s_opt s2))) s2)) /\
                s_phase (with_status y (with_iters (s_iters s2 + c_elapsed (p_cnt (s_opt s2))) s2)) = Opt).
  { intros y. split; [|exact P2]. exists (l1 ++ EStart Opt :: l2). split; [cbn; rewrite L2, <- app_assoc; reflexivity|]. right. exists l1, l2. auto. }
  destruct x; try (apply wp_modify, B1); try (apply wp_assert; discriminate); destruct V; discriminate.
Qed.

(** ** Iterations begun and iterations counted *)
Definition is_start (e : ev) : bool := match e with EStart _ => true | _ => false end.
Definition over (m : Z) (s s' : st) : Prop := exists l, s_log s' = l ++ s_log s /\ n_ev is_iter l <= n_ev is_count l + n_ev is_start l + m.
Lemma over_trans a b m n (c : st) : over m a b -> over n b c -> over (m + n) a c.
Proof. intros (l & L & H) (l' & L' & H'). exists (l' ++ l). rewrite L', L, app_assoc, !n_ev_app. split; [reflexivity|lia]. Qed.
Lemma over_preo : preo (over 0).
Proof.
  constructor; [intros s; exists []; split; [reflexivity|cbn; lia]|]. intros a b c H H'. exact (over_trans _ _ _ _ _ H H').
Qed.
Lemma over_le m n s s' : m <= n -> over m s s' -> over n s s'.
Proof. intros Hm (l & L & H). exists l. split; [exact L|lia]. Qed.
Lemma over_log m (s s' s'' : st) : s_log s'' = s_log s' -> over m s s' -> over m s s''.
Proof. intros E (l & L & H). exists l. rewrite E. auto. Qed.
Lemma silent_over s s' : silent s s' -> over 0 s s'.
Proof. intros (_ & _ & _ & l & L & C & I). exists l. split; [exact L|]. pose proof (n_ev_pos is_start l). lia. Qed.
Lemma prn_over ph i d k r s s' : prn ph i d k r s s' -> over (i - k) s s'.
Proof. intros H. destruct (pr_log _ _ _ _ _ _ _ H) as (l & L & _ & _ & I & C & _). exists l. split; [exact L|]. pose proof (n_ev_pos is_start l). lia. Qed.

Lemma ps_loop_over ph lim fuel : forall s, wp (ps_loop Or cf fuel ph lim) (fun _ s' => over 1 s s') (fun _ s' => over 1 s s') s.
Proof.
  induction fuel as [|fuel IH]; intros s; cbn [ps_loop].
  { apply wp_nofuel. apply (over_le 0); [lia|]. apply (po_refl _ over_preo). }
  assert (R0 : forall s', s_log s' = s_log s -> over 1 s s').
  { intros s' E. exists []. split; [exact E|cbn; lia]. }
  apply wp_bind, wp_tick. intros t w. destruct t; [apply wp_modp, R0; reflexivity|].
  apply wp_bind, wp_getp. destruct (negb (lim =? -1) && _); [apply wp_modp, R0; reflexivity|].
  destruct (p_abort _); [apply wp_modp, R0; reflexivity|]. apply wp_bind, wp_try.
  eapply wp_cons; [apply perform_iteration_spec| |]; cbv beta.
  - intros _ s2 (_ & H2).
    assert (O2 : over 1 s s2 /\ (is_running (p_status (ps_of ph s2)) = true -> over 0 s s2)).
    { destruct H2 as [(s1 & x & H1 & -> & Hx)|H2].
      - apply prn_over in H1. split; [exact H1|]. rewrite ps_of_with. cbn [ps_status p_status]. destruct x; try contradiction; discriminate.
      - apply prn_over in H2. split; [apply (over_le 0); [lia|exact H2]|]. intros _. exact H2. }
    destruct O2 as (O1 & O2). apply wp_bind, wp_tick. intros t w2. destruct t; [apply wp_bind, wp_ret, wp_modp; exact O1|].
    apply wp_bind, wp_getp. destruct (_ || _); [apply wp_modp; exact O1|]. rewrite ps_of_w. destruct (is_running _) eqn:Er; [|apply wp_ret; exact O1].
    eapply wp_cons; [apply IH| |]; cbv beta; intros ? s' O3; exact (over_trans _ _ _ _ _ (O2 eq_refl) O3).
  - intros c s2 (i & Hi & HF). assert (O2 : over 1 s s2).
    { destruct HF as [HF|HF]; apply prn_over in HF; (eapply over_le; [|exact HF]); lia. }
    destruct c as [c|]; [|exact O2]. apply wp_bind.
    assert (NT : forall t s', over 1 s s' -> wp (if (t : bool) then bind (emit (ELost ph c)) (fun _ => modp ph (ps_status PTime)) else raise c)
                (fun _ s' => over 1 s s') (fun _ s' => over 1 s s') s').
    { intros t s' O3. destruct t; [|now apply wp_raise]. apply wp_bind, wp_emit, wp_modp. destruct O3 as (l & L & H).
      exists (ELost ph c :: l). split; [cbn; now rewrite L|exact H]. }
    destruct c; try (apply wp_tick; intros t w2; apply NT; exact O2). apply wp_ret, wp_bind, wp_ret, wp_modp. exact O2.
Qed.
Lemma ps_solve_over ph lim fuel ali : kp (over 0) (ps_solve Or cf fuel ph lim ali).
Proof.
  intros s. unfold ps_solve. apply wp_bind, wp_modp. set (s1 := with_ps _ _ s). assert (O1 : over 0 s s1) by apply (po_refl _ over_preo s).
  clearbody s1. apply wp_bind, wp_getp, wp_bind, wp_lift; [|auto]. intros _ _. apply wp_bind.
  eapply wp_cons; [apply (deriv_check_fs Or cf ph s1)| |]; cbv beta; intros ? s2 F; apply silent_fs, silent_over in F; pose proof (over_trans _ _ _ _ _ O1 F) as O2;
    [|exact O2]. clear F O1 s1.
  apply wp_bind, wp_modp. set (s3 := with_ps _ _ s2). assert (O3 : over 0 s s3) by exact O2. clearbody s3. clear s2 O2.
  apply wp_bind, wp_emit, wp_bind.
  assert (O4 : over (-1) s (with_log (EStart ph) s3)).
  { destruct O3 as (l & L & H). exists (EStart ph :: l). split; [cbn; now rewrite L|]. change (EStart ph :: l) with ([EStart ph] ++ l). rewrite !n_ev_app.
    change (n_ev is_iter [EStart ph]) with 0. change (n_ev is_count [EStart ph]) with 0. change (n_ev is_start [EStart ph]) with 1. lia. }
  eapply wp_cons; [apply ps_loop_over| |]; cbv beta; intros ? s' O5; pose proof (over_trans _ _ _ _ _ O4 O5) as O6; [|exact O6].
  apply wp_bind, wp_getp, wp_assert. intros _. exact O6.
Qed.
Ltac ostep := first [ kstep over_preo
  | apply kp_ask; intros ? ? ?; apply silent_over, silent_fs, fs_ua; assumption
  | apply kp_tick; intros ? ? ?; apply silent_over, silent_fs, fs_ua; assumption
  | apply kp_modp; intros s; exact (over_log 0 s s _ eq_refl (po_refl _ over_preo s))
  | apply kp_modify; intros s; exact (over_log 0 s s _ eq_refl (po_refl _ over_preo s))
  | apply ps_solve_over
  | apply (kp_weaken silent); [exact silent_over|apply toggle_silent]
  | apply (kp_weaken fs); [intros ? ? ?; apply silent_over, silent_fs; assumption|apply restore_original_fs]
  | apply (kp_weaken (fr Opt)); [intros ? ? ?; apply silent_over, (silent_fr Opt); assumption|first [apply check_feasibility_fr | apply set_initial_iterate_fr]] ].
Lemma run_loop_over fi unlimited : forall fuel remaining enable, kp (over 0) (run_loop Or cf fuel fi remaining unlimited enable).
Proof.
  induction fuel as [|fuel IH]; intros remaining enable; cbn [run_loop].
  - intros s. apply wp_nofuel, (po_refl _ over_preo).
  - cbv zeta. repeat (ostep || apply IH).
Qed.
Lemma solver_solve_over fuel fi lim : kp (over 0) (solver_solve Or cf fuel fi lim).
Proof. unfold solver_solve, run_solving_loop. repeat (ostep || apply run_loop_over). Qed.
End Events.
