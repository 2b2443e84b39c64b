(** C76: the working set of a step. *)
From Coq Require Import Reals Lra.
From Verif Require Import Base Num Cmp Sparse Vec VecFacts VecFacts2 VecReal RSum Mat MatFacts MatFacts2 MatFacts3 MatFacts4 Arr Gauss PreprocReal QnReal WorkingSet WorkingSetFacts DualEstFacts AugJacFacts AugJacMain AugJacReal AugJacQRReal Cauchy CauchyFacts StdCauchy StdCauchyFacts StdCauchyReal StdCauchyLP StdCauchyReach StdCauchyWS StdCauchyWS2 Eval PropsStdCauchy.
Local Open Scope R_scope.

(** The linear program solved last, its matrix and its solution *)
Definition last_lp (P : @sprob RN) (cs : list (list (Z * R))) (s : @scd RN) (L : @lpi RN) (M : list (list (Z * R))) (sol : @lpsol RN) : Prop :=
  (if sc_reduced s then sc_red s = Some L /\ M = cs else L = sc_def s /\ M = cs ++ @slack_cols RN (sp_nc P)) /\ li_sol L = Some sol.

Definition fixed_nonbasic (P : @sprob RN) (sol : @lpsol RN) : Prop :=
  forall j, (0 <= j < sp_nv P)%Z -> @is_eq RN (dense (sp_vlb P) j) (dense (sp_vub P) j) (sp_eps P) = true -> nthb (ls_vs sol) j <> BBasic.

Section Props.
Variable P : @sprob RN.
Hypothesis HP : prob_ok P.
Variable solver : @lpi RN -> res (@lpsol RN).
Variable T : R.
Hypothesis HT : hi <= T <= 2 * hi.
Variable cs0 : list (list (Z * R)).
Notation n := (sp_nv P).
Notation m := (sp_nc P).

(** If the basis is regular and variables with equal bounds are not basic, then the working set is
    valid, listed in order, has independent rows, and each state is a bound attained by a step [y] that
    minimises the model; nonbasic variables are left out only at the border of the trust
    region, nonbasic rows only if a slack variable is basic. *)
Theorem C76_working_set s it cs r g p L M sol w : reach P solver T cs0 s (PSolved it cs r g p) ->
  last_lp P cs s L M sol -> regular_basis L M sol -> fixed_nonbasic P sol -> far P it r ->
  wnv w = n -> wnc w = m -> Z.of_nat (length (wcont w)) = (n + m)%Z ->
  let y := nth0 (ls_x sol) in
  exists s' w', sc_working_set P s (si_x it) w = Ok (s', w')
    /\ consistent w' /\ in_order w' /\ wnv w' = n /\ wnc w' = m /\ (ws_size w' <= n)%Z /\ rows_independent w' cs
    /\ least P it cs r g p y
    /\ (forall j, (0 <= j < n)%Z -> var_meaning P it r y (vstate w' j) j
          /\ (nthb (ls_vs sol) j = BBasic -> vstate w' j = Inactive)
          /\ (nthb (ls_vs sol) j <> BBasic -> vstate w' j = Inactive -> Rabs (y j) = r))
    /\ (forall i, (0 <= i < m)%Z -> cons_meaning P it cs y (cstate w' i) i
          /\ (nthb (ls_cs sol) i = BBasic -> cstate w' i = Inactive)
          /\ (nthb (ls_cs sol) i <> BBasic -> nthb (ls_cs sol) i <> BZero -> cstate w' i = Inactive ->
                sc_reduced s = false /\ (nthb (ls_vs sol) (n + i) = BBasic \/ nthb (ls_vs sol) (n + m + i) = BBasic))
          /\ (sc_reduced s = false -> @is_eq RN (dense (sp_clb P) i) (dense (sp_cub P) i) (sp_eps P) = true -> cstate w' i = Inactive \/ cstate w' i = ActBoth)).
Proof.
  intros HR HL RB HF Hfar Wv Wc Wl y. pose proof (po_n P HP) as Hn. pose proof (po_m P HP) as Hm. apply reach_inv in HR; [|exact HP].
  pose proof HR as (Hz & Hy & sol0 & Hv & Hf). destruct (iter_facts P it cs (y_iter _ _ _ _ _ _ Hy)) as (_ & _ & Hcs). pose proof (y_pos _ _ _ _ _ _ Hy) as Hr.
  assert (He : holds (ws_reset w) [] []) by (apply reset_empty; lia).
  unfold sc_working_set. destruct HL as [HL Hsol]. destruct Hf as [[Rd Hf]|[Rd (L0 & sol' & Hq)]]; rewrite Rd in HL |- *; destruct HL as [HL ->].
  - subst L. assert (sol0 = sol) as -> by (pose proof (v_sol _ _ _ _ _ _ _ _ _ Hv); congruence).
    pose proof (v_lp _ _ _ _ _ _ _ _ _ Hv) as DL. pose proof (v_base _ _ _ _ _ _ _ _ _ Hv) as DB.
    assert (HS : forall s1, inv P T cs0 s1 (PSolved it cs r g p) -> sc_reduced s1 = false -> sc_def s1 = sc_def s -> fe_dbase (sc_fe s1) = false -> fe_vs (sc_fe s1) = ls_vs sol /\ fe_cs (sc_fe s1) = ls_cs sol).
    { intros s1 (_ & _ & sol1 & Hv1 & [[_ [_ F]]|[Rd1 _]]) Rd1' Ed D1; [|congruence]. pose proof (v_sol _ _ _ _ _ _ _ _ _ Hv1) as E1. rewrite Ed in E1. assert (sol1 = sol) as -> by congruence. exact (F D1). }
    destruct (fetch_base_ok P HP T cs0 it cs r g p s HR) as (s1 & E1 & I1 & D1 & (vs1 & cst1 & Es)).
    assert (Rd1 : sc_reduced s1 = false) by (rewrite Es; exact Rd). assert (Ed1 : sc_def s1 = sc_def s) by (rewrite Es; reflexivity).
    destruct (HS s1 I1 Rd1 Ed1 D1) as [Ev Ec].
    destruct (add_vars_ok P HP T cs0 it cs r g p s (ws_reset w) HR) as (s1' & w1 & E1' & _ & _ & _ & A1 & H1 & V1 & C1); auto.
    { intros s2 E2 j Hj. assert (s2 = s1) as -> by congruence. rewrite Ev. apply (def_nozero P HP T HT it cs r g p (sc_def s) sol DL DB Hr j Hj). }
    assert (s1' = s1) as -> by congruence.
    destruct (add_cons_ok P HP T cs0 it cs r g p s1 w1 (listed (var_state P it r (fe_vs (sc_fe s1))) n) I1 D1) as (w' & A2 & H2 & V2 & C2); auto.
    { intros i Hi. rewrite Ev. apply (def_one_lower P HP T HT it cs r g p (sc_def s) sol DL Hcs DB RB Hr i Hi). }
    rewrite Ev, Ec in H2. unfold simple_working_set. rewrite A1. cbn [rbind fst snd]. rewrite A2. cbn [rbind snd].
    pose proof H2 as H3. rewrite <- V2, <- C2 in H3 at 1. apply holds_states in H3 as HSt. destruct HSt as [Sv Sc]. rewrite V2 in Sv. rewrite C2 in Sc.
    assert (Hvar : forall j, (0 <= j < n)%Z -> var_meaning P it r y (vstate w' j) j
          /\ (nthb (ls_vs sol) j <> BBasic -> vstate w' j = Inactive -> Rabs (y j) = r) /\ (nthb (ls_vs sol) j = BBasic -> vstate w' j = Inactive)).
    { intros j Hj. rewrite (Sv j Hj). apply (var_state_ok P T HT it r y (ls_vs sol) j); auto; try lra. exact (def_var P HP T it cs r g p (sc_def s) sol DL DB j Hj). }
    assert (Hcon : forall i, (0 <= i < m)%Z -> cons_meaning P it cs y (cstate w' i) i
      /\ (nthb (ls_cs sol) i = BBasic \/ nthb (ls_vs sol) (n + i) = BBasic \/ nthb (ls_vs sol) (n + m + i) = BBasic -> cstate w' i = Inactive)
      /\ (nthb (ls_cs sol) i <> BBasic -> nthb (ls_cs sol) i <> BZero -> cstate w' i = Inactive -> nthb (ls_vs sol) (n + i) = BBasic \/ nthb (ls_vs sol) (n + m + i) = BBasic)).
    { intros i Hi. rewrite (Sc i Hi). apply (slack_state_ok P T HT it cs y (ls_vs sol) (ls_cs sol) i).
      - exact (def_row P HP T it cs r g p (sc_def s) sol DL Hcs DB i Hi).
      - apply (def_slack P HP T it cs r g p (sc_def s) sol DL Hcs DB). lia.
      - apply (def_slack P HP T it cs r g p (sc_def s) sol DL Hcs DB). lia. }
    pose proof (holds_consistent _ _ _ H2) as Hco.
    assert (Hind : rows_independent w' cs). { apply (def_independent P HP it cs r g p (sc_def s) sol DL Hcs RB w' Hco V2 C2); [intros j Hj; now apply Hvar|intros i Hi; now apply Hcon]. }
    pose proof (independent_size w' cs ltac:(lia) Hind) as Hsz.
    rewrite (holds_valid _ _ _ H2 Hsz). cbn [rbind check]. exists s1, w'. split; [reflexivity|]. split; [exact Hco|]. split; [now apply holds_in_order with (1 := H3)|]. split; [exact V2|]. split; [exact C2|]. split; [lia|]. split; [exact Hind|].
    split; [exact (proj1 (solved_least P HP T HT cs0 s it cs r g p sol Hy Hv))|]. split.
    + intros j Hj. destruct (Hvar j Hj) as (Q1 & Q2 & Q3). auto.
    + intros i Hi. destruct (Hcon i Hi) as (Q1 & Q2 & Q3). split; [exact Q1|]. split; [intros; apply Q2; auto|]. split; [intros; auto|].
      intros _ Heq. rewrite (Sc i Hi). unfold slack_state. destruct (nthb (ls_cs sol) i); auto; destruct (_ && _)%bool; auto; rewrite Heq; auto.
  - assert (L0 = L) as -> by (pose proof (q_red _ _ _ _ _ _ _ _ _ _ Hq); congruence). assert (sol' = sol) as -> by (pose proof (q_sol _ _ _ _ _ _ _ _ _ _ Hq); congruence).
    pose proof (q_lp _ _ _ _ _ _ _ _ _ _ Hq) as DL. pose proof (q_base _ _ _ _ _ _ _ _ _ _ Hq) as DB.
    assert (HS : forall s1, inv P T cs0 s1 (PSolved it cs r g p) -> sc_reduced s1 = true -> sc_red s1 = sc_red s -> fe_dbase (sc_fe s1) = false ->
      (forall j, (0 <= j < n)%Z -> nthb (fe_vs (sc_fe s1)) j = nthb (ls_vs sol) j) /\ fe_cs (sc_fe s1) = ls_cs sol).
    { intros s1 (_ & _ & sol1 & Hv1 & [[Rd1 _]|[_ (L1 & sol2 & Hq1)]]) Rd1' Ed D1; [congruence|]. 
      assert (L1 = L) as -> by (pose proof (q_red _ _ _ _ _ _ _ _ _ _ Hq1); congruence). assert (sol2 = sol) as -> by (pose proof (q_sol _ _ _ _ _ _ _ _ _ _ Hq1); congruence).
      exact (q_vs _ _ _ _ _ _ _ _ _ _ Hq1 D1). }
    destruct (fetch_base_ok P HP T cs0 it cs r g p s HR) as (s1 & E1 & I1 & D1 & (vs1 & cst1 & Es)).
    assert (Rd1 : sc_reduced s1 = true) by (rewrite Es; exact Rd). assert (Ed1 : sc_red s1 = sc_red s) by (rewrite Es; reflexivity).
    destruct (HS s1 I1 Rd1 Ed1 D1) as [Ev Ec].
    destruct (reduced_set_ok P HP T cs0 it cs r g p s (ws_reset w) HR Rd) as (s1' & w' & E1' & _ & _ & _ & A1 & H2 & V2 & C2); auto.
    { intros s2 E2 j Hj. assert (s2 = s1) as -> by congruence. rewrite Ev by exact Hj. apply (red_nozero P T HT it cs r g L sol DL DB Hr j Hj). }
    assert (s1' = s1) as -> by congruence. rewrite Ec in H2. rewrite A1. cbn [rbind snd].
    pose proof H2 as H3. rewrite <- V2, <- C2 in H3 at 1. apply holds_states in H3 as HSt. destruct HSt as [Sv Sc]. rewrite V2 in Sv. rewrite C2 in Sc.
    assert (Hvar : forall j, (0 <= j < n)%Z -> var_meaning P it r y (vstate w' j) j
          /\ (nthb (ls_vs sol) j <> BBasic -> vstate w' j = Inactive -> Rabs (y j) = r) /\ (nthb (ls_vs sol) j = BBasic -> vstate w' j = Inactive)).
    { intros j Hj. rewrite (Sv j Hj). pose proof (Ev j Hj) as Ej. rewrite <- Ej. apply (var_state_ok P T HT it r y (fe_vs (sc_fe s1)) j); auto; try lra; rewrite Ej.
      - exact (red_var P T it cs r g L sol DL DB j Hj).
      - now apply HF. }
    assert (Hcon : forall i, (0 <= i < m)%Z -> cons_meaning P it cs y (cstate w' i) i /\ (nthb (ls_cs sol) i = BBasic -> cstate w' i = Inactive)
      /\ (nthb (ls_cs sol) i <> BBasic -> nthb (ls_cs sol) i <> BZero -> cstate w' i <> Inactive)).
    { intros i Hi. rewrite (Sc i Hi). apply (plain_state_ok P T HT it cs y (ls_cs sol) i). exact (red_row P T it cs r g L sol DL DB i Hi). }
    pose proof (holds_consistent _ _ _ H2) as Hco.
    assert (Hind : rows_independent w' cs). { apply (red_independent P it cs r g L sol DL RB w' Hco V2 C2); [intros j Hj; now apply Hvar|intros i Hi; now apply Hcon]. }
    pose proof (independent_size w' cs ltac:(lia) Hind) as Hsz.
    rewrite (holds_valid _ _ _ H2 Hsz). cbn [rbind check]. exists s1, w'. split; [reflexivity|]. split; [exact Hco|]. split; [now apply holds_in_order with (1 := H3)|]. split; [exact V2|]. split; [exact C2|]. split; [lia|]. split; [exact Hind|].
    split; [exact (proj1 (reduced_least P HP T HT cs0 s it cs r g p sol0 L sol Hy Hv Hq))|]. split.
    + intros j Hj. destruct (Hvar j Hj) as (Q1 & Q2 & Q3). auto.
    + intros i Hi. destruct (Hcon i Hi) as (Q1 & Q2 & Q3). split; [exact Q1|]. split; [exact Q2|]. split; [intros; exfalso; now apply Q3|congruence].
Qed.
End Props.
Print Assumptions C76_working_set.

(** *** One variable with equal bounds and one equation; the linear program has two optimal bases. *)
Definition fP : @sprob RN := @mksp RN 1 1 (e1 0) (e1 0) (e1 0) (e1 0) true 0 0 true false.
Definition fit : @siter RN := @mksi RN (e1 0) 0 (e1 0) ejac.
Definition fsol (b c : bstat) (z y : R) : @lpsol RN := @mksol RN true 0 [0; 0; 0] [b; BLower; BLower] [c] [z; 3 - y; 3 + y] [y].
Definition fsolver (sol : @lpsol RN) (L : @lpi RN) : res (@lpsol RN) := Ok sol.
Lemma f_states sol : ls_opt sol = true -> exists s, sc_create fP ea [BZero;BZero;BZero] [BZero] [0;0;0] [0;0;0;0] = Ok s
  /\ exists s1, sc_set_iterate fP s fit 1 = Ok s1 /\ exists s2, sc_solve (fsolver sol) fP s1 (Some (e1 (-1))) 3 TDefault = Ok s2 /\ sc_reduced s2 = false
  /\ li_sol (sc_def s2) = Some sol.
Proof.
  intros Hopt. eexists. split; [leaf|]. eexists. split; [ev scu|]. eexists. split.
  { unfold sc_solve. eapply rbind_step; [leaf|]. cbv beta zeta. eapply rbind_step.
    { change (sp_warm fP) with true. cbv iota. unfold restore_basis. eapply if_step; [leaf|]. cbv iota. eapply if_step; [leaf|]. cbv iota.
      eapply rbind_step; [unfold set_slack_basis; eapply rbind_step; [ev scu|leaf]|]. leaf. }
    cbv beta. unfold lpi_solve, fsolver. cbn [rbind snd]. rewrite Hopt. cbn [rbind]. change (sp_resolves fP && otype_eqb TDefault TDefault) with false. cbv iota. reflexivity. }
  split; reflexivity.
Qed.
Lemma fP_ok : prob_ok fP.
Proof.
  pose proof hi_big. constructor; try apply e1_ok; cbn [fP sp_nv sp_nc sp_vlb sp_vub sp_clb sp_cub]; try lia.
  - intros j Hj. apply zero1 in Hj as ->. rewrite !e1_at. lra.
  - intros j Hj. apply zero1 in Hj as ->. rewrite !e1_at. split; [lra|]. split; [lra|]. split; [lra|]. split; right; rewrite Rabs_R0; lra.
Qed.
Lemma fit_ok : iter_ok fP fit ecs.
Proof.
  pose proof hi_big. constructor; try apply e1_ok; cbn [fP fit sp_nv sp_nc sp_vlb sp_vub sp_clb sp_cub si_x si_c si_jac]; try reflexivity.
  - intros j Hj. apply zero1 in Hj as ->. rewrite !e1_at, Rabs_R0. lra.
  - intros j Hj. apply zero1 in Hj as ->. rewrite !e1_at, Rabs_R0. lra.
  - exact (io_s _ _ _ eit_ok).
Qed.
Lemma f_lin y : lin fP (dense (si_c fit)) ecs y 0 = y 0%Z.
Proof. unfold lin, sumd. change (Z.to_nat (sp_nv fP)) with 1%nat. cbn [rsum]. change (Z.of_nat 0) with 0%Z. cbn [fit si_c]. rewrite e1_at. change (mR ecs 0 0) with 1. lra. Qed.
Lemma f_x b c z y q : (0 <= q < 3)%Z -> nth0 (ls_x (fsol b c z y)) q = 0.
Proof. intros Hq. assert (q = 0 \/ q = 1 \/ q = 2)%Z as [-> | [-> | ->]] by lia; reflexivity. Qed.
Lemma f_vlo : vlo fP (dense (si_x fit)) 1 0 = 0.
Proof. unfold vlo. cbn [fP sp_vlb fit si_x]. rewrite !e1_at, einf by lra. rewrite Rmax_left by lra. lra. Qed.
Lemma f_vup : vup fP (dense (si_x fit)) 1 0 = 0.
Proof. unfold vup. cbn [fP sp_vub fit si_x]. rewrite !e1_at, einf by lra. rewrite Rmin_left by lra. lra. Qed.
Lemma f_clo : clo fP (dense (si_c fit)) 0 = 0.
Proof. unfold clo. cbn [fP sp_clb fit si_c]. rewrite !e1_at, einf by lra. lra. Qed.
Lemma f_cup : cup fP (dense (si_c fit)) 0 = 0.
Proof. unfold cup. cbn [fP sp_cub fit si_c]. rewrite !e1_at, einf by lra. lra. Qed.
Lemma f_right L b c z y : b <> BZero -> c <> BZero -> default_lp fP L (dense (si_x fit)) (dense (si_c fit)) (grad (Some (e1 (-1)))) 1 3 ->
  lp_optimal hi L (ecs ++ @slack_cols RN 1) (fsol b c z y) /\ lp_base hi L (ecs ++ @slack_cols RN 1) (fsol b c z y).
Proof.
  intros Hb Hc HL. pose proof hi_big as Hh. pose proof (iter_facts fP fit ecs fit_ok) as (H1 & H2 & H3).
  assert (HT : hi <= hi <= 2 * hi) by lra. assert (Hr : 0 < 1 < hi) by lra.
  pose proof (fun y => default_feasible fP fP_ok hi HT _ _ _ 1 3 ecs Hr H1 H2 H3 L y HL) as HF.
  assert (HV' : forall y, lp_value L y = - y 0%Z + 3 * (y 1%Z + y 2%Z)).
  { intros v. rewrite (default_value fP fP_ok _ _ _ 1 3 ecs H3 L v HL). unfold slacks, sl, su, sumd. change (Z.to_nat (sp_nv fP)) with 1%nat. change (Z.to_nat (sp_nc fP)) with 1%nat. cbn [rsum]. change (Z.of_nat 0) with 0%Z. unfold grad. rewrite e1_at. change (sp_nv fP + 0)%Z with 1%Z. change (sp_nv fP + sp_nc fP + 0)%Z with 2%Z. lra. }
  assert (Hs : forall v, sl fP v 0 = v 1%Z /\ su fP v 0 = v 2%Z) by (intros; split; reflexivity).
  split; [constructor; try reflexivity|].
  - now rewrite (dl_nv _ _ _ _ _ _ _ HL).
  - now rewrite (dl_nv _ _ _ _ _ _ _ HL).
  - now rewrite (dl_nc _ _ _ _ _ _ _ HL).
  - now rewrite (dl_nv _ _ _ _ _ _ _ HL).
  - now rewrite (dl_nc _ _ _ _ _ _ _ HL).
  - apply HF. split.
    + intros j Hj. apply zero1 in Hj as ->. cbn [fP fit sp_vlb sp_vub si_x]. rewrite !e1_at, f_x by lia. rewrite Rabs_R0. lra.
    + intros i Hi. apply zero1 in Hi as ->. rewrite f_lin. cbn [fP sp_clb sp_cub]. destruct (Hs (nth0 (ls_x (fsol b c z y)))) as [-> ->]. rewrite !e1_at, !f_x by lia. lra.
  - rewrite HV', !f_x by lia. cbn [fsol ls_val]. lra.
  - intros v Hv. rewrite !HV', !f_x by lia. apply HF in Hv. destruct Hv as [Hx Hv]. specialize (Hx 0%Z ltac:(cbn; lia)). specialize (Hv 0%Z ltac:(cbn; lia)). rewrite f_lin in Hv.
    destruct (Hs v) as [E1 E2]. rewrite E1, E2 in Hv. cbn [fP fit sp_vlb sp_vub si_x sp_clb sp_cub] in Hx, Hv. rewrite !e1_at in Hx, Hv. lra.
  - split.
    + rewrite (dl_nv _ _ _ _ _ _ _ HL). intros j Hj. cbn in Hj.
      rewrite (nth0_arr _ _ _ _ (dl_vlb _ _ _ _ _ _ _ HL)) by (cbn; lia). rewrite (nth0_arr _ _ _ _ (dl_vub _ _ _ _ _ _ _ HL)) by (cbn; lia). rewrite f_x by lia.
      assert (j = 0 \/ j = 1 \/ j = 2)%Z as [-> | [-> | ->]] by lia.
      * change (at_bound hi b (vlo fP (dense (si_x fit)) 1 0) 0 (vup fP (dense (si_x fit)) 1 0)). rewrite f_vlo, f_vup. destruct b; cbn [at_bound]; (lra || exact I || congruence).
      * change (at_bound hi BLower 0 0 (2 * hi)). cbn [at_bound]. lra.
      * change (at_bound hi BLower 0 0 (2 * hi)). cbn [at_bound]. lra.
    + rewrite (dl_nc _ _ _ _ _ _ _ HL). intros i Hi. rewrite (nth0_arr _ _ _ _ (dl_clb _ _ _ _ _ _ _ HL)) by exact Hi. rewrite (nth0_arr _ _ _ _ (dl_cub _ _ _ _ _ _ _ HL)) by exact Hi.
      apply zero1 in Hi as ->. change (nthb (ls_cs (fsol b c z y)) 0) with c. rewrite f_clo, f_cup.
      rewrite (default_row fP fP_ok ecs H3 L) by (apply HL || (cbn; lia)). unfold sumd. change (Z.to_nat (sp_nv fP)) with 1%nat. cbn [rsum]. change (Z.of_nat 0) with 0%Z. change (mR ecs 0 0) with 1. destruct (Hs (nth0 (ls_x (fsol b c z y)))) as [-> ->]. rewrite !f_x by lia. destruct c; cbn [at_bound]; (lra || exact I || congruence).
Qed.
Lemma f_reach b c z y : b <> BZero -> c <> BZero -> exists s,
  reach fP (fsolver (fsol b c z y)) hi ecs s (PSolved fit ecs 1 (Some (e1 (-1))) 3) /\ sc_reduced s = false /\ li_sol (sc_def s) = Some (fsol b c z y)
  /\ default_lp fP (sc_def s) (dense (si_x fit)) (dense (si_c fit)) (grad (Some (e1 (-1)))) 1 3.
Proof.
  intros Hb Hc. pose proof hi_big as Hh. assert (HT : hi <= hi <= 2 * hi) by lra. set (sol := fsol b c z y).
  destruct (f_states sol eq_refl) as (s & E0 & s1 & E1 & s2 & E2 & Rd & S3).
  assert (R0 : reach fP (fsolver sol) hi ecs s PFresh). { refine (reach_create fP (fsolver sol) hi ecs ea _ _ _ _ s _ E0). repeat split. }
  assert (R1 : reach fP (fsolver sol) hi ecs s1 (PSet fit ecs 1)). { apply (reach_iterate fP (fsolver sol) hi ecs s PFresh); [exact R0|exact fit_ok|discriminate|lra|exact E1]. }
  pose proof (reach_inv fP fP_ok (fsolver sol) hi ecs s1 _ R1) as [Hz Hy].
  destruct (solve_lps fP fP_ok (fsolver sol) hi ecs fit ecs 1 (Some (e1 (-1))) 3 s1 TDefault s2 Hz Hy (e1_ok (-1)) ltac:(lra) E2) as (D1 & (mt & M1 & M2) & _).
  destruct (f_right _ b c z y Hb Hc D1) as [O3 B3].
  exists s2. split; [|auto]. apply (reach_solve fP (fsolver sol) hi ecs s1 _ fit ecs 1 _ 3 TDefault s2 R1); auto.
  - cbn. auto.
  - exact (e1_ok (-1)).
  - lra.
  - exists mt, (ecs ++ @slack_cols RN 1), sol. auto.
  - congruence.
Qed.
Lemma f_far : far fP fit 1.
Proof. pose proof hi_big. intros j Hj. apply zero1 in Hj as ->. cbn [fP fit sp_vlb sp_vub si_x]. rewrite !e1_at. lra. Qed.
Lemma f_entry i j : (0 <= i < 1)%Z -> (0 <= j < 3)%Z -> mR (ecs ++ @slack_cols RN 1) i j = if (j =? 2)%Z then -1 else 1.
Proof. intros Hi Hj. apply zero1 in Hi as ->. rewrite (mR_slack ecs 1 1) by (lia || reflexivity). assert (j = 0 \/ j = 1 \/ j = 2)%Z as [-> | [-> | ->]] by lia; reflexivity. Qed.
Lemma f_regular L b c z y : li_nv L = 3%Z -> li_nc L = 1%Z -> (b = BBasic /\ c = BLower) \/ (b = BLower /\ c = BBasic) ->
  regular_basis L (ecs ++ @slack_cols RN 1) (fsol b c z y).
Proof.
  intros E3 E1 Hbc. constructor; rewrite ?E3, ?E1.
  - intros a q Ha Hq He.
    assert (S1 : forall j, (0 <= j < 3)%Z -> sumd 1 (fun i => mR (ecs ++ @slack_cols RN 1) i j * q i) = (if (j =? 2)%Z then -1 else 1) * q 0%Z).
    { intros j Hj. unfold sumd. change (Z.to_nat 1) with 1%nat. cbn [rsum]. change (Z.of_nat 0) with 0%Z. rewrite f_entry by lia. lra. }
    pose proof (He 0%Z ltac:(lia)) as P0. pose proof (He 1%Z ltac:(lia)) as P1. pose proof (He 2%Z ltac:(lia)) as P2. rewrite S1 in P0, P1, P2 by lia. cbn [Z.eqb Pos.eqb] in P0, P1, P2.
    pose proof (Ha 0%Z ltac:(lia)) as A0. pose proof (Hq 0%Z ltac:(lia)) as Q0. change (nthb (ls_vs (fsol b c z y)) 0) with b in A0. change (nthb (ls_cs (fsol b c z y)) 0) with c in Q0.
    assert (q 0%Z = 0) by (destruct Hbc as [[B C]|[B C]]; [specialize (A0 B)|specialize (Q0 C)]; lra).
    split; [|intros i Hi; apply zero1 in Hi as ->; exact H]. intros j Hj. assert (j = 0 \/ j = 1 \/ j = 2)%Z as [-> | [-> | ->]] by lia; lra.
  - intros v Hv Hrow. pose proof (Hv 1%Z ltac:(lia) ltac:(discriminate)) as V1. pose proof (Hv 2%Z ltac:(lia) ltac:(discriminate)) as V2.
    assert (V0 : v 0%Z = 0).
    { destruct Hbc as [[B C]|[B C]]; [|apply Hv; [lia|change (nthb (ls_vs (fsol b c z y)) 0) with b; congruence]].
      specialize (Hrow 0%Z ltac:(lia) ltac:(change (nthb (ls_cs (fsol b c z y)) 0) with c; congruence)). unfold lp_row in Hrow. rewrite E3 in Hrow. unfold sumd in Hrow. change (Z.to_nat 3) with 3%nat in Hrow. cbn [rsum] in Hrow.
      change (Z.of_nat 0) with 0%Z in Hrow. change (Z.of_nat 1) with 1%Z in Hrow. change (Z.of_nat 2) with 2%Z in Hrow. rewrite !f_entry in Hrow by lia. cbn [Z.eqb Pos.eqb] in Hrow. lra. }
    intros j Hj. assert (j = 0 \/ j = 1 \/ j = 2)%Z as [-> | [-> | ->]] by lia; assumption.
Qed.

Lemma f_eq0 : @is_eq RN 0 0 0 = true.
Proof. unfold is_eq. rewrite rn_leb, rn_abs. destruct (rel_diff_real 0 0) as (c & Hc & ->). replace ((0 - 0) / c) with 0 by (unfold Rdiv; ring). rewrite Rabs_R0. lra. Qed.

(** The hypothesis on variables with equal bounds is needed: if such a variable is basic, it is
    added to the working set nevertheless, which then has more rows than variables; the assertion
    at the end of the function fails. *)
Theorem C76_fixed_refuted : exists P solver s it cs r g p sol w, prob_ok P /\ reach P solver hi cs s (PSolved it cs r g p)
  /\ last_lp P cs s (sc_def s) (cs ++ @slack_cols RN (sp_nc P)) sol /\ regular_basis (sc_def s) (cs ++ @slack_cols RN (sp_nc P)) sol /\ far P it r
  /\ w = ws_create (sp_nv P) (sp_nc P)
  /\ sc_working_set P s (si_x it) w = Trap.
Proof.
  destruct (f_reach BBasic BLower 0 (-1)) as (s & HR & Rd & Hs & DL); [discriminate|discriminate|]. set (sol := fsol BBasic BLower 0 (-1)) in *.
  pose proof hi_big as Hh. assert (HT : hi <= hi <= 2 * hi) by lra.
  exists fP, (fsolver sol), s, fit, ecs, 1, (Some (e1 (-1))), 3, sol, (ws_create 1 1). split; [exact fP_ok|]. split; [exact HR|].
  split; [unfold last_lp; rewrite Rd; auto|]. split; [apply f_regular; [apply DL|apply DL|auto]|]. split; [exact f_far|]. split; [reflexivity|].
  apply reach_inv in HR; [|exact fP_ok]. pose proof HR as (Hz & Hy & sol0 & Hv & [[_ [_ Hf]]|[Rd' _]]); [|congruence].
  destruct (fetch_base_ok fP fP_ok hi ecs fit ecs 1 _ 3 s HR) as (s1 & E1 & I1 & D1 & (vs1 & cst1 & Es)).
  assert (Hfe : fe_vs (sc_fe s1) = ls_vs sol /\ fe_cs (sc_fe s1) = ls_cs sol).
  { pose proof I1 as (_ & _ & sol1 & Hv1 & [[_ [_ F]]|[Rd1 _]]); [|rewrite Es in Rd1; cbn in Rd1; congruence]. pose proof (v_sol _ _ _ _ _ _ _ _ _ Hv1) as E2. rewrite Es in E2. cbn [set_fe sc_def] in E2.
    assert (sol1 = sol) as -> by congruence. exact (F D1). }
  destruct Hfe as [Ev Ec].
  destruct (add_vars_ok fP fP_ok hi ecs fit ecs 1 (Some (e1 (-1))) 3 s (ws_reset (ws_create 1 1)) HR) as (s1' & w1 & E1' & _ & _ & _ & A1 & H1 & V1 & C1); auto.
  { intros s2 E2 j Hj. assert (s2 = s1) as -> by congruence. rewrite Ev. apply zero1 in Hj as ->. discriminate. }
  { apply (reset_empty (ws_create 1 1)); (reflexivity || (cbn; lia)). }
  assert (s1' = s1) as -> by congruence.
  destruct (add_cons_ok fP fP_ok hi ecs fit ecs 1 (Some (e1 (-1))) 3 s1 w1 (listed (var_state fP fit 1 (fe_vs (sc_fe s1))) 1) I1 D1) as (w' & A2 & H2 & V2 & C2); auto.
  { intros i Hi. rewrite Ev. apply zero1 in Hi as ->. left. reflexivity. }
  unfold sc_working_set. rewrite Rd. unfold simple_working_set. rewrite A1. cbn [rbind fst snd]. rewrite A2. cbn [rbind snd].
  rewrite Ev, Ec in H2.
  pose proof f_eq0 as Eq.
  assert (Q1 : var_state fP fit 1 (ls_vs sol) 0 = ActBoth) by (unfold var_state; cbn [fP sp_vlb sp_vub sp_eps]; rewrite !e1_at; now rewrite Eq).
  assert (Q2 : slack_state fP (ls_vs sol) (ls_cs sol) 0 = ActBoth).
  { unfold slack_state. change (nthb (ls_cs sol) 0) with BLower. change (nthb (ls_vs sol) (sp_nv fP + 0)) with BLower. change (nthb (ls_vs sol) (sp_nv fP + sp_nc fP + 0)) with BLower. cbn [bstat_eqb andb fP sp_clb sp_cub sp_eps]. rewrite !e1_at. now rewrite Eq. }
  assert (Hsz : ws_size w' = 2%Z).
  { assert (Q : forall f : Z -> ast, f 0%Z = ActBoth -> Z.of_nat (length (listed f 1)) = 1%Z) by (intros f Ef; change (listed f 1) with (listed f (0 + 1)); rewrite listed_succ by lia; rewrite Ef; reflexivity).
    unfold ws_size. assert (wnav w' = 1%Z) as -> by exact (eq_trans (h_nav _ _ _ H2) (Q _ Q1)). assert (wnac w' = 1%Z) as -> by exact (eq_trans (h_nac _ _ _ H2) (Q _ Q2)). reflexivity. }
  unfold ws_valid. rewrite Hsz, V2. unfold ws_size in Hsz. pose proof (h_nav _ _ _ H2) as N1. pose proof (h_nac _ _ _ H2) as N2.
  destruct (wnav w' <=? 2)%Z; [|reflexivity]. destruct (wnac w' <=? 2)%Z; reflexivity.
Qed.
Print Assumptions C76_fixed_refuted.

(** The other basis of the same program, and the run of C75 without slack variables *)
Example C76_example : exists s s' w', reach fP (fsolver (fsol BLower BBasic (-1) 0)) hi ecs s (PSolved fit ecs 1 (Some (e1 (-1))) 3)
  /\ sc_working_set fP s (si_x fit) (ws_create 1 1) = Ok (s', w') /\ vstate w' 0 = ActBoth /\ cstate w' 0 = Inactive /\ rows_independent w' ecs.
Proof.
  destruct (f_reach BLower BBasic (-1) 0) as (s & HR & Rd & Hs & DL); [discriminate|discriminate|]. set (sol := fsol BLower BBasic (-1) 0) in *.
  pose proof hi_big as Hh. assert (HT : hi <= hi <= 2 * hi) by lra.
  destruct (C76_working_set fP fP_ok (fsolver sol) hi HT ecs s fit ecs 1 _ 3 (sc_def s) (ecs ++ @slack_cols RN 1) sol (ws_create 1 1) HR) as (s' & w' & E & C & _ & _ & _ & _ & I & _ & HV & HC); auto.
  - unfold last_lp. rewrite Rd. auto.
  - apply f_regular; [apply DL|apply DL|auto].
  - intros j Hj _. apply zero1 in Hj as ->. discriminate.
  - exact f_far.
  - exists s, s', w'. split; [exact HR|]. split; [exact E|]. destruct (HV 0%Z ltac:(cbn; lia)) as (M1 & _ & M3). destruct (HC 0%Z ltac:(cbn; lia)) as (_ & M4 & _ & _).
    split; [|split; [now apply M4|exact I]].
    assert (Ef : @is_eq RN (dense (sp_vlb fP) 0) (dense (sp_vub fP) 0) (sp_eps fP) = true).
    { cbn [fP sp_vlb sp_vub sp_eps]. rewrite !e1_at. exact f_eq0. }
    destruct (vstate w' 0) eqn:Es; [|exfalso; destruct M1 as [M1 _]; congruence|exfalso; destruct M1 as [M1 _]; congruence|reflexivity].
    cbn [var_meaning] in M1. congruence.
Qed.

Lemma e_regular L : li_nv L = 1%Z -> li_nc L = 1%Z -> regular_basis L ecs esol1.
Proof.
  intros E3 E1. assert (S1 : forall f, sumd 1 f = f 0%Z) by (intros; unfold sumd; change (Z.to_nat 1) with 1%nat; cbn [rsum]; change (Z.of_nat 0) with 0%Z; lra).
  constructor; rewrite ?E3, ?E1.
  - intros a q Ha Hq He. pose proof (He 0%Z ltac:(lia)) as P0. rewrite S1 in P0. change (mR ecs 0 0) with 1 in P0. pose proof (Ha 0%Z ltac:(lia) eq_refl) as A0.
    split; intros j Hj; apply zero1 in Hj as ->; lra.
  - intros v Hv Hrow. specialize (Hrow 0%Z ltac:(lia) ltac:(discriminate)). unfold lp_row in Hrow. rewrite E3, S1 in Hrow. change (mR ecs 0 0) with 1 in Hrow. intros j Hj. apply zero1 in Hj as ->. lra.
Qed.
Example C76_reduced_example : exists s s' w', reach eP esolver hi ecs s (PSolved eit ecs 1 (Some (e1 (-1))) 3) /\ sc_reduced s = true
  /\ sc_working_set eP s (si_x eit) (ws_create 1 1) = Ok (s', w') /\ vstate w' 0 = Inactive /\ cstate w' 0 = ActUpper /\ rows_independent w' ecs.
Proof.
  destruct ex_reach as (s & HR & Rd & L & EL & S1 & N1 & N2). pose proof hi_big as Hh. assert (HT : hi <= hi <= 2 * hi) by lra.
  assert (Ef : @is_eq RN (dense (sp_vlb eP) 0) (dense (sp_vub eP) 0) (sp_eps eP) <> true). { cbn [eP sp_vlb sp_vub sp_eps]. rewrite !e1_at. intros E. apply rn_is_eq0 in E. lra. }
  destruct (C76_working_set eP eP_ok esolver hi HT ecs s eit ecs 1 _ 3 L ecs esol1 (ws_create 1 1) HR) as (s' & w' & E & C & _ & _ & _ & _ & I & _ & HV & HC); auto.
  - unfold last_lp. rewrite Rd. auto.
  - now apply e_regular.
  - intros j Hj H. apply zero1 in Hj as ->. contradiction.
  - intros j Hj. apply zero1 in Hj as ->. cbn [eP eit sp_vlb sp_vub si_x]. rewrite !e1_at. lra.
  - exists s, s', w'. split; [exact HR|]. split; [exact Rd|]. split; [exact E|]. destruct (HV 0%Z ltac:(cbn; lia)) as (_ & M2 & _). destruct (HC 0%Z ltac:(cbn; lia)) as (M3 & _ & M4 & _).
    split; [now apply M2|]. split; [|exact I]. destruct (cstate w' 0) eqn:Es.
    + specialize (M4 ltac:(discriminate) ltac:(discriminate) eq_refl). destruct M4; congruence.
    + exfalso. destruct M3 as [_ M3]. rewrite elin in M3 by lia. cbn [eP sp_clb] in M3. rewrite e1_at in M3. change (nth0 (ls_x esol1) 0) with 1 in M3. lra.
    + reflexivity.
    + exfalso. destruct M3 as [M3 _]. cbn [eP sp_clb sp_cub sp_eps] in M3. rewrite !e1_at in M3. apply rn_is_eq0 in M3. lra.
Qed.
