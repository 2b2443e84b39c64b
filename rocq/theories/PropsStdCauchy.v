(** C75: steps of the linear model with general constraints. *)
From Coq Require Import Reals Lra.
From Verif Require Import Base Num Cmp Sparse Vec VecFacts VecFacts2 VecReal RSum Mat MatFacts MatFacts2 MatFacts3 MatFacts4 Arr Gauss PreprocReal QnReal AugJacReal AugJacQRReal WorkingSet WorkingSetFacts Cauchy CauchyFacts StdCauchy StdCauchyFacts StdCauchyReal StdCauchyLP StdCauchyReach Eval.
Local Open Scope R_scope.

(** A step that minimises the linear model of the merit function *)
Definition least (P : @sprob RN) (it : @siter RN) (cs : list (list (Z * R))) (r : R) (g : option (@vec RN)) (p : R) (d : Z -> R) : Prop :=
  step_ok P (dense (si_x it)) r d
  /\ forall d', step_ok P (dense (si_x it)) r d' ->
       merit_model P (grad g) (dense (si_c it)) cs p d <= merit_model P (grad g) (dense (si_c it)) cs p d'.

Section Props.
Variable P : @sprob RN.
Hypothesis HP : prob_ok P.
Variable solver : @lpi RN -> res (@lpsol RN).
Variable T : R.
Hypothesis HT : hi <= T <= 2 * hi.
Variable cs0 : list (list (Z * R)).
Notation n := (sp_nv P).
Notation m := (sp_nc P).

Lemma iter_facts it cs : iter_ok P it cs ->
  (forall j, (0 <= j < n)%Z -> dense (sp_vlb P) j <= dense (si_x it) j <= dense (sp_vub P) j)
  /\ (forall i, (0 <= i < m)%Z -> Rabs (dense (si_c it) i) < hi / 2) /\ Z.of_nat (length cs) = n.
Proof.
  intros H. split; [intros j Hj; apply (io_in _ _ _ H j Hj)|]. split; [apply (io_cv _ _ _ H)|].
  pose proof (io_s _ _ _ H) as [_ E]. rewrite (io_jc _ _ _ H) in E. symmetry. exact E.
Qed.

Lemma solved_least s it cs r g p sol : ready P cs0 s it cs r -> solved P T s it cs r g p sol ->
  least P it cs r g p (nth0 (ls_x sol)) /\ ls_val sol = merit_model P (grad g) (dense (si_c it)) cs p (nth0 (ls_x sol))
  /\ (0 < p -> slacks P (nth0 (ls_x sol)) = lin_viol P (dense (si_c it)) cs (nth0 (ls_x sol))).
Proof.
  intros Hy Hv. destruct (iter_facts _ _ (y_iter _ _ _ _ _ _ Hy)) as (H1 & H2 & H3).
  destruct (default_optimal P HP T HT _ _ _ r p cs (y_pos _ _ _ _ _ _ Hy) H1 H2 H3 (sc_def s) sol (v_lp _ _ _ _ _ _ _ _ _ Hv) (v_p _ _ _ _ _ _ _ _ _ Hv) (v_opt _ _ _ _ _ _ _ _ _ Hv)) as (A & B & C & D).
  split; [split; assumption|]. auto.
Qed.
Lemma reduced_least s it cs r g p sol L sol' : ready P cs0 s it cs r -> solved P T s it cs r g p sol -> reduced_fetch P T s it cs r g sol L sol' ->
  least P it cs r g p (nth0 (ls_x sol')) /\ lin_viol P (dense (si_c it)) cs (nth0 (ls_x sol')) = 0.
Proof.
  intros Hy Hv Hq. destruct (iter_facts _ _ (y_iter _ _ _ _ _ _ Hy)) as (H1 & H2 & H3). destruct (solved_least _ _ _ _ _ _ _ Hy Hv) as ([_ Hm] & _).
  destruct (reduced_optimal P HP T HT _ _ _ r p cs (y_pos _ _ _ _ _ _ Hy) H1 H2 H3 (sc_def s) sol L sol' (v_lp _ _ _ _ _ _ _ _ _ Hv) (v_p _ _ _ _ _ _ _ _ _ Hv) (v_opt _ _ _ _ _ _ _ _ _ Hv)
     (q_zero _ _ _ _ _ _ _ _ _ _ Hq) (q_lp _ _ _ _ _ _ _ _ _ _ Hq) (q_opt _ _ _ _ _ _ _ _ _ _ Hq)) as (A & B & C & _).
  split; [|exact C]. split; [exact A|]. intros d' Hd'. rewrite B. now apply Hm.
Qed.

(** The step that is returned after a solve, whatever was asked before, is allowed, and but for
    entries dropped as zeros it minimises the linear model of the merit function over all
    allowed steps. *)
Theorem C75_step s it cs r g p d0 : reach P solver T cs0 s (PSolved it cs r g p) -> wf d0 ->
  exists s' d y, sc_lp_step P s d0 = Ok (s', d) /\ vok n d
    /\ step_ok P (dense (si_x it)) r (dense d)
    /\ least P it cs r g p y
    /\ forall j, (0 <= j < n)%Z -> rounded (sp_zero P) (dense d j) (y j).
Proof.
  intros HR Hw. pose proof (po_n P HP) as Hn. pose proof (po_m P HP) as Hm. apply reach_inv in HR; [|exact HP].
  destruct (fetch_primal_ok P HP T cs0 it cs r g p s HR) as (s1 & E1 & HI & D1 & _). unfold sc_lp_step. rewrite E1. cbn [rbind].
  pose proof HI as (Hz & Hy & sol & Hv & Hf).
  assert (HL : exists y, least P it cs r g p y /\ forall j, (0 <= j < n)%Z -> nth0 (fe_x (sc_fe s1)) j = y j).
  { destruct (solved_least _ _ _ _ _ _ _ Hy Hv) as (L1 & _). destruct Hf as [[_ [F1 _]]|[_ (L & sol' & Hq)]].
    - exists (nth0 (ls_x sol)). split; [exact L1|]. intros j Hj. now rewrite (F1 D1).
    - destruct (reduced_least _ _ _ _ _ _ _ _ _ Hy Hv Hq) as [L2 _]. destruct (q_x _ _ _ _ _ _ _ _ _ _ Hq D1) as [Q|Q]; [exists (nth0 (ls_x sol'))|exists (nth0 (ls_x sol))]; auto. }
  destruct HL as (y & Hl & Hxy). set (vals := firstn (Z.to_nat n) (fe_x (sc_fe s1))).
  pose proof (@firstn_arr (@num RN) _ _ n _ (@arr_of (@num RN) 0 _ _ (z_x _ _ _ Hz)) ltac:(lia)) as Av. fold vals in Av.
  destruct (vec_set_from_raw_spec d0 vals (sp_zero P) Hw) as (d & Ed & Wd & Dd & Gd). rewrite Ed. cbn [rbind].
  assert (Hlen : Z.of_nat (length vals) = n) by (etransitivity; [exact (f_equal Z.of_nat (proj1 Av))|lia]).
  assert (Hrd : forall j, (0 <= j < n)%Z -> rounded (sp_zero P) (dense d j) (y j)).
  { intros j Hj. unfold dense. rewrite Gd by lia. rewrite (proj2 Av j Hj). rewrite <- (Hxy j Hj). unfold nth0.
    destruct (@is_zero RN _ _) eqn:Z0; [apply rounded_zero; [cbn; apply rn_n0|exact Z0]|now apply rounded_keep]. }
  exists s1, d, y. split; [reflexivity|]. split; [split; [exact Wd|congruence]|]. split; [|split; assumption].
  intros j Hj. destruct (Hrd j Hj) as [R1 R2]. pose proof (proj1 Hl j Hj) as Hs. destruct (iter_facts _ _ (y_iter _ _ _ _ _ _ Hy)) as (B & _). specialize (B j Hj). pose proof (y_pos _ _ _ _ _ _ Hy).
  destruct (Rle_lt_dec (Rabs (y j)) (sp_zero P)) as [Hle|Hlt]; [rewrite (R1 Hle)|rewrite (R2 Hlt); exact Hs]. rewrite Rabs_R0. split; [lra|]. split; intros; lra.
Qed.

(** The objective value is the least value of the linear model, and the violation that of a
    minimising step. *)
Theorem C75_value s it cs r g p : reach P solver T cs0 s (PSolved it cs r g p) ->
  exists s' v d, least P it cs r g p d
    /\ sc_obj_val s = Ok (si_obj it + merit_model P (grad g) (dense (si_c it)) cs p d)
    /\ sc_violation P s = Ok (s', v) /\ (0 < p -> v = lin_viol P (dense (si_c it)) cs d).
Proof.
  intros HR. apply reach_inv in HR; [|exact HP]. destruct (violation_ok P HP T cs0 it cs r g p s HR) as (s' & sol & E & Hv & _).
  destruct HR as (Hz & Hy & _). destruct (solved_least _ _ _ _ _ _ _ Hy Hv) as (L1 & V & S1).
  exists s', (slacks P (nth0 (ls_x sol))), (nth0 (ls_x sol)). split; [exact L1|]. split; [|split; [exact E|exact S1]].
  unfold sc_obj_val. rewrite (v_sol _ _ _ _ _ _ _ _ _ Hv). destruct (y_it _ _ _ _ _ _ Hy) as (it' & Ei & _ & Ho & _). rewrite Ei, Ho, V. f_equal. cbn. ring.
Qed.

(** The criticality bound at the merit value of the iterate is not negative, and it is zero
    exactly when no step improves the linear model. *)
Theorem C75_criticality s it cs r g p : reach P solver T cs0 s (PSolved it cs r g p) ->
  let phi := si_obj it + p * sumd m (fun i => viol (dense (sp_clb P) i) (dense (si_c it) i) (dense (sp_cub P) i)) in
  exists b, sc_criticality s phi = Ok b /\ 0 <= b
    /\ (b = 0 <-> forall d, step_ok P (dense (si_x it)) r d ->
          merit_model P (grad g) (dense (si_c it)) cs p (fun _ => 0) <= merit_model P (grad g) (dense (si_c it)) cs p d).
Proof.
  intros HR phi. destruct (C75_value s it cs r g p HR) as (s' & v & d & [L1 L2] & E & _).
  apply reach_inv in HR; [|exact HP]. destruct HR as (Hz & Hy & _). pose proof (y_pos _ _ _ _ _ _ Hy) as Hr.
  unfold sc_criticality. rewrite E. cbn [rbind]. eexists. split; [reflexivity|]. rewrite rn_min, rn_n1, (y_r _ _ _ _ _ _ Hy).
  change (@nsub RN) with Rminus. change (@ndiv RN) with Rdiv.
  destruct (iter_facts _ _ (y_iter _ _ _ _ _ _ Hy)) as (B & _).
  assert (H0 : step_ok P (dense (si_x it)) r (fun _ => 0)). { intros j Hj. specialize (B j Hj). rewrite Rabs_R0. split; [lra|]. split; intros; lra. }
  assert (Hphi : phi = si_obj it + merit_model P (grad g) (dense (si_c it)) cs p (fun _ => 0)).
  { unfold phi, merit_model, lin_viol. rewrite (sumd_zero n (fun j => grad g j * 0)) by (intros; apply Rmult_0_r). rewrite Rplus_0_l. f_equal. f_equal. apply sumd_ext. intros i Hi. f_equal.
    unfold lin. rewrite sumd_zero by (intros; apply Rmult_0_r). symmetry. apply Rplus_0_r. }
  rewrite Hphi. set (M0 := merit_model _ _ _ _ _ (fun _ => 0)) in *. set (M1 := merit_model _ _ _ _ _ d) in *. pose proof (L2 _ H0) as HM.
  assert (Hq : 0 < / Rmin r 1) by (apply Rinv_0_lt_compat, Rmin_glb_lt; lra).
  split; [apply Rmult_le_pos; [unfold M0, M1 in *; lra|lra]|]. split.
  - intros Hb d' Hd'. apply Rmult_integral in Hb. destruct Hb as [Hb|Hb]; [|lra]. specialize (L2 d' Hd'). unfold M0, M1 in *. lra.
  - intros Hm. specialize (Hm d L1). fold M1 in Hm. replace (si_obj it + M0 - (si_obj it + M1)) with 0 by (unfold M0, M1 in *; lra). apply Rmult_0_l.
Qed.

(** Passing an iterate always succeeds and leaves its Jacobian as it was, although the two
    identity matrices are appended to it and removed again; so does changing the radius. *)
Theorem C75_iterate s ph it cs r : reach P solver T cs0 s ph -> iter_ok P it cs -> (sp_nonlinear P = false -> cs = cs0) -> 0 < r < hi ->
  exists s' it', sc_set_iterate P s it r = Ok s' /\ sc_it s' = Some it' /\ sc_radius s' = r
    /\ si_x it' = si_x it /\ si_c it' = si_c it /\ si_obj it' = si_obj it
    /\ stores (si_jac it') cs /\ mnr (si_jac it') = m /\ mnc (si_jac it') = n.
Proof.
  intros HR Hi Hl Hr. apply reach_inv in HR; [|exact HP]. destruct (set_iterate_ok P HP cs0 s it cs r (proj1 HR) Hi Hl Hr) as (s' & it' & E & Hz & Hy & Ei & S1 & S2 & S3).
  exists s', it'. destruct (y_it _ _ _ _ _ _ Hy) as (it2 & E2 & X1 & X2 & X3 & X4). rewrite Ei in E2. injection E2 as <-. pose proof (y_r _ _ _ _ _ _ Hy). auto 12.
Qed.
Theorem C75_radius s ph it cs r0 r : reach P solver T cs0 s ph -> placed ph it cs r0 -> 0 < r < hi ->
  exists s', sc_set_trust_radius P s r = Ok s' /\ sc_radius s' = r.
Proof.
  intros HR Hp Hr. apply reach_inv in HR; [|exact HP]. destruct (inv_placed _ _ _ _ _ _ _ _ HR Hp) as [Hz Hy].
  destruct (set_radius_ok P HP cs0 s it cs r0 r Hz Hy Hr) as (s' & E & _ & Hy'). exists s'. split; [exact E|apply Hy'].
Qed.
End Props.
Print Assumptions C75_step.
Print Assumptions C75_value.
Print Assumptions C75_criticality.
Print Assumptions C75_iterate.
Print Assumptions C75_radius.
(** *** A run: one variable, one constraint; the slack variable of the active bound is basic, so
    that the LP is solved again without slack variables. *)
Definition e1 (a : R) : @vec RN := @mkvec RN 1 1 [(0%Z, a)].
Definition eP : @sprob RN := @mksp RN 1 1 (e1 0) (e1 10) (e1 (-5)) (e1 1) true 0 0 true true.
Definition ejac : @mat RN := mkmat 1 1 1 1 [0; 1]%Z [(0%Z, 1)].
Definition eit : @siter RN := @mksi RN (e1 0) 7 (e1 0) ejac.
Definition esol3 : @lpsol RN := @mksol RN true (-1) [1; 0; 0] [BUpper; BLower; BBasic] [BUpper] [0; 3; 0] [-3].
Definition esol1 : @lpsol RN := @mksol RN true (-1) [1] [BBasic] [BUpper] [0] [-1].
Definition esolver (L : @lpi RN) : res (@lpsol RN) := if (li_nv L =? 3)%Z then Ok esol3 else Ok esol1.
Definition ea : @lparr RN := @mkla RN [0;0;0] [0] [0] [0;0;0] [0;0;0].
Ltac scu _ := first [progress cbv beta iota zeta | unfold sc_set_iterate | unfold create_var_bounds | unfold create_cons_bounds | unfold set_default_coefficients | unfold sc_solve | unfold needs_resolve | unfold switch_to_reduced | unfold restore_basis | unfold set_slack_basis | unfold slack_basis].
Lemma ex_states : exists s, sc_create eP ea [BZero;BZero;BZero] [BZero] [0;0;0] [0;0;0;0] = Ok s
  /\ exists s1, sc_set_iterate eP s eit 1 = Ok s1 /\ exists s2, sc_solve esolver eP s1 (Some (e1 (-1))) 3 TDefault = Ok s2 /\ sc_reduced s2 = true
  /\ li_sol (sc_def s2) = Some esol3 /\ (exists L, sc_red s2 = Some L /\ li_sol L = Some esol1).
Proof.
  eexists. split; [leaf|]. eexists. split; [ev scu|]. eexists. split.
  { unfold sc_solve. eapply rbind_step; [leaf|]. cbv beta zeta. eapply rbind_step.
    { change (sp_warm eP) with true. cbv iota. unfold restore_basis. eapply if_step; [leaf|]. cbv iota. eapply if_step; [leaf|]. cbv iota.
      eapply rbind_step; [unfold set_slack_basis; eapply rbind_step; [ev scu|leaf]|]. leaf. }
    cbv beta. eapply rbind_step; [leaf|]. cbv beta zeta. eapply rbind_step; [leaf|]. cbv beta. 
    eapply if_step; [leaf|]. cbv iota. eapply rbind_step.
    { unfold needs_resolve. eapply rbind_step; [leaf|]. cbv beta. eapply rbind_step; [leaf|]. cbv beta. eapply rbind_step; [leaf|]. cbv beta. eapply rbind_step; [leaf|]. cbv beta.
      cbv zeta. eapply rbind_step; [ev scu|]. leaf. }
    cbv beta. eapply if_step; [leaf|]. cbv iota. ev scu. }
  split; [reflexivity|]. split; [reflexivity|]. eexists. split; reflexivity.
Qed.

Lemma e1_ok a : vok 1 (e1 a).
Proof. split; [|reflexivity]. split; [cbn; lia|]. split; [cbn; lia|cbn; lia]. Qed.
Lemma e1_at a : dense (e1 a) 0 = a. Proof. reflexivity. Qed.
Lemma zero1 j : (0 <= j < 1)%Z -> j = 0%Z. Proof. lia. Qed.
Lemma eP_ok : prob_ok eP.
Proof.
  pose proof hi_big. constructor; try apply e1_ok; cbn [eP sp_nv sp_nc sp_vlb sp_vub sp_clb sp_cub]; try lia.
  - intros j Hj. apply zero1 in Hj as ->. rewrite !e1_at. lra.
  - intros j Hj. apply zero1 in Hj as ->. rewrite !e1_at. split; [lra|]. split; [lra|]. split; [lra|].
    split; right; unfold Rabs; destruct (Rcase_abs _); lra.
Qed.
Definition ecs : list (list (Z * R)) := [[(0%Z, 1)]].
Lemma eit_ok : iter_ok eP eit ecs.
Proof.
  pose proof hi_big. constructor; try apply e1_ok; cbn [eP eit sp_nv sp_nc sp_vlb sp_vub sp_clb sp_cub si_x si_c si_jac]; try reflexivity.
  - intros j Hj. apply zero1 in Hj as ->. rewrite !e1_at, Rabs_R0. lra.
  - intros j Hj. apply zero1 in Hj as ->. rewrite !e1_at, Rabs_R0. lra.
  - split; [|reflexivity]. split; [cbn; lia|]. split; [cbn; lia|]. split.
    { intros [|[|j]] Hj; try reflexivity. cbn in Hj. lia. }
    split; [reflexivity|]. split; [exists []; reflexivity|]. split; [cbn; lia|]. repeat constructor; cbn; lia.
Qed.
Lemma elin y i : (0 <= i < 1)%Z -> lin eP (dense (si_c eit)) ecs y i = y 0%Z.
Proof. intros Hi. apply zero1 in Hi as ->. unfold lin, sumd. change (Z.to_nat (sp_nv eP)) with 1%nat. cbn [rsum]. change (Z.of_nat 0) with 0%Z. cbn [eit si_c]. rewrite e1_at. change (mR ecs 0 0) with 1. lra. Qed.
Lemma einf (a : R) : a < 1000 -> @is_infinite RN a = false.
Proof. intros H. pose proof hi_big. apply not_infinite. lra. Qed.
Lemma evup : vup eP (dense (si_x eit)) 1 0 = 1.
Proof. unfold vup. cbn [eP sp_vub eit si_x]. rewrite !e1_at, einf by lra. apply Rmin_right. lra. Qed.
Lemma ecup : cup eP (dense (si_c eit)) 0 = 1.
Proof. unfold cup. cbn [eP sp_cub eit si_c]. rewrite !e1_at, einf by lra. lra. Qed.

Lemma x30 : nth0 (ls_x esol3) 0 = 1. Proof. reflexivity. Qed.
Lemma x31 : nth0 (ls_x esol3) 1 = 0. Proof. reflexivity. Qed.
Lemma x32 : nth0 (ls_x esol3) 2 = 0. Proof. reflexivity. Qed.
Lemma x10 : nth0 (ls_x esol1) 0 = 1. Proof. reflexivity. Qed.
Lemma esl y : sl eP y 0 = y 1%Z. Proof. reflexivity. Qed.
Lemma esu y : su eP y 0 = y 2%Z. Proof. reflexivity. Qed.
Ltac xs := rewrite ?esl, ?esu, ?x30, ?x31, ?x32, ?x10.
Lemma eright3 L : default_lp eP L (dense (si_x eit)) (dense (si_c eit)) (grad (Some (e1 (-1)))) 1 3 -> lp_optimal hi L (ecs ++ @slack_cols RN 1) esol3 /\ lp_base hi L (ecs ++ @slack_cols RN 1) esol3.
Proof.
  intros HL. pose proof hi_big as Hh. pose proof (iter_facts eP eit ecs eit_ok) as (H1 & H2 & H3).
  assert (HT : hi <= hi <= 2 * hi) by lra. assert (Hr : 0 < 1 < hi) by lra.
  pose proof (fun y => default_feasible eP eP_ok hi HT _ _ _ 1 3 ecs Hr H1 H2 H3 L y HL) as HF.
  pose proof (fun y => default_value eP eP_ok _ _ _ 1 3 ecs H3 L y HL) as HV.
  assert (HV' : forall y, lp_value L y = - y 0%Z + 3 * (y 1%Z + y 2%Z)).
  { intros y. rewrite HV. unfold slacks, sl, su, sumd. change (Z.to_nat (sp_nv eP)) with 1%nat. change (Z.to_nat (sp_nc eP)) with 1%nat. cbn [rsum]. change (Z.of_nat 0) with 0%Z. unfold grad. rewrite e1_at. change (sp_nv eP + 0)%Z with 1%Z. change (sp_nv eP + sp_nc eP + 0)%Z with 2%Z. lra. }
  split; [constructor; try reflexivity|].
  - now rewrite (dl_nv _ _ _ _ _ _ _ HL).
  - now rewrite (dl_nv _ _ _ _ _ _ _ HL).
  - now rewrite (dl_nc _ _ _ _ _ _ _ HL).
  - now rewrite (dl_nv _ _ _ _ _ _ _ HL).
  - now rewrite (dl_nc _ _ _ _ _ _ _ HL).
  - apply HF. split.
    + intros j Hj. apply zero1 in Hj as ->. cbn [eP eit sp_vlb sp_vub si_x]. rewrite !e1_at. xs. rewrite Rabs_R1. lra.
    + intros i Hi. rewrite elin by exact Hi. apply zero1 in Hi as ->. cbn [eP sp_clb sp_cub]. rewrite !e1_at. xs. lra.
  - rewrite HV'. xs. cbn [esol3 ls_val]. lra.
  - intros y Hy. rewrite !HV'. apply HF in Hy. destruct Hy as [_ Hy]. specialize (Hy 0%Z ltac:(cbn; lia)). rewrite elin in Hy by lia. cbn [eP sp_clb sp_cub] in Hy. rewrite !e1_at in Hy.
    destruct Hy as (Y1 & Y2 & _ & Y4). specialize (Y4 ltac:(lra)). rewrite ?esl, ?esu in *. xs. lra.
  - split.
    + rewrite (dl_nv _ _ _ _ _ _ _ HL). intros j Hj. cbn in Hj.
      rewrite (nth0_arr _ _ _ _ (dl_vlb _ _ _ _ _ _ _ HL)) by (cbn; lia). rewrite (nth0_arr _ _ _ _ (dl_vub _ _ _ _ _ _ _ HL)) by (cbn; lia).
      assert (j = 0 \/ j = 1 \/ j = 2)%Z as [-> | [-> | ->]] by lia.
      * change (at_bound hi BUpper (vlo eP (dense (si_x eit)) 1 0) 1 (vup eP (dense (si_x eit)) 1 0)). cbn [at_bound]. rewrite evup. lra.
      * change (at_bound hi BLower 0 0 (2 * hi)). cbn [at_bound]. lra.
      * exact I.
    + rewrite (dl_nc _ _ _ _ _ _ _ HL). intros i Hi. rewrite (nth0_arr _ _ _ _ (dl_clb _ _ _ _ _ _ _ HL)) by exact Hi. rewrite (nth0_arr _ _ _ _ (dl_cub _ _ _ _ _ _ _ HL)) by exact Hi.
      apply zero1 in Hi as ->. cbn [nthb esol3 ls_cs nth Z.to_nat at_bound]. unfold nthb. cbn [esol3 ls_cs nth Z.to_nat at_bound]. rewrite ecup. split; [|lra].
      rewrite (default_row eP eP_ok ecs H3 L) by (apply HL || (cbn; lia)). unfold sumd. change (Z.to_nat (sp_nv eP)) with 1%nat. cbn [rsum]. change (Z.of_nat 0) with 0%Z. change (mR ecs 0 0) with 1. xs. lra.
Qed.
Lemma eright1 L : reduced_lp eP L (dense (si_x eit)) (dense (si_c eit)) (grad (Some (e1 (-1)))) 1 -> lp_optimal hi L ecs esol1 /\ lp_base hi L ecs esol1.
Proof.
  intros HL. pose proof hi_big as Hh. pose proof (iter_facts eP eit ecs eit_ok) as (H1 & H2 & H3).
  assert (HT : hi <= hi <= 2 * hi) by lra. assert (Hr : 0 < 1 < hi) by lra.
  assert (HV : forall y, lp_value L y = - y 0%Z).
  { intros y. unfold lp_value. rewrite (rl_nv _ _ _ _ _ _ HL). unfold sumd. change (Z.to_nat (sp_nv eP)) with 1%nat. cbn [rsum]. change (Z.of_nat 0) with 0%Z.
    rewrite (nth0_arr _ _ _ _ (rl_obj _ _ _ _ _ _ HL)) by (cbn; lia). unfold grad. rewrite e1_at. lra. }
  assert (HR : forall y, lp_row L ecs y 0 = y 0%Z). { intros y. unfold lp_row. rewrite (rl_nv _ _ _ _ _ _ HL). unfold sumd. change (Z.to_nat (sp_nv eP)) with 1%nat. cbn [rsum]. change (Z.of_nat 0) with 0%Z. change (mR ecs 0 0) with 1. lra. }
  split; [constructor; try reflexivity|].
  - now rewrite (rl_nv _ _ _ _ _ _ HL).
  - now rewrite (rl_nv _ _ _ _ _ _ HL).
  - now rewrite (rl_nc _ _ _ _ _ _ HL).
  - now rewrite (rl_nv _ _ _ _ _ _ HL).
  - now rewrite (rl_nc _ _ _ _ _ _ HL).
  - split.
    + rewrite (rl_nv _ _ _ _ _ _ HL). intros j Hj. rewrite (nth0_arr _ _ _ _ (rl_vlb _ _ _ _ _ _ HL)) by exact Hj. rewrite (nth0_arr _ _ _ _ (rl_vub _ _ _ _ _ _ HL)) by exact Hj.
      apply (var_inside eP hi HT _ (dense (si_c eit)) 1 Hr H1); [exact Hj|]. apply zero1 in Hj as ->. cbn [eP eit sp_vlb sp_vub si_x]. rewrite !e1_at. xs. rewrite Rabs_R1. lra.
    + rewrite (rl_nc _ _ _ _ _ _ HL). intros i Hi. rewrite (nth0_arr _ _ _ _ (rl_clb _ _ _ _ _ _ HL)) by exact Hi. rewrite (nth0_arr _ _ _ _ (rl_cub _ _ _ _ _ _ HL)) by exact Hi.
      apply (row_inside eP eP_ok hi HT _ H2); [exact Hi|]. apply zero1 in Hi as ->. rewrite HR. cbn [eP eit sp_clb sp_cub si_c]. rewrite !e1_at. xs. lra.
  - rewrite HV. xs. cbn [esol1 ls_val]. lra.
  - intros y [_ Hy]. rewrite !HV. rewrite (rl_nc _ _ _ _ _ _ HL) in Hy. specialize (Hy 0%Z ltac:(cbn; lia)).
    rewrite (nth0_arr _ _ _ _ (rl_cub _ _ _ _ _ _ HL)) in Hy by (cbn; lia). rewrite HR, ecup in Hy. destruct Hy as [_ Hy]. specialize (Hy ltac:(lra)). xs. lra.
  - split.
    + intros j Hj. rewrite (rl_nv _ _ _ _ _ _ HL) in Hj. apply zero1 in Hj as ->. exact I.
    + rewrite (rl_nc _ _ _ _ _ _ HL). intros i Hi. rewrite (nth0_arr _ _ _ _ (rl_clb _ _ _ _ _ _ HL)) by exact Hi. rewrite (nth0_arr _ _ _ _ (rl_cub _ _ _ _ _ _ HL)) by exact Hi.
      apply zero1 in Hi as ->. unfold nthb. cbn [esol1 ls_cs nth Z.to_nat at_bound]. rewrite ecup, HR. xs. lra.
Qed.

Lemma ex_reach : exists s, reach eP esolver hi ecs s (PSolved eit ecs 1 (Some (e1 (-1))) 3) /\ sc_reduced s = true
  /\ exists L, sc_red s = Some L /\ li_sol L = Some esol1 /\ li_nv L = 1%Z /\ li_nc L = 1%Z.
Proof.
  pose proof hi_big as Hh. assert (HT : hi <= hi <= 2 * hi) by lra.
  destruct ex_states as (s & E0 & s1 & E1 & s2 & E2 & Rd & S3 & L & EL & S1).
  assert (R0 : reach eP esolver hi ecs s PFresh). { refine (reach_create eP esolver hi ecs ea _ _ _ _ s _ E0). repeat split. }
  assert (R1 : reach eP esolver hi ecs s1 (PSet eit ecs 1)). { apply (reach_iterate eP esolver hi ecs s PFresh); [exact R0|exact eit_ok|discriminate|lra|exact E1]. }
  pose proof (reach_inv eP eP_ok esolver hi ecs s1 _ R1) as [Hz Hy].
  destruct (solve_lps eP eP_ok esolver hi ecs eit ecs 1 (Some (e1 (-1))) 3 s1 TDefault s2 Hz Hy (e1_ok (-1)) ltac:(lra) E2) as (D1 & (mt & M1 & M2) & D2).
  destruct (eright3 _ D1) as [O3 B3].
  assert (Hr3 : right hi (sc_def s2)) by (exists mt, (ecs ++ @slack_cols RN 1), esol3; auto).
  destruct (D2 Hr3) as [D3 _]. destruct (D3 Rd) as (L' & mt' & EL' & D4 & M3 & M4). rewrite EL in EL'. injection EL' as <-.
  destruct (eright1 _ D4) as [O1 B1].
  exists s2. split; [|split; [exact Rd|exists L; split; [exact EL|split; [exact S1|split; apply D4]]]]. apply (reach_solve eP esolver hi ecs s1 _ eit ecs 1 _ 3 TDefault s2 R1); auto.
  - cbn. auto.
  - exact (e1_ok (-1)).
  - lra.
  - intros _. exists L. split; [exact EL|]. exists mt', ecs, esol1. auto.
Qed.
Example C75_example : exists s s' d, reach eP esolver hi ecs s (PSolved eit ecs 1 (Some (e1 (-1))) 3) /\ sc_reduced s = true
  /\ sc_lp_step eP s (e1 0) = Ok (s', d) /\ dense d 0 = 1 /\ sc_obj_val s = Ok 6.
Proof.
  destruct ex_reach as (s & HR & Rd & _). pose proof hi_big as Hh. assert (HT : hi <= hi <= 2 * hi) by lra.
  assert (HM : forall y, merit_model eP (grad (Some (e1 (-1)))) (dense (si_c eit)) ecs 3 y = - y 0%Z + 3 * viol (-5) (y 0%Z) 1).
  { intros y. unfold merit_model, lin_viol, sumd. change (Z.to_nat (sp_nv eP)) with 1%nat. change (Z.to_nat (sp_nc eP)) with 1%nat. cbn [rsum]. change (Z.of_nat 0) with 0%Z.
    rewrite elin by lia. unfold grad. cbn [eP sp_clb sp_cub]. rewrite !e1_at. lra. }
  assert (H1 : forall y, least eP eit ecs 1 (Some (e1 (-1))) 3 y -> y 0%Z = 1).
  { intros y [S1 S2]. specialize (S2 (fun _ => 1)). rewrite !HM in S2.
    assert (step_ok eP (dense (si_x eit)) 1 (fun _ => 1)). { intros j Hj. apply zero1 in Hj as ->. cbn [eP eit sp_vlb sp_vub si_x]. rewrite !e1_at, Rabs_R1. lra. }
    specialize (S2 H). specialize (S1 0%Z ltac:(cbn; lia)). destruct S1 as (S1 & _). unfold Rabs in S1. unfold viol in S2.
    destruct (Rcase_abs (y 0%Z)), (Rlt_dec (- hi) (-5)), (Rlt_dec 1 hi); try lra; unfold Rmax in S2; repeat destruct (Rle_dec _ _) in S2; lra. }
  destruct (C75_step eP eP_ok esolver hi HT ecs s eit ecs 1 _ 3 (e1 0) HR (proj1 (e1_ok 0))) as (s' & d & y & E & _ & _ & Hl & Hd).
  destruct (C75_value eP eP_ok esolver hi HT ecs s eit ecs 1 _ 3 HR) as (_ & _ & z & Hz & Ev & _).
  exists s, s', d. split; [exact HR|]. split; [exact Rd|]. split; [exact E|]. specialize (Hd 0%Z ltac:(cbn; lia)). apply rounded0 in Hd. split; [rewrite Hd; now apply H1|].
  rewrite Ev. f_equal. rewrite HM, (H1 z Hz). cbn [eit si_obj]. unfold viol. destruct (Rlt_dec (- hi) (-5)), (Rlt_dec 1 hi); try lra. rewrite !Rmax_left by lra. lra.
Qed.
