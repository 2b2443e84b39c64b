(** C77: the multipliers taken from the linear program. *)
From Coq Require Import Reals Lra.
From Verif Require Import Base Num Cmp Sparse Vec VecFacts VecFacts2 VecReal RSum Mat MatFacts MatFacts2 MatFacts3 MatFacts4 Arr Gauss PreprocReal QnReal WorkingSet WorkingSetFacts DualEstFacts AugJacFacts AugJacMain AugJacReal AugJacQRReal Cauchy CauchyFacts StdCauchy StdCauchyFacts StdCauchyReal StdCauchyLP StdCauchyReach StdCauchyWS StdCauchyWS2 StdCauchyDual Eval PropsStdCauchy PropsStdCauchy2.
Local Open Scope R_scope.

(** The conditions under which a step [y] with working set [w] minimises the linear model of the
    merit function over the trust region: [la], [mu] multipliers of the working set, [si]
    slopes of the violations of the other constraints, [ta] multipliers of the trust region. *)
Record stationary (P : @sprob RN) (it : @siter RN) (cs : list (list (Z * R))) (r : R) (g : option (@vec RN)) (p : R) (y : Z -> R) (w : wset) (la mu si ta : Z -> R) : Prop := {
  st_zero : forall j, (0 <= j < sp_nv P)%Z -> grad g j + sumd (sp_nc P) (fun i => mR cs i j * (la i + si i)) + mu j + ta j = 0;
  st_var : forall j, (0 <= j < sp_nv P)%Z -> sign_ok (vstate w j) (mu j)
     /\ (ta j = 0 \/ vstate w j = Inactive /\ Rabs (y j) = r /\ 0 <= ta j * y j);
  st_cons : forall i, (0 <= i < sp_nc P)%Z -> sign_ok (cstate w i) (la i) /\ Rabs (la i) <= p
     /\ (si i = 0 \/ cstate w i = Inactive
         /\ (si i = p /\ dense (sp_cub P) i < hi /\ dense (sp_cub P) i <= lin P (dense (si_c it)) cs y i
             \/ si i = - p /\ - hi < dense (sp_clb P) i /\ lin P (dense (si_c it)) cs y i <= dense (sp_clb P) i)) }.

Section Props.
Variable P : @sprob RN.
Hypothesis HP : prob_ok P.
Variable solver : @lpi RN -> res (@lpsol RN).
Variable T : R.
Hypothesis HT : hi <= T <= 2 * hi.
Variable cs0 : list (list (Z * R)).
Notation n := (sp_nv P).
Notation m := (sp_nc P).

(** For any working set, multipliers of other bounds are zero and the rest have the right sign. *)
Theorem C77_signs s it cs r g p w cd vd : reach P solver T cs0 s (PSolved it cs r g p) ->
  consistent w -> wnv w = n -> wnc w = m -> vok m cd -> vok n vd ->
  exists s' cd' vd', sc_estimate_duals P s w cd vd = Ok (s', cd', vd') /\ vok m cd' /\ vok n vd'
    /\ (forall i, (0 <= i < m)%Z -> sign_ok (cstate w i) (dense cd' i))
    /\ (forall j, (0 <= j < n)%Z -> sign_ok (vstate w j) (dense vd' j)).
Proof.
  intros HR C Wv Wc Hc Hv. apply reach_inv in HR; [|exact HP]. pose proof HR as (_ & _ & sol & Hs & _).
  destruct (estimate_ok P HP T cs0 it cs r g p s sol w cd vd HR (v_sol _ _ _ _ _ _ _ _ _ Hs) C Wv Wc Hc Hv) as (s' & cd' & vd' & E & O1 & O2 & G1 & G2).
  exists s', cd', vd'. split; [exact E|]. split; [exact O1|]. split; [exact O2|].
  split; [intros i Hi; destruct (G1 i Hi) as (q & _ & ->)|intros j Hj; destruct (G2 j Hj) as (q & _ & ->)]; apply trimmed_sign.
Qed.

(** If the LP was not solved again, the multipliers for the working set of the same LP
    are, but for entries dropped as zeros, those of the optimality conditions of the linear model. *)
Theorem C77_multipliers s it cs r g p sol w cd vd : reach P solver T cs0 s (PSolved it cs r g p) -> sc_reduced s = false ->
  li_sol (sc_def s) = Some sol -> regular_basis (sc_def s) (cs ++ @slack_cols RN m) sol -> lp_duals T (sc_def s) (cs ++ @slack_cols RN m) sol ->
  fixed_nonbasic P sol -> far P it r -> 0 <= sp_eps P ->
  wnv w = n -> wnc w = m -> Z.of_nat (length (wcont w)) = (n + m)%Z -> vok m cd -> vok n vd ->
  exists s1 w' s2 cd' vd' la mu si ta,
    sc_working_set P s (si_x it) w = Ok (s1, w') /\ sc_estimate_duals P s1 w' cd vd = Ok (s2, cd', vd')
    /\ stationary P it cs r g p (nth0 (ls_x sol)) w' la mu si ta
    /\ (forall i, (0 <= i < m)%Z -> si i <> 0 -> nthb (ls_cs sol) i <> BBasic) /\ (forall j, (0 <= j < n)%Z -> ta j <> 0 -> nthb (ls_vs sol) j <> BBasic)
    /\ (forall i, (0 <= i < m)%Z -> rounded (sp_zero P) (dense cd' i) (la i))
    /\ (forall j, (0 <= j < n)%Z -> rounded (sp_zero P) (dense vd' j) (mu j)).
Proof.
  intros HR Rd Hs RB LD HF Hfar Heps Wv Wc Wl Hc Hv.
  destruct (C76_working_set P HP solver T HT cs0 s it cs r g p (sc_def s) (cs ++ @slack_cols RN m) sol w HR) as (s1 & w' & E & C & _ & Wv' & Wc' & _ & _ & Hle & HV & HC); auto.
  { unfold last_lp. rewrite Rd. auto. }
  pose proof (reach_working_set P solver T cs0 s it cs r g p (si_x it) w s1 w' HR E) as HR1. pose proof (working_set_def P s (si_x it) w s1 w' E) as Ed.
  apply reach_inv in HR; [|exact HP]. apply reach_inv in HR1; [|exact HP]. pose proof HR as (Hz & Hy & sol0 & Hsol & _).
  assert (sol0 = sol) as -> by (pose proof (v_sol _ _ _ _ _ _ _ _ _ Hsol); congruence).
  pose proof (v_lp _ _ _ _ _ _ _ _ _ Hsol) as DL. pose proof (v_base _ _ _ _ _ _ _ _ _ Hsol) as DB. pose proof (v_opt _ _ _ _ _ _ _ _ _ Hsol) as DO.
  destruct (iter_facts P it cs (y_iter _ _ _ _ _ _ Hy)) as (Hin & Hcv & Hcs). pose proof (y_pos _ _ _ _ _ _ Hy) as Hr. pose proof (v_p _ _ _ _ _ _ _ _ _ Hsol) as Hp.
  destruct (estimate_ok P HP T cs0 it cs r g p s1 sol w' cd vd HR1 ltac:(congruence) C Wv' Wc' Hc Hv) as (s2 & cd' & vd' & E2 & _ & _ & G1 & G2).
  set (act := fun (st : ast) (v : R) => match st with Inactive => 0 | _ => v end).
  set (ina := fun (st : ast) (v : R) => match st with Inactive => v | _ => 0 end).
  exists s1, w', s2, cd', vd', (fun i => act (cstate w' i) (- nth0 (ls_y sol) i)), (fun j => act (vstate w' j) (- nth0 (ls_z sol) j)),
    (fun i => ina (cstate w' i) (- nth0 (ls_y sol) i)), (fun j => ina (vstate w' j) (- nth0 (ls_z sol) j)).
  assert (Hai : forall st v, act st v + ina st v = v) by (intros [] v; cbn; lra).
  assert (Heq : forall a b, a = b -> @is_eq RN a b (sp_eps P) = true).
  { intros a b ->. unfold is_eq. rewrite rn_leb, rn_abs. destruct (rel_diff_real b b) as (c & Hc0 & ->). replace ((b - b) / c) with 0 by (unfold Rdiv; ring). rewrite Rabs_R0. exact Heps. }
  assert (Hlam : forall i, (0 <= i < m)%Z -> sign_ok (cstate w' i) (act (cstate w' i) (- nth0 (ls_y sol) i))).
  { intros i Hi. destruct (HC i Hi) as (M1 & _ & _ & M4). destruct (cert_row P HP T HT it cs r g p (sc_def s) sol DL Hcs DB LD i Hi) as (R1 & R2 & _).
    destruct (cert_bound P HP T HT it cs r g p (sc_def s) sol DL Hcs LD i Hi) as (B1 & B2 & B3). pose proof (po_c P HP i Hi) as (Hlu & _).
    assert (Hsl : 0 <= sl P (nth0 (ls_x sol)) i /\ 0 <= su P (nth0 (ls_x sol)) i). { destruct (proj1 (default_feasible P HP T HT _ _ _ r p cs Hr Hin Hcv Hcs (sc_def s) _ DL) (lo_feas _ _ _ _ DO)) as [_ Q]. destruct (Q i Hi) as (Q1 & Q2 & _). auto. }
    destruct (cstate w' i) eqn:Ec; cbn [act sign_ok cons_meaning] in *; auto.
    - destruct (Rle_lt_dec 0 (nth0 (ls_y sol) i)) as [G|G]; [lra|]. exfalso. destruct M1 as [_ M1]. destruct (R2 G) as [_ R3]. rewrite B2 in R3 by (unfold Rabs in B1; destruct (Rcase_abs _); lra).
      destruct (M4 Rd) as [Q|Q]; try congruence. apply Heq. lra.
    - destruct (Rle_lt_dec (nth0 (ls_y sol) i) 0) as [G|G]; [lra|]. exfalso. destruct M1 as [_ M1]. destruct (R1 G) as [_ R3]. rewrite B3 in R3 by (unfold Rabs in B1; destruct (Rcase_abs _); lra).
      destruct (M4 Rd) as [Q|Q]; try congruence. apply Heq. lra. }
  assert (Hmu : forall j, (0 <= j < n)%Z -> sign_ok (vstate w' j) (act (vstate w' j) (- nth0 (ls_z sol) j))).
  { intros j Hj. destruct (HV j Hj) as (M1 & _). destruct (cert_var P HP T it cs r g p (sc_def s) sol DL LD j Hj) as (R1 & R2 & _). specialize (Hin j Hj).
    pose proof (vlo_cases P it r j) as Vl. pose proof (vup_cases P it r j) as Vu.
    destruct (vstate w' j) eqn:Ec; cbn [act sign_ok var_meaning] in *; auto; destruct M1 as (M1 & _ & M2).
    - destruct (Rle_lt_dec 0 (nth0 (ls_z sol) j)) as [G|G]; [lra|]. exfalso. specialize (R2 G). rewrite Heq in M1; [discriminate|]. destruct Vu as [Vu|[_ Vu]]; lra.
    - destruct (Rle_lt_dec (nth0 (ls_z sol) j) 0) as [G|G]; [lra|]. exfalso. specialize (R1 G). rewrite Heq in M1; [discriminate|]. destruct Vl as [Vl|[_ Vl]]; lra. }
  split; [exact E|]. split; [exact E2|]. split; [constructor|split; [|split; [|split]]].
  - intros j Hj. rewrite (sumd_ext m _ (fun i => - 1 * (mR cs i j * nth0 (ls_y sol) i))) by (intros i Hi; rewrite Hai; lra). rewrite sumd_scal.
    pose proof (cert_z P HP T it cs r g p (sc_def s) sol DL Hcs LD j Hj) as Q. pose proof (Hai (vstate w' j) (- nth0 (ls_z sol) j)). lra.
  - intros j Hj. split; [now apply Hmu|]. destruct (HV j Hj) as (_ & _ & M3). destruct (cert_var P HP T it cs r g p (sc_def s) sol DL LD j Hj) as (R1 & R2 & R3).
    pose proof (vlo_cases P it r j) as Vl. pose proof (vup_cases P it r j) as Vu. specialize (Hin j Hj).
    destruct (vstate w' j) eqn:Ec; cbn [ina]; auto. destruct (Req_dec (nth0 (ls_z sol) j) 0) as [Q|Q]; [left; lra|]. right. split; [reflexivity|]. split; [apply M3; auto|].
    destruct (Rtotal_order (nth0 (ls_z sol) j) 0) as [G|[G|G]]; [rewrite (R2 G)|lra|rewrite (R1 G)].
    + apply Rmult_le_pos; [lra|]. destruct Vu as [->|[_ ->]]; lra.
    + replace (- nth0 (ls_z sol) j * vlo P (dense (si_x it)) r j) with (nth0 (ls_z sol) j * - vlo P (dense (si_x it)) r j) by lra. apply Rmult_le_pos; [lra|]. destruct Vl as [->|[_ ->]]; lra.
  - intros i Hi. split; [now apply Hlam|]. destruct (HC i Hi) as (_ & _ & M3 & _). destruct (cert_row P HP T HT it cs r g p (sc_def s) sol DL Hcs DB LD i Hi) as (R1 & R2 & R3).
    destruct (cert_bound P HP T HT it cs r g p (sc_def s) sol DL Hcs LD i Hi) as (B1 & B2 & B3). destruct (cert_slack P HP T it cs r g p (sc_def s) sol DL Hcs LD i Hi) as [Z1 Z2].
    destruct (proj1 (default_feasible P HP T HT _ _ _ r p cs Hr Hin Hcv Hcs (sc_def s) _ DL) (lo_feas _ _ _ _ DO)) as [_ Q]. destruct (Q i Hi) as (Q1 & Q2 & _).
    split; [destruct (cstate w' i); cbn [act]; rewrite ?Rabs_Ropp, ?Rabs_R0; assumption|].
    destruct (cstate w' i) eqn:Ec; cbn [ina]; auto. destruct (Req_dec (nth0 (ls_y sol) i) 0) as [Y|Y]; [left; lra|]. right. split; [reflexivity|].
    destruct M3 as [_ M3]; auto.
    assert (HB : forall q, (0 <= q < n + 2 * m)%Z -> nthb (ls_vs sol) q = BBasic -> nth0 (ls_z sol) q = 0).
    { intros q Hq HB. destruct (ld_var _ _ _ _ LD q) as (_ & _ & X); [rewrite (dl_nv _ _ _ _ _ _ _ DL); exact Hq|now apply X]. }
    pose proof (po_n P HP) as Hn. destruct M3 as [M3|M3]; apply HB in M3; try lia.
    + right. rewrite Z1 in M3. split; [lra|]. destruct R1 as [R1 R4]; [lra|]. split; [exact R1|]. rewrite B3 in R4 by lra. lra.
    + left. rewrite Z2 in M3. split; [lra|]. destruct R2 as [R2 R4]; [lra|]. split; [exact R2|]. rewrite B2 in R4 by lra. lra.
  - intros i Hi Hne Hb. apply Hne. destruct (cert_row P HP T HT it cs r g p (sc_def s) sol DL Hcs DB LD i Hi) as (_ & _ & R3). rewrite (R3 (or_introl Hb)). destruct (cstate w' i); cbn [ina]; lra.
  - intros j Hj Hne Hb. apply Hne. destruct (cert_var P HP T it cs r g p (sc_def s) sol DL LD j Hj) as (_ & _ & R3). rewrite (R3 Hb). destruct (vstate w' j); cbn [ina]; lra.
  - intros i Hi. destruct (G1 i Hi) as (q & Q1 & ->). specialize (Hlam i Hi). destruct (cstate w' i) eqn:Ec; cbn [act] in *; [split; reflexivity| | |]; (rewrite (rounded_trim _ _ _ _ Hlam Q1); exact Q1).
  - intros j Hj. destruct (G2 j Hj) as (q & Q1 & ->). specialize (Hmu j Hj). destruct (vstate w' j) eqn:Ec; cbn [act] in *; [split; reflexivity| | |]; (rewrite (rounded_trim _ _ _ _ Hmu Q1); exact Q1).
Qed.
End Props.
Print Assumptions C77_signs.
Print Assumptions C77_multipliers.

Lemma sumd1 f : sumd 1 f = f 0%Z.
Proof. unfold sumd. change (Z.to_nat 1) with 1%nat. cbn [rsum]. change (Z.of_nat 0) with 0%Z. lra. Qed.
Lemma sumd3 f : sumd 3 f = f 0%Z + f 1%Z + f 2%Z.
Proof. unfold sumd. change (Z.to_nat 3) with 3%nat. cbn [rsum]. change (Z.of_nat 0) with 0%Z. change (Z.of_nat 1) with 1%Z. change (Z.of_nat 2) with 2%Z. lra. Qed.
Lemma three q : (0 <= q < 3)%Z -> q = 0%Z \/ q = 1%Z \/ q = 2%Z. Proof. lia. Qed.

(** *** The variable with equal bounds of C76: its bound has the multiplier 1. *)
Lemma f_duals L : default_lp fP L (dense (si_x fit)) (dense (si_c fit)) (grad (Some (e1 (-1)))) 1 3 -> lp_duals hi L (ecs ++ @slack_cols RN 1) (fsol BLower BBasic (-1) 0).
Proof.
  intros HL. pose proof hi_big as Hh. constructor; rewrite ?(dl_nv _ _ _ _ _ _ _ HL), ?(dl_nc _ _ _ _ _ _ _ HL).
  - intros j Hj. cbn in Hj. rewrite (nth0_arr _ _ _ _ (dl_obj _ _ _ _ _ _ _ HL)) by (cbn; lia). change (sp_nc fP) with 1%Z. rewrite sumd1, f_entry by lia.
    change (nth0 (ls_y (fsol BLower BBasic (-1) 0)) 0) with 0. destruct (three j Hj) as [-> | [-> | ->]].
    + change (nth0 (ls_z (fsol BLower BBasic (-1) 0)) 0) with (-1). change (0 <? sp_nv fP)%Z with true. change (0 =? 2)%Z with false. cbv iota. unfold grad. rewrite e1_at. lra.
    + change (nth0 (ls_z (fsol BLower BBasic (-1) 0)) 1) with (3 - 0). change (1 <? sp_nv fP)%Z with false. change (1 =? 2)%Z with false. cbv iota. lra.
    + change (nth0 (ls_z (fsol BLower BBasic (-1) 0)) 2) with (3 + 0). change (2 <? sp_nv fP)%Z with false. change (2 =? 2)%Z with true. cbv iota. lra.
  - intros j Hj. cbn in Hj. rewrite (nth0_arr _ _ _ _ (dl_vlb _ _ _ _ _ _ _ HL)) by (cbn; lia). rewrite (nth0_arr _ _ _ _ (dl_vub _ _ _ _ _ _ _ HL)) by (cbn; lia). rewrite f_x by lia.
    destruct (three j Hj) as [-> | [-> | ->]].
    + change (nth0 (ls_z (fsol BLower BBasic (-1) 0)) 0) with (-1). change (0 <? sp_nv fP)%Z with true. cbv iota. rewrite f_vlo, f_vup. change (nthb (ls_vs (fsol BLower BBasic (-1) 0)) 0) with BLower. split; [lra|]. split; [lra|discriminate].
    + change (nth0 (ls_z (fsol BLower BBasic (-1) 0)) 1) with (3 - 0). change (1 <? sp_nv fP)%Z with false. cbv iota. change (nthb (ls_vs (fsol BLower BBasic (-1) 0)) 1) with BLower. split; [lra|]. split; [lra|discriminate].
    + change (nth0 (ls_z (fsol BLower BBasic (-1) 0)) 2) with (3 + 0). change (2 <? sp_nv fP)%Z with false. cbv iota. change (nthb (ls_vs (fsol BLower BBasic (-1) 0)) 2) with BLower. split; [lra|]. split; [lra|discriminate].
  - intros i Hi. cbn in Hi. apply zero1 in Hi as ->. change (nth0 (ls_y (fsol BLower BBasic (-1) 0)) 0) with 0. split; [lra|]. split; [lra|reflexivity].
Qed.
Example C77_example : exists s s1 w' s2 cd' vd', reach fP (fsolver (fsol BLower BBasic (-1) 0)) hi ecs s (PSolved fit ecs 1 (Some (e1 (-1))) 3)
  /\ sc_working_set fP s (si_x fit) (ws_create 1 1) = Ok (s1, w') /\ sc_estimate_duals fP s1 w' (e1 0) (e1 0) = Ok (s2, cd', vd') /\ dense cd' 0 = 0 /\ dense vd' 0 = 1.
Proof.
  destruct (f_reach BLower BBasic (-1) 0) as (s & HR & Rd & Hs & DL); [discriminate|discriminate|]. set (sol := fsol BLower BBasic (-1) 0) in *.
  pose proof hi_big as Hh. assert (HT : hi <= hi <= 2 * hi) by lra.
  assert (Hreg : regular_basis (sc_def s) (ecs ++ @slack_cols RN 1) sol) by (apply f_regular; [apply DL|apply DL|auto]).
  assert (Hfix : fixed_nonbasic fP sol) by (intros j Hj _; apply zero1 in Hj as ->; discriminate).
  destruct (C77_multipliers fP fP_ok (fsolver sol) hi HT ecs s fit ecs 1 _ 3 sol (ws_create 1 1) (e1 0) (e1 0) HR Rd Hs Hreg (f_duals _ DL) Hfix f_far) as (s1 & w' & s2 & cd' & vd' & la & mu & si & ta & E1 & E2 & ST & N1 & _ & G1 & G2); try apply e1_ok; try reflexivity.
  { cbn. lra. }
  destruct (C76_working_set fP fP_ok (fsolver sol) hi HT ecs s fit ecs 1 _ 3 (sc_def s) (ecs ++ @slack_cols RN 1) sol (ws_create 1 1) HR) as (s1' & w1 & E1' & _ & _ & _ & _ & _ & _ & _ & HV & HC); auto.
  { unfold last_lp. rewrite Rd. auto. } { exact f_far. }
  assert (w1 = w') as -> by congruence.
  exists s, s1, w', s2, cd', vd'. split; [exact HR|]. split; [exact E1|]. split; [exact E2|].
  specialize (G1 0%Z ltac:(cbn; lia)). specialize (G2 0%Z ltac:(cbn; lia)). apply rounded0 in G1. apply rounded0 in G2. rewrite G1, G2.
  destruct (st_cons _ _ _ _ _ _ _ _ _ _ _ _ ST 0%Z ltac:(cbn; lia)) as (S1 & _ & S2). destruct (HC 0%Z ltac:(cbn; lia)) as (_ & M4 & _).
  rewrite (M4 eq_refl) in S1. cbn [sign_ok] in S1. split; [exact S1|].
  pose proof (st_zero _ _ _ _ _ _ _ _ _ _ _ _ ST 0%Z ltac:(cbn; lia)) as Z0. change (sp_nc fP) with 1%Z in Z0. rewrite sumd1 in Z0. change (mR ecs 0 0) with 1 in Z0. unfold grad in Z0. rewrite e1_at in Z0.
  destruct (st_var _ _ _ _ _ _ _ _ _ _ _ _ ST 0%Z ltac:(cbn; lia)) as (_ & S3). destruct (HV 0%Z ltac:(cbn; lia)) as (M1 & _).
  assert (Hfx : @is_eq RN (dense (sp_vlb fP) 0) (dense (sp_vub fP) 0) (sp_eps fP) = true) by (cbn [fP sp_vlb sp_vub sp_eps]; rewrite !e1_at; exact f_eq0).
  assert (Hta : ta 0%Z = 0). { destruct S3 as [S3|(S3 & _)]; [exact S3|]. rewrite S3 in M1. cbn [var_meaning] in M1. congruence. }
  assert (Hsi : si 0%Z = 0). { destruct (Req_dec (si 0%Z) 0) as [Q|Q]; [exact Q|]. exfalso. exact (N1 0%Z ltac:(cbn; lia) Q eq_refl). }
  lra.
Qed.

(** *** The LP solved again without slack variables: one variable at its upper bound, one equation.
    The basis of the first LP holds the slack variable of the equation, that of the second the
    variable. *)
Definition hP : @sprob RN := @mksp RN 1 1 (e1 (-10)) (e1 0) (e1 0) (e1 0) true 0 0 true true.
Definition hsol3 : @lpsol RN := @mksol RN true 0 [0; 0; 0] [BUpper; BBasic; BLower] [BLower] [-2; 0; 6] [3].
Definition hsol1 : @lpsol RN := @mksol RN true 0 [0] [BBasic] [BLower] [0] [1].
Definition hsolver (L : @lpi RN) : res (@lpsol RN) := if (li_nv L =? 3)%Z then Ok hsol3 else Ok hsol1.
Lemma h_states : exists s, sc_create hP ea [BZero;BZero;BZero] [BZero] [0;0;0] [0;0;0;0] = Ok s
  /\ exists s1, sc_set_iterate hP s fit 1 = Ok s1 /\ exists s2, sc_solve hsolver hP s1 (Some (e1 1)) 3 TDefault = Ok s2 /\ sc_reduced s2 = true
  /\ li_sol (sc_def s2) = Some hsol3 /\ (exists L, sc_red s2 = Some L /\ li_sol L = Some hsol1).
Proof.
  eexists. split; [leaf|]. eexists. split; [ev scu|]. eexists. split.
  { unfold sc_solve. eapply rbind_step; [leaf|]. cbv beta zeta. eapply rbind_step.
    { change (sp_warm hP) with true. cbv iota. unfold restore_basis. eapply if_step; [leaf|]. cbv iota. eapply if_step; [leaf|]. cbv iota.
      eapply rbind_step; [unfold set_slack_basis; eapply rbind_step; [ev scu|leaf]|]. leaf. }
    cbv beta. eapply rbind_step; [leaf|]. cbv beta zeta. eapply rbind_step; [leaf|]. cbv beta. 
    eapply if_step; [leaf|]. cbv iota. eapply rbind_step.
    { unfold needs_resolve. eapply rbind_step; [leaf|]. cbv beta. eapply rbind_step; [leaf|]. cbv beta. eapply rbind_step; [leaf|]. cbv beta. eapply rbind_step; [leaf|]. cbv beta.
      cbv zeta. eapply rbind_step; [ev scu|]. leaf. }
    cbv beta. eapply if_step; [leaf|]. cbv iota. ev scu. }
  split; [reflexivity|]. split; [reflexivity|]. eexists. split; reflexivity.
Qed.
Lemma hP_ok : prob_ok hP.
Proof.
  pose proof hi_big. constructor; try apply e1_ok; cbn [hP sp_nv sp_nc sp_vlb sp_vub sp_clb sp_cub]; try lia.
  - intros j Hj. apply zero1 in Hj as ->. rewrite !e1_at. lra.
  - intros j Hj. apply zero1 in Hj as ->. rewrite !e1_at. split; [lra|]. split; [lra|]. split; [lra|]. split; right; rewrite Rabs_R0; lra.
Qed.
Lemma hit_ok : iter_ok hP fit ecs.
Proof.
  pose proof hi_big. constructor; try apply e1_ok; cbn [hP fit sp_nv sp_nc sp_vlb sp_vub sp_clb sp_cub si_x si_c si_jac]; try reflexivity.
  - intros j Hj. apply zero1 in Hj as ->. rewrite !e1_at, Rabs_R0. lra.
  - intros j Hj. apply zero1 in Hj as ->. rewrite !e1_at, Rabs_R0. lra.
  - exact (io_s _ _ _ eit_ok).
Qed.
Lemma h_lin y : lin hP (dense (si_c fit)) ecs y 0 = y 0%Z.
Proof. unfold lin. change (sp_nv hP) with 1%Z. rewrite sumd1. cbn [fit si_c]. rewrite e1_at. change (mR ecs 0 0) with 1. lra. Qed.
Lemma h_x q : (0 <= q < 3)%Z -> nth0 (ls_x hsol3) q = 0.
Proof. intros Hq. destruct (three q Hq) as [-> | [-> | ->]]; reflexivity. Qed.
Lemma h_vup : vup hP (dense (si_x fit)) 1 0 = 0.
Proof. unfold vup. cbn [hP sp_vub fit si_x]. rewrite !e1_at, einf by lra. rewrite Rmin_left by lra. lra. Qed.
Lemma h_clo : clo hP (dense (si_c fit)) 0 = 0.
Proof. unfold clo. cbn [hP sp_clb fit si_c]. rewrite !e1_at, einf by lra. lra. Qed.
Lemma h_cup : cup hP (dense (si_c fit)) 0 = 0.
Proof. unfold cup. cbn [hP sp_cub fit si_c]. rewrite !e1_at, einf by lra. lra. Qed.
Lemma h_right3 L : default_lp hP L (dense (si_x fit)) (dense (si_c fit)) (grad (Some (e1 1))) 1 3 ->
  lp_optimal hi L (ecs ++ @slack_cols RN 1) hsol3 /\ lp_base hi L (ecs ++ @slack_cols RN 1) hsol3 /\ lp_duals hi L (ecs ++ @slack_cols RN 1) hsol3.
Proof.
  intros HL. pose proof hi_big as Hh. pose proof (iter_facts hP fit ecs hit_ok) as (H1 & H2 & H3).
  assert (HT : hi <= hi <= 2 * hi) by lra. assert (Hr : 0 < 1 < hi) by lra.
  pose proof (fun y => default_feasible hP hP_ok hi HT _ _ _ 1 3 ecs Hr H1 H2 H3 L y HL) as HF.
  assert (HV' : forall y, lp_value L y = y 0%Z + 3 * (y 1%Z + y 2%Z)).
  { intros v. rewrite (default_value hP hP_ok _ _ _ 1 3 ecs H3 L v HL). unfold slacks, sl, su. change (sp_nv hP) with 1%Z. change (sp_nc hP) with 1%Z. rewrite !sumd1. unfold grad. rewrite e1_at. change (1 + 0)%Z with 1%Z. change (1 + 1 + 0)%Z with 2%Z. lra. }
  assert (Hs : forall v, sl hP v 0 = v 1%Z /\ su hP v 0 = v 2%Z) by (intros; split; reflexivity).
  assert (Hrow : lp_row L (ecs ++ @slack_cols RN 1) (nth0 (ls_x hsol3)) 0 = 0).
  { rewrite (default_row hP hP_ok ecs H3 L) by (apply HL || (cbn; lia)). change (sp_nv hP) with 1%Z. rewrite sumd1. destruct (Hs (nth0 (ls_x hsol3))) as [-> ->]. rewrite !h_x by lia. lra. }
  split; [constructor; try reflexivity|split].
  - now rewrite (dl_nv _ _ _ _ _ _ _ HL).
  - now rewrite (dl_nv _ _ _ _ _ _ _ HL).
  - now rewrite (dl_nc _ _ _ _ _ _ _ HL).
  - now rewrite (dl_nv _ _ _ _ _ _ _ HL).
  - now rewrite (dl_nc _ _ _ _ _ _ _ HL).
  - apply HF. split.
    + intros j Hj. apply zero1 in Hj as ->. cbn [hP fit sp_vlb sp_vub si_x]. rewrite !e1_at, h_x by lia. rewrite Rabs_R0. lra.
    + intros i Hi. apply zero1 in Hi as ->. rewrite h_lin. cbn [hP sp_clb sp_cub]. destruct (Hs (nth0 (ls_x hsol3))) as [-> ->]. rewrite !e1_at, !h_x by lia. lra.
  - rewrite HV', !h_x by lia. cbn [hsol3 ls_val]. lra.
  - intros v Hv. rewrite !HV', !h_x by lia. apply HF in Hv. destruct Hv as [Hx Hv]. specialize (Hv 0%Z ltac:(cbn; lia)). rewrite h_lin in Hv.
    destruct (Hs v) as [E1 E2]. rewrite E1, E2 in Hv. cbn [hP sp_clb sp_cub] in Hv. rewrite !e1_at in Hv. destruct Hv as (V1 & V2 & V3 & _). specialize (V3 ltac:(lra)). lra.
  - split.
    + rewrite (dl_nv _ _ _ _ _ _ _ HL). intros j Hj. cbn in Hj.
      rewrite (nth0_arr _ _ _ _ (dl_vlb _ _ _ _ _ _ _ HL)) by (cbn; lia). rewrite (nth0_arr _ _ _ _ (dl_vub _ _ _ _ _ _ _ HL)) by (cbn; lia). rewrite h_x by lia.
      destruct (three j Hj) as [-> | [-> | ->]].
      * change (at_bound hi BUpper (vlo hP (dense (si_x fit)) 1 0) 0 (vup hP (dense (si_x fit)) 1 0)). rewrite h_vup. cbn [at_bound]. lra.
      * exact I.
      * change (at_bound hi BLower 0 0 (2 * hi)). cbn [at_bound]. lra.
    + rewrite (dl_nc _ _ _ _ _ _ _ HL). intros i Hi. rewrite (nth0_arr _ _ _ _ (dl_clb _ _ _ _ _ _ _ HL)) by exact Hi. rewrite (nth0_arr _ _ _ _ (dl_cub _ _ _ _ _ _ _ HL)) by exact Hi.
      apply zero1 in Hi as ->. change (nthb (ls_cs hsol3) 0) with BLower. rewrite h_clo, Hrow. cbn [at_bound]. lra.
  - constructor; rewrite ?(dl_nv _ _ _ _ _ _ _ HL), ?(dl_nc _ _ _ _ _ _ _ HL).
    + intros j Hj. cbn in Hj. rewrite (nth0_arr _ _ _ _ (dl_obj _ _ _ _ _ _ _ HL)) by (cbn; lia). change (sp_nc hP) with 1%Z. rewrite sumd1, f_entry by lia.
      change (nth0 (ls_y hsol3) 0) with 3. destruct (three j Hj) as [-> | [-> | ->]].
      * change (nth0 (ls_z hsol3) 0) with (-2). change (0 <? sp_nv hP)%Z with true. change (0 =? 2)%Z with false. cbv iota. unfold grad. rewrite e1_at. lra.
      * change (nth0 (ls_z hsol3) 1) with 0. change (1 <? sp_nv hP)%Z with false. change (1 =? 2)%Z with false. cbv iota. lra.
      * change (nth0 (ls_z hsol3) 2) with 6. change (2 <? sp_nv hP)%Z with false. change (2 =? 2)%Z with true. cbv iota. lra.
    + intros j Hj. cbn in Hj. rewrite (nth0_arr _ _ _ _ (dl_vlb _ _ _ _ _ _ _ HL)) by (cbn; lia). rewrite (nth0_arr _ _ _ _ (dl_vub _ _ _ _ _ _ _ HL)) by (cbn; lia). rewrite h_x by lia.
      destruct (three j Hj) as [-> | [-> | ->]].
      * change (nth0 (ls_z hsol3) 0) with (-2). change (0 <? sp_nv hP)%Z with true. cbv iota. rewrite h_vup. change (nthb (ls_vs hsol3) 0) with BUpper. split; [lra|]. split; [lra|discriminate].
      * change (nth0 (ls_z hsol3) 1) with 0. split; [lra|]. split; [lra|reflexivity].
      * change (nth0 (ls_z hsol3) 2) with 6. change (2 <? sp_nv hP)%Z with false. cbv iota. change (nthb (ls_vs hsol3) 2) with BLower. split; [lra|]. split; [lra|discriminate].
    + intros i Hi. rewrite (nth0_arr _ _ _ _ (dl_clb _ _ _ _ _ _ _ HL)) by exact Hi. rewrite (nth0_arr _ _ _ _ (dl_cub _ _ _ _ _ _ _ HL)) by exact Hi. cbn in Hi. apply zero1 in Hi as ->.
      change (nth0 (ls_y hsol3) 0) with 3. rewrite Hrow, h_clo. change (nthb (ls_cs hsol3) 0) with BLower. split; [lra|]. split; [lra|discriminate].
Qed.
Lemma h_right1 L : reduced_lp hP L (dense (si_x fit)) (dense (si_c fit)) (grad (Some (e1 1))) 1 ->
  lp_optimal hi L ecs hsol1 /\ lp_base hi L ecs hsol1 /\ lp_duals hi L ecs hsol1.
Proof.
  intros HL. pose proof hi_big as Hh. pose proof (iter_facts hP fit ecs hit_ok) as (H1 & H2 & H3).
  assert (HT : hi <= hi <= 2 * hi) by lra. assert (Hr : 0 < 1 < hi) by lra.
  assert (HV : forall y, lp_value L y = y 0%Z).
  { intros y. unfold lp_value. rewrite (rl_nv _ _ _ _ _ _ HL). change (sp_nv hP) with 1%Z. rewrite sumd1. rewrite (nth0_arr _ _ _ _ (rl_obj _ _ _ _ _ _ HL)) by (cbn; lia). unfold grad. rewrite e1_at. lra. }
  assert (HR : forall y, lp_row L ecs y 0 = y 0%Z). { intros y. unfold lp_row. rewrite (rl_nv _ _ _ _ _ _ HL). change (sp_nv hP) with 1%Z. rewrite sumd1. change (mR ecs 0 0) with 1. lra. }
  assert (X0 : nth0 (ls_x hsol1) 0 = 0) by reflexivity.
  split; [constructor; try reflexivity|split].
  - now rewrite (rl_nv _ _ _ _ _ _ HL).
  - now rewrite (rl_nv _ _ _ _ _ _ HL).
  - now rewrite (rl_nc _ _ _ _ _ _ HL).
  - now rewrite (rl_nv _ _ _ _ _ _ HL).
  - now rewrite (rl_nc _ _ _ _ _ _ HL).
  - split.
    + rewrite (rl_nv _ _ _ _ _ _ HL). intros j Hj. rewrite (nth0_arr _ _ _ _ (rl_vlb _ _ _ _ _ _ HL)) by exact Hj. rewrite (nth0_arr _ _ _ _ (rl_vub _ _ _ _ _ _ HL)) by exact Hj.
      apply (var_inside hP hi HT _ (dense (si_c fit)) 1 Hr H1); [exact Hj|]. apply zero1 in Hj as ->. cbn [hP fit sp_vlb sp_vub si_x]. rewrite !e1_at, X0, Rabs_R0. lra.
    + rewrite (rl_nc _ _ _ _ _ _ HL). intros i Hi. rewrite (nth0_arr _ _ _ _ (rl_clb _ _ _ _ _ _ HL)) by exact Hi. rewrite (nth0_arr _ _ _ _ (rl_cub _ _ _ _ _ _ HL)) by exact Hi.
      apply (row_inside hP hP_ok hi HT _ H2); [exact Hi|]. apply zero1 in Hi as ->. rewrite HR. cbn [hP fit sp_clb sp_cub si_c]. rewrite !e1_at, X0. lra.
  - rewrite HV, X0. cbn [hsol1 ls_val]. lra.
  - intros y [_ Hy]. rewrite !HV, X0. rewrite (rl_nc _ _ _ _ _ _ HL) in Hy. specialize (Hy 0%Z ltac:(cbn; lia)).
    rewrite (nth0_arr _ _ _ _ (rl_clb _ _ _ _ _ _ HL)) in Hy by (cbn; lia). rewrite HR, h_clo in Hy. destruct Hy as [Hy _]. specialize (Hy ltac:(lra)). lra.
  - split.
    + intros j Hj. rewrite (rl_nv _ _ _ _ _ _ HL) in Hj. apply zero1 in Hj as ->. exact I.
    + rewrite (rl_nc _ _ _ _ _ _ HL). intros i Hi. rewrite (nth0_arr _ _ _ _ (rl_clb _ _ _ _ _ _ HL)) by exact Hi. rewrite (nth0_arr _ _ _ _ (rl_cub _ _ _ _ _ _ HL)) by exact Hi.
      apply zero1 in Hi as ->. change (nthb (ls_cs hsol1) 0) with BLower. cbn [at_bound]. rewrite h_clo, HR, X0. lra.
  - constructor; rewrite ?(rl_nv _ _ _ _ _ _ HL), ?(rl_nc _ _ _ _ _ _ HL).
    + intros j Hj. rewrite (nth0_arr _ _ _ _ (rl_obj _ _ _ _ _ _ HL)) by exact Hj. apply zero1 in Hj as ->. change (sp_nc hP) with 1%Z. rewrite sumd1. change (mR ecs 0 0) with 1. change (nth0 (ls_y hsol1) 0) with 1. change (nth0 (ls_z hsol1) 0) with 0.
      unfold grad. rewrite e1_at. lra.
    + intros j Hj. apply zero1 in Hj as ->. change (nth0 (ls_z hsol1) 0) with 0. split; [lra|]. split; [lra|reflexivity].
    + intros i Hi. rewrite (nth0_arr _ _ _ _ (rl_clb _ _ _ _ _ _ HL)) by exact Hi. apply zero1 in Hi as ->. change (nth0 (ls_y hsol1) 0) with 1. rewrite HR, h_clo, X0. change (nthb (ls_cs hsol1) 0) with BLower. split; [lra|]. split; [lra|discriminate].
Qed.
Lemma h_reg3 L : li_nv L = 3%Z -> li_nc L = 1%Z -> regular_basis L (ecs ++ @slack_cols RN 1) hsol3.
Proof.
  intros E3 E1. constructor; rewrite ?E3, ?E1.
  - intros a q Ha Hq He. pose proof (He 0%Z ltac:(lia)) as P0. pose proof (He 1%Z ltac:(lia)) as P1. pose proof (He 2%Z ltac:(lia)) as P2. rewrite sumd1 in P0, P1, P2. rewrite f_entry in P0, P1, P2 by lia. cbn [Z.eqb Pos.eqb] in P0, P1, P2.
    pose proof (Ha 1%Z ltac:(lia) eq_refl) as A1. split; intros j Hj; [destruct (three j Hj) as [-> | [-> | ->]]|apply zero1 in Hj as ->]; lra.
  - intros v Hv Hrow. pose proof (Hv 0%Z ltac:(lia) ltac:(discriminate)) as V0. pose proof (Hv 2%Z ltac:(lia) ltac:(discriminate)) as V2. specialize (Hrow 0%Z ltac:(lia) ltac:(discriminate)).
    unfold lp_row in Hrow. rewrite E3, sumd3, !f_entry in Hrow by lia. cbn [Z.eqb Pos.eqb] in Hrow. intros j Hj. destruct (three j Hj) as [-> | [-> | ->]]; lra.
Qed.
Lemma h_reg1 L : li_nv L = 1%Z -> li_nc L = 1%Z -> regular_basis L ecs hsol1.
Proof.
  intros E3 E1. constructor; rewrite ?E3, ?E1.
  - intros a q Ha Hq He. pose proof (He 0%Z ltac:(lia)) as P0. rewrite sumd1 in P0. change (mR ecs 0 0) with 1 in P0. pose proof (Ha 0%Z ltac:(lia) eq_refl) as A0.
    split; intros j Hj; apply zero1 in Hj as ->; lra.
  - intros v Hv Hrow. specialize (Hrow 0%Z ltac:(lia) ltac:(discriminate)). unfold lp_row in Hrow. rewrite E3, sumd1 in Hrow. change (mR ecs 0 0) with 1 in Hrow. intros j Hj. apply zero1 in Hj as ->. lra.
Qed.

(** The multipliers are always taken from the LP with slack variables, the working set from the LP
    solved last.  After the LP was solved again without slack variables they do not match: here the
    step is zero, the linearized equation holds, both LPs are solved with certificates and regular
    bases, and yet the multipliers leave a residual. *)
Theorem C77_reduced_refuted : exists P solver s it cs r g p sol L sol1 s1 w' s2 cd' vd', prob_ok P /\ sp_eps P = 0 /\ sp_zero P = 0
  /\ reach P solver hi cs s (PSolved it cs r g p) /\ sc_reduced s = true
  /\ li_sol (sc_def s) = Some sol /\ regular_basis (sc_def s) (cs ++ @slack_cols RN (sp_nc P)) sol /\ lp_duals hi (sc_def s) (cs ++ @slack_cols RN (sp_nc P)) sol
  /\ last_lp P cs s L cs sol1 /\ regular_basis L cs sol1 /\ lp_duals hi L cs sol1 /\ fixed_nonbasic P sol1 /\ far P it r
  /\ sc_working_set P s (si_x it) (ws_create (sp_nv P) (sp_nc P)) = Ok (s1, w') /\ sc_estimate_duals P s1 w' (e1 0) (e1 0) = Ok (s2, cd', vd')
  /\ (forall j, (0 <= j < sp_nv P)%Z -> nth0 (ls_x sol1) j = 0) /\ lin_viol P (dense (si_c it)) cs (nth0 (ls_x sol1)) = 0
  /\ exists j, (0 <= j < sp_nv P)%Z /\ grad g j + sumd (sp_nc P) (fun i => mR cs i j * dense cd' i) + dense vd' j <> 0.
Proof.
  pose proof hi_big as Hh. assert (HT : hi <= hi <= 2 * hi) by lra.
  destruct h_states as (s & E0 & s1 & E1 & s2 & E2 & Rd & S3 & L & EL & S1).
  assert (R0 : reach hP hsolver hi ecs s PFresh). { refine (reach_create hP hsolver hi ecs ea _ _ _ _ s _ E0). repeat split. }
  assert (R1 : reach hP hsolver hi ecs s1 (PSet fit ecs 1)). { apply (reach_iterate hP hsolver hi ecs s PFresh); [exact R0|exact hit_ok|discriminate|lra|exact E1]. }
  pose proof (reach_inv hP hP_ok hsolver hi ecs s1 _ R1) as [Hz Hy].
  destruct (solve_lps hP hP_ok hsolver hi ecs fit ecs 1 (Some (e1 1)) 3 s1 TDefault s2 Hz Hy (e1_ok 1) ltac:(lra) E2) as (D1 & (mt & M1 & M2) & D2).
  destruct (h_right3 _ D1) as (O3 & B3 & U3).
  assert (Hr3 : right hi (sc_def s2)) by (exists mt, (ecs ++ @slack_cols RN 1), hsol3; auto).
  destruct (D2 Hr3) as [D3 _]. destruct (D3 Rd) as (L' & mt' & EL' & D4 & M3 & M4). rewrite EL in EL'. injection EL' as <-.
  destruct (h_right1 _ D4) as (O1 & B1 & U1).
  assert (HR : reach hP hsolver hi ecs s2 (PSolved fit ecs 1 (Some (e1 1)) 3)).
  { apply (reach_solve hP hsolver hi ecs s1 _ fit ecs 1 _ 3 TDefault s2 R1); auto.
    - cbn. auto.
    - exact (e1_ok 1).
    - lra.
    - intros _. exists L. split; [exact EL|]. exists mt', ecs, hsol1. auto. }
  assert (Hlast : last_lp hP ecs s2 L ecs hsol1) by (unfold last_lp; rewrite Rd; auto).
  assert (Hreg : regular_basis L ecs hsol1) by (apply h_reg1; apply D4).
  assert (Hfix : fixed_nonbasic hP hsol1). { intros j Hj H. apply zero1 in Hj as ->. exfalso. cbn [hP sp_vlb sp_vub sp_eps] in H. rewrite !e1_at in H. apply rn_is_eq0 in H. lra. }
  assert (Hfar : far hP fit 1). { intros j Hj. apply zero1 in Hj as ->. cbn [hP fit sp_vlb sp_vub si_x]. rewrite !e1_at. lra. }
  destruct (C76_working_set hP hP_ok hsolver hi HT ecs s2 fit ecs 1 _ 3 L ecs hsol1 (ws_create 1 1) HR Hlast Hreg Hfix Hfar) as (s3 & w' & E3 & C & _ & Wv & Wc & _ & _ & _ & HV & HC); try reflexivity.
  pose proof (reach_working_set hP hsolver hi ecs s2 fit ecs 1 _ 3 (si_x fit) _ s3 w' HR E3) as HR3. pose proof (working_set_def hP s2 (si_x fit) _ s3 w' E3) as Ed.
  apply reach_inv in HR3; [|exact hP_ok].
  destruct (estimate_ok hP hP_ok hi ecs fit ecs 1 _ 3 s3 hsol3 w' (e1 0) (e1 0) HR3 ltac:(congruence) C Wv Wc (e1_ok 0) (e1_ok 0)) as (s4 & cd' & vd' & E4 & _ & _ & G1 & G2).
  exists hP, hsolver, s2, fit, ecs, 1, (Some (e1 1)), 3, hsol3, L, hsol1, s3, w', s4, cd', vd'.
  split; [exact hP_ok|]. split; [reflexivity|]. split; [reflexivity|]. split; [exact HR|]. split; [exact Rd|]. split; [exact S3|]. split; [apply h_reg3; apply D1|]. split; [exact U3|].
  split; [exact Hlast|]. split; [exact Hreg|]. split; [exact U1|]. split; [exact Hfix|]. split; [exact Hfar|]. split; [exact E3|]. split; [exact E4|].
  split; [intros j Hj; apply zero1 in Hj as ->; reflexivity|]. split.
  { unfold lin_viol. change (sp_nc hP) with 1%Z. rewrite sumd1, h_lin. change (nth0 (ls_x hsol1) 0) with 0. cbn [hP sp_clb sp_cub]. rewrite !e1_at. unfold viol. destruct (Rlt_dec (- hi) 0), (Rlt_dec 0 hi); try lra. rewrite !Rmax_left by lra. lra. }
  exists 0%Z. split; [cbn; lia|]. change (sp_nc hP) with 1%Z. rewrite sumd1. change (mR ecs 0 0) with 1. unfold grad. rewrite e1_at.
  destruct (G1 0%Z ltac:(cbn; lia)) as (q1 & Q1 & ->). destruct (G2 0%Z ltac:(cbn; lia)) as (q2 & Q2 & ->). apply rounded0 in Q1. change (nth0 (ls_y hsol3) 0) with 3 in Q1.
  destruct (HV 0%Z ltac:(cbn; lia)) as (_ & M5 & _). rewrite (M5 eq_refl). cbn [trimmed]. rewrite Q1.
  destruct (cstate w' 0); cbn [trimmed]; try (destruct (Rlt_dec _ _)); lra.
Qed.
Print Assumptions C77_reduced_refuted.
