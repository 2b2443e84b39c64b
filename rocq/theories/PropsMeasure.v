(** C85: the measurements of a trial point. *)
From Coq Require Import Reals Lra FunctionalExtensionality.
From Verif Require Import Base Num Cmp Sparse Vec VecFacts VecFacts2 RSum VecReal Feas MeritFacts PreprocReal QnReal SteihaugFacts LineSearch StepRule Measure.
Local Open Scope R_scope.

(** ** Specification *)
Record data_ok (n : Z) (P : @mprob RN) (it tr : @miter RN) (d : @dirn RN) : Prop := {
  ok_lb : vok (mp_nc P) (mp_lb P); ok_ub : vok (mp_nc P) (mp_ub P);
  ok_le : forall i, (0 <= i < mp_nc P)%Z -> (dense (mp_lb P) i : R) <= dense (mp_ub P) i;
  ok_zero : mp_zero P = 0;
  ok_it : vok (mp_nc P) (mi_cons it); ok_tr : vok (mp_nc P) (mi_cons tr);
  ok_d : vok n (d_primal d); ok_h : vok n (d_hess d); ok_j : vok (mp_nc P) (d_cons d) }.
(** Sum of the distances to the bounds *)
Definition viol (P : @mprob RN) (c : Z -> R) : R :=
  sumd (mp_nc P) (fun i => Rmax 0 (Rmax (c i - dense (mp_ub P) i) (dense (mp_lb P) i - c i))).
Definition nsq (n : Z) (d : @dirn RN) : R := sumd n (fun i => dense (d_primal d) i * dense (d_primal d) i).
(** Exact merit of a point and merit of the quadratic model of the step *)
Definition merit (P : @mprob RN) (pen : R) (it : @miter RN) : R := mi_obj it + pen * viol P (dense (mi_cons it)).
Definition model (n : Z) (P : @mprob RN) (pen : R) (it : @miter RN) (d : @dirn RN) : R :=
  mi_obj it + d_obj d + / 2 * sumd n (fun i => dense (d_primal d) i * dense (d_hess d) i)
  + pen * viol P (fun i => dense (mi_cons it) i + dense (d_cons d) i).

(** ** Proofs *)
Section Proofs.
Variables (n : Z) (P : @mprob RN) (it tr : @miter RN) (d : @dirn RN).
Hypothesis H : data_ok n P it tr d.

Lemma viol_ok (c : rvec) : vok (mp_nc P) c -> total_violation (mp_nc P) c (mp_lb P) (mp_ub P) = Ok (viol P (dense c)).
Proof.
  intros [Wc Dc]. destruct (ok_lb _ _ _ _ _ H) as [Wl Dl], (ok_ub _ _ _ _ _ H) as [Wu Du].
  exact (total_violation_real (mp_nc P) (mp_lb P) (mp_ub P) Wl Wu Dl Du (ok_le _ _ _ _ _ H) c Wc Dc).
Qed.
Lemma set_ok M t (pen : R) : (0 <= vcap t)%Z -> (0 <= vcap (me_cnl M))%Z -> 0 < pen ->
  exists M', measure_set P M t it tr d pen = Ok M' /\ me_pen M' = pen /\ me_nsq M' = nsq n d /\ me_cur M' = mi_obj it
    /\ me_lin M' = mi_obj it + d_obj d /\ me_hess M' = sumd n (fun i => dense (d_primal d) i * dense (d_hess d) i) /\ me_trial M' = mi_obj tr
    /\ me_cviol M' = viol P (dense (mi_cons it)) /\ me_eviol M' = viol P (fun i => dense (mi_cons it) i + dense (d_cons d) i)
    /\ me_tviol M' = viol P (dense (mi_cons tr))
    /\ me_onl M' = (mi_obj it + d_obj d - mi_obj tr) * (2 / nsq n d)
    /\ vok (mp_nc P) (me_cnl M')
    /\ forall i, dense (me_cnl M') i = 2 / nsq n d * (dense (mi_cons it) i + dense (d_cons d) i - dense (mi_cons tr) i).
Proof.
  intros Ht Hm Hp. unfold measure_set. rewrite (norm_sq_fun n _ (ok_d _ _ _ _ _ H)). change (dotd n (dense (d_primal d)) (dense (d_primal d))) with (nsq n d).
  rewrite (dot_fun n _ _ (ok_d _ _ _ _ _ H) (ok_h _ _ _ _ _ H)). cbn [rbind]. unfold vec_add. rewrite (ok_zero _ _ _ _ _ H), !rn_n1, !rn_lit1.
  destruct (add_scaled_fun (mp_nc P) (mi_cons it) (d_cons d) t 1 1 (ok_it _ _ _ _ _ H) (ok_j _ _ _ _ _ H) Ht) as (e & -> & Ve & De). cbn [rbind].
  destruct (add_scaled_fun (mp_nc P) e (mi_cons tr) (me_cnl M) 1 (-1) Ve (ok_tr _ _ _ _ _ H) Hm) as (c & -> & Vc & Dc). cbn [rbind].
  rewrite (viol_ok _ (ok_it _ _ _ _ _ H)), (viol_ok _ Ve), (viol_ok _ (ok_tr _ _ _ _ _ H)). cbn [rbind].
  replace (@nltb RN n0 pen) with true by (symmetry; apply rn_ltb; rewrite rn_n0; exact Hp). cbn [check rbind].
  change (@ndiv RN 2 (nsq n d)) with (2 / nsq n d). destruct (scale_fun (mp_nc P) c (2 / nsq n d) Vc) as [Vs Ds].
  eexists. split; [reflexivity|]. cbn [me_pen me_nsq me_cur me_lin me_hess me_trial me_cviol me_eviol me_tviol me_onl me_cnl].
  do 7 (split; [reflexivity|]). split.
  { rewrite De. f_equal. apply functional_extensionality. intros i. req. lra. }
  split; [reflexivity|]. split. { unfold obj_nonlin. rewrite rn_lit1. reflexivity. }
  split; [exact Vs|]. intros i. rewrite Ds, Dc, De. req. apply f_equal. lra.
Qed.
End Proofs.

(** ** C85 *)
(** What [measure_set] may be given: any state before, a positive penalty parameter *)
Definition call_ok (M : @meas RN) (t : rvec) (pen : R) : Prop := (0 <= vcap t)%Z /\ (0 <= vcap (me_cnl M))%Z /\ 0 < pen.

(** For a step that is not zero the nonlinearities are twice the errors of the linear models by the
    squared length of the step; that of the Lagrangean is the one of objective plus weighted constraints. *)
Theorem C85_nonlin : forall n P it tr d M t pen (mu : rvec), data_ok n P it tr d -> call_ok M t pen -> 0 < nsq n d -> vok (mp_nc P) mu ->
  exists M' v, measure_set P M t it tr d pen = Ok M' /\ step_norm M' = sqrt (nsq n d)
    /\ me_onl M' * nsq n d = 2 * (mi_obj it + d_obj d - mi_obj tr)
    /\ (forall i, (0 <= i < mp_nc P)%Z -> dense (me_cnl M') i * nsq n d = 2 * (dense (mi_cons it) i + dense (d_cons d) i - dense (mi_cons tr) i))
    /\ lag_nonlin M' mu = Ok v
    /\ v * nsq n d = 2 * (mi_obj it + d_obj d + sumd (mp_nc P) (fun i => (dense (mi_cons it) i + dense (d_cons d) i) * dense mu i)
                          - (mi_obj tr + sumd (mp_nc P) (fun i => dense (mi_cons tr) i * dense mu i))).
Proof.
  intros n P it tr d M t pen mu H (Ht & Hm & Hp) Hn Vm.
  destruct (set_ok n P it tr d H M t pen Ht Hm Hp) as (M' & E & _ & E2 & _ & _ & _ & _ & _ & _ & _ & E10 & V & E11).
  eexists M', _. split; [exact E|]. split. { unfold step_norm. rewrite E2. reflexivity. }
  split. { rewrite E10. req. field. lra. }
  split. { intros i _. rewrite E11. req. field. lra. }
  split. { unfold lag_nonlin. rewrite (dot_fun _ _ _ V Vm). cbn [rbind]. reflexivity. }
  rewrite E10. change (@nadd RN ?a ?b) with (a + b). unfold dotd.
  rewrite (sumd_ext (mp_nc P) (fun i => dense (me_cnl M') i * dense mu i)
    (fun i => 2 / nsq n d * ((dense (mi_cons it) i + dense (d_cons d) i) * dense mu i + -1 * (dense (mi_cons tr) i * dense mu i)))).
  2:{ intros i _. rewrite E11. req. ring. }
  rewrite sumd_scal, sumd_plus, sumd_scal. req. field. lra.
Qed.
Print Assumptions C85_nonlin.

Definition qform (n : Z) (Q : Z -> Z -> R) (p : Z -> R) : R := sumd n (fun i => p i * sumd n (fun j => Q i j * p j)).
(** For quadratic functions the nonlinearity of the Lagrangean is the negative curvature along the
    step: its absolute value is at most every bound on the curvature. *)
Theorem C85_curvature : forall n P it tr d M t pen (mu : rvec) Q A, data_ok n P it tr d -> call_ok M t pen -> 0 < nsq n d -> vok (mp_nc P) mu ->
  let p := dense (d_primal d) in
  mi_obj tr = mi_obj it + d_obj d + / 2 * qform n Q p ->
  (forall i, (0 <= i < mp_nc P)%Z -> dense (mi_cons tr) i = dense (mi_cons it) i + dense (d_cons d) i + / 2 * qform n (A i) p) ->
  let W := qform n Q p + sumd (mp_nc P) (fun i => qform n (A i) p * dense mu i) in
  exists M', measure_set P M t it tr d pen = Ok M' /\ lag_nonlin M' mu = Ok (- (W / nsq n d))
    /\ forall K, Rabs W <= K * nsq n d -> Rabs (- (W / nsq n d)) <= K.
Proof.
  intros n P it tr d M t pen mu Q A H HM Hn Vm p Ho Hc W.
  destruct (C85_nonlin n P it tr d M t pen mu H HM Hn Vm) as (M' & v & E & _ & _ & _ & El & Ev). exists M'. split; [exact E|]. split.
  - rewrite El. f_equal. apply (Rmult_eq_reg_r (nsq n d)); [|lra]. transitivity (- W); [|field; lra]. etransitivity; [exact Ev|].
    rewrite Ho. rewrite (sumd_ext (mp_nc P) (fun i => dense (mi_cons tr) i * dense mu i)
      (fun i => (dense (mi_cons it) i + dense (d_cons d) i) * dense mu i + / 2 * (qform n (A i) p * dense mu i))).
    2:{ intros i Hi. rewrite Hc by exact Hi. req. ring. }
    rewrite sumd_plus, sumd_scal. unfold W. req. field.
  - intros K HK. rewrite Rabs_Ropp. unfold Rdiv. rewrite Rabs_mult, (Rabs_pos_eq (/ nsq n d)) by (left; now apply Rinv_0_lt_compat).
    apply (Rmult_le_reg_r (nsq n d)); [exact Hn|]. rewrite Rmult_assoc, Rinv_l, Rmult_1_r by lra. exact HK.
Qed.
Print Assumptions C85_curvature.

(** The reports of both kinds of functions print the same merit values: the exact merit of both points
    and the quadratic model of the step; so does the report of the second-order correction. *)
Theorem C85_merit : forall n P it tr d M t pen soc, data_ok n P it tr d -> call_ok M t pen -> vok (mp_nc P) (mi_cons soc) ->
  exists M' l r s1 s2 s3, measure_set P M t it tr d pen = Ok M'
    /\ report_func M' = (l, r) /\ snd (report_lsq M') = (l, r)
    /\ l_cur l = merit P pen it /\ l_exp l = model n P pen it d /\ l_act l = merit P pen tr
    /\ r = reduction_ratio (merit P pen it - merit P pen tr : @num RN) (merit P pen it - model n P pen it d)
    /\ report_soc P M' soc = Ok (s1, s2, s3) /\ l_cur s3 = merit P pen it /\ l_exp s3 = merit P pen tr /\ l_act s3 = merit P pen soc.
Proof.
  intros n P it tr d M t pen soc H (Ht & Hm & Hp) Vs.
  destruct (set_ok n P it tr d H M t pen Ht Hm Hp) as (M' & E & E1 & _ & E3 & E4 & E5 & E6 & E7 & E8 & E9 & _).
  exists M', (fst (report_func M')), (snd (report_func M')).
  assert (Ec : (me_cur M' + me_pen M' * me_cviol M' : R) = merit P pen it) by (rewrite E3, E1, E7; reflexivity).
  assert (Ea : (me_trial M' + me_pen M' * me_tviol M' : R) = merit P pen tr) by (rewrite E6, E1, E9; reflexivity).
  assert (Ee : (me_lin M' + me_pen M' * me_eviol M' + / 2 * me_hess M' : R) = model n P pen it d).
  { rewrite E4, E1, E8, E5. unfold model. req. ring. }
  assert (Hh : @nlit RN 1 2 = / 2) by (rewrite rn_lit_eq; lra).
  do 3 eexists. split; [exact E|]. split; [apply surjective_pairing|]. split.
  { unfold report_lsq, report_func. cbn [snd]. rewrite <- surjective_pairing. rewrite Hh. f_equal.
    change ((me_lin M' + / 2 * me_hess M') + me_pen M' * me_eviol M' = me_lin M' + me_pen M' * me_eviol M' + / 2 * me_hess M'). ring. }
  unfold report_func. rewrite Hh. cbn [fst snd report_merit mk3 l_cur l_exp l_act].
  split; [exact Ec|]. split; [exact Ee|]. split; [exact Ea|]. split.
  { rewrite <- Ec, <- Ea, <- Ee. reflexivity. }
  unfold report_soc. rewrite (viol_ok n P it tr d H _ Vs). cbn [rbind]. split; [reflexivity|]. cbn [mk3 l_cur l_exp l_act].
  split; [exact Ec|]. split; [exact Ea|]. rewrite E1. reflexivity.
Qed.
Print Assumptions C85_merit.

(** Percentages: of the absolute value, positive exactly for decreases *)
Theorem C85_percent : forall a b : R, a <> 0 ->
  @percent_reduction RN a b * Rabs a = 100 * (a - b) /\ (0 < @percent_reduction RN a b <-> b < a).
Proof.
  intros a b Ha. assert (Hp : 0 < Rabs a) by now apply Rabs_pos_lt.
  assert (E : @percent_reduction RN a b * Rabs a = 100 * (a - b)).
  { unfold percent_reduction. replace (@neqb RN a n0) with false by (symmetry; apply rn_eqb_false; rewrite rn_n0; exact Ha).
    rewrite rn_lit1. destruct (@nltb RN a n0) eqn:El.
    - apply rn_ltb in El. rewrite rn_n0 in El. rewrite Rabs_left by exact El. change (- (100 * (a - b) / a) * - a = 100 * (a - b)). field. lra.
    - apply rn_ltb_false in El. rewrite rn_n0 in El. rewrite Rabs_pos_eq by lra. change (100 * (a - b) / a * a = 100 * (a - b)). field. exact Ha. }
  split; [exact E|]. split; intros H.
  - assert (0 < 100 * (a - b)) by (rewrite <- E; apply Rmult_lt_0_compat; assumption). lra.
  - apply (Rmult_lt_reg_r (Rabs a)); [exact Hp|]. rewrite E. lra.
Qed.
Print Assumptions C85_percent.

(** From zero, no change is reported whatever happens. *)
Theorem C85_percent_refuted : exists a b : R, a < b /\ @percent_reduction RN a b = 0.
Proof.
  exists 0, 1. split; [lra|]. unfold percent_reduction. replace (@neqb RN 0 n0) with true; [apply rn_n0|]. symmetry. apply rn_eqb. now rewrite rn_n0.
Qed.
Print Assumptions C85_percent_refuted.

(** In doubles the nonlinearity of the objective of a step of length zero is not a number. *)
Definition zprob : @mprob F64 := @mkmprob F64 0 (mkvec 0 0 []) (mkvec 0 0 []) n0.
Definition ziter : @miter F64 := @mkmiter F64 n1 (mkvec 0 0 []).
Definition zdir : @dirn F64 := @mkdirn F64 (mkvec 1 0 []) n0 (mkvec 0 0 []) (mkvec 1 0 []).
Definition zmeas : @meas F64 := @mkmeas F64 n1 n0 n0 n0 n0 n0 n0 n0 n0 n0 (mkvec 0 0 []).
Definition nan_onl (r : res (@meas F64)) : bool := match r with Ok M => @nisnan F64 (me_onl M) | _ => false end.
Theorem C85_zero_refuted : exists (P : @mprob F64) M t it d pen M', measure_set P M t it it d pen = Ok M' /\ @nisnan F64 (me_onl M') = true.
Proof.
  assert (E : nan_onl (measure_set zprob zmeas (mkvec 0 0 []) ziter ziter zdir n1) = true) by (vm_compute; reflexivity).
  destruct (measure_set zprob zmeas (mkvec 0 0 []) ziter ziter zdir n1) as [M'| |] eqn:Em; try discriminate E.
  exists zprob, zmeas, (mkvec 0 0 []), ziter, zdir, n1, M'. split; [exact Em|exact E].
Qed.
Print Assumptions C85_zero_refuted.

(** Non-vacuity: objective and constraint x^2 with the constraint between 0 and 1, from 1 to 3; the
    curvature of both is 2, the multiplier 3. *)
Definition ev (a : R) : rvec := mkvec 1 1 [(0%Z, a)].
Lemma ev_ok a : vok 1 (ev a). Proof. split; [|reflexivity]. split; [cbn; lia|]. split; cbn; lia. Qed.
Definition eprob : @mprob RN := @mkmprob RN 1 (ev 0) (ev 1) 0.
Definition edir : @dirn RN := @mkdirn RN (ev 2) 4 (ev 4) (ev 4).
Definition emeas : @meas RN := @mkmeas RN 1 0 0 0 0 0 0 0 0 0 (mkvec 1 0 []).
Lemma esum g : sumd 1 g = g 0%Z. Proof. unfold sumd. change (Z.to_nat 1) with 1%nat. cbn [rsum]. change (Z.of_nat 0) with 0%Z. lra. Qed.
Lemma edata : data_ok 1 eprob (mkmiter (1 : @num RN) (ev 1)) (mkmiter (9 : @num RN) (ev 9)) edir.
Proof.
  split; cbn [eprob mp_nc mp_lb mp_ub mp_zero mi_cons edir d_primal d_hess d_cons]; try apply ev_ok; [|reflexivity].
  intros i Hi. replace i with 0%Z by lia. change (0 <= 1). lra.
Qed.
Example C85_example : exists M', measure_set eprob emeas (mkvec 1 0 []) (mkmiter (1 : @num RN) (ev 1)) (mkmiter (9 : @num RN) (ev 9)) edir (10 : @num RN) = Ok M'
  /\ lag_nonlin M' (ev 3) = Ok (-8 : @num RN) /\ l_act (fst (report_func M')) = 89 /\ @percent_reduction RN (-2) (-3) = 50.
Proof.
  assert (Hn : nsq 1 edir = 4). { unfold nsq. rewrite esum. change (2 * 2 = 4). lra. }
  assert (HM : call_ok emeas (mkvec 1 0 []) 10) by (split; [cbn; lia|split; [cbn; lia|lra]]).
  destruct (C85_curvature 1 eprob _ _ edir emeas (mkvec 1 0 []) 10 (ev 3) (fun _ _ => 2) (fun _ _ _ => 2) edata HM) as (M' & E & El & _).
  - rewrite Hn. lra.
  - apply ev_ok.
  - unfold qform. rewrite !esum. change (9 = 1 + 4 + / 2 * (2 * (2 * 2))). lra.
  - intros i Hi. cbn in Hi. replace i with 0%Z by lia. unfold qform. rewrite !esum. change (9 = 1 + 4 + / 2 * (2 * (2 * 2))). lra.
  - exists M'. split; [exact E|]. split.
    + rewrite El. f_equal. rewrite Hn. change (mp_nc eprob) with 1%Z. rewrite (esum (fun i => _ * _)).
      assert (Hq : qform 1 (fun _ _ => 2) (dense (d_primal edir)) = 8). { unfold qform. rewrite !esum. change (2 * (2 * 2) = 8). lra. }
      rewrite Hq. apply (f_equal (@Ok R)). change (- ((8 + 8 * 3) / 4) = -8). lra.
    + destruct (C85_merit 1 eprob _ _ edir emeas (mkvec 1 0 []) 10 (mkmiter (9 : @num RN) (ev 9)) edata HM (ev_ok 9)) as (M2 & l & r & s1 & s2 & s3 & E2 & Ef & _ & _ & _ & Ha & _).
      rewrite E in E2. injection E2 as <-. split.
      * rewrite Ef. cbn [fst]. rewrite Ha. unfold merit, viol. change (mp_nc eprob) with 1%Z. rewrite esum. change (9 + 10 * Rmax 0 (Rmax (9 - 1) (0 - 9)) = 89).
        rewrite (Rmax_left (9 - 1)), Rmax_right by lra. lra.
      * destruct (C85_percent (-2) (-3)) as [H _]; [lra|]. rewrite Rabs_left in H by lra. req. lra.
Qed.

(** Nonlinearities are reported exactly for steps longer than 1e-6: those of [C85_nonlin], of the
    constraints the largest absolute value. *)
Theorem C85_report : forall n P it tr d M t pen (mu : rvec), data_ok n P it tr d -> call_ok M t pen -> vok (mp_nc P) mu ->
  exists M', measure_set P M t it tr d pen = Ok M' /\
    ((1 / 1000000 < sqrt (nsq n d) /\ 0 < nsq n d
      /\ exists mx v, report_nonlin M' mu = Ok (Some (me_onl M', mx, v)) /\ lag_nonlin M' mu = Ok v /\ is_max_abs (mp_nc P) (dense (me_cnl M')) mx)
     \/ (sqrt (nsq n d) <= 1 / 1000000 /\ report_nonlin M' mu = Ok None)).
Proof.
  intros n P it tr d M t pen mu H (Ht & Hm & Hp) Vm.
  destruct (set_ok n P it tr d H M t pen Ht Hm Hp) as (M' & E & _ & E2 & _ & _ & _ & _ & _ & _ & _ & _ & [Wc Dc] & _).
  exists M'. split; [exact E|]. unfold report_nonlin, step_norm, cutoff. rewrite E2, rn_lit_eq. change (@nsqrt RN (nsq n d)) with (sqrt (nsq n d)).
  destruct (@nltb RN (1 / 1000000) (sqrt (nsq n d))) eqn:El; [left|right].
  - apply rn_ltb in El. split; [exact El|]. split.
    + destruct (Rlt_le_dec 0 (nsq n d)) as [Hl|Hl]; [exact Hl|]. rewrite sqrt_neg_0 in El by exact Hl. lra.
    + unfold lag_nonlin. rewrite (dot_fun (mp_nc P) _ _ (conj Wc Dc) Vm). cbn [rbind]. eexists _, _. split; [reflexivity|]. split; [reflexivity|].
      rewrite <- Dc. now apply vec_inf_norm_real.
  - apply rn_ltb_false in El. split; [exact El|reflexivity].
Qed.
Print Assumptions C85_report.
(** The data of [C85_example] have the first outcome. *)
Example C85_example_report : exists M' x, measure_set eprob emeas (mkvec 1 0 []) (mkmiter (1 : @num RN) (ev 1)) (mkmiter (9 : @num RN) (ev 9)) edir (10 : @num RN) = Ok M'
  /\ report_nonlin M' (ev 3) = Ok (Some x).
Proof.
  assert (HM : call_ok emeas (mkvec 1 0 []) 10) by (split; [cbn; lia|split; [cbn; lia|lra]]).
  destruct (C85_report 1 eprob _ _ edir emeas (mkvec 1 0 []) 10 (ev 3) edata HM (ev_ok 3)) as (M' & E & [(_ & _ & mx & v & Hr & _)|[Hs _]]).
  - exists M', (me_onl M', mx, v). split; [exact E|exact Hr].
  - exfalso. unfold nsq in Hs. rewrite esum in Hs. change (dense (d_primal edir) 0%Z) with 2 in Hs. rewrite sqrt_square in Hs by lra. lra.
Qed.

(** The other lines of the reports; every line states the reductions from the first value to the others. *)
Definition fair (a b c : R) (l : @line RN) : Prop :=
  l_cur l = a /\ l_exp l = b /\ l_act l = c /\
  (a <> 0 -> l_pred l * Rabs a = 100 * (a - b) /\ l_red l * Rabs a = 100 * (a - c)).
Lemma fair_mk3 a b c : fair a b c (mk3 (a : @num RN) b c).
Proof. do 3 (split; [reflexivity|]). intros Ha. split; now apply C85_percent. Qed.
Theorem C85_lines : forall n P it tr d M t pen soc, data_ok n P it tr d -> call_ok M t pen -> vok (mp_nc P) (mi_cons soc) ->
  let v c := viol P c in let c0 := dense (mi_cons it) in let c1 := dense (mi_cons tr) in let c2 := dense (mi_cons soc) in
  exists M' o w m s1 s2 s3, measure_set P M t it tr d pen = Ok M' /\ report_lsq M' = (o, w, m) /\ report_soc P M' soc = Ok (s1, s2, s3)
    /\ fair (mi_obj it) (mi_obj it + d_obj d + / 2 * sumd n (fun i => dense (d_primal d) i * dense (d_hess d) i)) (mi_obj tr) o
    /\ fair (v c0) (v (fun i => c0 i + dense (d_cons d) i)) (v c1) w
    /\ fair (merit P pen it) (model n P pen it d) (merit P pen tr) (fst m)
    /\ fair (mi_obj it) (mi_obj tr) (mi_obj soc) s1 /\ fair (v c0) (v c1) (v c2) s2
    /\ fair (merit P pen it) (merit P pen tr) (merit P pen soc) s3.
Proof.
  intros n P it tr d M t pen soc H (Ht & Hm & Hp) Vs v c0 c1 c2.
  destruct (set_ok n P it tr d H M t pen Ht Hm Hp) as (M' & E & E1 & _ & E3 & E4 & E5 & E6 & E7 & E8 & E9 & _).
  assert (Hh : @nlit RN 1 2 = / 2) by (rewrite rn_lit_eq; lra).
  do 7 eexists. split; [exact E|]. split; [unfold report_lsq; reflexivity|].
  unfold report_soc. rewrite (viol_ok n P it tr d H _ Vs). cbn [rbind]. split; [reflexivity|].
  unfold report_merit. cbn [fst]. rewrite Hh, E1, E3, E4, E5, E6, E7, E8, E9.
  split; [apply fair_mk3|]. split; [apply fair_mk3|]. split; [apply fair_mk3|]. split; [apply fair_mk3|]. split; apply fair_mk3.
Qed.
Print Assumptions C85_lines.

(** Penalty parameters that are not positive are refused. *)
Theorem C85_penalty : forall n P it tr d M t pen, data_ok n P it tr d -> (0 <= vcap t)%Z -> (0 <= vcap (me_cnl M))%Z -> pen <= 0 ->
  measure_set P M t it tr d pen = Trap.
Proof.
  intros n P it tr d M t pen H Ht Hm Hp. destruct (set_ok n P it tr d H M t 1 Ht Hm ltac:(lra)) as (M' & E & _).
  unfold measure_set in *. repeat (apply rbind_ok in E as (? & -> & E); cbn [rbind]).
  replace (@nltb RN n0 pen) with false by (symmetry; apply rn_ltb_false; rewrite rn_n0; exact Hp). reflexivity.
Qed.
Print Assumptions C85_penalty.
(** The data of [C85_example]: the violation grows from 0 to 8 *)
Example C85_example_lines :
  (exists M' o w m, measure_set eprob emeas (mkvec 1 0 []) (mkmiter (1 : @num RN) (ev 1)) (mkmiter (9 : @num RN) (ev 9)) edir (10 : @num RN) = Ok M'
    /\ report_lsq M' = (o, w, m) /\ l_red o = -800)
  /\ measure_set eprob emeas (mkvec 1 0 []) (mkmiter (1 : @num RN) (ev 1)) (mkmiter (9 : @num RN) (ev 9)) edir (-1 : @num RN) = Trap.
Proof.
  assert (HM : call_ok emeas (mkvec 1 0 []) 10) by (split; [cbn; lia|split; [cbn; lia|lra]]). split.
  - destruct (C85_lines 1 eprob _ _ edir emeas (mkvec 1 0 []) 10 (mkmiter (9 : @num RN) (ev 9)) edata HM (ev_ok 9)) as (M' & o & w & m & s1 & s2 & s3 & E & El & _ & (_ & _ & _ & Ho) & _).
    exists M', o, w, m. split; [exact E|]. split; [exact El|]. cbn [mi_obj] in Ho. destruct Ho as [_ Ho]; [lra|]. rewrite Rabs_R1 in Ho. req. lra.
  - apply (C85_penalty 1); [exact edata|cbn; lia|cbn; lia|lra].
Qed.
