(** Preprocessing of linear constraints and bounds (C27, C28). *)
From Coq Require Import Reals Lra.
From Flocq Require Import Core BinarySingleNaN.
From Verif Require Import Base Num Cmp Order OrdArith Sparse Vec VecFacts VecFacts2 VecFacts3 VecFacts4 VecReal RSum Mat MatFacts MatFacts2 MatFacts3 MatFacts4 Arr
  Problem ProblemFacts Preproc PreprocFacts PreprocReal PreprocTrans Eval.
Local Open Scope R_scope.

(** ** Specification *)

(** Row [i] of the linear constraints at [x]. *)
Definition lrow (p : @problem RN) cs i (x : Z -> R) : R := sumd (uf_nv (p_func p)) (fun j => mR cs i j * x j).

(** Points within the variable bounds and the linear constraints; the value 1e100 is a bound like
    any other here. *)
Definition in_bounds (p : @problem RN) (x : Z -> R) : Prop :=
  forall j, (0 <= j < uf_nv (p_func p))%Z -> dense (p_vlb p) j <= x j <= dense (p_vub p) j.
Definition lin_feasible (p : @problem RN) cs (x : Z -> R) : Prop :=
  in_bounds p x /\ forall i, (0 <= i < p_nl p)%Z -> dense (p_llb p) i <= lrow p cs i x <= dense (p_lub p) i.

(** The same where a bound of a row counts as infinite from [hi] = 5e99 on. *)
Definition lin_sat (p : @problem RN) cs (x : Z -> R) : Prop :=
  in_bounds p x /\ forall i, (0 <= i < p_nl p)%Z ->
    (dense (p_llb p) i <= lrow p cs i x \/ dense (p_llb p) i <= - hi) /\ (lrow p cs i x <= dense (p_lub p) i \/ hi <= dense (p_lub p) i).
Lemma lin_feasible_sat p cs x : lin_feasible p cs x -> lin_sat p cs x.
Proof. intros [H1 H2]. split; [exact H1|]. intros i Hi. specialize (H2 i Hi). split; left; apply H2. Qed.

(** Lower bounds do not exceed upper bounds; no lower bound is plus infinity and no upper bound
    minus infinity, where a number counts as infinite from [hi] on. *)
Definition bounds_ok (p : @problem RN) : Prop :=
  (forall j, (0 <= j < uf_nv (p_func p))%Z -> dense (p_vlb p) j <= dense (p_vub p) j /\ dense (p_vlb p) j < hi /\ - hi < dense (p_vub p) j)
  /\ (forall i, (0 <= i < p_nl p)%Z -> dense (p_llb p) i < hi /\ - hi < dense (p_lub p) i).

(** The finite bounds of the variables, weighted by the coefficients of a row, do not add up to infinity. *)
Definition finabs (v : R) : R := if Rlt_dec (Rabs v) hi then Rabs v else 0.
Definition scaled (p : @problem RN) cs : Prop := forall i, (0 <= i < p_nl p)%Z ->
  sumd (uf_nv (p_func p)) (fun j => Rabs (mR cs i j) * (finabs (dense (p_vlb p) j) + finabs (dense (p_vub p) j))) < hi.

(** Dividing a finite bound of a row by a coefficient of the row gives a finite value. *)
Definition divisible (p : @problem RN) cs : Prop := forall i j, (0 <= i < p_nl p)%Z -> (0 <= j < uf_nv (p_func p))%Z -> mR cs i j <> 0 ->
  (Rabs (dense (p_llb p) i) < hi -> Rabs (dense (p_llb p) i) < hi * Rabs (mR cs i j))
  /\ (Rabs (dense (p_lub p) i) < hi -> Rabs (dense (p_lub p) i) < hi * Rabs (mR cs i j)).

(** ** The state after the passes *)

Lemma esum_co (m : @mat RN) cs i (g : Z -> R -> R) : stores m cs -> (forall j, g j 0 = 0) ->
  esum (@coeffs RN m cs i) g = sumd (mnc m) (fun j => g j (mR cs i j)).
Proof.
  intros HS H0. pose proof (layout_facts m cs HS) as (_ & Hc & _). pose proof (coeffs_sorted m cs HS i) as Hs.
  rewrite (esum_dense _ _ 0 (Z.to_nat (mnc m))); [|rewrite Z2Nat.id by lia; exact Hs|lia].
  unfold sumd. apply rsum_ext. intros j Hj. rewrite Z2Nat.id in Hj by lia. unfold mR, mdense. rewrite oval_rn. rnum.
  lazymatch goal with |- match ?x with Some _ => _ | None => _ end = _ => destruct x as [a|] eqn:E end.
  - apply get_Some_In in E. apply coeffs_in in E. destruct E as (_ & E & _). unfold mget in *. rnum. rewrite E. reflexivity.
  - apply get_None in E. destruct (mget cs i j) as [a|] eqn:Ea; [|now rewrite H0].
    destruct (Req_dec a 0) as [->|Hne]; [now rewrite H0|]. exfalso. apply E. apply (In_keys _ j a). apply coeffs_in. split; [exact Hj|]. split; [exact Ea|].
    rewrite rn_n0. now apply rn_eqb_false.
Qed.

Lemma fin_finabs v : fin v = finabs v.
Proof.
  unfold fin, finabs. destruct (Rlt_dec (Rabs v) hi) as [H|H].
  - apply rn_is_finite in H. now rewrite H.
  - destruct (@is_finite RN v) eqn:E; [apply rn_is_finite in E; lra|reflexivity].
Qed.

Section Spec.
Variables (p : @problem RN) (cs : list (list (Z * R))).
Hypotheses (HP : pdata p cs) (HB : bounds_ok p) (HC : scaled p cs).
Let nv := uf_nv (p_func p).
Let nl := p_nl p.
Let vl := dense (p_vlb p).
Let vu := dense (p_vub p).
Let ll := dense (p_llb p).
Let lu := dense (p_lub p).

Lemma lrow_act i x : lrow p cs i x = act (p_lin p) cs i x.
Proof. destruct HP as (HS & _ & Hc & _). rewrite act_sum by exact HS. unfold lrow. now rewrite Hc. Qed.

Lemma feasible_iff x : feasible (p_lin p) cs vl vu ll lu x <-> lin_sat p cs x.
Proof.
  destruct HP as (HS & Hr & Hc & _). unfold feasible, rowok, inbox, lin_sat, in_bounds. rewrite Hr, Hc.
  split; intros [H1 H2]; (split; [exact H1|]); intros i Hi; specialize (H2 i Hi); rewrite lrow_act in *; exact H2.
Qed.

Lemma props_ok : forall j, (0 <= j < mnc (p_lin p))%Z -> proper vl vu j.
Proof. destruct HP as (HS & Hr & Hc & _). rewrite Hc. intros j Hj. exact (proj1 HB j Hj). Qed.
Lemma mags_ok : forall i, (0 <= i < mnr (p_lin p))%Z -> esum (@coeffs RN (p_lin p) cs i) (mag vl vu) < hi.
Proof.
  destruct HP as (HS & Hr & Hc & _). rewrite Hr. intros i Hi. rewrite esum_co; [|exact HS|intros j; unfold mag; rewrite Rabs_R0; lra]. rewrite Hc.
  eapply Rle_lt_trans; [|exact (HC i Hi)]. apply sumd_le. intros j Hj. unfold mag. rewrite !fin_finabs. apply Rle_refl.
Qed.

Lemma pre_state feas zeps pp : 0 <= feas -> pre_create p feas zeps = Ok pp ->
  pp_orig pp = p /\ pinv2 (p_lin p) cs vl vu ll lu feas (pp_state pp, pp_infeasible pp)
  /\ create_fixed (pp_state pp) nv = Ok (pp_fixed pp) /\ create_removed (pp_state pp) nl = Ok (pp_removed pp)
  /\ transformed_problem p (pp_state pp) (pp_fixed pp) (pp_removed pp) zeps = Ok (pp_trans pp).
Proof.
  intros Hf E. unfold pre_create in E. unbind E. unbind E. unbind E. unbind E. unbind E. unbind E. unbind E. injection E as <-.
  cbn [pp_orig pp_state pp_infeasible pp_fixed pp_removed pp_trans]. split; [reflexivity|]. split; [|auto].
  destruct HP as (HS & Hr & Hc & Hg & (Wvl & Dvl) & (Wvu & Dvu) & (Wll & Dll) & (Wlu & Dlu) & _).
  pose proof (to_raw_arr _ _ Wvl E0) as Avl. pose proof (to_raw_arr _ _ Wvu E1) as Avu. rewrite Dvl, <- Hc in Avl. rewrite Dvu, <- Hc in Avu. fold vl in Avl. fold vu in Avu.
  pose proof props_ok as PP. pose proof mags_ok as MM.
  assert (I1 : inv (p_lin p) cs vl vu ll lu feas noE a1).
  { apply (inv_fix_vars (p_lin p) cs vl vu ll lu feas PP a a0 Avl Avu (state_reset (mnc (p_lin p)) (mnr (p_lin p)))); [now apply inv_reset|].
    rewrite Hc, Hr. exact E2. }
  unfold remove_redundant in E3. rewrite <- Hc, <- Hr in E3. unbind E3. clear E. unbind E3. unbind E3. unbind E3. unbind E3. unbind E3. unbind E3. unbind E3. unbind E3.
  destruct (cons_counts_spec (p_lin p) cs HS) as (ents & Ee & Aents). assert (ents = a7) by congruence. subst ents.
  pose proof (to_raw_arr _ _ Wll E7) as All. pose proof (to_raw_arr _ _ Wlu E8) as Alu. rewrite Dll, <- Hr in All. rewrite Dlu, <- Hr in Alu. fold ll in All. fold lu in Alu.
  assert (I2 : pinv2 (p_lin p) cs vl vu ll lu feas a10).
  { revert E9. apply rfold_inv; [split; [exact I1|discriminate]|]. intros si i si' Hsi Hi Es. apply zrange_In in Hi.
    exact (inv_singleton (p_lin p) cs vl vu ll lu feas a a0 a8 a9 Avl Avu All Alu a7 si i si' Hsi Hi Aents Es). }
  destruct (linear_bounds_spec (p_lin p) cs HS a a0 vl vu Avl Avu) as (mms & Em & Amms). assert (mms = a11) by congruence. subst mms.
  assert (Amms' : arr a11 (mnr (p_lin p)) (mmf (p_lin p) cs vl vu)).
  { eapply arr_ext; [exact Amms|]. intros i Hi. unfold mmf. now rewrite rn_n0. }
  assert (I3 : inv (p_lin p) cs vl vu ll lu feas noE a12).
  { revert E11. apply rfold_inv; [exact (proj1 I2)|]. intros s i s' Hs Hi Es. apply zrange_In in Hi.
    exact (inv_redundant (p_lin p) cs vl vu ll lu feas Hf PP MM a8 a9 All Alu a11 Amms' s i s' Hs Hi Es). }
  assert (I4 : pinv2 (p_lin p) cs vl vu ll lu feas a13).
  { unfold check_cons in E12. unbind E12. unbind E12. injection E12 as <-.
    assert (J : pinv2 (p_lin p) cs vl vu ll lu feas a15).
    { revert E14. apply rfold_inv; [split; [exact I3|exact (proj2 I2)]|]. intros si i si' Hsi Hi Es. apply zrange_In in Hi.
      exact (inv_check_cons_step (p_lin p) cs vl vu ll lu feas HS Hf PP MM a a0 a8 a9 Avl Avu All Alu a11 Amms' si i si' Hsi Hi Es). }
    split; [|exact (proj2 J)]. cbn [fst]. revert E15. apply rfold_inv; [exact (proj1 J)|]. intros s i s' Hs Hi Es. apply zrange_In in Hi.
    exact (inv_cons_req (p_lin p) cs vl vu ll lu feas Hf PP MM a8 a9 All Alu a11 Amms' s i s' Hs Hi Es). }
  destruct (variable_bounds_spec (p_lin p) cs HS a a0 a8 a9 a11 vl vu ll lu _ Avl Avu All Alu Amms') as (bs & Eb & Abs).
  assert (bs = a14) by congruence. subst bs.
  destruct a2 as [s2 inf2]. cbn [fst snd]. revert E3. apply rfold_inv; [exact I4|]. intros si j si' Hsi Hj Es. apply zrange_In in Hj.
  exact (inv_check_vars (p_lin p) cs vl vu ll lu feas HS Hf PP MM a a0 Avl Avu a14 si j si' Hsi Hj Abs Es).
Qed.
End Spec.

(** ** C27: a reported infeasibility is real *)

Theorem C27_sound_partial : forall (p : @problem RN) cs feas zeps pp,
  pdata p cs -> bounds_ok p -> scaled p cs -> 0 <= feas ->
  pre_create p feas zeps = Ok pp -> pre_result pp = PreInfeasible ->
  ~ exists x, lin_sat p cs x.
Proof.
  intros p cs feas zeps pp HP HB HC Hf E Hr (x & Hx). destruct (pre_state p cs HP HB HC feas zeps pp Hf E) as (_ & [_ HI] & _). cbn [snd] in HI.
  apply HI.
  - unfold pre_result in Hr. destruct (pp_infeasible pp); [reflexivity|]. destruct (_ || _)%bool in Hr; discriminate.
  - exists x. now apply feasible_iff.
Qed.
Print Assumptions C27_sound_partial.

(** ** C28: the reduced problem represents the original one *)

(** The state of the preprocessor and the reduced problem, as used below. *)
Lemma pre_all (p : @problem RN) cs pp : pdata p cs -> bounds_ok p -> scaled p cs -> pre_create p (0 : @num RN) (0 : @num RN) = Ok pp ->
  exists fv fc rv rc, SI (p_lin p) cs (dense (p_vlb p)) (dense (p_vub p)) (dense (p_llb p)) (dense (p_lub p)) 0 noE (pp_state pp) fv fc rv rc
  /\ pp_fixed pp = fixed_of fv (uf_nv (p_func p)) /\ Z.of_nat (length (pp_fixed pp)) = ps_nfix (pp_state pp)
  /\ pp_removed pp = removed_of fc (p_nl p) /\ Z.of_nat (length (pp_removed pp)) = num_removed_cons (pp_state pp)
  /\ transformed_problem p (pp_state pp) (pp_fixed pp) (pp_removed pp) (0 : @num RN) = Ok (pp_trans pp).
Proof.
  intros HP HB HC E. destruct (pre_state p cs HP HB HC 0 0 pp (Rle_refl 0) E) as (_ & [HI _] & Ef & Er & Et).
  cbn [fst] in HI. destruct HI as (fv & fc & rv & rc & HI). exists fv, fc, rv, rc. split; [exact HI|].
  pose proof (nv_pos p cs HP) as Pn. pose proof (nl_pos p cs HP) as Pl.
  destruct HI as (A1 & A2 & _). destruct HP as (_ & Hr & Hc & _). rewrite Hr in A2. rewrite Hc in A1.
  destruct (create_fixed_inv _ _ _ _ Pn A1 Ef) as [F1 F2]. destruct (create_removed_inv _ _ _ _ Pl A2 Er) as [R1 R2]. auto.
Qed.

Lemma fixpart_bound (p : @problem RN) cs fv i : pdata p cs -> scaled p cs -> (0 <= i < p_nl p)%Z ->
  (forall j, (0 <= j < uf_nv (p_func p))%Z -> vunchanged (fv j) = false ->
    (vs_value (fv j) = dense (p_vlb p) j \/ vs_value (fv j) = dense (p_vub p) j) /\ - hi < vs_value (fv j) < hi) ->
  Rabs (fixpart p cs (fixed_of fv (uf_nv (p_func p))) fv i) < hi.
Proof.
  intros HP HC Hi Hv. eapply Rle_lt_trans; [|exact (HC i Hi)]. unfold fixpart.
  assert (G : forall f g : Z -> R, (forall j, (0 <= j < uf_nv (p_func p))%Z -> Rabs (f j) <= g j) -> Rabs (sumd (uf_nv (p_func p)) f) <= sumd (uf_nv (p_func p)) g).
  { intros f g H. apply Rabs_le. split.
    - replace (- sumd (uf_nv (p_func p)) g) with (sumd (uf_nv (p_func p)) (fun j => -1 * g j)) by (rewrite sumd_scal; ring).
      apply sumd_le. intros j Hj. specialize (H j Hj). revert H. unfold Rabs. destruct (Rcase_abs (f j)); lra.
    - apply sumd_le. intros j Hj. specialize (H j Hj). revert H. unfold Rabs. destruct (Rcase_abs (f j)); lra. }
  apply G. intros j Hj. cbv beta. assert (P : forall v, 0 <= finabs v). { intros v. unfold finabs. destruct (Rlt_dec (Rabs v) hi); [apply Rabs_pos|lra]. }
  pose proof (P (dense (p_vlb p) j)) as P1. pose proof (P (dense (p_vub p) j)) as P2. pose proof (Rabs_pos (mR cs i j)) as P3.
  lazymatch goal with |- context [if ?b then _ else _] => destruct b eqn:Ex end.
  - apply existsb_In in Ex. apply keys_fixed_in in Ex. destruct (Hv j Hj (proj2 Ex)) as [Ho Hb]. rewrite Rabs_mult.
    assert (Q : finabs (vs_value (fv j)) = Rabs (vs_value (fv j))). { unfold finabs. destruct (Rlt_dec _ hi) as [|n]; [reflexivity|]. exfalso. apply n. now apply Rabs_def1. }
    apply Rmult_le_compat_l; [exact P3|]. rewrite <- Q. destruct Ho as [-> | ->]; lra.
  - rewrite Rabs_R0. apply Rmult_le_pos; lra.
Qed.

(** Every point within the bounds and linear constraints has a counterpart within those of the
    reduced problem, and is recovered from it. *)
Theorem C28_transform_partial : forall (p : @problem RN) cs pp x t y,
  pdata p cs -> bounds_ok p -> scaled p cs -> pre_create p (0 : @num RN) (0 : @num RN) = Ok pp ->
  wf x -> vdim x = uf_nv (p_func p) -> lin_feasible p cs (dense x) -> wf t -> pre_transform_primal pp x t = Ok y ->
  exists cs', pdata (pp_trans pp) cs' /\ lin_feasible (pp_trans pp) cs' (dense y)
  /\ forall t' z, wf t' -> vdim t' = uf_nv (p_func p) -> restore_primal pp y t' = Ok z -> forall j, (0 <= j < uf_nv (p_func p))%Z -> dense z j = dense x j.
Proof.
  intros p cs pp x t y HP HB HC E Wx Dx Hx Wt Ey. destruct (pre_all p cs pp HP HB HC E) as (fv & fc & rv & rc & HI & F1 & F2 & R1 & R2 & Et).
  destruct HI as (A1 & A2 & A3 & A4 & HV & HK & HCb & HRv & HRc). pose proof HP as HP'. destruct HP' as (HS & Hr & Hc & _).
  rewrite Hr in A2, A4, HK, HRc. rewrite Hc in A1, A3, HV, HRv. pose proof (proj2 (feasible_iff p cs HP (dense x)) (lin_feasible_sat _ _ _ Hx)) as Hxf.
  set (nv := uf_nv (p_func p)) in *. set (nl := p_nl p) in *.
  assert (Hn0 : (0 <= nv)%Z) by (apply (nv_pos p cs HP)). assert (Hl0 : (0 <= nl)%Z) by (apply (nl_pos p cs HP)).
  destruct (trans_problem p cs HP _ _ _ fv fc rv rc A3 A4 F1 F2 R1 R2 _ Et) as (cs' & HQ & Hfq & Hnq & Hlq & Hlb & Hub & Hll & Hlu & Hm & _).
  exists cs'. split; [exact HQ|].
  assert (SF : sorted_in 0 nv (keys (pp_fixed pp))) by (rewrite F1; apply fixed_of_sorted).
  assert (SR : sorted_in 0 nl (pp_removed pp)) by (rewrite R1; apply removed_of_sorted).
  assert (LK : length (keys (pp_fixed pp)) = length (pp_fixed pp)) by apply map_length.
  unfold pre_transform_primal in Ey. assert (SF' : sorted_in 0 (vdim x) (keys (pp_fixed pp))) by (rewrite Dx; exact SF).
  destruct (remove_entries_inv _ _ _ _ Wx Wt SF' Ey) as (Wy & Dy & Hd & Hk). rewrite LK in Hd.
  assert (Hcbx : forall cb, In cb (ps_conv (pp_state pp)) -> cb_lb cb <= dense x (cb_var cb) <= cb_ub cb).
  { intros cb Hin. rewrite Forall_forall in HCb. destruct (HCb cb Hin) as (C1 & C2 & C3 & C4). rewrite C3, C4.
    apply (proj1 (singleton_equiv (p_lin p) cs _ _ _ _ _ (dense x) C2)). rewrite <- (lrow_act p cs HP). rewrite Hr in C1. exact (proj2 Hx _ C1). }
  assert (HVx : forall j, (0 <= j < nv)%Z -> In j (keys (pp_fixed pp)) -> dense x j = vs_value (fv j)).
  { intros j Hj Hin. rewrite F1 in Hin. apply keys_fixed_in in Hin. destruct (HV j Hj (proj2 Hin)) as (_ & _ & H). exact (H eq_refl (dense x) Hxf). }
  assert (Hrow : forall i i', (0 <= i < nl)%Z -> kept (pp_removed pp) i i' -> lrow p cs i (dense x) = fixpart p cs (pp_fixed pp) fv i + lrow (pp_trans pp) cs' i' (dense y)).
  { intros i i' Hi Hki. unfold lrow. rewrite (sum_kept (keys (pp_fixed pp)) nv _ (fun j' => mR cs' i' j' * dense y j') SF Hn0).
    - f_equal; [|rewrite Hnq, LK, F2; reflexivity]. unfold fixpart. fold nv. apply sumd_ext. intros j Hj. cbv beta. rnum. lazymatch goal with |- context [if ?b then _ else _] => destruct b eqn:Ex end; [|reflexivity].
      apply existsb_In in Ex. now rewrite (HVx j Hj Ex).
    - intros j j' Hj Hkj. rewrite (Hm i i' j j' Hi Hj Hki Hkj). now rewrite (Hk j j' Hkj). }
  assert (HFP : forall i, (0 <= i < nl)%Z -> - hi < fixpart p cs (pp_fixed pp) fv i < hi).
  { intros i Hi. assert (Hab : forall v, Rabs v < hi -> - hi < v < hi) by (intros v Hv; apply Rabs_def2 in Hv; lra). apply Hab. rewrite F1. apply fixpart_bound; auto. intros j Hj Hu. destruct (HV j Hj Hu) as (H1 & H2 & _). auto. }
  pose proof hi_pos as Hhi. split; [split|].
  - intros j' Hj'. rewrite Hnq, <- F2, <- LK in Hj'. destruct (kept_surj _ _ _ SF Hj') as (j & Hj & Hkj). rewrite (Hk j j' Hkj).
    destruct Hx as [Hxb _]. specialize (Hxb j Hj). destruct (HRv j Hj) as [V1 V2]. split.
    + apply (proj2 (Hlb j j' Hj Hkj _)). split.
      * unfold only_lower. destruct (rv j) as [[|] [|]]; cbn [fst snd negb andb] in *; try (specialize (V1 eq_refl)); lra.
      * intros cb Hin <-. apply Hcbx, Hin.
    + apply (proj2 (Hub j j' Hj Hkj _)). split.
      * unfold only_upper. destruct (rv j) as [[|] [|]]; cbn [fst snd negb andb] in *; try (specialize (V2 eq_refl)); lra.
      * intros cb Hin <-. apply Hcbx, Hin.
  - intros i' Hi'. rewrite Hlq, <- R2 in Hi'. destruct (kept_surj _ _ _ SR Hi') as (i & Hi & Hki).
    destruct Hx as [_ Hxr]. specialize (Hxr i Hi). specialize (HFP i Hi). specialize (Hrow i i' Hi Hki). specialize (HRc i Hi).
    assert (Hcu : cunchanged (fc i) = true). { destruct (cunchanged (fc i)) eqn:Ec; [reflexivity|]. exfalso. apply (proj1 Hki). rewrite R1. apply removed_of_in. auto. }
    destruct (HRc Hcu) as [Q1 Q2].
    destruct (Hll i i' Hi Hki) as [L|[L1 L2]]; destruct (Hlu i i' Hi Hki) as [U|[U1 U2]].
    + rewrite L, U. lra.
    + rewrite L, U2. unfold only_upper in U1. apply andb_true_iff in U1. destruct (Q2 (proj2 U1)) as [Q _]. lra.
    + rewrite L2, U. unfold only_lower in L1. apply andb_true_iff in L1. destruct (Q1 (proj1 L1)) as [Q _]. lra.
    + rewrite L2, U2. unfold only_lower in L1. apply andb_true_iff in L1. destruct (Q1 (proj1 L1)) as [Q _].
      unfold only_upper in U1. apply andb_true_iff in U1. destruct (Q2 (proj2 U1)) as [Q' _]. lra.
  - intros t' z Wt' Dt' Ez j Hj. unfold restore_primal in Ez. assert (SF'' : sorted_in 0 (vdim t') (keys (pp_fixed pp))) by (rewrite Dt'; exact SF).
    destruct (merge_entries_inv _ _ _ _ Wy Wt' SF'' Ez) as (_ & _ & _ & M1 & M2).
    destruct (in_dec Z.eq_dec j (keys (pp_fixed pp))) as [Hin|Hn].
    + rewrite (HVx j Hj Hin). apply M2. rewrite F1 in Hin |- *. apply keys_fixed_in in Hin. apply fixed_of_in. tauto.
    + pose proof (kept_total _ _ Hn) as Hkj. now rewrite (M1 _ _ Hkj), (Hk _ _ Hkj).
Qed.
Print Assumptions C28_transform_partial.

Lemma kept_range fs n j j' : sorted_in 0 n fs -> (0 <= j < n)%Z -> kept fs j j' -> (0 <= j' < n - Z.of_nat (length fs))%Z.
Proof.
  intros Hs Hj [Hn ->].
  assert (G : forall l lo, sorted_in lo n l -> (lo <= j < n)%Z -> ~ In j l -> (0 <= count_lt l j <= j - lo /\ Z.of_nat (length l) - count_lt l j <= n - 1 - j)%Z).
  { induction l as [|a l IH]; intros lo Hl Hb Hni.
    - rewrite count_lt_nil. cbn [length]. lia.
    - rewrite count_lt_cons. destruct Hl as [Ha Hl]. cbn [In] in Hni. destruct (Z.ltb_spec a j) as [L|L].
      + specialize (IH (a + 1)%Z Hl ltac:(lia) ltac:(tauto)). cbn [length]. lia.
      + assert (a <> j) by tauto. pose proof (sorted_in_length _ _ _ Hl) as Hlen. rewrite (count_lt_none l j); [cbn [length]; lia|].
        intros f Hf. pose proof (sorted_in_In _ _ _ _ Hl Hf). lia. }
  specialize (G fs 0%Z Hs Hj Hn). lia.
Qed.

(** The least of finitely many numbers below 1. *)
Lemma least (r : Z -> R) n : (0 <= n)%Z -> (forall j, (0 <= j < n)%Z -> r j <= 1) ->
  exists t, t <= 1 /\ (forall j, (0 <= j < n)%Z -> t <= r j) /\ (t = 1 \/ exists j, (0 <= j < n)%Z /\ t = r j).
Proof.
  intros Hn. revert n Hn. refine (natlike_ind _ _ _).
  - intros _. exists 1. split; [lra|]. split; [intros j Hj; lia|now left].
  - intros n Hn IH H. destruct IH as (t & T1 & T2 & T3); [intros j Hj; apply H; lia|].
    destruct (Rle_dec t (r n)) as [L|L].
    + exists t. split; [exact T1|]. split.
      * intros j Hj. destruct (Z.eq_dec j n) as [->|]; [exact L|]. apply T2. lia.
      * destruct T3 as [T3|(j & Hj & T3)]; [now left|right; exists j; split; [lia|exact T3]].
    + exists (r n). split; [apply H; lia|]. split.
      * intros j Hj. destruct (Z.eq_dec j n) as [->|]; [lra|]. assert (t <= r j) by (apply T2; lia). lra.
      * right. exists n. split; [lia|reflexivity].
Qed.

(** Leaving a box on the way from [x0] to [z]: unless [z] is inside, some point of the segment is in the
    box and at a bound that [z] violates. *)
Lemma exit_box (n : Z) (vl vu x0 z : Z -> R) : (0 <= n)%Z -> (forall j, (0 <= j < n)%Z -> vl j <= x0 j <= vu j) ->
  exists t, 0 <= t <= 1 /\ (forall j, (0 <= j < n)%Z -> vl j <= x0 j + t * (z j - x0 j) <= vu j)
  /\ (t = 1 \/ exists j, (0 <= j < n)%Z /\ (z j < vl j /\ x0 j + t * (z j - x0 j) = vl j \/ vu j < z j /\ x0 j + t * (z j - x0 j) = vu j)).
Proof.
  intros Hn Hb.
  set (r := fun j => if Rlt_dec (z j) (vl j) then (x0 j - vl j) / (x0 j - z j) else if Rlt_dec (vu j) (z j) then (vu j - x0 j) / (z j - x0 j) else 1).
  assert (D : forall a b : R, 0 < b -> a = a / b * b) by (intros; field; lra).
  assert (Hr : forall j, (0 <= j < n)%Z -> 0 <= r j <= 1 /\ (z j < vl j -> r j * (x0 j - z j) = x0 j - vl j) /\ (vu j < z j -> r j * (z j - x0 j) = vu j - x0 j)
     /\ (vl j <= z j <= vu j -> r j = 1)).
  { intros j Hj. specialize (Hb j Hj). unfold r. destruct (Rlt_dec (z j) (vl j)) as [L|L]; [|destruct (Rlt_dec (vu j) (z j)) as [U|U]].
    - pose proof (D (x0 j - vl j) (x0 j - z j) ltac:(lra)) as E. set (q := (x0 j - vl j) / (x0 j - z j)) in *. repeat split; try lra; nra.
    - pose proof (D (vu j - x0 j) (z j - x0 j) ltac:(lra)) as E. set (q := (vu j - x0 j) / (z j - x0 j)) in *. repeat split; try lra; nra.
    - repeat split; lra. }
  destruct (least r n Hn) as (t & T1 & T2 & T3); [intros j Hj; now apply Hr|].
  assert (T0 : 0 <= t). { destruct T3 as [-> |(j & Hj & ->)]; [lra|]. now apply Hr. }
  exists t. split; [lra|]. split.
  - intros j Hj. specialize (T2 j Hj). specialize (Hb j Hj). destruct (Hr j Hj) as (H0 & H1 & H2 & H3).
    destruct (Rlt_dec (z j) (vl j)) as [L|L]; [specialize (H1 L); split; nra|]. destruct (Rlt_dec (vu j) (z j)) as [U|U]; [specialize (H2 U); split; nra|]. split; nra.
  - destruct T3 as [-> |(j & Hj & Et)]; [now left|]. destruct (Hr j Hj) as (H0 & H1 & H2 & H3). rewrite <- Et in *.
    destruct (Rlt_dec (z j) (vl j)) as [L|L]; [right; exists j; split; [exact Hj|]; left; specialize (H1 L); split; [exact L|nra]|].
    destruct (Rlt_dec (vu j) (z j)) as [U|U]; [right; exists j; split; [exact Hj|]; right; specialize (H2 U); split; [exact U|nra]|]. left. apply H3. lra.
Qed.

(** If the original problem has a point within its bounds and linear constraints, every such point
    of the reduced problem restores to one of the original problem, where a bound of a row from [hi]
    on counts as infinite. *)
Theorem C28_restore_partial : forall (p : @problem RN) cs pp y t x cs',
  pdata p cs -> bounds_ok p -> scaled p cs -> divisible p cs -> (exists x0, lin_feasible p cs x0) ->
  pre_create p (0 : @num RN) (0 : @num RN) = Ok pp -> stores (p_lin (pp_trans pp)) cs' ->
  wf y -> vdim y = uf_nv (p_func (pp_trans pp)) -> lin_feasible (pp_trans pp) cs' (dense y) ->
  wf t -> vdim t = uf_nv (p_func p) -> restore_primal pp y t = Ok x -> lin_sat p cs (dense x).
Proof.
  intros p cs pp y t x cs'0 HP HB HC HD (x0 & Hx0) E HS'0 Wy Dy Hy Wt Dt Ex.
  destruct (pre_all p cs pp HP HB HC E) as (fv & fc & rv & rc & HI & F1 & F2 & R1 & R2 & Et).
  destruct HI as (A1 & A2 & A3 & A4 & HV & HK & HCb & HRv & HRc). pose proof HP as HP'. destruct HP' as (HS & Hr & Hc & _).
  rewrite Hr in A2, A4, HK, HRc. rewrite Hc in A1, A3, HV, HRv. pose proof (proj2 (feasible_iff p cs HP x0) (lin_feasible_sat _ _ _ Hx0)) as Hxf.
  set (nv := uf_nv (p_func p)) in *. set (nl := p_nl p) in *.
  assert (Hn0 : (0 <= nv)%Z) by (apply (nv_pos p cs HP)). assert (Hl0 : (0 <= nl)%Z) by (apply (nl_pos p cs HP)).
  destruct (trans_problem p cs HP _ _ _ fv fc rv rc A3 A4 F1 F2 R1 R2 _ Et) as (cs' & HQ & Hfq & Hnq & Hlq & Hlb & Hub & Hll & Hlu & Hm & _).
  assert (cs'0 = cs') by (apply (stores_unique (p_lin (pp_trans pp))); [exact HS'0|apply HQ]). subst cs'0.
  assert (SF : sorted_in 0 nv (keys (pp_fixed pp))) by (rewrite F1; apply fixed_of_sorted).
  assert (SR : sorted_in 0 nl (pp_removed pp)) by (rewrite R1; apply removed_of_sorted).
  assert (LK : length (keys (pp_fixed pp)) = length (pp_fixed pp)) by apply map_length.
  unfold restore_primal in Ex. assert (SF' : sorted_in 0 (vdim t) (keys (pp_fixed pp))) by (rewrite Dt; exact SF).
  destruct (merge_entries_inv _ _ _ _ Wy Wt SF' Ex) as (_ & _ & _ & M1 & M2).
  assert (HVx : forall j, (0 <= j < nv)%Z -> In j (keys (pp_fixed pp)) -> dense x j = vs_value (fv j) /\ x0 j = vs_value (fv j)).
  { intros j Hj Hin. rewrite F1 in Hin. apply keys_fixed_in in Hin. destruct (HV j Hj (proj2 Hin)) as (_ & _ & H). split; [|exact (H eq_refl x0 Hxf)].
    apply M2. rewrite F1. apply fixed_of_in. tauto. }
  assert (HKy : forall j j', (0 <= j < nv)%Z -> kept (keys (pp_fixed pp)) j j' -> (0 <= j' < uf_nv (p_func (pp_trans pp)))%Z).
  { intros j j' Hj Hkj. rewrite Hnq, <- F2, <- LK. exact (kept_range _ _ _ _ SF Hj Hkj). }
  assert (HRy : forall i i', (0 <= i < nl)%Z -> kept (pp_removed pp) i i' -> (0 <= i' < p_nl (pp_trans pp))%Z).
  { intros i i' Hi Hki. rewrite Hlq, <- R2. exact (kept_range _ _ _ _ SR Hi Hki). }
  (* any point of the segment from x0 to x within the original box satisfies the rows *)
  assert (Rows : forall t, 0 <= t <= 1 -> let w := fun j => x0 j + t * (dense x j - x0 j) in in_bounds p w -> lin_sat p cs w).
  { intros tt Ht w Hin. split; [exact Hin|]. intros i Hi. rewrite (lrow_act p cs HP).
    assert (Hwact : forall k, act (p_lin p) cs k w = act (p_lin p) cs k x0 + tt * (act (p_lin p) cs k (dense x) - act (p_lin p) cs k x0)).
    { intros k. rewrite !(act_sum (p_lin p) cs HS). unfold w.
      set (n := mnc (p_lin p)). replace (sumd n (fun j => mR cs k j * dense x j) - sumd n (fun j => mR cs k j * x0 j)) with (sumd n (fun j => mR cs k j * dense x j) + -1 * sumd n (fun j => mR cs k j * x0 j)) by ring.
      rewrite <- !sumd_scal, <- sumd_plus, <- sumd_scal, <- sumd_plus. apply sumd_ext. intros j _. ring. }
    assert (Hbox : inbox (p_lin p) (dense (p_vlb p)) (dense (p_vub p)) w). { intros j Hj. rewrite Hc in Hj. exact (Hin j Hj). }
    destruct (in_dec Z.eq_dec i (pp_removed pp)) as [Hrm|Hnr].
    - rewrite R1 in Hrm. apply removed_of_in in Hrm. specialize (HK i Hi). unfold cok in HK. destruct Hrm as [_ Hrm].
      assert (Hall : (forall j a, In (j, a) (@coeffs RN (p_lin p) cs i) -> dense x j = x0 j) -> dense (p_llb p) i <= act (p_lin p) cs i w <= dense (p_lub p) i).
      { intros H. replace (act (p_lin p) cs i w) with (act (p_lin p) cs i x0); [rewrite <- (lrow_act p cs HP); exact (proj2 Hx0 i Hi)|].
        unfold act. apply esum_ext. intros j a Hja. unfold w. rewrite (H j a Hja). ring. }
      destruct (fc i) as [| |k]; [discriminate| |].
      + destruct HK as [[[L U]|[Hbx|(j & a & Hco & Hj & L & U)]]|[Hfd|[]]].
        * split; right; assumption.
        * specialize (Hbx _ Hbox). split; left; lra.
        * rewrite Hc in Hj. pose proof (Hin j Hj) as Hxj.
          assert (Hma : mget cs i j = Some a /\ a <> 0). { assert (K : In (j, a) (@coeffs RN (p_lin p) cs i)) by (rewrite Hco; now left). apply co_in in K. tauto. }
          assert (HmR : mR cs i j = a). { unfold mR, mdense. now rewrite (proj1 Hma). }
          destruct (HD i j Hi Hj) as [D1 D2]; [rewrite HmR; tauto|]. rewrite HmR in D1, D2. destruct (proj2 HB i Hi) as [B1 B2].
          assert (NF : forall v, nonfin (v / a) -> (Rabs v < hi -> Rabs v < hi * Rabs a) -> ~ (- hi < v < hi)).
          { intros v Hnf Hv Hr'. assert (Rabs v < hi) by (now apply Rabs_def1). specialize (Hv H). assert (Hpa : 0 < Rabs a) by (apply Rabs_pos_lt; tauto).
            assert (Hq : Rabs (v / a) < hi). { unfold Rdiv. rewrite Rabs_mult, Rabs_inv. apply (Rmult_lt_reg_r (Rabs a)); [exact Hpa|]. rewrite Rmult_assoc, Rinv_l by lra. lra. }
            apply Rabs_def2 in Hq. unfold nonfin in Hnf. lra. }
          assert (Hact : act (p_lin p) cs i w = a * w j). { unfold act. rewrite Hco. cbn [esum]. ring. }
          rewrite Hact. unfold slo, sup in L, U. destruct Hma as [_ Ha].
          assert (K : forall v : R, v = a * (v / a)) by (intros v; field; exact Ha). pose proof (K (dense (p_llb p) i)) as Hl. pose proof (K (dense (p_lub p) i)) as Hu.
          destruct (Rlt_dec a 0) as [An|Ap].
          -- split.
             ++ destruct U as [U|U]; [right; pose proof (NF _ U D1); lra|left]. nra.
             ++ destruct L as [L|L]; [right; pose proof (NF _ L D2); lra|left]. nra.
          -- split.
             ++ destruct L as [L|L]; [right; pose proof (NF _ L D1); lra|left]. nra.
             ++ destruct U as [U|U]; [right; pose proof (NF _ U D2); lra|left]. nra.
        * assert (G : dense (p_llb p) i <= act (p_lin p) cs i w <= dense (p_lub p) i); [|split; left; lra]. apply Hall. intros j a Hja. specialize (Hfd j a Hja).
          apply co_in in Hja. destruct Hja as [Hj _]. rewrite Hc in Hj. destruct (HVx j Hj) as [-> ->]; [|reflexivity]. rewrite F1. apply keys_fixed_in. tauto.
      + destruct HK as (cb & Hcb & <-). apply nth_error_In in Hcb. rewrite Forall_forall in HCb. destruct (HCb cb Hcb) as (C1 & C2 & C3 & C4).
        assert (Hj : (0 <= cb_var cb < nv)%Z). { assert (K : In (cb_var cb, cb_factor cb) (@coeffs RN (p_lin p) cs (cb_cons cb))) by (rewrite C2; now left). apply co_in in K. rewrite Hc in K. tauto. }
        assert (G : dense (p_llb p) (cb_cons cb) <= act (p_lin p) cs (cb_cons cb) w <= dense (p_lub p) (cb_cons cb)); [|split; left; lra].
        destruct (in_dec Z.eq_dec (cb_var cb) (keys (pp_fixed pp))) as [Hf|Hn].
        * apply Hall. intros j a Hja. rewrite C2 in Hja. destruct Hja as [Hja|[]]. assert (j = cb_var cb) by congruence. subst j. destruct (HVx _ Hj Hf) as [-> ->]. reflexivity.
        * pose proof (kept_total _ _ Hn) as Hkj. pose proof (proj1 Hy _ (HKy _ _ Hj Hkj)) as [Hb1 Hb2].
          pose proof (proj1 (Hlb _ _ Hj Hkj _) Hb1) as [_ G1]. pose proof (proj1 (Hub _ _ Hj Hkj _) Hb2) as [_ G2].
          specialize (G1 cb Hcb eq_refl). specialize (G2 cb Hcb eq_refl). rewrite <- (M1 _ _ Hkj) in G1, G2.
          pose proof (proj2 Hx0 _ Hi) as H0. rewrite (lrow_act p cs HP) in H0. apply (proj1 (singleton_equiv (p_lin p) cs _ _ _ _ _ x0 C2)) in H0.
          apply (proj2 (singleton_equiv (p_lin p) cs _ _ _ _ _ w C2)). rewrite <- C3, <- C4 in *. unfold w. rnum.
          set (u := dense x (cb_var cb)) in *. set (v := x0 (cb_var cb)) in *. set (l1 := cb_lb cb) in *. set (u1 := cb_ub cb) in *. clearbody u v l1 u1. split; nra.
    - pose proof (kept_total _ _ Hnr) as Hki. pose proof (proj2 Hy _ (HRy _ _ Hi Hki)) as Hyr.
      assert (Hrow : act (p_lin p) cs i (dense x) = fixpart p cs (pp_fixed pp) fv i + lrow (pp_trans pp) cs' (i - count_lt (pp_removed pp) i) (dense y)).
      { rewrite <- (lrow_act p cs HP). unfold lrow. rewrite (sum_kept (keys (pp_fixed pp)) nv _ (fun j' => mR cs' (i - count_lt (pp_removed pp) i) j' * dense y j') SF Hn0).
        - f_equal; [|rewrite Hnq, LK, F2; reflexivity]. unfold fixpart. fold nv. apply sumd_ext. intros j Hj. cbv beta. rnum.
          lazymatch goal with |- context [if ?b then _ else _] => destruct b eqn:Eb end; [|reflexivity].
          apply existsb_In in Eb. now rewrite (proj1 (HVx j Hj Eb)).
        - intros j j' Hj Hkj. rewrite (Hm i _ j j' Hi Hj Hki Hkj). now rewrite (M1 j j' Hkj). }
      assert (Hcu : cunchanged (fc i) = true). { destruct (cunchanged (fc i)) eqn:Ec; [reflexivity|]. exfalso. apply Hnr. rewrite R1. apply removed_of_in. auto. }
      pose proof (proj2 Hx0 _ Hi) as H0. rewrite (lrow_act p cs HP) in H0. specialize (Hwact i).
      destruct (HRc i Hi Hcu) as [Q1 Q2]. split; left.
      + destruct (Hll i _ Hi Hki) as [L|[L1 L2]].
        * assert (G : dense (p_llb p) i <= act (p_lin p) cs i (dense x)) by lra. rewrite Hwact. nra.
        * unfold only_lower in L1. apply andb_true_iff in L1. exact (proj2 (Q1 (proj1 L1)) _ Hbox).
      + destruct (Hlu i _ Hi Hki) as [U|[U1 U2]].
        * assert (G : act (p_lin p) cs i (dense x) <= dense (p_lub p) i) by lra. rewrite Hwact. nra.
        * unfold only_upper in U1. apply andb_true_iff in U1. exact (proj2 (Q2 (proj2 U1)) _ Hbox). }
  destruct (exit_box nv (dense (p_vlb p)) (dense (p_vub p)) x0 (dense x) Hn0 (proj1 Hx0)) as (tt & T1 & T2 & T3).
  pose proof (Rows tt T1 T2) as Hw. destruct T3 as [-> |(j & Hj & T3)].
  - destruct Hw as [W1 W2]. assert (Hext : forall j, x0 j + 1 * (dense x j - x0 j) = dense x j) by (intros; ring). split.
    + intros j Hj. specialize (W1 j Hj). cbv beta in W1. rewrite Hext in W1. exact W1.
    + intros i Hi. specialize (W2 i Hi). replace (lrow p cs i (dense x)) with (lrow p cs i (fun j => x0 j + 1 * (dense x j - x0 j))); [exact W2|].
      unfold lrow. apply sumd_ext. intros j _. now rewrite Hext.
  - exfalso. apply (feasible_iff p cs HP) in Hw. destruct (HRv j Hj) as [V1 V2].
    destruct (in_dec Z.eq_dec j (keys (pp_fixed pp))) as [Hf|Hn].
    + destruct (HVx j Hj Hf) as [Q1 Q2]. pose proof (proj1 Hx0 j Hj). rnum. destruct T3; lra.
    + pose proof (kept_total _ _ Hn) as Hkj. pose proof (proj1 Hy _ (HKy _ _ Hj Hkj)) as [Hb1 Hb2].
      pose proof (proj1 (Hlb _ _ Hj Hkj _) Hb1) as [G1 _]. pose proof (proj1 (Hub _ _ Hj Hkj _) Hb2) as [G2 _]. rewrite <- (M1 _ _ Hkj) in G1, G2.
      destruct T3 as [[T3 T4]|[T3 T4]].
      * unfold only_lower in G1. destruct (fst (rv j)) eqn:Ef; cbn [andb] in G1; [|lra]. pose proof (proj2 (V1 eq_refl) _ Hw) as Q. cbv beta in Q. lra.
      * unfold only_upper in G2. destruct (snd (rv j)) eqn:Ef; [|destruct (fst (rv j)); cbn [andb negb] in G2; lra]. pose proof (proj2 (V2 eq_refl) _ Hw) as Q. cbv beta in Q. lra.
Qed.
Print Assumptions C28_restore_partial.

(** ** Examples over exact arithmetic *)

Ltac punf _ := lazymatch goal with |- ?t = _ => lazymatch t with
  | @pre_create _ _ _ _ => unfold pre_create | @fix_vars _ _ _ _ _ => unfold fix_vars | @remove_redundant _ _ _ _ _ _ => unfold remove_redundant
  | @cons_counts _ _ _ _ => unfold cons_counts | @each_entry _ _ _ _ _ _ => unfold each_entry | @linear_bounds _ _ _ _ _ _ => unfold linear_bounds
  | @check_cons _ _ _ _ _ _ _ _ _ _ _ => unfold check_cons | @variable_bounds _ _ _ _ _ _ _ _ => unfold variable_bounds
  | @create_fixed _ _ _ => unfold create_fixed | @create_removed _ _ _ => unfold create_removed
  | @transformed_problem _ _ _ _ _ _ => unfold transformed_problem | @transformed_var_lb _ _ _ _ _ => unfold transformed_var_lb
  | @transformed_var_ub _ _ _ _ _ => unfold transformed_var_ub | @fixed_linear _ _ _ _ _ => unfold fixed_linear
  | @transform_linear _ _ _ _ _ _ => unfold transform_linear | @problem_create _ _ _ _ _ _ _ _ _ _ => unfold problem_create
  end end.

Definition linf (nv : Z) : @ufunc RN := mkufunc nv 0 (fun _ v => Ok v) (fun _ m => Ok m) (fun _ _ _ r => Ok r).
Definition vd (l : list R) : rvec := mkvec (Z.of_nat (length l)) (Z.of_nat (length l)) (enum l).
Definition linp (nv : Z) (vl vu : list R) m (ll lu : list R) : @problem RN :=
  mkproblem (linf nv) (0 : @num RN) (evec nv) (vd vl) (vd vu) (evec 0) (evec 0) (evec 0) (evec 0) m (vd ll) (vd lu) (mnr m) None (evec 0) (evec 0) (evec 0) emat.

(** x0 + x1 >= 30 on [0, 10]^2 *)
Definition ex27c : list (list (Z * R)) := [[(0%Z, 1)]; [(0%Z, 1)]].
Definition ex27 := linp 2 [0; 0] [10; 10] (mkmat 1 2 2 2 [0; 1; 2]%Z [(0%Z, 1); (0%Z, 1)]) [30] [2 * hi].

Ltac zcases j := let H := fresh in intros H; destruct (Z.eq_dec j 0) as [->|?]; [|destruct (Z.eq_dec j 1) as [->|?]; [|destruct (Z.eq_dec j 2) as [->|?]]];
  try (exfalso; cbn in H; lia); clear H.

Lemma finabs_fin v : - hi < v < hi -> finabs v = Rabs v.
Proof. intros H. unfold finabs. destruct (Rlt_dec (Rabs v) hi) as [|n]; [reflexivity|]. exfalso. apply n. now apply Rabs_def1. Qed.
Ltac rc := cbv -[hi finabs Rabs Rle Rlt Ropp IZR Rmult Rplus Rminus Rdiv Rinv];
  repeat match goal with |- context [finabs ?v] => rewrite (finabs_fin v) by lra end;
  repeat match goal with |- context [Rabs ?v] => first [rewrite (Rabs_pos_eq v) by lra | rewrite (Rabs_left1 v) by lra] end.

Example C27_example : pdata ex27 ex27c /\ bounds_ok ex27 /\ scaled ex27 ex27c
  /\ exists pp, pre_create ex27 (0 : @num RN) (0 : @num RN) = Ok pp /\ pre_result pp = PreInfeasible.
Proof.
  pose proof hi_big as Hb. split; [|split; [|split]].
  - unfold pdata. split.
    { unfold stores, layout; cbn. repeat split; try lia.
      - intros [|[|[|j]]] Hj; cbn; try reflexivity. lia.
      - now exists [].
      - repeat constructor; cbn; lia. }
    unfold wf. cbn. repeat split; lia.
  - split.
    + intros j. zcases j; rc; lra.
    + intros j. zcases j. rc. lra.
  - intros i. zcases i. rc. lra.
  - eexists. split; [ev punf|]. reflexivity.
Qed.

(** x0 in [1, 1], x1 and x2 in [0, 10]; 2 x1 <= 8, x0 + x1 + x2 >= 0 and x1 + x2 >= 3: the first variable is
    fixed, the first row becomes a bound, the second one is redundant. *)
Definition ex28c : list (list (Z * R)) := [[(1%Z, 1)]; [(0%Z, 2); (1%Z, 1); (2%Z, 1)]; [(1%Z, 1); (2%Z, 1)]].
Definition ex28 := linp 3 [1; 0; 0] [1; 10; 10] (mkmat 3 3 6 6 [0; 1; 4; 6]%Z [(1%Z, 1); (0%Z, 2); (1%Z, 1); (2%Z, 1); (1%Z, 1); (2%Z, 1)])
  [- (2 * hi); 0; 3] [8; 2 * hi; 2 * hi].

Example C28_example : pdata ex28 ex28c /\ bounds_ok ex28 /\ scaled ex28 ex28c /\ divisible ex28 ex28c /\ lin_feasible ex28 ex28c (dense (vd [1; 2; 3]))
  /\ exists pp y z cs', pre_create ex28 (0 : @num RN) (0 : @num RN) = Ok pp /\ uf_nv (p_func (pp_trans pp)) = 2%Z /\ p_nl (pp_trans pp) = 1%Z
  /\ stores (p_lin (pp_trans pp)) cs' /\ pre_transform_primal pp (vd [1; 2; 3]) (evec 2) = Ok y /\ wf y /\ vdim y = 2%Z
  /\ lin_feasible (pp_trans pp) cs' (dense y) /\ restore_primal pp y (evec 3) = Ok z.
Proof.
  pose proof hi_big as Hb.
  assert (H1 : pdata ex28 ex28c).
  { unfold pdata. split.
    { unfold stores, layout; cbn. repeat split; try lia.
      - intros [|[|[|[|j]]]] Hj; cbn; try reflexivity. lia.
      - now exists [].
      - repeat constructor; cbn; lia. }
    unfold wf. cbn. repeat split; lia. }
  assert (H2 : bounds_ok ex28). { split; intros j; zcases j; rc; lra. }
  assert (H3 : scaled ex28 ex28c). { intros j; zcases j; rc; lra. }
  assert (H4 : divisible ex28 ex28c).
  { intros i j; zcases i; zcases j; intros Hm; try (exfalso; apply Hm; cbv -[hi Rdiv IZR]; lra); unfold mR, mdense, mget; cbn [oval get]; rc; split; intros; lra. }
  assert (H5 : lin_feasible ex28 ex28c (dense (vd [1; 2; 3]))). { split; intros j; zcases j; rc; lra. }
  repeat (split; [assumption|]).
  assert (He : exists pp y z, pre_create ex28 (0 : @num RN) (0 : @num RN) = Ok pp /\ uf_nv (p_func (pp_trans pp)) = 2%Z /\ p_nl (pp_trans pp) = 1%Z
    /\ pre_transform_primal pp (vd [1; 2; 3]) (evec 2) = Ok y /\ (wf y /\ vdim y = 2%Z) /\ restore_primal pp y (evec 3) = Ok z).
  { eexists _, _, _. split; [ev punf|]. split; [reflexivity|]. split; [reflexivity|].
    split; [unfold pre_transform_primal; cbn [pp_fixed]; leaf|]. split; [unfold wf; cbn; lia|]. unfold restore_primal, merge_entries. cbn [pp_fixed]. leaf. }
  destruct He as (pp & y & z & E & En & El & Et & (Wy & Dy) & Ez).
  assert (W1 : wf (vd [1; 2; 3])) by (unfold wf; cbn; lia). assert (W2 : wf (@evec RN 2)) by (apply wf_evec; lia).
  destruct (C28_transform_partial ex28 ex28c pp _ _ _ H1 H2 H3 E W1 eq_refl H5 W2 Et) as (cs' & Hp & Hf & _).
  exists pp, y, z, cs'. repeat (split; [first [assumption|apply Hp]|]). assumption.
Qed.
