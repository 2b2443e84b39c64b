(** Properties C24, C25, C26 and C49: constraint violation, optimality test, step length, merit function. *)
From Coq Require Import Reals Lra.
From Flocq Require Import Core IEEE754.BinarySingleNaN.
From Verif Require Import Base Num Cmp Sparse Vec VecFacts Order OrdArith F64Facts RSum VecReal
  Mat MatFacts MatFacts2 MatFacts4 Arr WorkingSet Feas FeasFacts OptFacts MeritFacts.
Local Open Scope Z_scope.

(** ** C24 *)

(** Valid constraint data: the values and both bounds have one component per constraint. *)
Definition cons_data {N : Num} (nc : Z) (c l u : vec) : Prop :=
  wf c /\ wf l /\ wf u /\ vdim c = nc /\ vdim l = nc /\ vdim u = nc.
Definition satisfied {N : Num} {O : Ord N} (c l u : vec) (i : Z) : Prop :=
  (val (dense l i) <= val (dense c i) <= val (dense u i))%R.

(** Both scalars, for doubles and for reals: the maximum violation bounds every violation and is one of
    them, the total is at least the maximum, and either vanishes iff all constraints hold.
    Partial: the constraint values and bounds are assumed not to be NaN. *)
Theorem C24_scalars_partial {N : Num} {O : Ord N} {A : OrdArith N} : forall nc c l u,
  cons_data nc c l u -> no_nan c -> no_nan l -> no_nan u ->
  exists m t, max_violation nc c l u = Ok m /\ total_violation nc c l u = Ok t
    /\ (forall i, 0 <= i < nc -> (val (violation (dense c i) (dense l i) (dense u i)) <= val m)%R)
    /\ (val m = 0%R \/ exists i, 0 <= i < nc /\ m = violation (dense c i) (dense l i) (dense u i))
    /\ (0 <= val m <= val t)%R
    /\ (val m = 0%R <-> forall i, 0 <= i < nc -> satisfied c l u i)
    /\ (val t = 0%R <-> forall i, 0 <= i < nc -> satisfied c l u i).
Proof.
  intros nc c l u (Wc & Wl & Wu & Dc & Dl & Du) Nc Nl Nu.
  destruct (violations_spec nc c l u) as (m & t & H1 & H2 & _ & _ & H3 & H4 & H5 & _ & H6 & H7); auto.
  exists m, t. repeat (split; [assumption|]). assumption.
Qed.
Print Assumptions C24_scalars_partial.

(** The vectors and the list: at every constraint the dense definition, and no entry is lost or invented.
    Constraints in the working set (if one is given) are skipped where the code says so. *)
Theorem C24_vectors_partial {N : Num} {O : Ord N} {A : OrdArith N} : forall nc c l u,
  cons_data nc c l u -> no_nan c -> no_nan l -> no_nan u ->
  violated_constraints c l u
    = Ok (filter (fun i => nltb (dense u i) (dense c i) || nltb (dense c i) (dense l i)) (zrange nc))
  /\ (forall r, wf r -> exists z, violation_values nc c l u r = Ok z /\ wf z /\ vdim z = nc
        /\ forall i, 0 <= i < nc -> dense z i =
           if nltb (dense u i) (dense c i) then nsub (dense c i) (dense u i)
           else if nltb (dense c i) (dense l i) then nsub (dense c i) (dense l i) else n0)
  /\ (forall r w, wf r -> vdim r = nc -> ws_fits w nc -> exists z, violated_multipliers nc c l u r w = Ok z /\ wf z /\ vdim z = nc
        /\ forall i, 0 <= i < nc -> dense z i =
           if skipped w i then n0 else if nltb (dense u i) (dense c i) then n1
           else if nltb (dense c i) (dense l i) then nlit (-1) 1 else n0)
  /\ (forall r w signed, wf r -> ws_fits w nc ->
        (forall i, 0 <= i < nc -> (val (dense l i) <= val (dense u i))%R) ->
        exists z, feasibility_residuals nc c l u r w signed = Ok z /\ wf z /\ vdim z = nc
        /\ forall i, 0 <= i < nc -> dense z i =
           if skipped w i then n0 else if nltb (dense u i) (dense c i) then nsub (dense c i) (dense u i)
           else if nltb (dense c i) (dense l i)
                then (if signed then nopp (nsub (dense l i) (dense c i)) else nsub (dense l i) (dense c i)) else n0).
Proof.
  intros nc c l u (Wc & Wl & Wu & Dc & Dl & Du) Nc Nl Nu. split; [|split; [|split]].
  - apply violated_constraints_spec; auto.
  - intros r Hr. apply violation_values_spec; auto.
  - intros r w Hr Dr Hw. apply violated_multipliers_spec; auto.
  - intros r w sg Hr Hw Hlu. apply feasibility_residuals_spec; auto.
Qed.
Print Assumptions C24_vectors_partial.

(** In exact arithmetic the total violation is the sum of the distances to the intervals. *)
Theorem C24_total_real : forall nc (c l u : rvec),
  cons_data nc c l u -> (forall i, 0 <= i < nc -> (dense l i <= dense u i)%R) ->
  total_violation nc c l u = Ok (sumd nc (fun i => Rmax 0 (Rmax (dense c i - dense u i) (dense l i - dense c i)))).
Proof. intros nc c l u (Wc & Wl & Wu & Dc & Dl & Du) Hlu. exact (total_violation_real nc l u Wl Wu Dl Du Hlu c Wc Dc). Qed.
Print Assumptions C24_total_real.

(** A constraint [c = 0] whose value is NaN counts as satisfied: nothing is reported. *)
Theorem C24_nan_refuted : exists (c l u : @vec F64),
  cons_data 1 c l u /\ nisnan (dense c 0) = true /\ no_nan l /\ no_nan u
  /\ max_violation 1 c l u = Ok n0 /\ total_violation 1 c l u = Ok n0 /\ violated_constraints c l u = Ok [].
Proof.
  exists (mkvec 1 1 [(0, B754_nan : f64)]), (mkvec 1 0 []), (mkvec 1 0 []).
  assert (Hz : @no_nan F64 F64_Ord (mkvec 1 0 [])) by (intros i _; apply (@nn_0 F64)).
  split; [unfold cons_data, wf; cbn; repeat split; auto; lia|]. split; [reflexivity|]. split; [exact Hz|]. split; [exact Hz|].
  split; [reflexivity|]. split; reflexivity.
Qed.
Print Assumptions C24_nan_refuted.

(** Non-vacuity: three constraints, one above, one below, one inside; bounds sparse. *)
Example C24_example :
  let c : rvec := mkvec 3 3 [(0, 5%R); (2, (-4)%R)] in
  let l : rvec := mkvec 3 1 [(2, (-1)%R)] in
  let u : rvec := mkvec 3 2 [(0, 2%R); (1, 1%R)] in
  cons_data 3 c l u
  /\ (forall i, 0 <= i < 3 -> (dense l i <= dense u i)%R)
  /\ max_violation 3 c l u = Ok (5 - 2)%R
  /\ violated_constraints c l u = Ok [0; 2].
Proof.
  intros c l u.
  assert (Hc : cons_data 3 c l u) by (unfold cons_data, wf; cbn; repeat split; auto; lia).
  assert (Hl : forall i, 0 <= i < 3 -> (dense l i <= dense u i)%R).
  { intros i Hi. assert (i = 0 \/ i = 1 \/ i = 2) as [->|[->| ->]] by lia; cbn; unfold rn_lit; lra. }
  split; [exact Hc|]. split; [exact Hl|].
  destruct Hc as (Wc & Wl & Wu & Dc & Dl & Du). split.
  - rewrite (max_violation_dense 3 c l u); auto using rno_nan. f_equal. change (zrange 3) with [0; 1; 2]. cbn [fold_left].
    assert (E0 : @viol_at RN c l u 0 = (5 - 2)%R).
    { unfold viol_at, violation. assert (@nltb RN (dense u 0) (dense c 0) = true) as -> by (apply rn_ltb; cbn; lra). reflexivity. }
    assert (E1 : @viol_at RN c l u 1 = 0%R).
    { unfold viol_at, violation. assert (@nltb RN (dense u 1) (dense c 1) = false) as -> by (apply rn_ltb_false; cbn; unfold rn_lit; lra).
      assert (@nltb RN (dense c 1) (dense l 1) = false) as -> by (apply rn_ltb_false; cbn; unfold rn_lit; lra). apply rn_n0. }
    assert (E2 : @viol_at RN c l u 2 = (-1 - -4)%R).
    { unfold viol_at, violation. assert (@nltb RN (dense u 2) (dense c 2) = false) as -> by (apply rn_ltb_false; cbn; unfold rn_lit; lra).
      assert (@nltb RN (dense c 2) (dense l 2) = true) as -> by (apply rn_ltb; cbn; unfold rn_lit; lra). reflexivity. }
    rewrite E0, E1, E2, rn_n0.
    assert (@nltb RN 0%R (5 - 2)%R = true) as -> by (apply rn_ltb; lra).
    assert (@nltb RN 0%R 0%R = false) as -> by (apply rn_ltb_false; lra).
    assert (@nltb RN 0%R (-1 - -4)%R = true) as -> by (apply rn_ltb; lra).
    rewrite !rn_max. rewrite (Rmax_left (5 - 2) 0) by lra. rewrite Rmax_left; lra.
  - rewrite (violated_constraints_spec 3 c l u); auto using rno_nan. f_equal. change (zrange 3) with [0; 1; 2]. cbn [filter].
    assert (@nltb RN (dense u 0) (dense c 0) = true) as -> by (apply rn_ltb; cbn; lra).
    assert (@nltb RN (dense u 1) (dense c 1) = false) as -> by (apply rn_ltb_false; cbn; unfold rn_lit; lra).
    assert (@nltb RN (dense c 1) (dense l 1) = false) as -> by (apply rn_ltb_false; cbn; unfold rn_lit; lra).
    assert (@nltb RN (dense c 2) (dense l 2) = true) as -> by (apply rn_ltb; cbn; unfold rn_lit; lra).
    cbn [orb]. rewrite orb_true_r. reflexivity.
Qed.

(** ** C25 *)

(** Everything the optimality test looks at. *)
Record kkt_data {N : Num} := mkkkt {
  k_nc : Z; k_nv : Z;
  k_c : vec; k_cl : vec; k_cu : vec; k_y : vec;      (* constraint values, bounds, multipliers *)
  k_x : vec; k_xl : vec; k_xu : vec; k_z : vec;      (* point, bounds, multipliers *)
  k_g : vec; k_jac : mat; k_cols : list (list (Z * num)) }.

Definition kkt_ok {N : Num} (k : kkt_data) : Prop :=
  cons_data (k_nc k) (k_c k) (k_cl k) (k_cu k) /\ cons_data (k_nv k) (k_x k) (k_xl k) (k_xu k)
  /\ wf (k_y k) /\ vdim (k_y k) = k_nc k /\ wf (k_z k) /\ vdim (k_z k) = k_nv k /\ wf (k_g k) /\ vdim (k_g k) = k_nv k
  /\ stores (k_jac k) (k_cols k) /\ mnr (k_jac k) = k_nc k /\ mnc (k_jac k) = k_nv k.

(** The test as performed on these data: problem_solver/iteration.c computes the three residua
    (max_violation, slackness, stationarity) and calls is_optimal. *)
Definition optimality_test {N : Num} (k : kkt_data) (feas_tol slack_tol stat_tol : num) : res bool :=
  f <- max_violation (k_nc k) (k_c k) (k_cl k) (k_cu k) ;;
  s <- slackness_residuum (k_c k) (k_cl k) (k_cu k) (k_y k) (k_x k) (k_xl k) (k_xu k) (k_z k) ;;
  t <- stationarity_residuum (k_jac k) (k_g k) (k_y k) (k_z k) ;;
  Ok (is_optimal feas_tol slack_tol stat_tol f s t).

Definition stat_comp {N : Num} (k : kkt_data) (j : Z) : num := stat_at (k_cols k) (k_g k) (k_y k) (k_z k) j.
Definition cons_slack {N : Num} (k : kkt_data) := slack_at (k_c k) (k_cl k) (k_cu k) (k_y k).
Definition var_slack {N : Num} (k : kkt_data) := slack_at (k_x k) (k_xl k) (k_xu k) (k_z k).

(** Success implies the KKT conditions to tolerance, unless a NaN occurs in the residuals: each
    component is below its tolerance or is followed by a NaN (which makes the running maximum forget it).
    Partial: NaN in derivatives or multipliers defeats the test, see [C25_nan_refuted]. *)
Theorem C25_sound_partial {N : Num} {O : Ord N} {A : OrdArith N} : forall k ft st tt,
  kkt_ok k -> no_nan (k_c k) -> no_nan (k_cl k) -> no_nan (k_cu k) -> nn ft -> nn st -> nn tt ->
  optimality_test k ft st tt = Ok true ->
  (forall i, 0 <= i < k_nc k -> (val (violation (dense (k_c k) i) (dense (k_cl k) i) (dense (k_cu k) i)) <= val ft)%R)
  /\ (forall j, 0 <= j < k_nv k -> (Rabs (val (stat_comp k j)) < val tt)%R
        \/ exists j', j <= j' < k_nv k /\ ~ nn (stat_comp k j'))
  /\ (forall j, 0 <= j < k_nv k ->
        complementary st (dense (k_x k) j) (dense (k_xl k) j) (dense (k_xu k) j) (dense (k_z k) j)
        \/ exists j', j <= j' < k_nv k /\ ~ nn (var_slack k j'))
  /\ (forall i, 0 <= i < k_nc k ->
        complementary st (dense (k_c k) i) (dense (k_cl k) i) (dense (k_cu k) i) (dense (k_y k) i)
        \/ (exists i', i <= i' < k_nc k /\ ~ nn (cons_slack k i'))
        \/ (exists j', 0 <= j' < k_nv k /\ ~ nn (var_slack k j'))).
Proof.
  intros k ft st tt (Hc & Hx & Wy & Dy & Wz & Dz & Wg & Dg & Hs & Dr & Dcol) Nc Ncl Ncu Nf Ns Nt H.
  destruct Hc as (Wc & Wcl & Wcu & Dc & Dcl & Dcu). destruct Hx as (Wx & Wxl & Wxu & Dx & Dxl & Dxu).
  unfold optimality_test in H.
  destruct (violations_spec (k_nc k) (k_c k) (k_cl k) (k_cu k)) as (m & t & E1 & _ & Nm & _ & Hm & _); auto.
  rewrite E1 in H. cbn [rbind] in H. apply rbind_ok in H. destruct H as (s & E2 & H).
  apply rbind_ok in H. destruct H as (q & E3 & H). injection H as H. unfold is_optimal in H.
  destruct (is_feasible m ft) eqn:F1; [|discriminate]. cbn [negb] in H.
  destruct (nleb tt q) eqn:F2; [discriminate|]. destruct (nleb st s) eqn:F3; [discriminate|].
  split; [|split; [|split]].
  - intros i Hi. apply leb_iff in F1; auto. specialize (Hm i Hi). unfold viol_at in Hm. lra.
  - intros j Hj. destruct (stationarity_cache_spec (k_jac k) (k_cols k) (k_g k) (k_y k) (k_z k)) as (a & Ea & Ha); auto; try congruence.
    unfold stationarity_residuum in E3. rewrite Ea in E3. cbn [rbind] in E3. injection E3 as <-.
    rewrite Dcol in Ha. destruct (max_fold tt a n0 Nt F2 (Z.to_nat j) (stat_comp k j)) as [[_ G]|(p & y & P1 & P2 & P3)].
    + apply Ha. auto.
    + left. exact G.
    + right. exists (Z.of_nat p). assert (Hp : (p < length a)%nat) by (apply nth_error_Some; congruence).
      destruct Ha as [Ha1 Ha2]. rewrite Ha1 in Hp. split; [lia|]. specialize (Ha2 (Z.of_nat p)). rewrite Nat2Z.id in Ha2.
      rewrite Ha2 in P2 by lia. injection P2 as <-. exact P3.
  - intros j Hj. unfold slackness_residuum in E2. apply rbind_ok in E2. destruct E2 as (sa & Ea & E2).
    apply rbind_ok in E2. destruct E2 as (sb & Eb & E2). injection E2 as <-.
    destruct (nmax_test st _ _ Ns F3) as [F4 F5].
    rewrite <- Dx in Hj |- *. apply (slack_test st _ _ _ _ sb); auto; congruence.
  - intros i Hi. unfold slackness_residuum in E2. apply rbind_ok in E2. destruct E2 as (sa & Ea & E2).
    apply rbind_ok in E2. destruct E2 as (sb & Eb & E2). injection E2 as <-.
    destruct (nmax_test st _ _ Ns F3) as [F4 F5].
    destruct (nn_dec sb) as [Hb|Hb].
    + specialize (F5 Hb). destruct (nmax_test st _ _ Ns F5) as [F6 _].
      assert (G : complementary st (dense (k_c k) i) (dense (k_cl k) i) (dense (k_cu k) i) (dense (k_y k) i)
        \/ (exists i', i <= i' < k_nc k /\ ~ nn (cons_slack k i'))).
      { rewrite <- Dc in Hi |- *. apply (slack_test st _ _ _ _ sa); auto; congruence. }
      tauto.
    + right; right.
      destruct (forallb (fun j => if nn_dec (var_slack k j) then true else false) (zrange (k_nv k))) eqn:Ef.
      * exfalso. apply Hb. apply (slack_residuum_nan _ _ _ _ _ Wx Wxl Wxu Wz); auto; try congruence.
        intros j Hj. rewrite forallb_forall in Ef. rewrite Dx in Hj. specialize (Ef j (proj2 (zrange_In _ _) Hj)).
        unfold var_slack in Ef. destruct (nn_dec _); [assumption|discriminate].
      * assert (G : exists j, In j (zrange (k_nv k)) /\ ~ nn (var_slack k j)).
        { clear -Ef. induction (zrange (k_nv k)) as [|j l IH]; [discriminate|]. cbn [forallb] in Ef.
          destruct (nn_dec (var_slack k j)) as [Hj|Hj].
          - destruct IH as (j' & H1 & H2); auto. exists j'. split; [now right|auto].
          - exists j. split; [now left|auto]. }
        destruct G as (j & Hj & Hn). exists j. split; [now apply zrange_In|exact Hn].
Qed.
Print Assumptions C25_sound_partial.

(** Conversely the test accepts every point satisfying the conditions (no NaN, positive tolerances). *)
Theorem C25_complete_partial {N : Num} {O : Ord N} {A : OrdArith N} : forall k ft st tt,
  kkt_ok k -> no_nan (k_c k) -> no_nan (k_cl k) -> no_nan (k_cu k) -> nn ft -> nn st -> nn tt ->
  (0 <= val ft)%R -> (0 < val st)%R -> (0 < val tt)%R ->
  (forall i, 0 <= i < k_nc k -> (val (violation (dense (k_c k) i) (dense (k_cl k) i) (dense (k_cu k) i)) <= val ft)%R) ->
  (forall j, 0 <= j < k_nv k -> nn (stat_comp k j) /\ (Rabs (val (stat_comp k j)) < val tt)%R) ->
  (forall j, 0 <= j < k_nv k -> nn (var_slack k j) /\ (Rabs (val (var_slack k j)) < val st)%R) ->
  (forall i, 0 <= i < k_nc k -> nn (cons_slack k i) /\ (Rabs (val (cons_slack k i)) < val st)%R) ->
  optimality_test k ft st tt = Ok true.
Proof.
  intros k ft st tt (Hc & Hx & Wy & Dy & Wz & Dz & Wg & Dg & Hs & Dr & Dcol) Nc Ncl Ncu Nf Ns Nt Pf Ps Pt H1 H2 H3 H4.
  destruct Hc as (Wc & Wcl & Wcu & Dc & Dcl & Dcu). destruct Hx as (Wx & Wxl & Wxu & Dx & Dxl & Dxu).
  unfold optimality_test.
  destruct (violations_spec (k_nc k) (k_c k) (k_cl k) (k_cu k)) as (m & t & E1 & _ & Nm & _ & _ & Hm & _); auto.
  rewrite E1. cbn [rbind].
  destruct (slack_residuum_spec (k_c k) (k_cl k) (k_cu k) (k_y k)) as (ia & S1 & S2 & _); auto; try congruence.
  destruct (slack_residuum_spec (k_x k) (k_xl k) (k_xu k) (k_z k)) as (ib & T1 & T2 & _); auto; try congruence.
  unfold slackness_residuum. rewrite S2, T2. cbn [rbind].
  destruct (stationarity_cache_spec (k_jac k) (k_cols k) (k_g k) (k_y k) (k_z k)) as (a & Ea & Ha); auto; try congruence.
  unfold stationarity_residuum. rewrite Ea. cbn [rbind]. f_equal. unfold is_optimal.
  assert (F1 : is_feasible m ft = true).
  { apply leb_iff; auto. destruct Hm as [Hm|(i & Hi & Hm)]; [rewrite Hm; exact Pf|]. rewrite Hm. exact (H1 i Hi). }
  rewrite F1. cbn [negb]. rewrite max_fold_conv; auto using nn_0.
  2:{ rewrite val_0. exact Pt. }
  2:{ intros x Hin. rewrite (arr_as_map a _ _ Ha) in Hin. apply in_map_iff in Hin. destruct Hin as (j & <- & Hj).
      apply zrange_In in Hj. apply H2. lia. }
  set (sa := fold_left _ (map _ ia) n0). set (sb := fold_left _ (map _ ib) n0).
  assert (HA : nn sa /\ nleb st sa = false).
  { assert (G : forall x, In x (map (slack_at (k_c k) (k_cl k) (k_cu k) (k_y k)) ia) -> nn x /\ (Rabs (val x) < val st)%R).
    { intros x Hin. apply in_map_iff in Hin. destruct Hin as (i & <- & Hi). apply H4. rewrite <- Dc. eapply sorted_in_In; eauto. }
    split; [apply max_fold_nn; [apply nn_0|intros x Hin; apply (G x Hin)]|].
    apply max_fold_conv; auto using nn_0. rewrite val_0. exact Ps. }
  assert (HB : nn sb /\ nleb st sb = false).
  { assert (G : forall x, In x (map (slack_at (k_x k) (k_xl k) (k_xu k) (k_z k)) ib) -> nn x /\ (Rabs (val x) < val st)%R).
    { intros x Hin. apply in_map_iff in Hin. destruct Hin as (i & <- & Hi). apply H3. rewrite <- Dx. eapply sorted_in_In; eauto. }
    split; [apply max_fold_nn; [apply nn_0|intros x Hin; apply (G x Hin)]|].
    apply max_fold_conv; auto using nn_0. rewrite val_0. exact Ps. }
  destruct HA as [HA1 HA2], HB as [HB1 HB2].
  assert (F3 : nleb st (nmax (nmax n0 sa) sb) = false).
  { apply leb_false_iff in HA2; auto. apply leb_false_iff in HB2; auto.
    apply leb_false_iff; auto using nn_max, nn_0. rewrite !val_max, val_0 by auto using nn_max, nn_0.
    repeat apply Rmax_lub_lt; auto. }
  rewrite F3. reflexivity.
Qed.
Print Assumptions C25_complete_partial.

(** In exact arithmetic the stationarity component is that of the Lagrangian, [(J^T y + z + g)_j]. *)
Theorem C25_stationarity_real : forall (k : @kkt_data RN), kkt_ok k -> forall j, 0 <= j < k_nv k ->
  stat_comp k j
  = (sumd (k_nc k) (fun i => mR (k_cols k) i j * dense (k_y k) i) + dense (k_z k) j + dense (k_g k) j)%R.
Proof.
  intros k (_ & _ & Wy & Dy & Wz & Dz & Wg & Dg & Hs & Dr & Dcol) j Hj. unfold stat_comp, stat_at.
  assert (Hj' : 0 <= j < mnc (k_jac k)) by lia.
  destruct (nth_col _ _ j Hs Hj') as [_ Hk].
  assert (E : @spdot RN (vent (k_y k)) (nth (Z.to_nat j) (k_cols k) []) n0
     = sumd (k_nc k) (fun i => (mR (k_cols k) i j * dense (k_y k) i)%R)).
  { destruct Wy as (D0 & Hy & Hcap).
    assert (Hy' : sorted_in 0 (mnr (k_jac k)) (keys (vent (k_y k)))) by (rewrite Dr, <- Dy; exact Hy).
    rewrite <- (dot_loop_spdot (length (vent (k_y k)) + length (nth (Z.to_nat j) (k_cols k) [])) _ _ _ 0 0 (mnr (k_jac k))); auto.
    rewrite (dot_loop_sum _ _ _ _ 0 0 (mnr (k_jac k))); auto. rewrite rn_n0, Rplus_0_l.
    transitivity (esum (vent (k_y k)) (fun i x => (x * mR (k_cols k) i j)%R)).
    - apply esum_ext. intros i x _. unfold mR, mdense, mget. rewrite oval_rn. reflexivity.
    - rewrite esum_vec; [|split; auto|intros; lra]. rewrite Dy. apply sumd_ext. intros i _. lra. }
  rewrite E. unfold oadd, dense. rewrite !oval_rn. cbn [nadd RN].
  destruct (get (vent (k_z k)) j), (get (vent (k_g k)) j); lra.
Qed.
Print Assumptions C25_stationarity_real.

(** The full claim fails over doubles: gradient [(1, NaN)], no constraints, no multipliers; the first
    stationarity component is 1, the tolerance 1/2, and the test succeeds. *)
Theorem C25_nan_refuted : exists (k : @kkt_data F64) (tol : f64),
  kkt_ok k /\ nltb n0 tol = true /\ optimality_test k tol tol tol = Ok true
  /\ exists j, 0 <= j < k_nv k /\ nisnan (stat_comp k j) = false /\ nltb tol (nabs (stat_comp k j)) = true.
Proof.
  pose (z0 := mkvec 0 0 [] : @vec F64). pose (z2 := mkvec 2 0 [] : @vec F64).
  pose (g := mkvec 2 2 [(0, f64_of_Z 1); (1, B754_nan : f64)] : @vec F64).
  exists (mkkkt F64 0 2 z0 z0 z0 z0 z2 z2 z2 z2 g (mkmat 0 2 0 0 [0; 0; 0] []) [[]; []]), (f64_lit 1 2).
  split; [|split; [|split]].
  - unfold kkt_ok, cons_data, wf. cbn [k_nc k_nv k_c k_cl k_cu k_y k_x k_xl k_xu k_z k_g k_jac k_cols z0 z2 g vdim vent vcap].
    repeat split; try (cbn; lia); try (cbn; tauto); cbn [mnr mnc mnnz mcap mcols ment].
    + intros j Hj. assert (j = 0 \/ j = 1 \/ j = 2)%nat as [->|[->| ->]] by (cbn in Hj; lia); reflexivity.
    + exists []. reflexivity.
    + repeat constructor.
  - reflexivity.
  - reflexivity.
  - exists 0. split; [cbn; lia|]. split; reflexivity.
Qed.
Print Assumptions C25_nan_refuted.

(** Non-vacuity: [min x] on [0, 1] at [x = 0] with multiplier [-1] passes the test. *)
Example C25_example : exists k : @kkt_data RN, kkt_ok k /\ k_nv k = 1 /\ optimality_test k (1/2)%R (1/2)%R (1/2)%R = Ok true
  /\ dense (k_z k) 0 = (-1)%R.
Proof.
  pose (z0 := mkvec 0 0 [] : rvec). pose (z1 := mkvec 1 0 [] : rvec).
  exists (mkkkt RN 0 1 z0 z0 z0 z0 z1 z1 (mkvec 1 1 [(0, 1%R)]) (mkvec 1 1 [(0, (-1)%R)]) (mkvec 1 1 [(0, 1%R)])
    (mkmat 0 1 0 0 [0; 0] []) [[]]).
  match goal with |- kkt_ok ?k /\ _ => assert (Hk : kkt_ok k) end.
  { unfold kkt_ok, cons_data, wf. cbn [k_nc k_nv k_c k_cl k_cu k_y k_x k_xl k_xu k_z k_g k_jac k_cols z0 z1 vdim vent vcap].
    repeat split; try (cbn; lia); try (cbn; tauto); cbn [mnr mnc mnnz mcap mcols ment].
    + intros j Hj. assert (j = 0 \/ j = 1)%nat as [->| ->] by (cbn in Hj; lia); reflexivity.
    + exists []. reflexivity.
    + repeat constructor. }
  split; [exact Hk|]. split; [reflexivity|]. split; [|reflexivity].
  apply C25_complete_partial; auto using rno_nan; try exact I; cbn [val RN_Ord]; try lra.
  - intros i Hi. cbn in Hi. lia.
  - intros j Hj. cbn [k_nv] in Hj. assert (j = 0) as -> by lia. split; [exact I|]. cbn. unfold rn_lit.
    match goal with |- (Rabs ?e < _)%R => replace e with 0%R by field end. rewrite Rabs_R0. lra.
  - intros j Hj. cbn [k_nv] in Hj. assert (j = 0) as -> by lia. split; [exact I|].
    unfold var_slack, slack_at, slack_val. cbn [k_x k_xl k_xu k_z z1].
    assert (@nleb RN n0 (dense (mkvec 1 1 [(0, (-1)%R)] : rvec) 0) = false) as -> by (apply rn_leb_false; rewrite rn_n0; cbn; lra).
    rewrite rn_max. change (dense (mkvec 1 0 [] : rvec) 0) with (@n0 RN). rewrite rn_n0. cbn [nsub nmul RN].
    rewrite Rmax_right by lra. rewrite Rmult_0_l. rewrite Rabs_R0. lra.
  - intros i Hi. cbn in Hi. lia.
Qed.

(** ** C26 *)

(** For a point in the box, the step length is positive, at most the initial one, keeps every component
    in its interval that does not start at the bound it moves towards, and is the largest such
    length up to the initial one: a component blocks any longer step.
    Partial: a component at its bound moving outward is ignored, see [C26_boundary_refuted]. *)
Theorem C26_step_partial : forall (x d l u : rvec) (m0 : R),
  wf x -> wf d -> wf l -> wf u -> vdim d = vdim x -> vdim l = vdim x -> vdim u = vdim x ->
  (forall i, 0 <= i < vdim x -> (dense l i <= dense x i <= dense u i)%R) -> (0 < m0)%R ->
  exists r, max_step_length x d l u m0 = Ok r /\ (0 < r <= m0)%R
    /\ (forall i, 0 <= i < vdim x ->
          ~ (dense x i = dense u i /\ 0 < dense d i)%R -> ~ (dense x i = dense l i /\ dense d i < 0)%R ->
          (dense l i <= dense x i + r * dense d i <= dense u i)%R)
    /\ (forall t, (r < t <= m0)%R -> exists i, 0 <= i < vdim x
          /\ ~ (dense l i <= dense x i + t * dense d i <= dense u i)%R).
Proof.
  intros x d l u m0 Wx Wd Wl Wu Dd Dl Du Hbox Hm0.
  destruct (max_step_real x d l u m0) as (r & E & Hr & Hin & Hmax); auto.
  exists r. split; [exact E|]. split; [exact Hr|]. split; [exact Hin|].
  intros t Ht. destruct Hmax as [->|(i & Hi & [[Hd He]|[Hd He]])]; [lra| |]; exists i; (split; [exact Hi|]).
  - pose proof (Rmult_lt_compat_r (dense d i) r t Hd ltac:(lra)). lra.
  - pose proof (Rmult_lt_gt_compat_neg_l (dense d i) r t Hd ltac:(lra)). lra.
Qed.
Print Assumptions C26_step_partial.

(** The full claim fails: at [x = u = 0], moving in direction 1, the step length is not reduced. *)
Theorem C26_boundary_refuted : exists (x d l u : rvec) (m0 r : R),
  wf x /\ wf d /\ wf l /\ wf u /\ vdim d = vdim x /\ vdim l = vdim x /\ vdim u = vdim x
  /\ (forall i, 0 <= i < vdim x -> (dense l i <= dense x i <= dense u i)%R) /\ (0 < m0)%R
  /\ max_step_length x d l u m0 = Ok r
  /\ exists i, 0 <= i < vdim x /\ ~ (dense l i <= dense x i + r * dense d i <= dense u i)%R.
Proof.
  exists (mkvec 1 0 []), (mkvec 1 1 [(0, 1%R)]), (mkvec 1 1 [(0, (-1)%R)]), (mkvec 1 0 []), 1%R.
  set (x := mkvec 1 0 [] : rvec). set (d := mkvec 1 1 [(0, 1%R)] : rvec). set (l := mkvec 1 1 [(0, (-1)%R)] : rvec).
  assert (Wx : wf x) by (unfold wf, x; cbn; repeat split; auto; lia).
  assert (Wd : wf d) by (unfold wf, d; cbn; repeat split; auto; lia).
  assert (Wl : wf l) by (unfold wf, l; cbn; repeat split; auto; lia).
  assert (X0 : forall i, (dense x i : R) = 0%R) by (intros i; exact rn_n0).
  assert (Hb : forall i, 0 <= i < vdim x -> (dense l i <= dense x i <= dense x i)%R).
  { intros i Hi. cbn in Hi. assert (i = 0) as -> by lia. rewrite X0. cbn. lra. }
  destruct (max_step_real x d l x 1%R) as (r & E & Hr & _); auto; [lra|].
  exists r. repeat (split; [assumption||reflexivity||lra|]).
  exists 0. split; [cbn; lia|]. rewrite X0. cbn [dense d vent get Z.eqb oval]. change (dense d 0) with 1%R. lra.
Qed.
Print Assumptions C26_boundary_refuted.

(** Non-vacuity: a two-dimensional step stopped by one of the bounds. *)
Example C26_example : exists (x d l u : rvec) r,
  max_step_length x d l u 1%R = Ok r /\ r = (1/4)%R /\ vdim x = 2
  /\ wf x /\ wf d /\ wf l /\ wf u /\ vdim d = vdim x /\ vdim l = vdim x /\ vdim u = vdim x
  /\ forall i, 0 <= i < vdim x -> (dense l i <= dense x i <= dense u i)%R.
Proof.
  exists (mkvec 2 1 [(0, 1%R)]), (mkvec 2 2 [(0, 4%R); (1, (-2)%R)]), (mkvec 2 1 [(1, (-1)%R)]), (mkvec 2 1 [(0, 2%R)]), (1/4)%R.
  set (x := mkvec 2 1 [(0, 1%R)] : rvec). set (d := mkvec 2 2 [(0, 4%R); (1, (-2)%R)] : rvec).
  set (l := mkvec 2 1 [(1, (-1)%R)] : rvec). set (u := mkvec 2 1 [(0, 2%R)] : rvec).
  assert (Wx : wf x) by (unfold wf, x; cbn; repeat split; auto; lia).
  assert (Wd : wf d) by (unfold wf, d; cbn; repeat split; auto; lia).
  assert (Wl : wf l) by (unfold wf, l; cbn; repeat split; auto; lia).
  assert (Wu : wf u) by (unfold wf, u; cbn; repeat split; auto; lia).
  assert (Hb : forall i, 0 <= i < vdim x -> (dense l i <= dense x i <= dense u i)%R).
  { intros i Hi. cbn in Hi. assert (i = 0 \/ i = 1) as [->| ->] by lia; cbn; unfold rn_lit; lra. }
  destruct (max_step_real x d l u 1%R) as (r & E & Hr & Hin & Hmax); auto; [lra|].
  split; [|split; [reflexivity|split; [reflexivity|repeat (split; [assumption||reflexivity|]); exact Hb]]].
  rewrite E. f_equal. assert (H0 : (1 + r * 4 <= 2)%R).
  { destruct (Hin 0) as [_ H]; cbn; try lia; unfold rn_lit; try lra. cbn in H. lra. }
  destruct Hmax as [->|(i & Hi & H)]; [lra|]. cbn in Hi. assert (i = 0 \/ i = 1) as [->| ->] by lia; cbn in H; unfold rn_lit in H; lra.
Qed.

(** ** C49 *)

(** The merit value is the objective plus the penalty times the total violation, bit by bit. *)
Theorem C49_value {N : Num} : forall nc obj c l u penalty m,
  merit_func nc obj c l u penalty = Ok m <->
  exists t, total_violation nc c l u = Ok t /\ m = nadd obj (nmul penalty t).
Proof.
  intros. unfold merit_func. destruct (total_violation nc c l u) as [t|e|]; cbn [rbind]; split.
  - intros H. injection H as <-. exists t. auto.
  - intros (t' & H & ->). injection H as <-. reflexivity.
  - discriminate.
  - intros (t' & H & _). discriminate.
  - discriminate.
  - intros (t' & H & _). discriminate.
Qed.
Print Assumptions C49_value.

(** Exact arithmetic: value, and monotonicity in the penalty parameter. *)
Theorem C49_real : forall nc (c l u : rvec) (obj p q : R),
  cons_data nc c l u -> (forall i, 0 <= i < nc -> (dense l i <= dense u i)%R) ->
  merit_func nc obj c l u p
    = Ok (obj + p * sumd nc (fun i => Rmax 0 (Rmax (dense c i - dense u i) (dense l i - dense c i))))%R
  /\ ((p <= q)%R -> exists a b, merit_func nc obj c l u p = Ok a /\ merit_func nc obj c l u q = Ok b /\ (a <= b)%R).
Proof.
  intros nc c l u obj p q (Wc & Wl & Wu & Dc & Dl & Du) Hlu.
  pose proof (merit_func_real nc l u Wl Wu Dl Du Hlu obj c p Wc Dc) as Ep.
  pose proof (merit_func_real nc l u Wl Wu Dl Du Hlu obj c q Wc Dc) as Eq. split; [exact Ep|].
  intros Hpq. eexists _, _. split; [exact Ep|]. split; [exact Eq|].
  pose proof (total_viol_nonneg nc l u (dense c)) as H0. pose proof (Rmult_le_compat_r _ _ _ H0 Hpq). lra.
Qed.
Print Assumptions C49_real.

(** Monotonicity over doubles, rounding included. *)
Theorem C49_monotone_doubles_partial : forall nc (c l u : @vec F64) (obj p q t : f64),
  total_violation nc c l u = Ok t -> ffin t = true -> (0 <= f64val t)%R ->
  ffin obj = true -> ffin p = true -> ffin q = true -> (f64val p <= f64val q)%R ->
  exists a b : f64, merit_func nc obj c l u p = Ok a /\ merit_func nc obj c l u q = Ok b /\ fnn a /\ fnn b /\ (f64val a <= f64val b)%R.
Proof.
  intros nc c l u obj p q t Ht Ft Pt Fo Fp Fq Hpq. unfold merit_func. rewrite Ht. cbn [rbind].
  eexists _, _. split; [reflexivity|]. split; [reflexivity|].
  destruct (mul_val p t Fp Ft) as [Np Vp]. destruct (mul_val q t Fq Ft) as [Nq Vq].
  assert (Hle : (f64val (@nmul F64 p t) <= f64val (@nmul F64 q t))%R).
  { rewrite Vp, Vq. apply sat_le, rnd_le. apply Rmult_le_compat_r; auto. }
  set (a := @nmul F64 p t) in *. set (b := @nmul F64 q t) in *. clearbody a b. clear Vp Vq.
  assert (G : forall y : f64, fnn y -> fnn (@nadd F64 obj y) /\
     (ffin y = true -> f64val (@nadd F64 obj y) = sat (rnd (f64val obj + f64val y))) /\
     (ffin y = false -> f64val (@nadd F64 obj y) = f64val y)).
  { intros y Hy. destruct (ffin y) eqn:Fy.
    - destruct (add_val obj y Fo Fy) as [A1 A2]. split; [exact A1|]. split; [intros _; exact A2|discriminate].
    - destruct (f64_inf y Hy Fy) as [s ->]. rewrite f64_add_inf_r by auto. split; [reflexivity|]. split; [discriminate|reflexivity]. }
  destruct (G a Np) as (Ga & Ga1 & Ga2). destruct (G b Nq) as (Gb & Gb1 & Gb2).
  split; [exact Ga|]. split; [exact Gb|]. pose proof big_pos.
  destruct (ffin a) eqn:Fa, (ffin b) eqn:Fb.
  - rewrite Ga1, Gb1 by auto. apply sat_le, rnd_le. lra.
  - rewrite Ga1, Gb2 by auto. destruct (f64_inf b Nq Fb) as [s ->]. pose proof (fval_lt a Fa). cbn [f64val] in *.
    destruct s; cbn [cond_Ropp] in *; [unfold big in *; lra|]. apply sat_range.
  - rewrite Ga2, Gb1 by auto. destruct (f64_inf a Np Fa) as [s ->]. pose proof (fval_lt b Fb). cbn [f64val] in *.
    destruct s; cbn [cond_Ropp] in *; [apply sat_range|unfold big in *; lra].
  - rewrite Ga2, Gb2 by auto. exact Hle.
Qed.
Print Assumptions C49_monotone_doubles_partial.

(** The linear and quadratic models (exact arithmetic): value at any direction, up to the entries of the
    linearised constraints dropped because they are at most [eps].
    Partial: exact only for [eps = 0], see [C49_zero_step_refuted]. *)
Theorem C49_models_partial : forall nc (c dj cache l u dp dh : rvec) (obj dobj eps pen : R),
  cons_data nc c l u -> (forall i, 0 <= i < nc -> (dense l i <= dense u i)%R) ->
  wf dj -> vdim dj = nc -> 0 <= vcap cache -> (0 <= eps)%R -> (0 <= pen)%R -> wf dp -> wf dh -> vdim dp = vdim dh ->
  let viol v := sumd nc (fun i => Rmax 0 (Rmax (v i - dense u i) (dense l i - v i)))%R in
  exists ml mq, merit_linear nc obj dobj c dj l u eps pen cache = Ok ml
    /\ merit_quadratic nc obj dobj c dj l u dp dh eps pen cache = Ok mq
    /\ (Rabs (ml - (obj + dobj + pen * viol (fun i => dense c i + dense dj i))) <= pen * (IZR nc * eps))%R
    /\ mq = (ml + 1 / 2 * dotd (vdim dp) (dense dp) (dense dh))%R.
Proof.
  intros nc c dj cache l u dp dh obj dobj eps pen (Wc & Wl & Wu & Dc & Dl & Du) Hlu Wd Dd Hcap He Hp Wp Wh Dh viol.
  destruct (merit_linear_real nc l u Wl Wu Dl Du Hlu obj dobj c dj cache eps pen Wc Wd Dc Dd Hcap He Hp) as (ml & E1 & H1).
  exists ml. eexists. split; [exact E1|]. split; [unfold merit_quadratic; rewrite E1; cbn [rbind]; rewrite vec_dot_real by auto; reflexivity|].
  split; [exact H1|]. reflexivity.
Qed.
Print Assumptions C49_models_partial.

(** At the zero step with [eps = 0] both models equal the merit value. *)
Theorem C49_zero_step : forall nc (c dj cache l u dp dh : rvec) (obj pen : R),
  cons_data nc c l u -> (forall i, 0 <= i < nc -> (dense l i <= dense u i)%R) ->
  wf dj -> vdim dj = nc -> 0 <= vcap cache -> (0 <= pen)%R -> wf dp -> wf dh -> vdim dp = vdim dh ->
  (forall i, (dense dj i = 0)%R) -> (forall i, (dense dp i = 0)%R) ->
  exists m, merit_func nc obj c l u pen = Ok m
    /\ merit_linear nc obj 0%R c dj l u 0%R pen cache = Ok m
    /\ merit_quadratic nc obj 0%R c dj l u dp dh 0%R pen cache = Ok m.
Proof.
  intros nc c dj cache l u dp dh obj pen Hcd Hlu Wd Dd Hcap Hp Wp Wh Dh H0 H0'.
  destruct (C49_models_partial nc c dj cache l u dp dh obj 0%R 0%R pen) as (ml & mq & E1 & E2 & H1 & H2); auto; try lra.
  destruct (C49_real nc c l u obj pen pen Hcd Hlu) as [E _]. eexists. split; [exact E|].
  rewrite (sumd_ext nc _ (fun i => Rmax 0 (Rmax (dense c i - dense u i) (dense l i - dense c i)))) in H1.
  2:{ intros i _. rewrite H0, Rplus_0_r. reflexivity. }
  assert (Em : ml = (obj + pen * sumd nc (fun i => Rmax 0 (Rmax (dense c i - dense u i) (dense l i - dense c i))))%R).
  { rewrite !Rmult_0_r in H1. assert (forall a, (Rabs a <= 0)%R -> a = 0%R).
    { intros a Ha. destruct (Req_dec a 0); auto. pose proof (Rabs_pos_lt a H). lra. }
    apply H in H1. lra. }
  split; [rewrite E1; f_equal; exact Em|]. rewrite E2. f_equal. rewrite H2, Em.
  assert (dotd (vdim dp) (dense dp) (dense dh) = 0%R) as ->. { apply sumd_zero. intros i _. rewrite H0'. lra. }
  lra.
Qed.
Print Assumptions C49_zero_step.

(** With a positive drop tolerance the linear model at the zero step may differ from the merit value. *)
Theorem C49_zero_step_refuted : exists (c dj cache l u : rvec) (eps a b : R),
  cons_data 1 c l u /\ wf dj /\ vdim dj = 1 /\ 0 <= vcap cache /\ (0 < eps)%R
  /\ (forall i, (dense dj i = 0)%R)
  /\ merit_func 1 0%R c l u 1%R = Ok a /\ merit_linear 1 0%R 0%R c dj l u eps 1%R cache = Ok b /\ a <> b.
Proof.
  set (c := mkvec 1 1 [(0, (1/2)%R)] : rvec). set (z := mkvec 1 0 [] : rvec).
  assert (Hcd : cons_data 1 c z z) by (unfold cons_data, wf, c, z; cbn; repeat split; auto; lia).
  assert (Z0 : forall i, (dense z i : R) = 0%R) by (intros; exact rn_n0).
  assert (Hzz : cons_data 1 z z z) by (unfold cons_data, wf, z; cbn; repeat split; auto; lia).
  assert (Hlu : forall i, 0 <= i < 1 -> (dense z i <= dense z i)%R) by (intros; lra).
  exists c, z, z, z, z, 1%R, (1/2)%R, 0%R. split; [exact Hcd|]. split; [apply Hzz|]. split; [reflexivity|]. split; [cbn; lia|]. split; [lra|].
  split; [exact Z0|]. split; [|split; [|lra]].
  - destruct (C49_real 1 c z z 0%R 1%R 1%R Hcd Hlu) as [-> _]. f_equal. unfold sumd. change (Z.to_nat 1) with 1%nat. cbn [rsum].
    rewrite !Z0. change (dense c (Z.of_nat 0)) with (1/2)%R. rewrite (Rmax_left (1/2 - 0)) by lra. rewrite Rmax_right by lra. lra.
  - unfold merit_linear, vec_add.
    destruct (vec_add_scaled_spec z c n1 n1 1%R z) as (w & E & Ww & Dw & Hw); try apply Hcd; try reflexivity; try (cbn; lia).
    rewrite E. cbn [rbind].
    assert (W0 : forall i, (dense w i : R) = 0%R).
    { intros i. unfold dense. rewrite Hw. unfold comb_at. change (get (vent z) i) with (@None R). rewrite combine_real.
      destruct (get (vent c) i) as [t|] eqn:Et; [|exact rn_n0].
      assert (t = (1/2)%R) as ->. { cbn [c vent get] in Et. destruct (0 =? i); [injection Et as <-; reflexivity|discriminate Et]. }
      match goal with |- context [@is_zero RN ?e ?k] => assert (@is_zero RN e k = true) as -> end; [|exact rn_n0].
      apply rn_is_zero. rewrite !oval_rn, rn_n1.
      match goal with |- (Rabs ?e <= _)%R => replace e with (1/2)%R by lra end. rewrite Rabs_right; lra. }
    assert (Dw1 : vdim w = 1) by exact Dw.
    rewrite (total_violation_real 1 z z (proj1 Hzz) (proj1 Hzz) eq_refl eq_refl Hlu w Ww Dw1). cbn [rbind]. f_equal.
    unfold total_viol, sumd. change (Z.to_nat 1) with 1%nat. cbn [rsum nadd nmul RN]. unfold rviol.
    rewrite Z0, W0. rewrite (Rmax_left (0 - 0)) by lra. rewrite Rmax_left by lra. lra.
Qed.
Print Assumptions C49_zero_step_refuted.

(** Non-vacuity: one violated constraint, in doubles and in reals. *)
Example C49_example_doubles : exists (c l u : @vec F64) (t : f64),
  cons_data 1 c l u /\ total_violation 1 c l u = Ok t /\ ffin t = true /\ nltb n0 t = true /\ (0 <= f64val t)%R.
Proof.
  set (c := mkvec 1 1 [(0, f64_of_Z 3)] : @vec F64). set (z := mkvec 1 0 [] : @vec F64).
  assert (H : match total_violation 1 c z z with Ok t => ffin t && nltb n0 t | _ => false end = true) by (vm_compute; reflexivity).
  destruct (total_violation 1 c z z) as [t|e|] eqn:E; try discriminate. apply andb_true_iff in H. destruct H as [H1 H2].
  exists c, z, z, t. split; [unfold cons_data, wf, c, z; cbn; repeat split; auto; lia|]. split; [exact E|]. split; [exact H1|]. split; [exact H2|].
  apply (ltb_nn (N := F64)) in H2 as Hn. destruct Hn as [Hn1 Hn2]. apply (ltb_iff (N := F64)) in H2; auto. rewrite val_0 in H2.
  change (@val F64 F64_Ord) with f64val in H2. lra.
Qed.

Example C49_example : exists (c l u dj : rvec),
  cons_data 1 c l u /\ (forall i, 0 <= i < 1 -> (dense l i <= dense u i)%R) /\ wf dj /\ vdim dj = 1 /\ dense dj 0 = 1%R
  /\ merit_func 1 5%R c l u 2%R = Ok 11%R.
Proof.
  set (c := mkvec 1 1 [(0, 3%R)] : rvec). set (z := mkvec 1 0 [] : rvec). set (d := mkvec 1 1 [(0, 1%R)] : rvec).
  assert (Hcd : cons_data 1 c z z) by (unfold cons_data, wf, c, z; cbn; repeat split; auto; lia).
  assert (Hlu : forall i, 0 <= i < 1 -> (dense z i <= dense z i)%R) by (intros; lra).
  exists c, z, z, d. split; [exact Hcd|]. split; [exact Hlu|]. split; [unfold wf, d; cbn; repeat split; auto; lia|]. split; [reflexivity|].
  split; [reflexivity|]. destruct (C49_real 1 c z z 5%R 2%R 2%R Hcd Hlu) as [-> _]. f_equal. unfold sumd. change (Z.to_nat 1) with 1%nat. cbn [rsum].
  assert (Z0 : forall i, (dense z i : R) = 0%R) by (intros; exact rn_n0). rewrite Z0. change (dense c (Z.of_nat 0)) with 3%R.
  rewrite (Rmax_left (3 - 0)) by lra. rewrite Rmax_right by lra. lra.
Qed.
