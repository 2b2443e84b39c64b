(** The LP of standard_cauchy.c and the linear model of the merit function. *)
From Coq Require Import Reals Lra.
From Verif Require Import Base Num Cmp Sparse Vec VecFacts VecFacts2 VecReal RSum Mat MatFacts MatFacts2 MatFacts3 MatFacts4 Arr Gauss PreprocReal QnReal AugJacReal WorkingSet WorkingSetFacts Cauchy CauchyFacts StdCauchy StdCauchyFacts StdCauchyReal.
Local Open Scope R_scope.

(** ** Entries of the matrix with the two identities *)
Lemma nth_app_l {A} (d : A) (l l' : list A) k : (k < length l)%nat -> nth k (l ++ l') d = nth k l d.
Proof. intros H. now apply app_nth1. Qed.
Lemma mR_slack cs n m i j : Z.of_nat (length cs) = n -> (0 <= i < m)%Z -> (0 <= j < n + 2 * m)%Z ->
  mR (cs ++ @slack_cols RN m) i j =
    if (j <? n)%Z then mR cs i j else if (j <? n + m)%Z then (if (n + i =? j)%Z then 1 else 0) else (if (n + m + i =? j)%Z then -1 else 0).
Proof.
  intros Hl Hi Hj.
  assert (Hg : forall s (c : R) k, (0 <= k < m)%Z -> s = [(k, c)] -> @oval RN (get s i) = if (i =? k)%Z then c else 0).
  { intros s c k Hk ->. cbn [get]. rewrite Z.eqb_sym. destruct (Z.eqb_spec i k); [reflexivity|]. apply rn_n0. }
  assert (Hd : forall (s : R) k, (0 <= k < m)%Z -> nth (Z.to_nat k) (@diag RN s m) [] = [(k, s)]).
  { intros s k Hk. apply nth_error_nth. unfold diag. rewrite nth_error_map, zrange_nth by lia. cbn [option_map]. now rewrite Z2Nat.id by lia. }
  assert (Hdl : forall s : R, length (@diag RN s m) = Z.to_nat m). { intros s. unfold diag. now rewrite map_length, zrange_length. }
  unfold mR, mdense, mget. destruct (Z.ltb_spec j n) as [H1|H1].
  - rewrite app_nth1 by lia. reflexivity.
  - rewrite app_nth2 by lia. unfold slack_cols. destruct (Z.ltb_spec j (n + m)) as [H2|H2].
    + rewrite app_nth1 by (rewrite Hdl; lia). replace (Z.to_nat j - length cs)%nat with (Z.to_nat (j - n)) by lia.
      rewrite Hd by lia. etransitivity; [apply (Hg _ (@n1 RN) (j - n)%Z ltac:(lia) eq_refl)|]. rewrite rn_n1.
      destruct (Z.eqb_spec i (j - n)), (Z.eqb_spec (n + i) j); try lia; reflexivity.
    + rewrite app_nth2 by (rewrite Hdl; lia). rewrite Hdl. replace (Z.to_nat j - length cs - Z.to_nat m)%nat with (Z.to_nat (j - n - m)) by lia.
      rewrite Hd by lia. etransitivity; [apply (Hg _ (@nlit RN (-1) 1) (j - n - m)%Z ltac:(lia) eq_refl)|]. rewrite rn_lit1.
      destruct (Z.eqb_spec i (j - n - m)), (Z.eqb_spec (n + m + i) j); try lia; reflexivity.
Qed.

Section Model.
Variable P : @sprob RN.
Hypothesis HP : prob_ok P.
Notation n := (sp_nv P).
Notation m := (sp_nc P).

(** The LP with slack variables, and the one without *)
Record default_lp (L : @lpi RN) (x c g : Z -> R) (r p : R) : Prop := {
  dl_nv : li_nv L = (n + 2 * m)%Z; dl_nc : li_nc L = m;
  dl_obj : arr (li_obj L) (n + 2 * m) (fun j => if (j <? n)%Z then g j else p);
  dl_vlb : arr (li_vlb L) (n + 2 * m) (fun j => if (j <? n)%Z then vlo P x r j else 0);
  dl_vub : arr (li_vub L) (n + 2 * m) (fun j => if (j <? n)%Z then vup P x r j else 2 * hi);
  dl_clb : arr (li_clb L) m (clo P c); dl_cub : arr (li_cub L) m (cup P c) }.
Record reduced_lp (L : @lpi RN) (x c g : Z -> R) (r : R) : Prop := {
  rl_nv : li_nv L = n; rl_nc : li_nc L = m;
  rl_obj : arr (li_obj L) n g; rl_vlb : arr (li_vlb L) n (vlo P x r); rl_vub : arr (li_vub L) n (vup P x r);
  rl_clb : arr (li_clb L) m (clo P c); rl_cub : arr (li_cub L) m (cup P c) }.

Lemma nth0_arr l k f j : arr l k f -> (0 <= j < k)%Z -> nth0 l j = f j.
Proof. intros H Hj. unfold nth0. now apply (arr_nth 0 l k f). Qed.

Section OneLP.
Variable T : R.
Hypothesis HT : hi <= T <= 2 * hi.
Variables (x c g : Z -> R) (r p : R) (cs : list (list (Z * R))).
Hypothesis Hr : 0 < r < hi.
Hypothesis Hx : forall j, (0 <= j < n)%Z -> dense (sp_vlb P) j <= x j <= dense (sp_vub P) j.
Hypothesis Hc : forall i, (0 <= i < m)%Z -> Rabs (c i) < hi / 2.
Hypothesis Hcs : Z.of_nat (length cs) = n.

Lemma var_inside j v : (0 <= j < n)%Z -> inside T (vlo P x r j) v (vup P x r j) <->
  Rabs v <= r /\ (- hi < dense (sp_vlb P) j -> dense (sp_vlb P) j <= x j + v) /\ (dense (sp_vub P) j < hi -> x j + v <= dense (sp_vub P) j).
Proof.
  intros Hj. pose proof (Hx j Hj) as B.
  assert (L0 : vlo P x r j <= 0) by (apply vlo_le; split; [lra|intros; lra]).
  assert (U0 : 0 <= vup P x r j) by (apply vup_ge; split; [lra|intros; lra]).
  assert (L1 : - r <= vlo P x r j) by (apply (proj1 (vlo_le P x r j (vlo P x r j)) (Rle_refl _))).
  assert (U1 : vup P x r j <= r) by (apply (proj1 (vup_ge P x r j (vup P x r j)) (Rle_refl _))).
  unfold inside. split.
  - intros [H1 H2]. specialize (H1 ltac:(lra)). specialize (H2 ltac:(lra)). apply vlo_le in H1. apply vup_ge in H2.
    split; [apply Rabs_le; lra|tauto].
  - intros (H1 & H2 & H3). assert (H4 : - r <= v <= r) by (unfold Rabs in H1; destruct (Rcase_abs v); lra). split; intros _; [apply vlo_le|apply vup_ge]; split; auto; lra.
Qed.
Lemma row_inside i v : (0 <= i < m)%Z -> inside T (clo P c i) v (cup P c i) <->
  (- hi < dense (sp_clb P) i -> dense (sp_clb P) i <= c i + v) /\ (dense (sp_cub P) i < hi -> c i + v <= dense (sp_cub P) i).
Proof.
  intros Hi. pose proof (Hc i Hi) as B. apply Rabs_def2 in B. destruct (po_c P HP i Hi) as (_ & B2 & B3 & M1 & M2). pose proof hi_pos as Hh.
  unfold inside, clo, cup. split.
  - intros [H1 H2]. split; intros H.
    + rewrite not_infinite in H1 by lra. enough (- T < dense (sp_clb P) i - c i) by (specialize (H1 H0); lra).
      destruct M1 as [M1|M1]; [unfold Rabs in M1; destruct (Rcase_abs _); lra|]. apply Rabs_def2 in M1. lra.
    + rewrite not_infinite in H2 by lra. enough (dense (sp_cub P) i - c i < T) by (specialize (H2 H0); lra).
      destruct M2 as [M2|M2]; [unfold Rabs in M2; destruct (Rcase_abs _); lra|]. apply Rabs_def2 in M2. lra.
  - intros [H1 H2]. split.
    + destruct (@is_infinite RN _) eqn:E; [lra|]. apply not_true_iff_false in E. rewrite rn_is_infinite in E. intros _. specialize (H1 ltac:(lra)). lra.
    + destruct (@is_infinite RN _) eqn:E; [lra|]. apply not_true_iff_false in E. rewrite rn_is_infinite in E. intros _. specialize (H2 ltac:(lra)). lra.
Qed.

Definition sl (y : Z -> R) (i : Z) : R := y (n + i)%Z.
Definition su (y : Z -> R) (i : Z) : R := y (n + m + i)%Z.
Definition slacks (y : Z -> R) : R := sumd m (fun i => sl y i + su y i).

Lemma split_sum f : sumd (n + 2 * m) f = sumd n f + sumd m (fun i => f (n + i)%Z) + sumd m (fun i => f (n + m + i)%Z).
Proof.
  pose proof (po_n P HP). pose proof (po_m P HP). replace (n + 2 * m)%Z with (n + m + m)%Z by lia. rewrite !sumd_add by lia. reflexivity.
Qed.

Lemma default_row L y i : li_nv L = (n + 2 * m)%Z -> (0 <= i < m)%Z ->
  lp_row L (cs ++ @slack_cols RN m) y i = sumd n (fun j => mR cs i j * y j) + sl y i - su y i.
Proof.
  intros HL Hi. unfold lp_row. rewrite HL, split_sum. pose proof (po_n P HP). pose proof (po_m P HP).
  rewrite (sumd_ext n _ (fun j => mR cs i j * y j)).
  2:{ intros j Hj. rewrite (mR_slack cs n m) by (assumption || lia). destruct (Z.ltb_spec j n); [reflexivity|lia]. }
  rewrite (sumd_ext m _ (fun k => (if (i =? k)%Z then 1 else 0) * sl y k)).
  2:{ intros j Hj. rewrite (mR_slack cs n m) by (assumption || lia). destruct (Z.ltb_spec (n + j) n); [lia|]. destruct (Z.ltb_spec (n + j) (n + m)); [|lia].
      unfold sl. destruct (Z.eqb_spec (n + i) (n + j)), (Z.eqb_spec i j); try lia; reflexivity. }
  rewrite (sumd_ext m (fun k => mR _ i (n + m + k)%Z * _) (fun k => -1 * ((if (i =? k)%Z then 1 else 0) * su y k))).
  2:{ intros j Hj. rewrite (mR_slack cs n m) by (assumption || lia). destruct (Z.ltb_spec (n + m + j) n); [lia|]. destruct (Z.ltb_spec (n + m + j) (n + m)); [lia|].
      unfold su. destruct (Z.eqb_spec (n + m + i) (n + m + j)), (Z.eqb_spec i j); try lia; ring. }
  rewrite sumd_scal, !sumd_delta by lia. ring.
Qed.

Lemma default_value L y : default_lp L x c g r p -> lp_value L y = sumd n (fun j => g j * y j) + p * slacks y.
Proof.
  intros HL. unfold lp_value. rewrite (dl_nv _ _ _ _ _ _ HL), split_sum. pose proof (po_n P HP). pose proof (po_m P HP). unfold slacks.
  rewrite sumd_plus, Rmult_plus_distr_l, <- !sumd_scal, Rplus_assoc. f_equal; [|f_equal]; apply sumd_ext; intros j Hj;
    rewrite (nth0_arr _ _ _ _ (dl_obj _ _ _ _ _ _ HL)) by lia.
  - destruct (Z.ltb_spec j n); [reflexivity|lia].
  - destruct (Z.ltb_spec (n + j) n); [lia|reflexivity].
  - destruct (Z.ltb_spec (n + m + j) n); [lia|reflexivity].
Qed.

Lemma default_feasible L y : default_lp L x c g r p -> lp_feasible T L (cs ++ @slack_cols RN m) y <->
  step_ok P x r y /\ (forall i, (0 <= i < m)%Z -> 0 <= sl y i /\ 0 <= su y i
    /\ (- hi < dense (sp_clb P) i -> dense (sp_clb P) i <= lin P c cs y i + sl y i - su y i)
    /\ (dense (sp_cub P) i < hi -> lin P c cs y i + sl y i - su y i <= dense (sp_cub P) i)).
Proof.
  intros HL. unfold lp_feasible. rewrite (dl_nv _ _ _ _ _ _ HL), (dl_nc _ _ _ _ _ _ HL). pose proof (po_n P HP) as Hn. pose proof (po_m P HP) as Hm. pose proof hi_pos as Hh.
  assert (Hv : forall j, (0 <= j < n + 2 * m)%Z -> nth0 (li_vlb L) j = (if (j <? n)%Z then vlo P x r j else 0) /\ nth0 (li_vub L) j = (if (j <? n)%Z then vup P x r j else 2 * hi)).
  { intros j Hj. split; [apply (nth0_arr _ _ _ _ (dl_vlb _ _ _ _ _ _ HL) Hj)|apply (nth0_arr _ _ _ _ (dl_vub _ _ _ _ _ _ HL) Hj)]. }
  assert (Hrow : forall i, (0 <= i < m)%Z -> c i + lp_row L (cs ++ @slack_cols RN m) y i = lin P c cs y i + sl y i - su y i).
  { intros i Hi. rewrite default_row by (apply HL || lia). unfold lin. ring. }
  split.
  - intros [H1 H2]. split.
    + intros j Hj. specialize (H1 j ltac:(lia)). destruct (Hv j ltac:(lia)) as [E1 E2]. rewrite E1, E2 in H1. destruct (Z.ltb_spec j n); [|lia]. now apply var_inside.
    + intros i Hi.
      pose proof (H1 (n + i)%Z ltac:(lia)) as A1. destruct (Hv (n + i)%Z ltac:(lia)) as [E1 E2]. rewrite E1, E2 in A1. destruct (Z.ltb_spec (n + i) n); [lia|].
      pose proof (H1 (n + m + i)%Z ltac:(lia)) as A2. destruct (Hv (n + m + i)%Z ltac:(lia)) as [E3 E4]. rewrite E3, E4 in A2. destruct (Z.ltb_spec (n + m + i) n); [lia|].
      specialize (H2 i Hi). rewrite (nth0_arr _ _ _ _ (dl_clb _ _ _ _ _ _ HL) Hi), (nth0_arr _ _ _ _ (dl_cub _ _ _ _ _ _ HL) Hi) in H2.
      apply row_inside in H2; [|exact Hi]. rewrite Hrow in H2 by exact Hi.
      split; [apply A1; lra|]. split; [apply A2; lra|exact H2].
  - intros [H1 H2]. split.
    + intros j Hj. destruct (Hv j Hj) as [-> ->]. destruct (Z.ltb_spec j n).
      * apply var_inside; [lia|]. apply H1. lia.
      * split; [intros _|intros; lra]. destruct (Z.ltb_spec j (n + m)).
        -- replace j with (n + (j - n))%Z by lia. apply (H2 (j - n)%Z). lia.
        -- replace j with (n + m + (j - n - m))%Z by lia. apply (H2 (j - n - m)%Z). lia.
    + intros i Hi. rewrite (nth0_arr _ _ _ _ (dl_clb _ _ _ _ _ _ HL) Hi), (nth0_arr _ _ _ _ (dl_cub _ _ _ _ _ _ HL) Hi).
      apply row_inside; [exact Hi|]. rewrite Hrow by exact Hi. apply H2. exact Hi.
Qed.

Definition low (y : Z -> R) (i : Z) : R := if Rlt_dec (- hi) (dense (sp_clb P) i) then Rmax 0 (dense (sp_clb P) i - lin P c cs y i) else 0.
Definition upp (y : Z -> R) (i : Z) : R := if Rlt_dec (dense (sp_cub P) i) hi then Rmax 0 (lin P c cs y i - dense (sp_cub P) i) else 0.
(** A step completed by the slack variables *)
Definition complete (d : Z -> R) (k : Z) : R := if (k <? n)%Z then d k else if (k <? n + m)%Z then low d (k - n) else upp d (k - n - m).

Lemma lin_ext d d' i : (forall j, (0 <= j < n)%Z -> d j = d' j) -> lin P c cs d i = lin P c cs d' i.
Proof. intros H. unfold lin. f_equal. apply sumd_ext. intros j Hj. now rewrite H. Qed.
Lemma step_ok_ext d d' : (forall j, (0 <= j < n)%Z -> d j = d' j) -> step_ok P x r d -> step_ok P x r d'.
Proof. intros H S j Hj. rewrite <- H by exact Hj. now apply S. Qed.
Lemma merit_model_ext d d' : (forall j, (0 <= j < n)%Z -> d j = d' j) -> merit_model P g c cs p d = merit_model P g c cs p d'.
Proof.
  intros H. unfold merit_model, lin_viol. f_equal; [apply sumd_ext; intros j Hj; now rewrite H|].
  f_equal. apply sumd_ext. intros i Hi. now rewrite (lin_ext d d').
Qed.

Lemma viol_parts y i : viol (dense (sp_clb P) i) (lin P c cs y i) (dense (sp_cub P) i) = low y i + upp y i.
Proof. reflexivity. Qed.
Lemma low_pos y i : 0 <= low y i.
Proof. unfold low. destruct (Rlt_dec _ _); [apply Rmax_l|lra]. Qed.
Lemma upp_pos y i : 0 <= upp y i.
Proof. unfold upp. destruct (Rlt_dec _ _); [apply Rmax_l|lra]. Qed.
Lemma lin_viol_nonneg y : 0 <= lin_viol P c cs y.
Proof. apply sumd_nonneg. intros i Hi. rewrite viol_parts. pose proof (low_pos y i). pose proof (upp_pos y i). lra. Qed.

Lemma complete_feasible L d : default_lp L x c g r p -> step_ok P x r d -> lp_feasible T L (cs ++ @slack_cols RN m) (complete d).
Proof.
  intros HL Hd. pose proof (po_n P HP) as Hn. apply default_feasible; [exact HL|].
  assert (He : forall j, (0 <= j < n)%Z -> d j = complete d j). { intros j Hj. unfold complete. destruct (Z.ltb_spec j n); [reflexivity|lia]. }
  split; [apply (step_ok_ext d); auto|]. intros i Hi. rewrite <- (lin_ext d _ i He).
  replace (sl (complete d) i) with (low d i). 2:{ unfold sl, complete. destruct (Z.ltb_spec (n + i) n), (Z.ltb_spec (n + i) (n + m)); try lia. f_equal. lia. }
  replace (su (complete d) i) with (upp d i). 2:{ unfold su, complete. destruct (Z.ltb_spec (n + m + i) n), (Z.ltb_spec (n + m + i) (n + m)); try lia. f_equal. lia. }
  split; [apply low_pos|]. split; [apply upp_pos|]. destruct (po_c P HP i Hi) as (B1 & _).
  unfold low, upp. split; intros H.
  - destruct (Rlt_dec (- hi) _) as [_|]; [|contradiction]. destruct (Rlt_dec _ hi) as [H'|H']; unfold Rmax; repeat destruct (Rle_dec _ _); lra.
  - destruct (Rlt_dec _ hi) as [_|]; [|contradiction]. destruct (Rlt_dec (- hi) _) as [H'|H']; unfold Rmax; repeat destruct (Rle_dec _ _); lra.
Qed.
Lemma complete_value L d : default_lp L x c g r p -> lp_value L (complete d) = merit_model P g c cs p d.
Proof.
  intros HL. pose proof (po_n P HP) as Hn. rewrite (default_value L _ HL). unfold merit_model, lin_viol, slacks. f_equal.
  - apply sumd_ext. intros j Hj. unfold complete. destruct (Z.ltb_spec j n); [reflexivity|lia].
  - f_equal. apply sumd_ext. intros i Hi. rewrite viol_parts. unfold sl, su, complete.
    destruct (Z.ltb_spec (n + i) n), (Z.ltb_spec (n + i) (n + m)), (Z.ltb_spec (n + m + i) n), (Z.ltb_spec (n + m + i) (n + m)); try lia. f_equal; f_equal; lia.
Qed.
Lemma slacks_ge L y : default_lp L x c g r p -> lp_feasible T L (cs ++ @slack_cols RN m) y -> lin_viol P c cs y <= slacks y.
Proof.
  intros HL Hy. apply default_feasible in Hy; [|exact HL]. destruct Hy as [_ Hy]. apply sumd_le. intros i Hi. rewrite viol_parts.
  destruct (Hy i Hi) as (S1 & S2 & S3 & S4). destruct (po_c P HP i Hi) as (B1 & _). unfold low, upp.
  destruct (Rlt_dec (- hi) _) as [H1|H1], (Rlt_dec _ hi) as [H2|H2]; try specialize (S3 H1); try specialize (S4 H2); unfold Rmax; repeat destruct (Rle_dec _ _); lra.
Qed.

(** *** Optimal solutions of the LP with slack variables *)
Theorem default_optimal L sol : default_lp L x c g r p -> 0 <= p -> lp_optimal T L (cs ++ @slack_cols RN m) sol ->
  let d := nth0 (ls_x sol) in
  step_ok P x r d /\ ls_val sol = merit_model P g c cs p d
  /\ (forall d', step_ok P x r d' -> merit_model P g c cs p d <= merit_model P g c cs p d')
  /\ (0 < p -> slacks d = lin_viol P c cs d).
Proof.
  intros HL Hp HO d. pose proof (lo_feas _ _ _ _ HO) as HF. pose proof (lo_min _ _ _ _ HO) as HM. pose proof (lo_val _ _ _ _ HO) as HV. fold d in HF, HM, HV.
  assert (Hd : step_ok P x r d) by (apply (default_feasible L d HL); exact HF).
  pose proof (slacks_ge L d HL HF) as Hs. pose proof (HM _ (complete_feasible L d HL Hd)) as H1. rewrite (complete_value L d HL) in H1.
  pose proof (default_value L d HL) as H2. assert (H3 : merit_model P g c cs p d <= lp_value L d).
  { rewrite H2. unfold merit_model. apply Rplus_le_compat_l. now apply Rmult_le_compat_l. }
  split; [exact Hd|]. split; [rewrite HV; lra|]. split.
  - intros d' Hd'. pose proof (HM _ (complete_feasible L d' HL Hd')) as H4. rewrite (complete_value L d' HL) in H4. lra.
  - intros Hp'. apply Rmult_eq_reg_l with p; [|lra]. unfold merit_model in H1, H3. lra.
Qed.

(** *** The LP without slack variables, solved when all of them are zero *)
Theorem reduced_optimal L sol L' sol' : default_lp L x c g r p -> 0 <= p -> lp_optimal T L (cs ++ @slack_cols RN m) sol ->
  (forall i, (0 <= i < m)%Z -> sl (nth0 (ls_x sol)) i = 0 /\ su (nth0 (ls_x sol)) i = 0) ->
  reduced_lp L' x c g r -> lp_optimal T L' cs sol' ->
  let d := nth0 (ls_x sol) in let d' := nth0 (ls_x sol') in
  step_ok P x r d' /\ merit_model P g c cs p d' = merit_model P g c cs p d /\ lin_viol P c cs d' = 0 /\ lin_viol P c cs d = 0.
Proof.
  intros HL Hp HO H0 HL' HO' d d'. pose proof (lo_feas _ _ _ _ HO) as HF. fold d in HF, H0. pose proof HF as HF1. apply default_feasible in HF1; [|exact HL]. destruct HF1 as [Hd HR].
  destruct (default_optimal L sol HL Hp HO) as (_ & _ & HM & _). fold d in HM.
  assert (Hrow : forall y i, c i + lp_row L' cs y i = lin P c cs y i). { intros y i. unfold lp_row, lin. now rewrite (rl_nv _ _ _ _ _ HL'). }
  assert (HF' : forall y, lp_feasible T L' cs y <-> step_ok P x r y /\ (forall i, (0 <= i < m)%Z ->
     (- hi < dense (sp_clb P) i -> dense (sp_clb P) i <= lin P c cs y i) /\ (dense (sp_cub P) i < hi -> lin P c cs y i <= dense (sp_cub P) i))).
  { intros y. unfold lp_feasible. rewrite (rl_nv _ _ _ _ _ HL'), (rl_nc _ _ _ _ _ HL'). split; intros [A B]; split.
    - intros j Hj. specialize (A j Hj). rewrite (nth0_arr _ _ _ _ (rl_vlb _ _ _ _ _ HL') Hj), (nth0_arr _ _ _ _ (rl_vub _ _ _ _ _ HL') Hj) in A. now apply var_inside.
    - intros i Hi. specialize (B i Hi). rewrite (nth0_arr _ _ _ _ (rl_clb _ _ _ _ _ HL') Hi), (nth0_arr _ _ _ _ (rl_cub _ _ _ _ _ HL') Hi) in B. apply row_inside in B; [|exact Hi]. now rewrite Hrow in B.
    - intros j Hj. rewrite (nth0_arr _ _ _ _ (rl_vlb _ _ _ _ _ HL') Hj), (nth0_arr _ _ _ _ (rl_vub _ _ _ _ _ HL') Hj). apply var_inside; [exact Hj|]. now apply A.
    - intros i Hi. rewrite (nth0_arr _ _ _ _ (rl_clb _ _ _ _ _ HL') Hi), (nth0_arr _ _ _ _ (rl_cub _ _ _ _ _ HL') Hi). apply row_inside; [exact Hi|]. rewrite Hrow. now apply B. }
  assert (Hviol : forall y, (forall i, (0 <= i < m)%Z ->
     (- hi < dense (sp_clb P) i -> dense (sp_clb P) i <= lin P c cs y i) /\ (dense (sp_cub P) i < hi -> lin P c cs y i <= dense (sp_cub P) i)) -> lin_viol P c cs y = 0).
  { intros y Hy. apply sumd_zero. intros i Hi. destruct (Hy i Hi) as [A B]. unfold viol.
    destruct (Rlt_dec (- hi) _) as [H1|H1], (Rlt_dec _ hi) as [H2|H2]; try specialize (A H1); try specialize (B H2); rewrite ?Rmax_left by lra; lra. }
  assert (HRd : forall i, (0 <= i < m)%Z -> (- hi < dense (sp_clb P) i -> dense (sp_clb P) i <= lin P c cs d i) /\ (dense (sp_cub P) i < hi -> lin P c cs d i <= dense (sp_cub P) i)).
  { intros i Hi. destruct (HR i Hi) as (_ & _ & A & B). destruct (H0 i Hi) as [E1 E2]. rewrite E1, E2 in A, B. split; intros H; [specialize (A H)|specialize (B H)]; lra. }
  pose proof (lo_feas _ _ _ _ HO') as HFr. fold d' in HFr. apply HF' in HFr. destruct HFr as [Hd' HR'].
  pose proof (lo_min _ _ _ _ HO' d (proj2 (HF' d) (conj Hd HRd))) as Hmin. fold d' in Hmin.
  assert (Hval : forall y, lp_value L' y = sumd n (fun j => g j * y j)).
  { intros y. unfold lp_value. rewrite (rl_nv _ _ _ _ _ HL'). apply sumd_ext. intros j Hj. now rewrite (nth0_arr _ _ _ _ (rl_obj _ _ _ _ _ HL') Hj). }
  rewrite !Hval in Hmin. pose proof (HM d' Hd') as H2. pose proof (Hviol d HRd) as V1. pose proof (Hviol d' HR') as V2.
  split; [exact Hd'|]. split; [|auto]. unfold merit_model in *. rewrite V1, V2 in *. lra.
Qed.
End OneLP.
End Model.
