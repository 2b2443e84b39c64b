(** Property theorems C40-C43, C53, C54: step rules, flags, reference counts, timers, dynamic functions. *)
From Coq Require Import Reals Lra Psatz.
From Flocq Require Import Core BinarySingleNaN.
From Verif Require Import Base Num Cmp Sparse Vec Mat MatFacts Order F64Facts RSum VecReal Ring StepRule StepRuleFacts Flags Refcount TrustRadiusFacts PropsVec.
Local Open Scope Z_scope.

Lemma le_div (a b t : R) : (0 < b -> t * b <= a -> t <= a / b)%R.
Proof. intros Hb H. apply (Rmult_le_reg_r b); [exact Hb|]. unfold Rdiv. rewrite Rmult_assoc, Rinv_l by lra. lra. Qed.
Lemma div_lt (a b t : R) : (0 < b -> a < t * b -> a / b < t)%R.
Proof. intros Hb H. apply (Rmult_lt_reg_r b); [exact Hb|]. unfold Rdiv. rewrite Rmult_assoc, Rinv_l by lra. lra. Qed.

(** ** C40 *)

(** Direct rule: the ratio of the (slightly shifted) reductions, except when both are
    negligible; acceptance exactly by the threshold.  Generic: bit-exact for doubles. *)
Theorem C40_direct : forall (N : Num) (thr it ex md : num),
  let er := nsub it ex in let mr := nsub it md in let e := nlit 10 (2 ^ 52) in
  let negligible := nleb (nabs (nsub mr e)) e && nleb (nabs (nsub er e)) e in
  let ratio := if negligible then n1 else ndiv (nsub er e) (nsub mr e) in
  direct_apply thr it ex md = (nleb thr ratio, ratio).
Proof. reflexivity. Qed.
Print Assumptions C40_direct.

(** Window rule, after any history [h] (newest first) of accepted steps (merit at the
    iterate, predicted reduction): the step is accepted iff the larger of the current ratio
    and the historic one reaches the threshold, where the historic ratio is measured from
    the earliest entry of maximal merit among the last [n] accepted steps.  Accepting adds
    exactly this step to the history. *)
Theorem C40_window : forall (N : Num) (O : Ord N) (eps thr : num) r h it ex md,
  wholds r h -> let n := w_num r in let w := window n h in
  (forall e, In e w -> nltb (nopp sleqp_infinity) (fst e) = true) ->
  n = 0 \/ is_geq (nsub it md) n0 eps = true ->
  let er := nsub it ex in let mr := nsub it md in
  exists hist,
    ((w = [] /\ hist = ndiv er mr) \/
     exists w1 m d w2, is_ref w w1 m d w2 /\
       hist = if nltb m ex then ndiv er mr
              else ndiv (nsub m ex) (nadd (fold_left nadd (map snd ((m, d) :: w2)) n0) mr)) /\
    let ratio := nmax (if neqb er mr then n1 else ndiv er mr) hist in
    exists r', window_apply eps thr r it ex md = Ok (r', nleb thr ratio, ratio) /\ w_num r' = n /\
      wholds r' (if nleb thr ratio then (it, mr) :: h else h).
Proof.
  intros N O eps thr r h it ex md Hr n w Hinf Hg er mr.
  destruct (window_ratio_spec r h it ex mr Hr Hinf) as [W1 W2].
  assert (Hh : exists hist, window_ratio r it ex mr = Ok hist /\
     ((w = [] /\ hist = ndiv er mr) \/ exists w1 m d w2, is_ref w w1 m d w2 /\
       hist = if nltb m ex then ndiv er mr else ndiv (nsub m ex) (nadd (fold_left nadd (map snd ((m, d) :: w2)) n0) mr))).
  { change (window (w_num r) h) with w in W1, W2. destruct w as [|e0 w'].
    - exists (ndiv er mr). split; [now apply W1|]. now left.
    - destruct W2 as (w1 & m & d & w2 & Href & E); [discriminate|]. eexists. split; [exact E|]. right. exists w1, m, d, w2. auto. }
  destruct Hh as (hist & E & Hspec). exists hist. split; [exact Hspec|]. intros ratio.
  unfold window_apply. fold mr. rewrite E. cbn [rbind].
  change (current_ratio it ex md) with (if neqb er mr then n1 else ndiv er mr). fold ratio.
  destruct (nleb thr ratio).
  - destruct (window_add_spec eps r h it mr Hr Hg) as (r' & E' & En & Hr'). rewrite E'. cbn [rbind].
    exists r'. split; [reflexivity|]. split; [exact En|exact Hr'].
  - exists r. split; [reflexivity|]. split; [reflexivity|exact Hr].
Qed.
Print Assumptions C40_window.

(** The reference entry is determined by the window, and creation gives the empty history. *)
Theorem C40_window_ref_unique : forall (N : Num) (O : Ord N) w w1 m d w2 w1' m' d' w2',
  is_ref w w1 m d w2 -> is_ref w w1' m' d' w2' -> w1 = w1' /\ m = m' /\ d = d' /\ w2 = w2'.
Proof. intros N O. exact is_ref_unique. Qed.
Print Assumptions C40_window_ref_unique.

Theorem C40_window_create : forall (N : Num) n junk, 0 <= n -> len junk = n ->
  exists r, window_create n junk = Ok r /\ w_num r = n /\ wholds r []
    /\ forall r' h, wholds r' h -> w_num r' = n -> wholds (window_reset r') [].
Proof.
  intros N n junk Hn Hj. unfold window_create. rewrite (proj2 (Z.leb_le 0 n)) by lia. cbn [check rbind].
  eexists. split; [reflexivity|]. split; [reflexivity|]. split; [now apply ring_empty|].
  intros r' h (A & B & _) E. unfold wholds, window_reset. cbn. apply ring_empty; [exact A|exact B].
Qed.
Print Assumptions C40_window_create.

(** Minimum step rule: acceptance exactly by the threshold; the state changes only on acceptance
    (apart from the initialisation). *)
Theorem C40_minstep : forall (N : Num) thr r it ex md r' acc ratio,
  minstep_apply thr r it ex md = Ok (r', acc, ratio) ->
  acc = nleb thr ratio
  /\ (m_init r = true -> acc = false -> r' = r)
  /\ (m_init r = true -> ratio = nmax (if neqb (nsub it ex) (nsub it md) then n1 else ndiv (nsub it ex) (nsub it md))
                                      (ndiv (nsub (m_ref r) ex) (nadd (m_sum_ref r) (nsub it md))))
  /\ (m_init r = false -> ratio = nmax (if neqb (nsub it ex) (nsub it md) then n1 else ndiv (nsub it ex) (nsub it md))
                                      (ndiv (nsub it ex) (nadd n0 (nsub it md)))).
Proof.
  intros N thr r it ex md r' acc ratio. unfold minstep_apply, minstep_start, current_ratio. cbv zeta.
  destruct (m_init r) eqn:Ei.
  - destruct (nleb (m_min r) (m_max r)); cbn [check rbind]; [|discriminate].
    destruct (nleb thr _) eqn:El; intros E; injection E as <- <- <-; rewrite El; (split; [reflexivity|]); (split; [intros; congruence|]);
      (split; [reflexivity|discriminate]).
  - cbn [rbind m_ref m_sum_ref]. destruct (nleb thr _) eqn:El; intros E; injection E as <- <- <-; rewrite El; (split; [reflexivity|]);
      (split; [discriminate|]); (split; [discriminate|reflexivity]).
Qed.
Print Assumptions C40_minstep.

(** The field documented as "sum of model decreases of accepted steps since the reference
    iterate" is not that: a new minimum clears it and leaves the reference merit in place.
    Witness in exact arithmetic: merits 10 -> 5 -> 4.9 with accurate models, then a step up
    to 9 is accepted by threshold 1/4 although (10 - 9)/(5 + 0.1 + 0.1) < 1/4. *)
Theorem C40_minstep_reference_refuted : exists (r0 : @mrule RN) (steps : list (R * R)) r it,
  m_init r0 = false /\ (forall st, In st steps -> 0 < snd st)%R
  /\ rfold (mstep (1/4)) (r0, 10%R) steps = Ok (r, it)
  /\ m_ref r = 10%R
  /\ fold_left Rplus (map snd steps) 0%R = (5 + 1/10)%R /\ m_sum_ref r = 0%R
  /\ (exists r', mstep (1/4) (r, it) (9, 1/10)%R = Ok (r', 9%R))
  /\ ((10 - 9) / (5 + 1/10 + 1/10) < 1/4)%R /\ (it < 9)%R.
Proof.
  set (r0 := @mkmr RN false 0%R 0%R 0%R 0%R 0%R 0 2).
  set (r1 := @mkmr RN true 10%R 10%R 10%R 5%R 5%R 1 2).
  set (r2 := @mkmr RN true 5%R 10%R 5%R 0%R 0%R 0 2).
  assert (S1 : mstep (1/4) (r0, 10%R) (5, 5)%R = Ok (r1, 5%R)).
  { unfold mstep, minstep_apply, minstep_start, r0. cbn [fst snd m_init rbind m_ref m_sum_ref]. cbv zeta. rops. rewrite ?rn_n0.
    replace (nleb (1/4)%R _) with true.
    2: { symmetry. apply rn_leb. rewrite rn_max. eapply Rle_trans; [|apply Rmax_r]. rnum. lra. }
    f_equal. f_equal. unfold minstep_accept, r1. cbn [m_sum_ref m_sum_max m_min m_max m_count m_limit m_ref]. rewrite ?rn_n0. rops.
    replace (nltb 10%R 10%R) with false by (symmetry; apply rn_ltb_false; rnum; lra). cbn [Z.eqb Z.add Pos.eqb Pos.add].
    f_equal; try reflexivity; rnum; try lra. all: (match goal with |- context [@nltb RN ?a ?b] => destruct (@nltb RN a b) eqn:Q end; [apply rn_ltb in Q; rnum; lra|rnum; lra]). }
  assert (S2 : mstep (1/4) (r1, 5%R) (49/10, 1/10)%R = Ok (r2, (49/10)%R)).
  { unfold mstep, minstep_apply, minstep_start, r1. cbn [fst snd m_init m_max m_min].
    replace (nleb 10%R 10%R) with true by (symmetry; apply rn_leb; rnum; lra). cbn [check rbind m_ref m_sum_ref]. cbv zeta. rops.
    replace (nleb (1/4)%R _) with true.
    2: { symmetry. apply rn_leb. rewrite rn_max. eapply Rle_trans; [|apply Rmax_r]. rnum. apply le_div; lra. }
    f_equal. f_equal. unfold minstep_accept, r2. cbn [m_sum_ref m_sum_max m_min m_max m_count m_limit m_ref]. rewrite ?rn_n0. rops.
    replace (nltb 5%R 10%R) with true by (symmetry; apply rn_ltb; rnum; lra).
    replace (nltb 5%R 5%R) with false by (symmetry; apply rn_ltb_false; rnum; lra). cbn [Z.eqb].
    reflexivity. }
  exists r0, [(5, 5); (49/10, 1/10)]%R, r2, (49/10)%R.
  split; [reflexivity|]. split; [intros st [<-|[<-|[]]]; cbn [snd]; lra|].
  split; [cbn [rfold]; rewrite S1; cbn [rbind]; rewrite S2; reflexivity|].
  split; [reflexivity|]. split; [cbn [map fold_left snd]; lra|]. split; [reflexivity|].
  split; [|split].
  - unfold mstep, minstep_apply, minstep_start, r2. cbn [fst snd m_init m_max m_min].
    replace (nleb 5%R 5%R) with true by (symmetry; apply rn_leb; rnum; lra). cbn [check rbind m_ref m_sum_ref]. cbv zeta. rops.
    replace (nleb (1/4)%R _) with true.
    2: { symmetry. apply rn_leb. rewrite rn_max. eapply Rle_trans; [|apply Rmax_r]. rnum. apply le_div; lra. }
    eexists. reflexivity.
  - apply div_lt; lra.
  - lra.
Qed.
Print Assumptions C40_minstep_reference_refuted.

(** Non-vacuity: a window of two; the reference is the older entry. *)
Example C40_example : exists r,
  rfold (wstep 0 (1/10)) (@mkwr RN 2 0 (-1) [(0, 0); (0, 0)]%R, 10%R) [(8, 2); (7, 1); (6, 1)]%R = Ok (r, 6%R)
  /\ w_len r = 2 /\ w_curr r = 2 /\ wholds r [(7, 1); (8, 1); (10, 2)]%R.
Proof.
  assert (P : forall (r : @wrule RN) h it ex mr, wholds r h -> (forall e, In e h -> (- big100 < fst e)%R) -> (it - ex = mr)%R -> (0 < mr)%R ->
     exists r', wstep 0 (1/10) (r, it) (ex, mr) = Ok (r', ex) /\ w_num r' = w_num r /\ wholds r' ((it, mr) :: h)).
  { intros r h it ex mr Hr Hb E Hp.
    destruct (C40_window RN RN_Ord 0%R (1/10)%R r h it ex (it - mr)%R Hr) as (hist & _ & r' & E' & En & Hr').
    - intros e He. apply In_window, Hb in He. apply rn_ltb. pose proof rn_infinity as Ei. rops. rewrite Ei. exact He.
    - right. apply rn_is_geq_pos; rops; lra.
    - rops. assert (Eq : neqb (it - ex)%R (it - (it - mr))%R = true) by (apply rn_eqb; rnum; lra).
      rewrite Eq in E', Hr'. rewrite rn_n1, rn_max in E', Hr'.
      assert (El : nleb (1/10)%R (Rmax 1 hist) = true).
      { apply rn_leb. eapply Rle_trans; [|apply Rmax_l]. rnum; lra. }
      rewrite El in E', Hr'. exists r'. split; [|split; [exact En|]].
      + unfold wstep. cbn [fst snd]. rewrite E'. reflexivity.
      + replace (it - (it - mr))%R with mr in Hr' by lra. exact Hr'. }
  assert (B : (0 < big100)%R) by (apply IZR_lt; reflexivity).
  destruct (P (mkwr 2 0 (-1) [(0, 0); (0, 0)]%R) [] 10%R 8%R 2%R) as (r1 & E1 & N1 & H1); [now apply ring_empty|intros e []|lra|lra|].
  destruct (P r1 _ 8%R 7%R 1%R H1) as (r2 & E2 & N2 & H2); [intros e [<-|[]]; cbn [fst]; lra|lra|lra|].
  destruct (P r2 _ 7%R 6%R 1%R H2) as (r3 & E3 & N3 & H3); [intros e [<-|[<-|[]]]; cbn [fst]; lra|lra|lra|].
  exists r3. split; [cbn [rfold]; rewrite E1; cbn [rbind]; rewrite E2; cbn [rbind]; rewrite E3; reflexivity|].
  pose proof H3 as (_ & _ & L & Cu & _). rewrite N3, N2, N1 in L, Cu. cbn in L, Cu. split; [exact L|]. split; [exact Cu|exact H3].
Qed.

(** ** C54: accepted steps stay in the initial level set (exact arithmetic, one penalty). *)

(** Both non-monotone rules: for every series of trial merits with positive predicted
    reductions, of any length, no assertion fails and the merit never exceeds the merit of the start. *)
Theorem C54_window : forall eps thr n junk it0 steps, (0 <= eps)%R -> (0 < thr)%R -> 0 <= n -> len junk = n -> (- 10 ^ 100 < it0)%R ->
  (forall st, In st steps -> 0 < snd st /\ - 10 ^ 100 < fst st)%R ->
  exists r it, rfold (wstep eps thr) (mkwr n 0 (-1) junk, it0) steps = Ok (r, it) /\ (it <= it0)%R.
Proof.
  assert (E : big100 = (10 ^ 100)%R) by (unfold big100; rewrite pow_IZR; reflexivity).
  intros eps thr n junk it0 steps. rewrite <- E. apply wrun_level.
Qed.
Print Assumptions C54_window.

Theorem C54_minstep : forall thr r0 it0 steps, (0 < thr)%R -> (forall st, In st steps -> 0 < snd st)%R -> m_init r0 = false ->
  exists r it, rfold (mstep thr) (r0, it0) steps = Ok (r, it) /\ (it <= it0)%R.
Proof. intros. now apply (mrun_level thr (m_limit r0)). Qed.
Print Assumptions C54_minstep.

(** The direct rule never accepts an increase if the predicted reduction exceeds 10*2^-52.
    Missing: smaller predicted reductions, where the claim is false (below). *)
Theorem C54_direct_partial : forall (thr it ex md : R), (0 < thr)%R -> (10 / 2 ^ 52 < it - md)%R ->
  fst (@direct_apply RN thr it ex md) = true -> (ex <= it)%R.
Proof.
  intros thr it ex md Ht Hm. unfold direct_apply, reduction_ratio. cbn [fst]. cbv zeta. pose proof rn_ratio_eps as E. rewrite E. rops. fold reps in Hm.
  pose proof reps_pos as Hp. rewrite !rn_abs.
  destruct (nleb (Rabs (it - md - reps)) reps && nleb (Rabs (it - ex - reps)) reps) eqn:Eg.
  - apply andb_true_iff in Eg. destruct Eg as [_ Eg]. apply rn_leb in Eg. apply Rabs_le_inv in Eg. intros _. lra.
  - intros H. apply rn_leb in H. apply div_ge_pos in H; [|lra|lra].
    pose proof (Rmult_le_pos thr (it - md - reps)). lra.
Qed.
Print Assumptions C54_direct_partial.

(** With a predicted reduction of zero an increase of the merit by 1000 is accepted, with
    ratio above 10^12: both shifted reductions are negative.  (Doubles and reals.) *)
Theorem C54_direct_refuted :
  (exists thr it ex md : R, (0 < thr < 1)%R /\ (md <= it)%R /\ fst (@direct_apply RN thr it ex md) = true /\ (ex = it + 1000)%R)
  /\ (let r := @direct_apply F64 (nlit 1 10) n0 (nlit 1000 1) n0 in fst r = true /\ @nltb F64 (nlit (10 ^ 12) 1) (snd r) = true).
Proof.
  split.
  - exists (1/10)%R, 0%R, 1000%R, 0%R. split; [lra|]. split; [lra|]. split; [|lra].
    unfold direct_apply, reduction_ratio. cbn [fst]. cbv zeta. pose proof rn_ratio_eps as E. rewrite E. rops. rewrite !rn_abs.
    pose proof reps_pos as Hp. assert (Hs : (reps < 1)%R).
    { unfold reps. apply (Rmult_lt_reg_r (2 ^ 52)); [apply pow_lt; lra|]. unfold Rdiv. rewrite Rmult_assoc, Rinv_l by (apply pow_nonzero; lra). lra. }
    replace (nleb (Rabs (0 - 1000 - reps)) reps) with false.
    2: { symmetry. apply rn_leb_false. rnum. rewrite Rabs_left by lra. lra. }
    rewrite andb_false_r. apply rn_leb. rnum. replace ((0 - 1000 - reps) / (0 - 0 - reps))%R with ((1000 + reps) / reps)%R by (field; lra).
    apply le_div; lra.
  - vm_compute. split; reflexivity.
Qed.
Print Assumptions C54_direct_refuted.

Example C54_example : exists r, rfold (mstep (1/4)) (@mkmr RN false 0 0 0 0 0 0 2, 10%R)%R [(5, 5)]%R = Ok (r, 5%R).
Proof.
  unfold rfold, mstep, minstep_apply, minstep_start. cbn [fst snd m_init rbind m_ref m_sum_ref]. cbv zeta. rops. rewrite ?rn_n0.
  replace (nleb (1/4)%R _) with true.
  2: { symmetry. apply rn_leb. rewrite rn_max. eapply Rle_trans; [|apply Rmax_r]. rnum. lra. }
  eexists. reflexivity.
Qed.

(** ** C41 *)

(** Copying one flag transfers exactly that flag and leaves the others. *)
Theorem C41_copy_one : forall src tgt k j, 0 <= k -> 0 <= j ->
  Z.testbit (flags_copy src tgt (2 ^ k)) j = if j =? k then Z.testbit src k else Z.testbit tgt j.
Proof.
  intros src tgt k j Hk Hj. unfold flags_copy, flags_set, flags_add, flags_remove, has_flags.
  assert (Hh : negb (Z.land src (2 ^ k) =? 0) = Z.testbit src k).
  { destruct (Z.testbit src k) eqn:T.
    - apply negb_true_iff, Z.eqb_neq. intros E. apply (f_equal (fun z => Z.testbit z k)) in E.
      rewrite Z.land_spec, Z.pow2_bits_true, T, Z.bits_0 in E by lia. discriminate.
    - apply negb_false_iff, Z.eqb_eq. apply Z.bits_inj'. intros i Hi. rewrite Z.land_spec, Z.bits_0.
      destruct (Z.eq_dec i k) as [->|Hne]; [rewrite T; reflexivity|]. rewrite Z.pow2_bits_false by lia. apply andb_false_r. }
  rewrite Hh. destruct (Z.testbit src k).
  - rewrite Z.lor_spec, Z.pow2_bits_eqb by lia. rewrite (Z.eqb_sym k j). destruct (j =? k); [apply orb_true_r|apply orb_false_r].
  - rewrite Z.land_spec, Z.lnot_spec, Z.pow2_bits_eqb by lia. rewrite (Z.eqb_sym k j). destruct (j =? k); [apply andb_false_r|apply andb_true_r].
Qed.
Print Assumptions C41_copy_one.

(** Fixing variables or scaling: both Hessian flags are inherited if the original has both or
    neither.  Missing: exactly one of them (refuted below). *)
Theorem C41_derived_partial : forall src, Z.testbit src 0 = Z.testbit src 1 ->
  has_flags (derived_flags src) HESS_INEXACT = has_flags src HESS_INEXACT
  /\ has_flags (derived_flags src) HESS_PSD = has_flags src HESS_PSD
  /\ has_flags (derived_dyn_flags src) HESS_PSD = has_flags src HESS_PSD.
Proof.
  assert (H1 : forall f, has_flags f HESS_INEXACT = Z.testbit f 0).
  { intros f. unfold has_flags, HESS_INEXACT. change 1 with (Z.ones 1). rewrite (Z.land_ones f 1) by lia. change (2 ^ 1) with 2. rewrite <- Z.bit0_mod. destruct (Z.testbit f 0); reflexivity. }
  assert (H2 : forall f, has_flags f HESS_PSD = Z.testbit f 1).
  { intros f. unfold has_flags, HESS_PSD. destruct (Z.testbit f 1) eqn:T.
    - apply negb_true_iff, Z.eqb_neq. intros E. apply (f_equal (fun z => Z.testbit z 1)) in E. rewrite Z.land_spec, T in E. discriminate.
    - apply negb_false_iff, Z.eqb_eq. apply Z.bits_inj'. intros i Hi. rewrite Z.land_spec, Z.bits_0.
      destruct (Z.eq_dec i 1) as [->|]; [rewrite T; reflexivity|]. change 2 with (2 ^ 1). rewrite Z.pow2_bits_false by lia. apply andb_false_r. }
  assert (H3 : forall f, has_flags f 3 = Z.testbit f 0 || Z.testbit f 1).
  { intros f. unfold has_flags. change 3 with (Z.ones 2). rewrite (Z.land_ones f 2) by lia.
    pose proof (Z.mod_pos_bound f 4 ltac:(lia)) as B. assert (E0 : Z.testbit f 0 = Z.testbit (f mod 4) 0) by (change 4 with (2^2); rewrite Z.mod_pow2_bits_low by lia; reflexivity).
    assert (E1 : Z.testbit f 1 = Z.testbit (f mod 4) 1) by (change 4 with (2^2); rewrite Z.mod_pow2_bits_low by lia; reflexivity).
    change (2 ^ 2) with 4. rewrite E0, E1. assert (C : f mod 4 = 0 \/ f mod 4 = 1 \/ f mod 4 = 2 \/ f mod 4 = 3) by lia.
    destruct C as [C|[C|[C|C]]]; rewrite C; reflexivity. }
  intros src E. rewrite !H1, !H2. unfold derived_flags, derived_dyn_flags, flags_copy, flags_set.
  change (Z.lor HESS_INEXACT HESS_PSD) with 3. rewrite H3, H2, E, orb_diag.
  destruct (Z.testbit src 1); split; [reflexivity|split; reflexivity|reflexivity|split; reflexivity].
Qed.
Print Assumptions C41_derived_partial.

(** A Hessian that is only inexact becomes one declared positive semidefinite, and conversely;
    a dynamic function loses the inexactness flag. *)
Theorem C41_derived_refuted :
  (exists src, has_flags src HESS_INEXACT = true /\ has_flags src HESS_PSD = false /\ has_flags (derived_flags src) HESS_PSD = true)
  /\ (exists src, has_flags src HESS_PSD = true /\ has_flags src HESS_INEXACT = false /\ has_flags (derived_flags src) HESS_INEXACT = true)
  /\ (exists src, has_flags src HESS_INEXACT = true /\ has_flags (derived_dyn_flags src) HESS_INEXACT = false).
Proof. split; [exists 1|split; [exists 2|exists 1]]; repeat split. Qed.
Print Assumptions C41_derived_refuted.

Theorem C41_lsq : has_flags lsq_flags HESS_PSD = has_flags derived_lsq_flags HESS_PSD
  /\ has_flags lsq_flags HESS_INEXACT = has_flags derived_lsq_flags HESS_INEXACT.
Proof. split; reflexivity. Qed.
Print Assumptions C41_lsq.

Example C41_example : flags_copy 2 12 2 = 14 /\ flags_copy 12 2 2 = 0 /\ derived_flags 3 = 7.
Proof. repeat split. Qed.

(** ** C42 *)
Definition live (h : heap) (i : nat) : Prop := exists o, nth_error h i = Some (Some o).
Definition freed (h : heap) (i : nat) : Prop := nth_error h i = Some None.
(** Pointers to [i]: held by the client, or by objects that are still live. *)
Definition pointers (s : rstate) (i : nat) : nat :=
  (count_occ Nat.eq_dec (rs_handles s) i + list_sum (map (fun sl => match sl with Some o => count_occ Nat.eq_dec (kids o) i | None => 0%nat end) (rs_heap s)))%nat.

(** Starting from nothing, programs of any length that only use pointers they hold never touch
    freed memory (no step fails), the count of each live object is its number of pointers, and an
    object is live iff there is one. *)
Theorem C42_counts : forall ops s, rruns (mkrs [] []) ops s ->
  (forall op, rlegal s op -> exists s', rstep s op = Ok s')
  /\ (forall i o, nth_error (rs_heap s) i = Some (Some o) -> rc o = pointers s i)
  /\ (forall i, live (rs_heap s) i <-> (0 < pointers s i)%nat).
Proof.
  intros ops s Hr. pose proof (rruns_inv _ _ _ Hr rinv_empty) as Hi. split; [|split].
  - intros op Hl. destruct (rstep_ok s op Hi Hl) as (s' & E & _). eauto.
  - intros i o Ho. destruct Hi as [H1 _]. apply H1 in Ho. apply Ho.
  - intros i. destruct Hi as [H1 H2]. split.
    + intros (o & Ho). destruct (H1 i o Ho) as (A & B & _). unfold pointers. unfold refs, slot_refs in A. lia.
    + intros Hp. apply H2. exact Hp.
Qed.
Print Assumptions C42_counts.

(** Freed objects stay freed (hence are freed once); when the client holds nothing, everything
    has been freed. *)
Theorem C42_once : forall ops s, rruns (mkrs [] []) ops s ->
  (forall ops' s' i, rruns s ops' s' -> freed (rs_heap s) i -> freed (rs_heap s') i)
  /\ (rs_handles s = [] -> forall i, (i < length (rs_heap s))%nat -> freed (rs_heap s) i).
Proof.
  intros ops s Hr. pose proof (rruns_inv _ _ _ Hr rinv_empty) as Hi. split.
  - intros ops' s' i Hr'. revert Hi. clear Hr. induction Hr' as [|s op s1 ops' s2 Hl E Hr' IH]; intros Hi Hf; [exact Hf|].
    destruct (rstep_ok s op Hi Hl) as (s1' & E' & I1). assert (s1 = s1') as <- by congruence. apply IH; [exact I1|]. clear IH Hr' I1 E'.
    assert (Hn : (forall o, nth_error (rs_heap s) i <> Some (Some o)) /\ (i < length (rs_heap s))%nat).
    { split; [intros o Ho; unfold freed in Hf; congruence|]. apply nth_error_Some. unfold freed in Hf. congruence. }
    destruct op as [ks|k|k]; cbn [rstep rlegal] in *.
    + unfold create in E. destruct (captures_ok ks (rs_heap s) (rs_handles s) Hi) as (h1 & E1 & _ & L1 & S1).
      { intros k Hin. destruct Hi as [_ Hi2]. apply Hi2. pose proof (proj1 (count_occ_In Nat.eq_dec _ k) (Hl k Hin)). lia. }
      rewrite E1 in E. cbn [rbind fst snd] in E. assert (rs_heap s1 = h1 ++ [Some (mkobj 1 ks)]) as -> by (injection E as <-; reflexivity).
      unfold freed. rewrite nth_error_app1 by lia. destruct (nth_error h1 i) as [[o|]|] eqn:En; [|reflexivity|].
      * exfalso. destruct (proj2 (S1 i) (ex_intro _ o En)) as (o' & Ho'). destruct Hn as [Hn _]. exact (Hn o' Ho').
      * apply nth_error_None in En. lia.
    + destruct Hi as [H1 H2]. destruct (H2 k) as (o & Ho). { pose proof (proj1 (count_occ_In Nat.eq_dec _ _) Hl). lia. }
      destruct (capture_ok _ _ k o (conj H1 H2) Ho) as (h' & E1 & _ & L1 & S1). rewrite E1 in E. cbn [rbind] in E.
      assert (rs_heap s1 = h') as -> by (injection E as <-; reflexivity).
      unfold freed. destruct (nth_error h' i) as [[o'|]|] eqn:En; [|reflexivity|].
      * exfalso. destruct (proj2 (S1 i) (ex_intro _ o' En)) as (o2 & Ho2). destruct Hn as [Hn _]. exact (Hn o2 Ho2).
      * apply nth_error_None in En. lia.
    + assert (Hlt : (k < length (rs_heap s))%nat).
      { destruct Hi as [_ H2]. destruct (H2 k) as (o & Ho). { pose proof (proj1 (count_occ_In Nat.eq_dec _ _) Hl). lia. } now apply nth_len in Ho. }
      destruct (release_ok (length (rs_heap s)) (rs_heap s) (remove_one k (rs_handles s)) k Hlt) as (h' & E1 & _ & _ & F1).
      { apply (rinv_perm _ (rs_handles s)); [|exact Hi]. intros x. symmetry. now apply cnt_remove_one. }
      rewrite E1 in E. cbn [rbind] in E. assert (rs_heap s1 = h') as -> by (injection E as <-; reflexivity). exact (F1 i Hf).
  - intros Hh i Hlt. rewrite Hh in Hi. unfold freed. destruct (nth_error (rs_heap s) i) as [[o|]|] eqn:En; [|reflexivity|].
    + exfalso. exact (rinv_no_leak _ Hi i o En).
    + apply nth_error_None in En. lia.
Qed.
Print Assumptions C42_once.

(** Non-vacuity: a solver-like object over a shared child; the child outlives its parent. *)
Example C42_example : exists s1 s2,
  rruns (mkrs [] []) [RCreate []; RCreate [0%nat; 0%nat]; RCapture 0; RRelease 1; RRelease 0] s1
  /\ freed (rs_heap s1) 1 /\ live (rs_heap s1) 0 /\ rruns s1 [RRelease 0] s2 /\ freed (rs_heap s2) 0.
Proof.
  eexists _, _. split; [|split; [|split; [|split]]].
  - repeat (eapply rruns_cons; [cbn; unfold incl; cbn; intuition|reflexivity|]). apply rruns_nil.
  - reflexivity.
  - eexists. reflexivity.
  - repeat (eapply rruns_cons; [cbn; intuition|reflexivity|]). apply rruns_nil.
  - reflexivity.
Qed.
