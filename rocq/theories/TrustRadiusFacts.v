(** Facts about the trust radius and penalty updates. *)
From Coq Require Import Reals Lra Psatz.
From Flocq Require Import Core BinarySingleNaN Mult_error.
From Verif Require Import Base Num Cmp Vec Order F64Facts RSum VecReal CmpFacts TrustRadius.
Local Open Scope R_scope.

Notation upd_lp := (@update_lp_radius RN).
Notation upd_tr := (@update_radius RN).

Ltac rlits := cbn [nlit RN nmul nadd nsub ndiv num]; unfold rn_lit; rnum.
Ltac rmm := repeat match goal with
  | |- context [@nmax RN ?a ?b] => rewrite (rn_max a b)
  | |- context [@nmin RN ?a ?b] => rewrite (rn_min a b) end.

Lemma upd_lp_bounds acc t c full r : 0 < r ->
  r / 10 <= upd_lp acc t c full r <= (if acc && full then 7 * r else r).
Proof.
  intros Hr. unfold update_lp_radius. destruct acc.
  - rmm. rlits. destruct full; cbn [andb]; unfold Rmax, Rmin; repeat destruct (Rle_dec _ _); lra.
  - rmm. rlits. cbn [andb]. unfold Rmax, Rmin; repeat destruct (Rle_dec _ _); lra.
Qed.

Lemma upd_lp_accept t c full r : 0 < r -> upd_lp true t c full r <= Rmax (Rmax (12/10 * t) (12/10 * c)) (r/10).
Proof.
  intros Hr. unfold update_lp_radius. rmm. rlits. destruct full; unfold Rmax, Rmin; repeat destruct (Rle_dec _ _); lra.
Qed.

Lemma upd_lp_reject t c full r : 0 < r -> t <= r -> upd_lp false t c full r <= r / 2.
Proof.
  intros Hr Ht. unfold update_lp_radius. rmm. rlits. unfold Rmax, Rmin; repeat destruct (Rle_dec _ _); lra.
Qed.

Lemma upd_tr_pos eps ratio acc norm r : 0 <= eps -> 0 <= norm -> 0 < r -> 0 < upd_tr eps ratio acc norm r <= 7 * Rmax r norm.
Proof.
  intros He Hn Hr. unfold update_radius, is_zero. pose proof (Rmax_l r norm). pose proof (Rmax_r r norm).
  destruct (nleb (nlit 9 10) ratio); [rmm; rlits; unfold Rmax at 1 2; destruct (Rle_dec _ _); lra|].
  destruct (nleb (nlit 3 10) ratio); [rmm; rlits; unfold Rmax at 1 2; destruct (Rle_dec _ _); lra|].
  destruct acc; [lra|]. destruct (nleb (nabs norm) eps) eqn:E; [rlits; lra|].
  apply rn_leb_false in E. rewrite rn_abs in E. rnum. rewrite Rabs_pos_eq in E by lra.
  rmm. rlits. unfold Rmin. destruct (Rle_dec _ _); lra.
Qed.

Lemma upd_tr_reject eps ratio norm r : ratio < 3/10 -> 0 < r -> upd_tr eps ratio false norm r <= r / 2.
Proof.
  intros Hq Hr. unfold update_radius.
  replace (nleb (nlit 9 10) ratio) with false.
  2: { symmetry. apply rn_leb_false. rlits. lra. }
  replace (nleb (nlit 3 10) ratio) with false.
  2: { symmetry. apply rn_leb_false. rlits. lra. }
  destruct (is_zero norm eps); [rlits; lra|]. rmm. rlits. unfold Rmin. destruct (Rle_dec _ _); lra.
Qed.

Lemma upd_tr_keeps eps ratio norm r : 0 <= norm -> 0 < r -> upd_tr eps ratio true norm r >= r.
Proof.
  intros Hn Hr. unfold update_radius.
  destruct (nleb (nlit 9 10) ratio); [rmm; rlits; unfold Rmax; destruct (Rle_dec _ _); lra|].
  destruct (nleb (nlit 3 10) ratio); [rmm; rlits; unfold Rmax; destruct (Rle_dec _ _); lra|]. lra.
Qed.

(** A run of updates. *)
Record tstep := mkts { ts_ratio : R; ts_acc : bool; ts_norm : R }.
Fixpoint radii (eps r0 : R) (run : nat -> tstep) (n : nat) : R :=
  match n with
  | O => r0
  | S n' => upd_tr eps (ts_ratio (run n')) (ts_acc (run n')) (ts_norm (run n')) (radii eps r0 run n')
  end.

Lemma radii_pos eps r0 run n : 0 <= eps -> 0 < r0 -> (forall k, 0 <= ts_norm (run k)) -> 0 < radii eps r0 run n.
Proof.
  intros He Hr Hn. induction n as [|n IH]; cbn [radii]; auto. apply upd_tr_pos; auto.
Qed.

Lemma radii_halve eps r0 run k n : 0 <= eps -> 0 < r0 -> (forall q, 0 <= ts_norm (run q)) ->
  (forall q, (k <= q < k + n)%nat -> ts_acc (run q) = false /\ ts_ratio (run q) < 3/10) ->
  radii eps r0 run (k + n) <= radii eps r0 run k / 2 ^ n.
Proof.
  intros He Hr Hn. induction n as [|n IH]; intros Hrej.
  - rewrite Nat.add_0_r. cbn [pow]. lra.
  - rewrite Nat.add_succ_r. cbn [radii pow]. destruct (Hrej (k + n)%nat) as [Ha Hq]; [lia|]. rewrite Ha.
    pose proof (radii_pos eps r0 run (k + n) He Hr Hn) as Hp.
    eapply Rle_trans; [apply upd_tr_reject; auto|].
    assert (IH' : radii eps r0 run (k + n) <= radii eps r0 run k / 2 ^ n). { apply IH. intros q Hq'. apply Hrej. lia. }
    assert (H2 : 0 < 2 ^ n) by (apply pow_lt; lra).
    replace (radii eps r0 run k / (2 * 2 ^ n)) with (radii eps r0 run k / 2 ^ n / 2) by (field; lra). lra.
Qed.

Lemma pow2_big x : exists n, x <= 2 ^ n.
Proof.
  destruct (Rle_or_lt x 1) as [H|H]; [exists O; cbn; lra|].
  destruct (archimed x) as [Ha _]. exists (Z.to_nat (up x)).
  assert (Hu : (0 < up x)%Z) by (apply lt_IZR; lra).
  apply Rle_trans with (IZR (up x)); [lra|].
  rewrite <- (Z2Nat.id (up x)) at 1 by lia. rewrite <- INR_IZR_INZ. clear.
  induction (Z.to_nat (up x)) as [|m IH]; [cbn; lra|]. rewrite S_INR. cbn [pow].
  assert (1 <= 2 ^ m) by (apply pow_R1_Rle; lra). lra.
Qed.

Lemma radii_deadpoint eps r0 run k bound : 0 <= eps -> 0 < r0 -> (forall q, 0 <= ts_norm (run q)) -> 0 < bound ->
  (forall q, (k <= q)%nat -> ts_acc (run q) = false /\ ts_ratio (run q) < 3/10) ->
  exists n, radii eps r0 run (k + n) <= bound.
Proof.
  intros He Hr Hn Hb Hrej. destruct (pow2_big (radii eps r0 run k / bound)) as (n & Hn2). exists n.
  eapply Rle_trans; [apply radii_halve; auto; intros; apply Hrej; lia|].
  assert (H2 : 0 < 2 ^ n) by (apply pow_lt; lra).
  apply (Rmult_le_reg_r (2 ^ n)); auto. unfold Rdiv. rewrite Rmult_assoc, Rinv_l by lra. rewrite Rmult_1_r.
  apply (Rmult_le_reg_r (/ bound)); [now apply Rinv_0_lt_compat|]. fold (radii eps r0 run k / bound).
  replace (bound * 2 ^ n * / bound) with (2 ^ n) by (field; lra). exact Hn2.
Qed.

(** ** Doubles *)
Lemma half_val : ffin (@nlit F64 1 2) = true /\ B2R (@nlit F64 1 2 : f64) = 1 / 2.
Proof.
  assert (H : B2SF (@nlit F64 1 2 : f64) = SpecFloat.S754_finite false 4503599627370496 (-53)) by (vm_compute; reflexivity).
  split.
  - unfold ffin. rewrite is_finite_B2SF' || idtac. destruct (@nlit F64 1 2 : f64); cbn in H; try discriminate; reflexivity.
  - rewrite <- SF2R_B2SF, H. cbn [SF2R]. unfold F2R. cbn [Fnum Fexp cond_Zopp]. 
    replace (bpow radix2 (-53)) with (/ IZR (2 ^ 53)) by reflexivity. cbn [Z.pow Z.pow_pos Pos.iter Z.mul Pos.mul]. lra.
Qed.

Definition tiny : R := bpow radix2 (-1000).

Lemma tiny_pos : 0 < tiny. Proof. apply bpow_gt_0. Qed.

Lemma half_exact (x : f64) : ffin x = true -> tiny <= B2R x ->
  f64val (@nmul F64 (nlit 1 2) x) = B2R x / 2 /\ f64val (@nmul F64 x (nlit 1 2)) = B2R x / 2
  /\ ffin (@nmul F64 (nlit 1 2) x) = true /\ ffin (@nmul F64 x (nlit 1 2)) = true.
Proof.
  intros Hx Hb. destruct half_val as [Hf Hv]. pose proof tiny_pos as Ht.
  assert (Hr : rnd (B2R x * (1/2)) = B2R x / 2).
  { replace (B2R x * (1/2)) with (B2R x * bpow radix2 (-1)) by (cbn; lra).
    unfold rnd. rewrite round_generic; [cbn; lra| apply valid_rnd_N |].
    apply (mult_bpow_exact_FLT radix2 (3 - 1024 - 53) 53).
    - exact (generic_format_B2R 53 1024 x).
    - assert (-1000 + 1 <= mag radix2 (B2R x))%Z; [|lia].
      rewrite <- (mag_bpow radix2). apply mag_le; auto. }
  pose proof (f64_abs_lt x) as Ha. apply Rabs_lt_inv in Ha.
  assert (Hs : sat (B2R x / 2) = B2R x / 2) by (apply sat_small; apply Rabs_lt; lra).
  destruct (mul_val _ _ Hf Hx) as [N1 V1]. destruct (mul_val _ _ Hx Hf) as [N2 V2].
  rewrite (fval_fin _ Hf), (fval_fin _ Hx), Hv in V1, V2. rewrite (Rmult_comm (1/2)) in V1.
  rewrite Hr, Hs in V1, V2.
  assert (Hl : Rabs (B2R x / 2) < big) by (apply Rabs_lt; lra).
  split; [exact V1|]. split; [exact V2|]. split; apply fin_iff; (split; [assumption|]).
  - rewrite V1. exact Hl.
  - rewrite V2. exact Hl.
Qed.

Lemma lit_order : @nleb F64 (nlit 3 10) (nlit 9 10) = true /\ fnn (nlit 3 10) /\ fnn (nlit 9 10).
Proof. split; [|split]; vm_compute; reflexivity. Qed.

Lemma upd_tr_reject_f64 (eps ratio norm r : f64) :
  ffin r = true -> ffin norm = true -> fnn eps -> tiny <= f64val eps -> 0 <= B2R norm -> tiny <= B2R r ->
  @nleb F64 (nlit 3 10) ratio = false ->
  let r' := @update_radius F64 eps ratio false norm r in
  ffin r' = true /\ 0 < B2R r' <= B2R r / 2.
Proof.
  intros Fr Fn Ne He Hn Hr Hq. cbv zeta. unfold update_radius. rewrite Hq.
  replace (nleb (nlit 9 10) ratio) with false.
  2: { symmetry. destruct lit_order as (L1 & L2 & L3). destruct (nn_dec ratio) as [Nr|Nr].
       - rewrite leb_false_iff in Hq |- * by assumption. rewrite leb_iff in L1 by assumption. lra.
       - apply nan_leb. exact Nr. }
  pose proof tiny_pos as Ht. destruct (half_exact r Fr Hr) as (V1 & V2 & F1 & F2).
  destruct (is_zero norm eps) eqn:Z.
  - rewrite (fval_fin _ F2) in V2. split; [exact F2|]. rewrite V2. lra.
  - unfold is_zero in Z. rewrite leb_false_iff in Z by (fnns; now apply nn_fin).
    rewrite val_abs in Z by (now apply nn_fin). change (@val F64 F64_Ord) with f64val in Z.
    rewrite (fval_fin _ Fn), Rabs_pos_eq in Z by auto.
    destruct (half_exact norm Fn) as (W1 & _ & G1 & _); [lra|].
    set (a := @nmul F64 (nlit 1 2) r) in *. set (b := @nmul F64 (nlit 1 2) norm) in *.
    assert (Hm : ffin (nmin a b) = true). { unfold nmin. destruct (nltb a b); auto. }
    assert (Hv : f64val (nmin a b) = Rmin (f64val a) (f64val b)). { apply (@val_min F64 F64_Ord); now apply nn_fin. }
    split; [exact Hm|]. rewrite (fval_fin _ Hm), V1, W1 in Hv. rewrite Hv. unfold Rmin. destruct (Rle_dec _ _); lra.
Qed.

Record fstep := mkfs { fs_ratio : f64; fs_norm : f64 }.
Fixpoint fradii (eps r0 : f64) (run : nat -> fstep) (n : nat) : f64 :=
  match n with
  | O => r0
  | S n' => @update_radius F64 eps (fs_ratio (run n')) false (fs_norm (run n')) (fradii eps r0 run n')
  end.

Lemma fradii_deadpoint (eps r0 bound : f64) run :
  ffin r0 = true -> 0 < B2R r0 -> ffin bound = true -> tiny <= B2R bound -> fnn eps -> tiny <= f64val eps ->
  (forall q, ffin (fs_norm (run q)) = true /\ 0 <= B2R (fs_norm (run q)) /\ @nleb F64 (nlit 3 10) (fs_ratio (run q)) = false) ->
  exists n, @nleb F64 (fradii eps r0 run n) bound = true /\ 0 < B2R (fradii eps r0 run n)
    /\ forall k, (k <= n)%nat -> ffin (fradii eps r0 run k) = true.
Proof.
  intros F0 P0 Fb Hb Ne He Hrun.
  assert (H : forall n, (exists k, (k <= n)%nat /\ ffin (fradii eps r0 run k) = true /\ 0 < B2R (fradii eps r0 run k) <= B2R bound
                         /\ forall j, (j <= k)%nat -> ffin (fradii eps r0 run j) = true)
     \/ ((forall j, (j <= n)%nat -> ffin (fradii eps r0 run j) = true) /\ B2R bound < B2R (fradii eps r0 run n) <= B2R r0 / 2 ^ n)).
  { induction n as [|n IH].
    - destruct (Rle_or_lt (B2R r0) (B2R bound)) as [H|H].
      + left. exists O. cbn [fradii]. split; [lia|]. split; [exact F0|]. split; [lra|].
        intros j Hj. replace j with O by lia. exact F0.
      + right. split; [|cbn; lra]. intros j Hj. replace j with O by lia. exact F0.
    - destruct IH as [(k & Hk & HF & HB & HJ)|(HJ & HB)].
      + left. exists k. split; [lia|]. auto.
      + destruct (Hrun n) as (A1 & A2 & A3).
        destruct (upd_tr_reject_f64 eps (fs_ratio (run n)) (fs_norm (run n)) (fradii eps r0 run n)) as [G1 G2]; auto.
        { lra. }
        change (@update_radius F64 eps (fs_ratio (run n)) false (fs_norm (run n)) (fradii eps r0 run n)) with (fradii eps r0 run (S n)) in G1, G2.
        assert (HJ' : forall j, (j <= S n)%nat -> ffin (fradii eps r0 run j) = true).
        { intros j Hj. destruct (Nat.eq_dec j (S n)) as [->|Hne]; [exact G1|apply HJ; lia]. }
        destruct (Rle_or_lt (B2R (fradii eps r0 run (S n))) (B2R bound)) as [H|H].
        * left. exists (S n). split; [lia|]. split; [exact G1|]. split; [lra|exact HJ'].
        * right. split; [exact HJ'|]. split; [exact H|]. cbn [pow].
          assert (0 < 2 ^ n) by (apply pow_lt; lra).
          replace (B2R r0 / (2 * 2 ^ n)) with (B2R r0 / 2 ^ n / 2) by (field; lra). lra. }
  pose proof tiny_pos as Ht.
  destruct (pow2_big (B2R r0 / B2R bound)) as (n & Hn).
  destruct (H n) as [(k & Hk & HF & HB & HJ)|(HJ & HB)].
  - exists k. split; [|split; [lra|exact HJ]].
    rewrite leb_iff by (now apply nn_fin). change (@val F64 F64_Ord) with f64val. rewrite (fval_fin _ HF), (fval_fin _ Fb). lra.
  - exfalso. assert (H2 : 0 < 2 ^ n) by (apply pow_lt; lra).
    assert (B2R r0 <= B2R bound * 2 ^ n).
    { apply (Rmult_le_reg_r (/ B2R bound)); [apply Rinv_0_lt_compat; lra|]. fold (B2R r0 / B2R bound).
      replace (B2R bound * 2 ^ n * / B2R bound) with (2 ^ n) by (field; lra). exact Hn. }
    assert (B2R r0 / 2 ^ n <= B2R bound).
    { apply (Rmult_le_reg_r (2 ^ n)); auto. unfold Rdiv. rewrite Rmult_assoc, Rinv_l by lra. lra. }
    lra.
Qed.

(** ** Penalty *)
Lemma penalty_loop_spec (solve : nat -> option R -> R) m ok fuel n q : (1 <= fuel)%nat ->
  exists k, (1 <= k <= fuel)%nat /\ @penalty_loop RN solve m ok fuel n q = q * 10 ^ k
    /\ (forall j, (1 <= j < k)%nat -> ok (solve (n + j - 1)%nat (Some (q * 10 ^ j)) / m) = false)
    /\ (ok (solve (n + k - 1)%nat (Some (q * 10 ^ k)) / m) = true \/ k = fuel).
Proof.
  revert n q. induction fuel as [|fuel IH]; intros n q Hf; [lia|]. cbn [penalty_loop].
  assert (E : (@nmul RN q penalty_increase : R) = q * 10 ^ 1). { unfold penalty_increase. rlits. cbn [pow]. lra. }
  rewrite E. change (@ndiv RN (solve n (Some (q * 10 ^ 1))) m) with (solve n (Some (q * 10 ^ 1)) / m).
  destruct (ok (solve n (Some (q * 10 ^ 1)) / m)) eqn:Eo.
  - exists 1%nat. split; [lia|]. split; [reflexivity|]. split; [intros; lia|].
    replace (n + 1 - 1)%nat with n by lia. now left.
  - destruct fuel as [|fuel'].
    { exists 1%nat. split; [lia|]. split; [reflexivity|]. split; [intros; lia|]. now right. }
    destruct (IH (S n) (q * 10 ^ 1)) as (k & Hk & HE & H1 & H2); [lia|].
    assert (S1 : forall j, q * 10 ^ 1 * 10 ^ j = q * 10 ^ S j). { intros j. cbn [pow]. ring. }
    exists (S k). split; [lia|]. split; [rewrite HE; apply S1|]. split.
    + intros j Hj. destruct (Nat.eq_dec j 1) as [->|Hne].
      * replace (n + 1 - 1)%nat with n by lia. exact Eo.
      * specialize (H1 (j - 1)%nat). rewrite S1 in H1. replace (S (j - 1)) with j in H1 by lia.
        replace (S n + (j - 1) - 1)%nat with (n + j - 1)%nat in H1 by lia. apply H1. lia.
    + rewrite S1 in H2. replace (S n + k - 1)%nat with (n + S k - 1)%nat in H2 by lia.
      destruct H2 as [H2| ->]; [now left|now right].
Qed.
