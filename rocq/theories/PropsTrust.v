(** Property theorems C19, C20: trust radii and penalty. *)
From Coq Require Import Reals Lra.
From Flocq Require Import Core BinarySingleNaN.
From Verif Require Import Base Num Cmp Order F64Facts RSum VecReal CmpFacts TrustRadius TrustRadiusFacts PropsVec.
Local Open Scope R_scope.

(** ** C19 *)

(** One update of the LP radius: positive, at most a factor ten down and seven up;
    it grows only after an accepted full Cauchy step, and a rejected step inside the
    radius at least halves it. *)
Theorem C19_lp_radius : forall accepted trial cauchy full r, 0 < r ->
  r / 10 <= @update_lp_radius RN accepted trial cauchy full r <= 7 * r
  /\ (accepted && full = false -> @update_lp_radius RN accepted trial cauchy full r <= r)
  /\ (accepted = false -> trial <= r -> @update_lp_radius RN accepted trial cauchy full r <= r / 2)
  /\ (accepted = true -> @update_lp_radius RN accepted trial cauchy full r <= Rmax (Rmax (12/10 * trial) (12/10 * cauchy)) (r/10)).
Proof.
  intros acc t c full r Hr. pose proof (upd_lp_bounds acc t c full r Hr) as [H1 H2]. split; [|split; [|split]].
  - destruct (acc && full); rnum; lra.
  - intros E. rewrite E in H2. exact H2.
  - intros -> Ht. now apply upd_lp_reject.
  - intros ->. now apply upd_lp_accept.
Qed.
Print Assumptions C19_lp_radius.

(** One update of the EQP radius. *)
Theorem C19_radius : forall eps ratio accepted norm r, 0 <= eps -> 0 <= norm -> 0 < r ->
  0 < @update_radius RN eps ratio accepted norm r <= 7 * Rmax r norm
  /\ (accepted = true -> r <= @update_radius RN eps ratio accepted norm r)
  /\ (accepted = false -> ratio < 3/10 -> @update_radius RN eps ratio accepted norm r <= r / 2).
Proof.
  intros eps q acc nm r He Hn Hr. split; [now apply upd_tr_pos|]. split.
  - intros ->. apply Rge_le. now apply upd_tr_keeps.
  - intros -> Hq. now apply upd_tr_reject.
Qed.
Print Assumptions C19_radius.

(** Every infinite run keeps the radius positive; n consecutive poor rejections bring it
    down by 2^n; an unbroken series of them passes every dead-point bound. *)
Theorem C19_runs : forall eps r0 run, 0 <= eps -> 0 < r0 -> (forall q, 0 <= ts_norm (run q)) ->
  (forall n, 0 < radii eps r0 run n)
  /\ (forall k n, (forall q, (k <= q < k + n)%nat -> ts_acc (run q) = false /\ ts_ratio (run q) < 3/10) ->
        radii eps r0 run (k + n) <= radii eps r0 run k / 2 ^ n)
  /\ (forall k bound, 0 < bound -> (forall q, (k <= q)%nat -> ts_acc (run q) = false /\ ts_ratio (run q) < 3/10) ->
        exists n, radii eps r0 run (k + n) <= bound).
Proof.
  intros eps r0 run He Hr Hn. split; [|split].
  - intros n. now apply radii_pos.
  - intros k n H. now apply radii_halve.
  - intros k bound Hb H. now apply radii_deadpoint.
Qed.
Print Assumptions C19_runs.

(** The same for doubles: as long as tolerance and bound are at least 2^-1000, rejections
    (also with a NaN ratio) reach the bound, without passing through zero, NaN or infinity. *)
Theorem C19_runs_f64 : forall (eps r0 bound : f64) run,
  ffin r0 = true -> 0 < B2R r0 -> ffin bound = true -> bpow radix2 (-1000) <= B2R bound ->
  fnn eps -> bpow radix2 (-1000) <= f64val eps ->
  (forall q, ffin (fs_norm (run q)) = true /\ 0 <= B2R (fs_norm (run q)) /\ @nleb F64 (nlit 3 10) (fs_ratio (run q)) = false) ->
  exists n, @nleb F64 (fradii eps r0 run n) bound = true /\ 0 < B2R (fradii eps r0 run n)
    /\ forall k, (k <= n)%nat -> ffin (fradii eps r0 run k) = true.
Proof. exact fradii_deadpoint. Qed.
Print Assumptions C19_runs_f64.

Definition fmin_sub : f64 := @B754_finite 53 1024 false 1 (-1074) eq_refl.
(** Below the normal range doubles do underflow: the smallest radius is halved to zero. *)
Theorem C19_positive_f64_refuted : exists r : f64, f64val r > 0 /\ forall norm ratio,
  @nleb F64 (nlit 3 10) ratio = false -> @nleb F64 (nlit 9 10) ratio = false -> @is_zero F64 norm n0 = true ->
  @neqb F64 (@update_radius F64 n0 ratio false norm r) n0 = true.
Proof.
  exists fmin_sub. split.
  - unfold fmin_sub. cbn [f64val B2R]. apply F2R_gt_0. reflexivity.
  - intros norm ratio H1 H2 H3. unfold update_radius. rewrite H1, H2, H3. vm_compute. reflexivity.
Qed.
Print Assumptions C19_positive_f64_refuted.

(** Non-vacuity: two rejections, then an accepted very good step. *)
Definition c19_run (n : nat) : tstep :=
  match n with O => mkts (1/10) false 3 | S O => mkts (-1) false 0 | _ => mkts 1 true 2 end.
Example C19_example :
  radii 0 8 c19_run 1 = 3/2 /\ radii 0 8 c19_run 2 = 3/4 /\ radii 0 8 c19_run 3 = 14
  /\ @update_lp_radius RN false 1 1 false 4 = 1/2 /\ @update_lp_radius RN true 3 1 true 1 = 36/10.
Proof.
  assert (E1 : radii 0 8 c19_run 1 = 3/2).
  { cbn [radii c19_run ts_ratio ts_acc ts_norm]. unfold update_radius, is_zero.
    replace (nleb (nlit 9 10) (1/10)) with false by (symmetry; apply rn_leb_false; rlits; lra).
    replace (nleb (nlit 3 10) (1/10)) with false by (symmetry; apply rn_leb_false; rlits; lra).
    rewrite rn_abs. replace (nleb (Rabs 3) 0) with false by (symmetry; apply rn_leb_false; rnum; rewrite Rabs_pos_eq; lra).
    rmm. rlits. unfold Rmin. destruct (Rle_dec _ _); lra. }
  assert (E2 : radii 0 8 c19_run 2 = 3/4).
  { change (radii 0 8 c19_run 2) with (@update_radius RN 0 (-1) false 0 (radii 0 8 c19_run 1)). rewrite E1. unfold update_radius, is_zero.
    replace (nleb (nlit 9 10) (-1)) with false by (symmetry; apply rn_leb_false; rlits; lra).
    replace (nleb (nlit 3 10) (-1)) with false by (symmetry; apply rn_leb_false; rlits; lra).
    rewrite rn_abs. replace (nleb (Rabs 0) 0) with true by (symmetry; apply rn_leb; rnum; rewrite Rabs_R0; lra).
    rlits. lra. }
  assert (E3 : radii 0 8 c19_run 3 = 14).
  { change (radii 0 8 c19_run 3) with (@update_radius RN 0 1 true 2 (radii 0 8 c19_run 2)). rewrite E2. unfold update_radius.
    replace (nleb (nlit 9 10) 1) with true by (symmetry; apply rn_leb; rlits; lra).
    rmm. rlits. unfold Rmax. destruct (Rle_dec _ _); lra. }
  split; [exact E1|]. split; [exact E2|]. split; [exact E3|]. split.
  - unfold update_lp_radius. rmm. rlits. unfold Rmax, Rmin. repeat destruct (Rle_dec _ _); lra.
  - unfold update_lp_radius. rmm. rlits. unfold Rmax, Rmin. repeat destruct (Rle_dec _ _); lra.
Qed.

(** ** C20 *)

(** [solve n None] / [solve n (Some p)] is whatever violation the LP solver reports at its
    n-th call.  Up to the limit of 100 increases, the first penalty meeting the test is
    returned.  Missing from the full claim: at the limit the test need not hold (below). *)
Theorem C20_penalty_partial : forall (solve : nat -> option R -> R) m current p,
  let result := @update_penalty RN solve m current p in
  let tolr := / 10 ^ 8 in
  let cur := current / m in
  let inf := solve O None / m in
  let ok next := (inf <= tolr /\ next <= tolr) \/ (inf > tolr /\ cur - next >= / 10 * (cur - inf)) in
  (cur <= tolr -> result = p)
  /\ (inf > tolr -> cur - inf <= tolr -> result = p)
  /\ (cur > tolr -> (inf <= tolr \/ cur - inf > tolr) ->
      exists k, (1 <= k <= 100)%nat /\ result = p * 10 ^ k
        /\ (forall j, (1 <= j < k)%nat -> ~ ok (solve j (Some (p * 10 ^ j)) / m))
        /\ (ok (solve k (Some result) / m) \/ k = 100%nat)).
Proof.
  intros solve m current p result tolr cur inf ok. subst result. unfold update_penalty.
  assert (Et : (@violation_tolerance RN : R) = tolr). { unfold violation_tolerance, tolr. rlits. cbn. lra. }
  rewrite Et. change (@ndiv RN current m) with cur. change (@ndiv RN (solve O None) m) with inf.
  change (@nsub RN cur inf) with (cur - inf).
  split; [|split].
  - intros H. now rewrite (proj2 (rn_leb cur tolr) H).
  - intros H1 H2. destruct (nleb cur tolr); [reflexivity|].
    rewrite (proj2 (rn_leb_false inf tolr)) by exact H1. now rewrite (proj2 (rn_leb (cur - inf) tolr) H2).
  - intros H1 H2. rewrite (proj2 (rn_leb_false cur tolr)) by exact H1.
    destruct (nleb inf tolr) eqn:Ei.
    + apply rn_leb in Ei.
      destruct (penalty_loop_spec solve m (fun next => @nleb RN next tolr) max_increases 1 p) as (k & K1 & K2 & K3 & K4); [unfold max_increases; lia|].
      exists k. split; [exact K1|]. split; [exact K2|]. split.
      * intros j Hj. specialize (K3 j Hj). replace (1 + j - 1)%nat with j in K3 by lia. apply rn_leb_false in K3.
        intros [[_ H]|[H _]]; rnum; lra.
      * destruct K4 as [K4|K4]; [left|right; exact K4]. replace (1 + k - 1)%nat with k in K4 by lia.
        rewrite K2. left. apply rn_leb in K4. now split.
    + apply rn_leb_false in Ei. rewrite (proj2 (rn_leb_false (cur - inf) tolr)).
      2: { destruct H2 as [H2|H2]; rnum; lra. }
      destruct (penalty_loop_spec solve m (fun next => @nleb RN (nmul min_decrease (cur - inf)) (nsub cur next)) max_increases 1 p) as (k & K1 & K2 & K3 & K4); [unfold max_increases; lia|].
      assert (Em : (@nmul RN min_decrease (cur - inf) : R) = / 10 * (cur - inf)). { unfold min_decrease. rlits. lra. }
      exists k. split; [exact K1|]. split; [exact K2|]. rewrite K2. clear K2. rewrite Em in K4.
      assert (K3' : forall j, (1 <= j < k)%nat -> @nleb RN (/ 10 * (cur - inf)) (cur - solve (1 + j - 1)%nat (Some (p * 10 ^ j)) / m) = false) by (intros j Hj; rewrite <- Em; exact (K3 j Hj)).
      clear K3. rename K3' into K3. split.
      * intros j Hj. specialize (K3 j Hj). replace (1 + j - 1)%nat with j in K3 by lia. apply rn_leb_false in K3.
        intros [[H _]|[_ H]]; rnum; lra.
      * destruct K4 as [K4|K4]; [left|right; exact K4]. replace (1 + k - 1)%nat with k in K4 by lia.
        right. apply rn_leb in K4. cbn [nsub RN] in K4. rnum. split; [exact Ei|lra].
Qed.
Print Assumptions C20_penalty_partial.

(** The claim as stated fails: after 100 unsuccessful increases the routine returns
    normally, with a penalty 10^100 times larger and the violation unchanged. *)
Theorem C20_success_refuted : exists (solve : nat -> option R -> R) (m current p : R),
  solve O None / m <= / 10 ^ 8 < current / m
  /\ @update_penalty RN solve m current p = p * 10 ^ 100
  /\ forall n q, ~ solve n (Some q) / m <= / 10 ^ 8.
Proof.
  exists (fun _ o => match o with None => 0 | Some _ => 1 end), 1, 1, 10.
  assert (T : / 10 ^ 8 < 1). { rewrite <- Rinv_1. apply Rinv_lt_contravar; cbn; lra. }
  assert (T0 : 0 < / 10 ^ 8). { apply Rinv_0_lt_compat. cbn; lra. }
  split; [lra|]. split; [|intros; lra].
  pose proof (C20_penalty_partial (fun _ o => match o with None => 0 | Some _ => 1 end) 1 1 10) as (_ & _ & H).
  destruct H as (k & K1 & K2 & K3 & K4); [lra|left; lra|].
  destruct K4 as [[[_ K4]|[K4 _]]|K4]; [exfalso; lra|exfalso; lra|]. now rewrite K2, K4.
Qed.
Print Assumptions C20_success_refuted.

(** Non-vacuity: two increases, the second successful. *)
Definition c20_solve (n : nat) (o : option R) : R := match o with None => 1 | Some q => if Rle_dec q 50 then 4 else 2 end.
Example C20_example :
  @update_penalty RN c20_solve 2 4 1 = 100.
Proof.
  pose proof (C20_penalty_partial c20_solve 2 4 1) as (_ & _ & H).
  assert (T : / 10 ^ 8 < 1/2). { apply (Rmult_lt_reg_l (10 ^ 8)); [cbn; lra|]. rewrite Rinv_r by (cbn; lra). cbn; lra. }
  destruct H as (k & K1 & K2 & K3 & K4); [unfold c20_solve; lra|right; unfold c20_solve; lra|]. rewrite K2.
  destruct (Nat.eq_dec k 2) as [->|Hk]; [cbn; lra|]. exfalso.
  assert (S1 : c20_solve 0 None = 1) by reflexivity. rewrite S1 in *.
  destruct (Nat.eq_dec k 1) as [->|Hk1].
  - destruct K4 as [K4|K4]; [|discriminate]. rewrite K2 in K4. unfold c20_solve in K4. cbn [pow] in K4.
    destruct (Rle_dec _ _); [|lra]. destruct K4 as [[K4 _]|[_ K4]]; lra.
  - apply (K3 2%nat); [lia|]. unfold c20_solve. cbn [pow]. destruct (Rle_dec _ _); [lra|]. right. lra.
Qed.
