(** Tolerance comparisons on doubles (C10). *)
From Coq Require Import Reals Lra.
From Flocq Require Import Core IEEE754.BinarySingleNaN.
From Verif Require Import Base Num Cmp Order F64Facts.
Local Open Scope R_scope.

Notation fv := f64val.

Lemma fval_is_val (x : f64) : @val F64 F64_Ord x = f64val x. Proof. reflexivity. Qed.

Section RelDiff.
Variables x y : f64.
Hypothesis Fx : ffin x = true.
Hypothesis Fy : ffin y = true.

Definition denom (x y : f64) : f64 := @nmax F64 (@nmax F64 (@nabs F64 x) (@nabs F64 y)) (@n1 F64).

Lemma denom_val : fnn (denom x y) /\ fv (denom x y) = Rmax (Rmax (Rabs (fv x)) (Rabs (fv y))) 1.
Proof.
  unfold denom. assert (Hx := nn_fin x Fx). assert (Hy := nn_fin y Fy).
  assert (H1 : fnn (@nabs F64 x)) by now apply nn_abs.
  assert (H2 : fnn (@nabs F64 y)) by now apply nn_abs.
  split; [apply nn_max; [now apply nn_max|apply nn_1]|].
  rewrite <- !fval_is_val.
  rewrite (val_max (nmax (nabs x) (nabs y)) n1) by (first [apply nn_1 | now apply nn_max]).
  rewrite (val_max (nabs x) (nabs y)), !val_abs, val_1 by auto. reflexivity.
Qed.

Lemma denom_fin : ffin (denom x y) = true /\ 1 <= fv (denom x y).
Proof.
  destruct denom_val as [H1 H2]. split.
  - apply fin_iff. split; auto. rewrite H2.
    pose proof (proj1 (fin_iff x) Fx) as [_ Hx]. pose proof (proj1 (fin_iff y) Fy) as [_ Hy].
    assert (H3 : 1 < big). { change 1 with (bpow radix2 0). apply bpow_lt. lia. }
    rewrite Rabs_right.
    + repeat apply Rmax_lub_lt; auto.
    + apply Rle_ge. eapply Rle_trans; [|apply Rmax_r]. lra.
  - rewrite H2. apply Rmax_r.
Qed.

(** Value of the relative difference. *)
Definition relv (d m : R) : R := if Rlt_bool (Rabs d) big then rnd (d / m) else d.

Lemma rel_diff_val : fnn (@rel_diff F64 x y)
  /\ fv (@rel_diff F64 x y) = relv (sat (rnd (fv x - fv y))) (Rmax (Rmax (Rabs (fv x)) (Rabs (fv y))) 1).
Proof.
  unfold rel_diff. fold (denom x y). destruct (sub_val x y Fx Fy) as [Hd Ed].
  set (d := @nsub F64 x y) in *. destruct denom_fin as [Hm Hm1]. destruct denom_val as [_ Em].
  rewrite <- Em, <- Ed. unfold relv. destruct (Rlt_bool_spec (Rabs (fv d)) big) as [Hb|Hb].
  - assert (Fd : ffin d = true) by (apply fin_iff; auto).
    destruct (div_val d (denom x y) Fd Hm) as [H1 H2]; [lra|]. split; [exact H1|].
    change (@ndiv F64 d (nmax (nmax (nabs x) (nabs y)) n1)) with (@ndiv F64 d (denom x y)).
    rewrite H2. apply sat_small. rewrite <- rnd_abs.
    apply Rle_lt_trans with (rnd (Rabs (fv d))).
    + apply rnd_le. unfold Rdiv. rewrite Rabs_mult, (Rabs_right (/ _)).
      2:{ apply Rle_ge, Rlt_le, Rinv_0_lt_compat. lra. }
      assert (/ fv (denom x y) <= 1). { rewrite <- Rinv_1. apply Rinv_le_contravar; lra. }
      pose proof (Rabs_pos (fv d)). nra.
    + rewrite rnd_abs, fval_fin, rnd_fixed by auto. rewrite <- fval_fin; auto.
  - assert (Ed' : exists s, d = B754_infinity s).
    { destruct d as [s|s| |s m e B] eqn:E; try (exists s; reflexivity); exfalso.
      - rewrite fval_fin in Hb by reflexivity. pose proof (f64_abs_lt (B754_zero s)). lra.
      - discriminate Hd.
      - rewrite fval_fin in Hb by reflexivity. pose proof (f64_abs_lt (B754_finite s m e B)). lra. }
    destruct Ed' as (s & ->). change (@ndiv F64 (B754_infinity s) (nmax (nmax (nabs x) (nabs y)) n1))
      with (@ndiv F64 (B754_infinity s) (denom x y)).
    rewrite div_inf_pos; auto. rewrite <- fval_fin by auto. lra.
Qed.

End RelDiff.

Lemma rel_diff_antisym (x y : f64) : ffin x = true -> ffin y = true ->
  fv (@rel_diff F64 y x) = - fv (@rel_diff F64 x y).
Proof.
  intros Fx Fy. destruct (rel_diff_val x y Fx Fy) as [_ ->]. destruct (rel_diff_val y x Fy Fx) as [_ ->].
  rewrite (Rmax_comm (Rabs (fv y))). replace (fv y - fv x) with (- (fv x - fv y)) by lra.
  rewrite rnd_opp, sat_opp. unfold relv. rewrite Rabs_Ropp.
  destruct (Rlt_bool _ _); [|reflexivity].
  unfold Rdiv. now rewrite Ropp_mult_distr_l_reverse, rnd_opp.
Qed.

Lemma rel_diff_refl (x : f64) : ffin x = true -> fv (@rel_diff F64 x x) = 0.
Proof.
  intros Fx. destruct (rel_diff_val x x Fx Fx) as [_ ->]. rewrite Rminus_diag_eq by reflexivity.
  rewrite rnd_0, sat_0. unfold relv. rewrite Rabs_R0, Rlt_bool_true by apply big_pos.
  unfold Rdiv. rewrite Rmult_0_l. apply rnd_0.
Qed.

(** [eps] is a tolerance: not NaN and not negative. *)
Definition tol (eps : f64) : Prop := fnn eps /\ 0 <= fv eps.

Ltac fnns := repeat first [assumption | apply nn_opp | apply nn_abs | apply nn_0 | apply nn_1 | apply nn_max | apply nn_min].

Section Coherence.
Variables x y eps : f64.
Hypothesis Fx : ffin x = true.
Hypothesis Fy : ffin y = true.
Hypothesis Te : tol eps.

Let r := @rel_diff F64 x y.
Let Hr : fnn r := proj1 (rel_diff_val x y Fx Fy).
Let He : fnn eps := proj1 Te.

Lemma is_lt_iff : @is_lt F64 x y eps = true <-> fv r < - fv eps.
Proof. unfold is_lt. fold r. rewrite ltb_iff; fnns. rewrite val_opp. reflexivity. Qed.
Lemma is_gt_iff : @is_gt F64 x y eps = true <-> fv eps < fv r.
Proof. unfold is_gt. fold r. rewrite ltb_iff; fnns. reflexivity. Qed.
Lemma is_eq_iff : @is_eq F64 x y eps = true <-> Rabs (fv r) <= fv eps.
Proof. unfold is_eq. fold r. rewrite leb_iff; fnns. rewrite val_abs by auto. reflexivity. Qed.
Lemma is_leq_iff : @is_leq F64 x y eps = true <-> fv r <= fv eps.
Proof. unfold is_leq. fold r. rewrite leb_iff; fnns. reflexivity. Qed.
Lemma is_geq_iff : @is_geq F64 x y eps = true <-> - fv eps <= fv r.
Proof. unfold is_geq. fold r. rewrite leb_iff; fnns. rewrite val_opp. reflexivity. Qed.

Lemma trichotomy :
  (is_lt x y eps = true /\ is_eq x y eps = false /\ is_gt x y eps = false)
  \/ (is_lt x y eps = false /\ is_eq x y eps = true /\ is_gt x y eps = false)
  \/ (is_lt x y eps = false /\ is_eq x y eps = false /\ is_gt x y eps = true).
Proof.
  pose proof (proj2 Te) as H0. pose proof is_lt_iff as H1. pose proof is_gt_iff as H2. pose proof is_eq_iff as H3.
  destruct (is_lt x y eps), (is_eq x y eps), (is_gt x y eps); auto; exfalso.
  all: try (assert (A : fv r < - fv eps) by (apply H1; reflexivity)).
  all: try (assert (A' : ~ fv r < - fv eps) by (intros C; apply H1 in C; discriminate)).
  all: try (assert (B : fv eps < fv r) by (apply H2; reflexivity)).
  all: try (assert (B' : ~ fv eps < fv r) by (intros C; apply H2 in C; discriminate)).
  all: try (assert (D : Rabs (fv r) <= fv eps) by (apply H3; reflexivity)).
  all: try (assert (D' : ~ Rabs (fv r) <= fv eps) by (intros C; apply H3 in C; discriminate)).
  all: try (apply Rabs_le_inv in D; lra); try lra.
  apply D'. apply Rabs_le. lra.
Qed.

Lemma leq_iff_lt_or_eq : is_leq x y eps = is_lt x y eps || is_eq x y eps.
Proof.
  pose proof (proj2 Te) as H0. apply Bool.eq_true_iff_eq. rewrite Bool.orb_true_iff, is_leq_iff, is_lt_iff, is_eq_iff. split.
  - intros H. destruct (Rlt_dec (fv r) (- fv eps)); [auto|right]. apply Rabs_le. lra.
  - intros [H|H]; [lra|]. apply Rabs_le_inv in H. lra.
Qed.
Lemma geq_iff_gt_or_eq : is_geq x y eps = is_gt x y eps || is_eq x y eps.
Proof.
  pose proof (proj2 Te) as H0. apply Bool.eq_true_iff_eq. rewrite Bool.orb_true_iff, is_geq_iff, is_gt_iff, is_eq_iff. split.
  - intros H. destruct (Rlt_dec (fv eps) (fv r)); [auto|right]. apply Rabs_le. lra.
  - intros [H|H]; [lra|]. apply Rabs_le_inv in H. lra.
Qed.
End Coherence.

Lemma is_eq_sym (x y eps : f64) : ffin x = true -> ffin y = true -> tol eps ->
  @is_eq F64 x y eps = @is_eq F64 y x eps.
Proof.
  intros Fx Fy Te. apply Bool.eq_true_iff_eq. rewrite !is_eq_iff by auto.
  now rewrite (rel_diff_antisym x y), Rabs_Ropp.
Qed.
Lemma is_lt_gt_sym (x y eps : f64) : ffin x = true -> ffin y = true -> tol eps ->
  @is_lt F64 x y eps = @is_gt F64 y x eps.
Proof.
  intros Fx Fy Te. apply Bool.eq_true_iff_eq. rewrite is_lt_iff, is_gt_iff by auto.
  rewrite (rel_diff_antisym x y) by auto. split; intros; lra.
Qed.
Lemma is_eq_refl (x eps : f64) : ffin x = true -> tol eps -> @is_eq F64 x x eps = true.
Proof. intros Fx Te. apply is_eq_iff; auto. rewrite rel_diff_refl, Rabs_R0 by auto. apply Te. Qed.

Lemma n0_fin : ffin (@n0 F64) = true. Proof. reflexivity. Qed.
Lemma is_eq_00 (eps : f64) : tol eps -> @is_eq F64 n0 n0 eps = true.
Proof. intros. apply is_eq_refl; auto. Qed.

(** The relative difference to zero: the value itself below one, a unit above. *)
Lemma rel_diff_0 (x : f64) : ffin x = true ->
  fv (@rel_diff F64 x n0) = (if Rle_bool (Rabs (fv x)) 1 then fv x else fv x / Rabs (fv x)).
Proof.
  intros Fx. destruct (rel_diff_val x n0 Fx n0_fin) as [_ ->].
  replace (fv n0) with 0 by reflexivity. rewrite Rminus_0_r, Rabs_R0, (fval_fin x Fx).
  rewrite rnd_fixed. pose proof (f64_abs_lt x) as Hb. rewrite sat_small by auto. unfold relv. rewrite Rlt_bool_true by auto.
  rewrite (Rmax_left (Rabs (B2R x)) 0) by apply Rabs_pos.
  destruct (Rle_bool_spec (Rabs (B2R x)) 1) as [H|H].
  - rewrite Rmax_right by lra. unfold Rdiv. rewrite Rinv_1, Rmult_1_r. apply rnd_fixed.
  - rewrite Rmax_left by lra.
    assert (H1 : rnd 1 = 1). { destruct f64_lit1_val as [E _]. rewrite <- E. apply rnd_fixed. }
    destruct (Rle_dec 0 (B2R x)) as [Hp|Hn].
    + rewrite Rabs_right in * by lra. unfold Rdiv. rewrite Rinv_r by lra. exact H1.
    + rewrite Rabs_left in * by lra. replace (B2R x / - B2R x) with (- (1)) by (field; lra).
      rewrite rnd_opp. now rewrite H1.
Qed.

Lemma sign_tests (x eps : f64) : ffin x = true -> tol eps -> fv eps < 1 ->
  @is_neg F64 x eps = @is_lt F64 x n0 eps
  /\ @is_pos F64 x eps = @is_gt F64 x n0 eps
  /\ @is_zero F64 x eps = @is_eq F64 x n0 eps.
Proof.
  intros Fx Te H1. pose proof Te as [He H0]. assert (Hx := nn_fin x Fx).
  pose proof (rel_diff_0 x Fx) as E.
  assert (Hcase : (Rabs (fv x) <= 1 /\ fv (@rel_diff F64 x n0) = fv x)
     \/ (1 < fv x /\ fv (@rel_diff F64 x n0) = 1) \/ (fv x < -1 /\ fv (@rel_diff F64 x n0) = -1)).
  { rewrite E. destruct (Rle_bool_spec (Rabs (fv x)) 1) as [H|H]; [auto|]. right.
    destruct (Rle_dec 0 (fv x)) as [Hp|Hn].
    - rewrite Rabs_right in * by lra. left. split; [lra|]. field. lra.
    - rewrite Rabs_left in * by lra. right. split; [lra|]. field. lra. }
  repeat split; apply Bool.eq_true_iff_eq.
  - rewrite is_lt_iff by auto using n0_fin. unfold is_neg. rewrite ltb_iff by fnns.
    rewrite val_opp. change (@val F64 F64_Ord) with f64val. destruct Hcase as [[Ha ->]|[[Ha ->]|[Ha ->]]]; split; intros; lra.
  - rewrite is_gt_iff by auto using n0_fin. unfold is_pos. rewrite ltb_iff by auto.
    change (@val F64 F64_Ord) with f64val. destruct Hcase as [[Ha ->]|[[Ha ->]|[Ha ->]]]; split; intros; lra.
  - rewrite is_eq_iff by auto using n0_fin. unfold is_zero. rewrite leb_iff by fnns.
    rewrite val_abs by auto. change (@val F64 F64_Ord) with f64val. destruct Hcase as [[Ha ->]|[[Ha ->]|[Ha ->]]]; [split; intros; lra| |].
    + rewrite !Rabs_right by lra. split; intros; lra.
    + rewrite !Rabs_left by lra. split; intros; lra.
Qed.
