(** Signs of differences and growth of sums of non-negative numbers: facts shared by doubles (with
    rounding, infinities and subnormals) and reals. *)
From Coq Require Import Reals Lra.
From Flocq Require Import Core IEEE754.BinarySingleNaN Plus_error.
From Verif Require Import Base Num Cmp Order F64Facts VecReal.
Local Open Scope R_scope.

Class OrdArith (N : Num) {O : Ord N} := {
  sub_lt : forall x y, nn x -> nn y -> val y < val x -> nn (nsub x y) /\ 0 < val (nsub x y);
  sub_ge : forall x y, nn x -> nn y -> val x <= val y -> nltb n0 (nsub x y) = false;
  add_ge : forall x y, nn x -> nn y -> 0 <= val x -> 0 <= val y ->
    nn (nadd x y) /\ val x <= val (nadd x y) /\ val y <= val (nadd x y);
  opp_nan : forall x, nn (nopp x) -> nn x
}.

#[export] Instance RN_OrdArith : OrdArith RN.
Proof.
  split.
  - intros x y _ _ H. split; [exact I|]. cbn in *. lra.
  - intros x y _ _ H. apply rn_ltb_false. rewrite rn_n0. cbn in *. lra.
  - intros x y _ _ H1 H2. split; [exact I|]. cbn in *. lra.
  - intros x _. exact I.
Qed.

Lemma exp_not_FTZ64 : Exp_not_FTZ fexp64.
Proof. intros e. unfold SpecFloat.fexp, SpecFloat.emin. lia. Qed.

Lemma rnd_sub_neq0 (x y : f64) : B2R x - B2R y <> 0 -> rnd (B2R x - B2R y) <> 0.
Proof.
  intros H. unfold Rminus. apply round_plus_neq_0; try apply valid_rnd_N; try apply exp_not_FTZ64.
  - apply fexp64_valid.
  - apply generic_format_B2R.
  - apply generic_format_opp, generic_format_B2R.
  - exact H.
Qed.

Lemma sat_pos r : 0 < r -> 0 < sat r.
Proof.
  intros H. unfold sat. pose proof big_pos. destruct (Rlt_bool (Rabs r) big); [exact H|]. rewrite Rlt_bool_false by lra. exact H0.
Qed.

Lemma f64_inf (x : f64) : fnn x -> ffin x = false -> exists s, x = B754_infinity s.
Proof. destruct x as [|s| |]; cbn; intros; try discriminate. now exists s. Qed.

Lemma f64_sub_inf_l s (y : f64) : ffin y = true -> @nsub F64 (B754_infinity s) y = B754_infinity s.
Proof. destruct y; cbn; intros; try discriminate; reflexivity. Qed.
Lemma f64_sub_inf_r s (x : f64) : ffin x = true -> @nsub F64 x (B754_infinity s) = B754_infinity (negb s).
Proof. destruct x; cbn; intros; try discriminate; reflexivity. Qed.
Lemma f64_add_inf_l s (y : f64) : ffin y = true -> @nadd F64 (B754_infinity s) y = B754_infinity s.
Proof. destruct y; cbn; intros; try discriminate; reflexivity. Qed.
Lemma f64_add_inf_r s (y : f64) : ffin y = true -> @nadd F64 y (B754_infinity s) = B754_infinity s.
Proof. destruct y; cbn; intros; try discriminate; reflexivity. Qed.

Lemma fval_lt (x : f64) : ffin x = true -> - big < f64val x < big.
Proof. intros H. apply fin_iff in H. destruct H as [_ H]. apply Rabs_lt_inv in H. exact H. Qed.

#[export] Instance F64_OrdArith : OrdArith F64.
Proof.
  split.
  - intros x y Hx Hy H. pose proof big_pos as Hb. change (@val F64 F64_Ord) with f64val in *.
    destruct (ffin x) eqn:Fx, (ffin y) eqn:Fy.
    + destruct (sub_val x y Fx Fy) as [H1 H2]. split; [exact H1|]. rewrite H2. apply sat_pos.
      rewrite (fval_fin x), (fval_fin y) in * by auto. pose proof (rnd_sub_neq0 x y). pose proof (rnd_nonneg (B2R x - B2R y)). lra.
    + destruct (f64_inf y Hy Fy) as [s ->]. pose proof (fval_lt x Fx). cbn [f64val] in H. destruct s; cbn [cond_Ropp] in H; [|lra].
      rewrite f64_sub_inf_r by auto. cbn. split; [reflexivity|exact Hb].
    + destruct (f64_inf x Hx Fx) as [s ->]. pose proof (fval_lt y Fy). cbn [f64val] in H. destruct s; cbn [cond_Ropp] in H; [lra|].
      rewrite f64_sub_inf_l by auto. cbn. split; [reflexivity|exact Hb].
    + destruct (f64_inf x Hx Fx) as [s ->], (f64_inf y Hy Fy) as [s' ->]. cbn [f64val] in H. destruct s, s'; cbn [cond_Ropp] in H; try lra.
      cbn. split; [reflexivity|exact Hb].
  - intros x y Hx Hy H. pose proof big_pos as Hb. change (@val F64 F64_Ord) with f64val in *.
    destruct (ffin x) eqn:Fx, (ffin y) eqn:Fy.
    + destruct (sub_val x y Fx Fy) as [H1 H2]. apply ltb_false_iff; [apply (@nn_0 F64)|exact H1|].
      change (@val F64 F64_Ord) with f64val. rewrite H2. change (f64val n0) with 0. rewrite <- sat_0, <- rnd_0. apply sat_le, rnd_le. lra.
    + destruct (f64_inf y Hy Fy) as [s ->]. pose proof (fval_lt x Fx). cbn [f64val] in H. destruct s; cbn [cond_Ropp] in H; [lra|].
      rewrite f64_sub_inf_r by auto. reflexivity.
    + destruct (f64_inf x Hx Fx) as [s ->]. pose proof (fval_lt y Fy). cbn [f64val] in H. destruct s; cbn [cond_Ropp] in H; [|lra].
      rewrite f64_sub_inf_l by auto. reflexivity.
    + destruct (f64_inf x Hx Fx) as [s ->], (f64_inf y Hy Fy) as [s' ->]. cbn [f64val] in H. destruct s, s'; cbn [cond_Ropp] in H; try lra; reflexivity.
  - intros x y Hx Hy H1 H2. pose proof big_pos as Hb. change (@val F64 F64_Ord) with f64val in *.
    destruct (ffin x) eqn:Fx, (ffin y) eqn:Fy.
    + destruct (add_val x y Fx Fy) as [K1 K2]. split; [exact K1|]. rewrite K2.
      assert (E : forall z : f64, ffin z = true -> sat (rnd (f64val z)) = f64val z).
      { intros z Fz. rewrite fval_fin, rnd_fixed by auto. apply sat_small. apply f64_abs_lt. }
      split; [rewrite <- (E x Fx) at 1|rewrite <- (E y Fy) at 1]; apply sat_le, rnd_le; lra.
    + destruct (f64_inf y Hy Fy) as [s ->]. pose proof (fval_lt x Fx). cbn [f64val] in H2. destruct s; cbn [cond_Ropp] in H2; [lra|].
      rewrite f64_add_inf_r by auto. split; [reflexivity|]. cbn [f64val cond_Ropp]. lra.
    + destruct (f64_inf x Hx Fx) as [s ->]. pose proof (fval_lt y Fy). cbn [f64val] in H1. destruct s; cbn [cond_Ropp] in H1; [lra|].
      rewrite f64_add_inf_l by auto. split; [reflexivity|]. cbn [f64val cond_Ropp]. lra.
    + destruct (f64_inf x Hx Fx) as [s ->], (f64_inf y Hy Fy) as [s' ->]. cbn [f64val] in H1, H2. destruct s; cbn [cond_Ropp] in H1; [lra|].
      destruct s'; cbn [cond_Ropp] in H2; [lra|].
      change (@nadd F64 (B754_infinity false) (B754_infinity false)) with (B754_infinity false : f64). split; [reflexivity|]. cbn [f64val cond_Ropp]. lra.
  - intros x. cbn. destruct x; intros; auto.
Qed.
