(** Order structure shared by doubles and reals: comparisons of non-NaN values are
    comparisons of real numbers (infinities are embedded beyond all finite doubles). *)
From Coq Require Import Reals Lra.
From Flocq Require Import Core IEEE754.BinarySingleNaN.
From Verif Require Import Base Num.
Local Open Scope R_scope.

Class Ord (N : Num) := {
  nn : num -> Prop;                       (* not a NaN *)
  val : num -> R;
  ltb_val : forall x y, nn x -> nn y -> nltb x y = Rlt_bool (val x) (val y);
  leb_val : forall x y, nn x -> nn y -> nleb x y = Rle_bool (val x) (val y);
  eqb_val : forall x y, nn x -> nn y -> neqb x y = Req_bool (val x) (val y);
  nn_opp : forall x, nn x -> nn (nopp x);
  val_opp : forall x, val (nopp x) = - val x;
  nn_0 : nn n0;
  val_0 : val n0 = 0;
  nn_1 : nn n1;
  val_1 : val n1 = 1;
  nan_ltb : forall x y, ~ nn x -> nltb x y = false /\ nltb y x = false;
  nan_leb : forall x y, ~ nn x -> nleb x y = false /\ nleb y x = false;
  nn_dec : forall x, {nn x} + {~ nn x}
}.

#[export] Instance RN_Ord : Ord RN.
Proof.
  refine (@Build_Ord RN (fun _ => True) (fun x => x) _ _ _ _ _ _ _ _ _ _ _ _);
    try (intros; reflexivity); try (intros; exact I); try (unfold n0, n1; simpl; unfold rn_lit; lra).
  - intros x y H; tauto.
  - intros x y H; tauto.
  - intros; now left.
Defined.

(** ** Doubles *)
Definition f64val (x : f64) : R :=
  match x with
  | B754_infinity s => cond_Ropp s (bpow radix2 1024)
  | _ => B2R x
  end.

Lemma f64_abs_lt (x : f64) : Rabs (B2R x) < bpow radix2 1024.
Proof. apply abs_B2R_lt_emax. Qed.

Lemma f64_compare (x y : f64) :
  BinarySingleNaN.is_nan x = false -> BinarySingleNaN.is_nan y = false ->
  SpecFloat.SFcompare (B2SF x) (B2SF y) = Some (Rcompare (f64val x) (f64val y)).
Proof.
  intros Hx Hy.
  pose proof (bpow_gt_0 radix2 1024) as Hpos.
  destruct (is_finite x) eqn:Fx, (is_finite y) eqn:Fy.
  - pose proof (Bcompare_correct 53 1024 x y Fx Fy) as H. unfold Bcompare in H. rewrite H.
    f_equal. destruct x, y; try discriminate; reflexivity.
  - destruct y as [|sy| |]; try discriminate. pose proof (f64_abs_lt x) as Hb. apply Rabs_lt_inv in Hb.
    assert (E : f64val x = B2R x) by (destruct x; try discriminate; reflexivity). rewrite E.
    destruct x as [sx|sx| |sx mx ex Bx]; try discriminate; destruct sy; cbn [f64val cond_Ropp B2SF SpecFloat.SFcompare]; f_equal; symmetry;
      try (apply Rcompare_Gt; lra); try (apply Rcompare_Lt; lra).
  - destruct x as [|sx| |]; try discriminate. pose proof (f64_abs_lt y) as Hb. apply Rabs_lt_inv in Hb.
    assert (E : f64val y = B2R y) by (destruct y; try discriminate; reflexivity). rewrite E.
    destruct y as [sy|sy| |sy my ey By]; try discriminate; destruct sx; cbn [f64val cond_Ropp B2SF SpecFloat.SFcompare]; f_equal; symmetry;
      try (apply Rcompare_Gt; lra); try (apply Rcompare_Lt; lra).
  - destruct x as [|sx| |]; try discriminate. destruct y as [|sy| |]; try discriminate.
    destruct sx, sy; cbn [f64val cond_Ropp B2SF SpecFloat.SFcompare]; f_equal; symmetry;
      try (apply Rcompare_Gt; lra); try (apply Rcompare_Lt; lra); try (apply Rcompare_Eq; lra).
Qed.

Lemma f64_lit0 : f64_lit 0 1 = B754_zero false. Proof. reflexivity. Qed.
(** Integers below 2^53 in magnitude are exact. *)
Lemma f64_of_Z_exact z : (Z.abs z < 2 ^ 53)%Z ->
  B2R (f64_of_Z z) = IZR z /\ is_finite (f64_of_Z z) = true.
Proof.
  intros Hz.
  assert (Hf : generic_format radix2 (SpecFloat.fexp 53 1024) (IZR z)).
  { replace (IZR z) with (F2R (Float radix2 z 0)) by (unfold F2R; simpl; lra).
    apply generic_format_F2R. intros Hnz. unfold cexp. rewrite mag_F2R_Zdigits by exact Hnz.
    unfold SpecFloat.fexp, SpecFloat.emin.
    assert (Zdigits radix2 z <= 53)%Z. { apply Zdigits_le_Zpower. simpl. exact Hz. } lia. }
  assert (H := binary_normalize_correct 53 1024 prec53 prec_lt_emax_53_1024 mode_NE z 0 false).
  cbv zeta in H.
  replace (F2R (Float radix2 z 0)) with (IZR z) in H by (unfold F2R; simpl; lra).
  rewrite round_generic in H; [|apply valid_rnd_N|exact Hf].
  rewrite Rlt_bool_true in H.
  - destruct H as (H1 & H2 & _). split; assumption.
  - rewrite <- abs_IZR. apply Rlt_trans with (IZR (2 ^ 53)).
    + now apply IZR_lt.
    + change (IZR (2 ^ 53)) with (bpow radix2 53). apply bpow_lt. lia.
Qed.

Lemma f64_lit1_val : B2R (f64_lit 1 1) = 1 /\ is_finite (f64_lit 1 1) = true.
Proof. apply (f64_of_Z_exact 1). reflexivity. Qed.

#[export] Instance F64_Ord : Ord F64.
Proof.
  refine (@Build_Ord F64 (fun x => BinarySingleNaN.is_nan x = false) f64val _ _ _ _ _ _ _ _ _ _ _ _).
  - intros x y Hx Hy. cbn [nltb F64]. unfold Bltb, SpecFloat.SFltb. rewrite f64_compare by assumption.
    unfold Rlt_bool. destruct (Rcompare _ _); reflexivity.
  - intros x y Hx Hy. cbn [nleb F64]. unfold Bleb, SpecFloat.SFleb. rewrite f64_compare by assumption.
    unfold Rle_bool. destruct (Rcompare _ _); reflexivity.
  - intros x y Hx Hy. cbn [neqb F64]. unfold Beqb, SpecFloat.SFeqb. rewrite f64_compare by assumption.
    unfold Req_bool. destruct (Rcompare _ _); reflexivity.
  - intros x Hx. cbn [nopp F64]. now rewrite is_nan_Bopp.
  - intros x. cbn [nopp F64]. destruct x as [s|s| |s m e B]; simpl; try lra.
    + destruct s; simpl; lra.
    + rewrite <- F2R_Zopp. destruct s; reflexivity.
  - reflexivity.
  - unfold n0. cbn [nlit F64]. rewrite f64_lit0. reflexivity.
  - reflexivity.
  - unfold n1. cbn [nlit F64]. destruct f64_lit1_val as [H1 H2].
    assert (E : f64val (f64_lit 1 1) = B2R (f64_lit 1 1)) by (destruct (f64_lit 1 1); try discriminate; reflexivity).
    now rewrite E.
  - intros x y Hx. assert (E : x = B754_nan) by (destruct x; simpl in Hx; congruence || (exfalso; apply Hx; reflexivity)).
    subst x. split; [reflexivity|]. destruct y as [s|s| |s m e B]; reflexivity.
  - intros x y Hx. assert (E : x = B754_nan) by (destruct x; simpl in Hx; congruence || (exfalso; apply Hx; reflexivity)).
    subst x. split; [reflexivity|]. destruct y as [s|s| |s m e B]; reflexivity.
  - intros x. destruct (BinarySingleNaN.is_nan x); [right; discriminate|left; reflexivity].
Defined.

Section OrdFacts.
Context {N : Num} {O : Ord N}.

Lemma ltb_iff x y : nn x -> nn y -> (nltb x y = true <-> val x < val y).
Proof. intros Hx Hy. rewrite ltb_val by auto. destruct (Rlt_bool_spec (val x) (val y)); split; intros; auto; try discriminate; lra. Qed.
Lemma ltb_false_iff x y : nn x -> nn y -> (nltb x y = false <-> val y <= val x).
Proof. intros Hx Hy. rewrite ltb_val by auto. destruct (Rlt_bool_spec (val x) (val y)); split; intros; auto; try discriminate; lra. Qed.
Lemma leb_iff x y : nn x -> nn y -> (nleb x y = true <-> val x <= val y).
Proof. intros Hx Hy. rewrite leb_val by auto. destruct (Rle_bool_spec (val x) (val y)); split; intros; auto; try discriminate; lra. Qed.
Lemma leb_false_iff x y : nn x -> nn y -> (nleb x y = false <-> val y < val x).
Proof. intros Hx Hy. rewrite leb_val by auto. destruct (Rle_bool_spec (val x) (val y)); split; intros; auto; try discriminate; lra. Qed.
Lemma eqb_iff x y : nn x -> nn y -> (neqb x y = true <-> val x = val y).
Proof. intros Hx Hy. rewrite eqb_val by auto. destruct (Req_bool_spec (val x) (val y)); split; intros; auto; try discriminate; lra. Qed.

Lemma leb_nn x y : nleb x y = true -> nn x /\ nn y.
Proof.
  intros H. destruct (nn_dec x) as [Hx|Hx], (nn_dec y) as [Hy|Hy]; auto; exfalso.
  - destruct (nan_leb y x Hy). congruence.
  - destruct (nan_leb x y Hx). congruence.
  - destruct (nan_leb x y Hx). congruence.
Qed.
Lemma ltb_nn x y : nltb x y = true -> nn x /\ nn y.
Proof.
  intros H. destruct (nn_dec x) as [Hx|Hx], (nn_dec y) as [Hy|Hy]; auto; exfalso.
  - destruct (nan_ltb y x Hy). congruence.
  - destruct (nan_ltb x y Hx). congruence.
  - destruct (nan_ltb x y Hx). congruence.
Qed.

Lemma nn_max x y : nn x -> nn y -> nn (nmax x y).
Proof. intros; unfold nmax; destruct (nltb y x); auto. Qed.
Lemma nn_min x y : nn x -> nn y -> nn (nmin x y).
Proof. intros; unfold nmin; destruct (nltb x y); auto. Qed.
Lemma nn_abs x : nn x -> nn (nabs x).
Proof. intros; unfold nabs; destruct (nltb n0 x); auto. now apply nn_opp. Qed.

Lemma val_max x y : nn x -> nn y -> val (nmax x y) = Rmax (val x) (val y).
Proof.
  intros Hx Hy. unfold nmax. destruct (nltb y x) eqn:E.
  - apply ltb_iff in E; auto. rewrite Rmax_left; lra.
  - apply ltb_false_iff in E; auto. rewrite Rmax_right; lra.
Qed.
Lemma val_min x y : nn x -> nn y -> val (nmin x y) = Rmin (val x) (val y).
Proof.
  intros Hx Hy. unfold nmin. destruct (nltb x y) eqn:E.
  - apply ltb_iff in E; auto. rewrite Rmin_left; lra.
  - apply ltb_false_iff in E; auto. rewrite Rmin_right; lra.
Qed.
Lemma val_abs x : nn x -> val (nabs x) = Rabs (val x).
Proof.
  intros Hx. unfold nabs. destruct (nltb n0 x) eqn:E.
  - apply ltb_iff in E; auto using nn_0. rewrite val_0 in E. rewrite Rabs_right; lra.
  - apply ltb_false_iff in E; auto using nn_0. rewrite val_0 in E. rewrite val_opp, Rabs_left1; lra.
Qed.
Lemma nan_abs x : ~ nn x -> ~ nn (nabs x) \/ nabs x = nopp x.
Proof. intros H. unfold nabs. destruct (nltb n0 x); auto. Qed.

Lemma lt00 : nltb n0 n0 = false.
Proof. apply ltb_false_iff; auto using nn_0. lra. Qed.

End OrdFacts.
