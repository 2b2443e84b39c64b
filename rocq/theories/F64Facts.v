(** Rounding of double operations, with overflow to infinity made explicit. *)
From Coq Require Import Reals Lra.
From Flocq Require Import Core IEEE754.BinarySingleNaN.
From Verif Require Import Base Num Order.
Local Open Scope R_scope.

Notation big := (bpow radix2 1024).
Notation ffin := (BinarySingleNaN.is_finite (prec:=53) (emax:=1024)).
Notation fnn := (@nn F64 F64_Ord).
Notation fexp64 := (SpecFloat.fexp 53 1024).

Definition rnd (r : R) : R := round radix2 fexp64 ZnearestE r.
(** Saturation at the overflow threshold. *)
Definition sat (r : R) : R := if Rlt_bool (Rabs r) big then r else if Rlt_bool r 0 then - big else big.

#[global] Instance fexp64_valid : Valid_exp fexp64.
Proof. apply (fexp_correct 53 1024). reflexivity. Qed.

Lemma big_pos : 0 < big. Proof. apply bpow_gt_0. Qed.
Lemma big_ge1 : 1 <= big. Proof. change 1 with (bpow radix2 0). apply bpow_le. lia. Qed.

Lemma rnd_opp r : rnd (- r) = - rnd r. Proof. apply round_NE_opp. Qed.
Lemma rnd_le r s : r <= s -> rnd r <= rnd s. Proof. intros. apply round_le; auto. apply fexp64_valid. apply valid_rnd_N. Qed.
Lemma rnd_0 : rnd 0 = 0. Proof. apply round_0. apply valid_rnd_N. Qed.
Lemma rnd_nonneg r : 0 <= r -> 0 <= rnd r. Proof. intros. rewrite <- rnd_0. now apply rnd_le. Qed.
Lemma rnd_fixed (x : f64) : rnd (B2R x) = B2R x.
Proof. apply round_generic. apply valid_rnd_N. apply generic_format_B2R. Qed.
Lemma rnd_abs r : rnd (Rabs r) = Rabs (rnd r). Proof. apply round_NE_abs. apply fexp64_valid. Qed.

Lemma sat_opp r : sat (- r) = - sat r.
Proof.
  unfold sat. rewrite Rabs_Ropp. destruct (Rlt_bool_spec (Rabs r) big) as [H|H]; [reflexivity|].
  pose proof big_pos.
  destruct (Rlt_bool_spec (- r) 0), (Rlt_bool_spec r 0); try lra.
  assert (r = 0) by lra. subst. rewrite Rabs_R0 in H. lra.
Qed.
Lemma sat_small r : Rabs r < big -> sat r = r.
Proof. intros H. unfold sat. now rewrite Rlt_bool_true. Qed.
Lemma sat_le r s : r <= s -> sat r <= sat s.
Proof.
  intros H. unfold sat. pose proof big_pos.
  destruct (Rlt_bool_spec (Rabs r) big) as [H1|H1], (Rlt_bool_spec (Rabs s) big) as [H2|H2]; auto.
  - apply Rabs_lt_inv in H1. destruct (Rlt_bool_spec s 0); [|lra].
    rewrite Rabs_left in H2 by auto. lra.
  - apply Rabs_lt_inv in H2. destruct (Rlt_bool_spec r 0); [lra|].
    rewrite Rabs_right in H1 by lra. lra.
  - destruct (Rlt_bool_spec r 0), (Rlt_bool_spec s 0); lra.
Qed.
Lemma sat_0 : sat 0 = 0. Proof. apply sat_small. rewrite Rabs_R0. apply big_pos. Qed.
Lemma sat_range r : - big <= sat r <= big.
Proof.
  unfold sat. pose proof big_pos. destruct (Rlt_bool_spec (Rabs r) big) as [H1|H1].
  - apply Rabs_lt_inv in H1. lra.
  - destruct (Rlt_bool_spec r 0); lra.
Qed.

Lemma fval_fin (x : f64) : ffin x = true -> f64val x = B2R x.
Proof. destruct x; intros; try discriminate; reflexivity. Qed.
Lemma fval_range (x : f64) : - big <= f64val x <= big.
Proof.
  pose proof big_pos. destruct (ffin x) eqn:E.
  - rewrite fval_fin by auto. pose proof (f64_abs_lt x) as H1. apply Rabs_lt_inv in H1. lra.
  - destruct x as [|[]| |]; try discriminate; cbn; lra.
Qed.
Lemma nn_fin (x : f64) : ffin x = true -> fnn x.
Proof. destruct x; intros; try discriminate; reflexivity. Qed.
Lemma fin_iff (x : f64) : ffin x = true <-> fnn x /\ Rabs (f64val x) < big.
Proof.
  split.
  - intros H. split; [now apply nn_fin|]. rewrite fval_fin by auto. apply f64_abs_lt.
  - intros [H1 H2]. destruct x as [|s| |]; auto.
    cbn [f64val] in H2. pose proof big_pos. rewrite abs_cond_Ropp, Rabs_right in H2; lra.
Qed.
Lemma sign_le (x : f64) : Bsign x = true -> ffin x = true -> B2R x <= 0.
Proof.
  destruct x as [s|s| |s m e H]; simpl; try lra; try discriminate. intros -> _.
  apply F2R_le_0. simpl. lia.
Qed.
Lemma sign_ge (x : f64) : Bsign x = false -> ffin x = true -> 0 <= B2R x.
Proof.
  destruct x as [s|s| |s m e H]; simpl; try lra; try discriminate. intros -> _.
  apply F2R_ge_0. simpl. lia.
Qed.

Lemma result_val (z : f64) r s :
  (if Rlt_bool (Rabs (rnd r)) big then B2R z = rnd r /\ ffin z = true else B2SF z = binary_overflow 53 1024 mode_NE s) ->
  (s = true -> r <= 0) -> (s = false -> 0 <= r) ->
  fnn z /\ f64val z = sat (rnd r).
Proof.
  intros H Ht Hf. unfold sat. destruct (Rlt_bool_spec (Rabs (rnd r)) big) as [Hb|Hb].
  - destruct H as [H1 H2]. split; [now apply nn_fin|]. now rewrite fval_fin.
  - assert (E : z = B754_infinity s).
    { destruct z; cbn in H; try discriminate. injection H as ->. reflexivity. }
    subst z. split; [reflexivity|]. cbn [f64val]. pose proof big_pos. destruct s; cbn [cond_Ropp].
    + specialize (Ht eq_refl). assert (rnd r <= 0) by (rewrite <- rnd_0; now apply rnd_le).
      rewrite Rlt_bool_true; [reflexivity|]. destruct (Req_dec (rnd r) 0) as [E|E]; [|lra].
      rewrite E, Rabs_R0 in Hb. lra.
    + specialize (Hf eq_refl). assert (0 <= rnd r) by (now apply rnd_nonneg).
      rewrite Rlt_bool_false; auto.
Qed.

(** When the result overflows both operands have the same sign; otherwise the sign is irrelevant. *)
Lemma result_val' (z : f64) r s :
  (if Rlt_bool (Rabs (rnd r)) big then B2R z = rnd r /\ ffin z = true
   else B2SF z = binary_overflow 53 1024 mode_NE s /\ ((s = true -> r <= 0) /\ (s = false -> 0 <= r))) ->
  fnn z /\ f64val z = sat (rnd r).
Proof.
  intros H. destruct (Rlt_bool (Rabs (rnd r)) big) eqn:E.
  - destruct H as [H1 H2]. split; [now apply nn_fin|]. rewrite fval_fin by auto.
    unfold sat. now rewrite E.
  - destruct H as (H1 & H2 & H3). apply (result_val z r s); auto. now rewrite E.
Qed.

Lemma add_val (x y : f64) : ffin x = true -> ffin y = true ->
  fnn (@nadd F64 x y) /\ f64val (@nadd F64 x y) = sat (rnd (f64val x + f64val y)).
Proof.
  intros Hx Hy. rewrite (fval_fin x), (fval_fin y) by auto. cbn [nadd F64].
  pose proof (Bplus_correct 53 1024 _ _ mode_NE x y Hx Hy) as H.
  apply (result_val' _ _ (Bsign x)).
  change (round radix2 fexp64 (round_mode mode_NE)) with rnd in H.
  destruct (Rlt_bool (Rabs (rnd (B2R x + B2R y))) big); [tauto|].
  destruct H as [H1 H2]. split; [exact H1|]. split; intros Hs.
  - pose proof (sign_le x Hs Hx). rewrite H2 in Hs. pose proof (sign_le y Hs Hy). lra.
  - pose proof (sign_ge x Hs Hx). rewrite H2 in Hs. pose proof (sign_ge y Hs Hy). lra.
Qed.

Lemma sub_val (x y : f64) : ffin x = true -> ffin y = true ->
  fnn (@nsub F64 x y) /\ f64val (@nsub F64 x y) = sat (rnd (f64val x - f64val y)).
Proof.
  intros Hx Hy. rewrite (fval_fin x), (fval_fin y) by auto. cbn [nsub F64].
  pose proof (Bminus_correct 53 1024 _ _ mode_NE x y Hx Hy) as H.
  apply (result_val' _ _ (Bsign x)).
  change (round radix2 fexp64 (round_mode mode_NE)) with rnd in H.
  destruct (Rlt_bool (Rabs (rnd (B2R x - B2R y))) big); [tauto|].
  destruct H as [H1 H2]. split; [exact H1|]. split; intros Hs.
  - pose proof (sign_le x Hs Hx). rewrite H2 in Hs. apply Bool.negb_true_iff in Hs. pose proof (sign_ge y Hs Hy). lra.
  - pose proof (sign_ge x Hs Hx). rewrite H2 in Hs. apply Bool.negb_false_iff in Hs. pose proof (sign_le y Hs Hy). lra.
Qed.

Lemma mul_val (x y : f64) : ffin x = true -> ffin y = true ->
  fnn (@nmul F64 x y) /\ f64val (@nmul F64 x y) = sat (rnd (f64val x * f64val y)).
Proof.
  intros Hx Hy. rewrite (fval_fin x), (fval_fin y) by auto. cbn [nmul F64].
  pose proof (Bmult_correct 53 1024 _ _ mode_NE x y) as H.
  apply (result_val' _ _ (xorb (Bsign x) (Bsign y))).
  change (round radix2 fexp64 (round_mode mode_NE)) with rnd in H. rewrite Hx, Hy in H.
  destruct (Rlt_bool (Rabs (rnd (B2R x * B2R y))) big); [tauto|].
  split; [exact H|]. destruct (Bsign x) eqn:Sx, (Bsign y) eqn:Sy; cbn [xorb]; split; intros Hs; try discriminate;
    [pose proof (sign_le x Sx Hx); pose proof (sign_le y Sy Hy)
    |pose proof (sign_le x Sx Hx); pose proof (sign_ge y Sy Hy)
    |pose proof (sign_ge x Sx Hx); pose proof (sign_le y Sy Hy)
    |pose proof (sign_ge x Sx Hx); pose proof (sign_ge y Sy Hy)]; nra.
Qed.

Lemma div_val (x y : f64) : ffin x = true -> ffin y = true -> f64val y <> 0 ->
  fnn (@ndiv F64 x y) /\ f64val (@ndiv F64 x y) = sat (rnd (f64val x / f64val y)).
Proof.
  intros Hx Hy Hy0. rewrite (fval_fin x), (fval_fin y) in * by auto. cbn [ndiv F64].
  pose proof (Bdiv_correct 53 1024 _ _ mode_NE x y Hy0) as H.
  apply (result_val' _ _ (xorb (Bsign x) (Bsign y))).
  change (round radix2 fexp64 (round_mode mode_NE)) with rnd in H. rewrite Hx in H.
  destruct (Rlt_bool (Rabs (rnd (B2R x / B2R y))) big); [tauto|].
  split; [exact H|]. unfold Rdiv.
  destruct (Bsign y) eqn:Sy.
  - pose proof (sign_le y Sy Hy). assert (Hi : / B2R y < 0) by (apply Rinv_lt_0_compat; lra).
    destruct (Bsign x) eqn:Sx; cbn [xorb]; split; intros Hs; try discriminate;
      [pose proof (sign_le x Sx Hx)|pose proof (sign_ge x Sx Hx)]; nra.
  - pose proof (sign_ge y Sy Hy). assert (Hi : 0 < / B2R y) by (apply Rinv_0_lt_compat; lra).
    destruct (Bsign x) eqn:Sx; cbn [xorb]; split; intros Hs; try discriminate;
      [pose proof (sign_le x Sx Hx)|pose proof (sign_ge x Sx Hx)]; nra.
Qed.

(** Dividing an infinity by a positive finite value leaves it unchanged. *)
Lemma div_inf_pos (s : bool) (y : f64) : ffin y = true -> 0 < B2R y ->
  @ndiv F64 (B754_infinity s) y = B754_infinity s.
Proof.
  intros Hy Hp. cbn [ndiv F64]. assert (Sy : Bsign y = false).
  { destruct (Bsign y) eqn:E; auto. pose proof (sign_le y E Hy). lra. }
  destruct y as [sy|sy| |sy m e B]; try discriminate; cbn in *; subst; try lra.
  now rewrite Bool.xorb_false_r.
Qed.
