(** Remaining vector facts used by the property theorems. *)
From Coq Require Import Reals Lra.
From Flocq Require Import Core IEEE754.BinarySingleNaN.
From Verif Require Import Base Num Cmp Sparse Vec VecFacts Order VecFacts2 VecFacts3 F64Facts RSum VecReal CmpFacts.
Local Open Scope Z_scope.

(** *** Norm axioms *)
Section Norms.
Local Open Scope R_scope.

Lemma norm_axioms : forall (x y r : rvec) (a : R),
  wf x -> wf y -> vdim x = vdim y -> (0 <= vcap r)%Z ->
  exists s, vec_add_scaled x y 1 1 0 r = Ok s
    /\ vec_norm s <= vec_norm x + vec_norm y
    /\ vec_one_norm s <= vec_one_norm x + vec_one_norm y
    /\ vec_inf_norm s <= vec_inf_norm x + vec_inf_norm y
    /\ vec_norm (vec_scale x a) = Rabs a * vec_norm x
    /\ vec_one_norm (vec_scale x a) = Rabs a * vec_one_norm x
    /\ vec_inf_norm (vec_scale x a) = Rabs a * vec_inf_norm x
    /\ (vec_norm x = 0 <-> forall i, (0 <= i < vdim x)%Z -> dense x i = 0)
    /\ (vec_one_norm x = 0 <-> forall i, (0 <= i < vdim x)%Z -> dense x i = 0)
    /\ (vec_inf_norm x = 0 <-> forall i, (0 <= i < vdim x)%Z -> dense x i = 0).
Proof.
  intros x y r a Hx Hy Hd Hr. destruct (add_scaled_real x y r 1 1 Hx Hy Hd Hr) as (s & Es & Hs & Hds & Hv).
  destruct (vec_scale_real x a Hx) as (Hsc & Hdsc & Hvsc).
  assert (Nx := vec_norm_real x Hx). assert (Ny := vec_norm_real y Hy). assert (Ns := vec_norm_real s Hs).
  assert (Nc := vec_norm_real _ Hsc).
  fold (norm2 (vdim x) (dense x)) in Nx. fold (norm2 (vdim y) (dense y)) in Ny. fold (norm2 (vdim s) (dense s)) in Ns.
  fold (norm2 (vdim (vec_scale x a)) (dense (vec_scale x a))) in Nc.
  destruct (vec_inf_norm_real x Hx) as (I1 & I2 & I3). destruct (vec_inf_norm_real y Hy) as (J1 & J2 & J3).
  destruct (vec_inf_norm_real s Hs) as (S1 & S2 & S3).
  exists s. split; [exact Es|]. split; [|split; [|split; [|split; [|split; [|split; [|split; [|split]]]]]]].
  - rewrite Nx, Ny, Ns, <- Hd, Hds. eapply Rle_trans; [|apply norm2_triangle]. apply Req_le.
    unfold norm2. f_equal. apply dotd_ext; intros; rewrite Hv; lra.
  - rewrite !vec_one_norm_real by auto. rewrite <- Hd, Hds, <- sumd_plus. apply sumd_le. intros i Hi. rewrite Hv.
    replace (1 * dense x i + 1 * dense y i) with (dense x i + dense y i) by lra. apply Rabs_triang.
  - destruct S3 as [->|(i & Hi & ->)]; [lra|]. rewrite Hv.
    replace (1 * dense x i + 1 * dense y i) with (dense x i + dense y i) by lra.
    rewrite Hds in Hi. pose proof (I2 i Hi). assert (Hi' : (0 <= i < vdim y)%Z) by congruence. pose proof (J2 i Hi').
    pose proof (Rabs_triang (dense x i) (dense y i)). lra.
  - rewrite Nc, Nx, Hdsc, <- norm2_scal. unfold norm2. f_equal. apply dotd_ext; intros; now rewrite Hvsc.
  - rewrite !vec_one_norm_real by auto. rewrite Hdsc, <- sumd_scal. apply sumd_ext. intros. rewrite Hvsc. apply Rabs_mult.
  - eapply is_max_abs_unique; [apply vec_inf_norm_real; auto|]. rewrite Hdsc. split; [|split].
    + pose proof (Rabs_pos a). nra.
    + intros i Hi. rewrite Hvsc, Rabs_mult. apply Rmult_le_compat_l; [apply Rabs_pos|auto].
    + destruct I3 as [->|(i & Hi & ->)]; [left; lra|]. right. exists i. split; auto. rewrite Hvsc, Rabs_mult. reflexivity.
  - rewrite Nx. apply norm2_zero.
  - rewrite vec_one_norm_real by auto. split.
    + intros H i Hi. assert (E : Rabs (dense x i) = 0).
      { apply (sumd_nonneg_zero (vdim x) (fun i => Rabs (dense x i))); auto. intros; apply Rabs_pos. }
      destruct (Req_dec (dense x i) 0); auto. apply Rabs_no_R0 in H0. lra.
    + intros H. apply sumd_zero. intros i Hi. rewrite H by auto. apply Rabs_R0.
  - split.
    + intros H i Hi. specialize (I2 i Hi). rewrite H in I2. destruct (Req_dec (dense x i) 0) as [|Hn]; auto.
      pose proof (Rabs_pos_lt _ Hn). lra.
    + intros H. destruct I3 as [->|(i & Hi & ->)]; auto. rewrite H by auto. apply Rabs_R0.
Qed.
End Norms.

(** *** Clipping on real values *)
Section Clip.
Context {N : Num} {O : Ord N}.

Lemma clip_spec_real : forall x lb ub eps r,
  wf x -> wf lb -> wf ub -> vdim lb = vdim x -> vdim ub = vdim x -> vdim r = vdim x -> 0 <= vcap r ->
  (forall i, 0 <= i < vdim x -> nn (dense x i) /\ nn (dense lb i) /\ nn (dense ub i)
                               /\ (val (dense lb i) <= val (dense ub i))%R) ->
  nn eps -> (0 <= val eps)%R ->
  (forall i, 0 <= i < vdim x ->
     (Rabs (Rmax (Rmin (val (dense x i)) (val (dense ub i))) (val (dense lb i))) <= val eps)%R ->
     (val (dense lb i) <= 0 <= val (dense ub i))%R) ->
  exists c, vec_clip x lb ub eps r = Ok c /\ wf c /\ vdim c = vdim x
    /\ (forall i, 0 <= i < vdim x -> (val (dense lb i) <= val (dense c i) <= val (dense ub i))%R)
    /\ (forall i, 0 <= i < vdim x ->
          let p := Rmax (Rmin (val (dense x i)) (val (dense ub i))) (val (dense lb i)) in
          val (dense c i) = p \/ (Rabs p <= val eps /\ val (dense c i) = 0)%R).
Proof.
  intros x lb ub eps r Hx Hl Hu E1 E2 E3 Hr Hn He H0 Hdrop.
  assert (Hclip : forall i, 0 <= i < vdim x -> nn (clip_val (dense x i) (dense lb i) (dense ub i))
     /\ val (clip_val (dense x i) (dense lb i) (dense ub i)) = Rmax (Rmin (val (dense x i)) (val (dense ub i))) (val (dense lb i))).
  { intros i Hi. destruct (Hn i Hi) as (H1 & H2 & H3 & H4).
    destruct (clip_val_spec _ _ _ H1 H2 H3 H4) as (A & _ & B). auto. }
  destruct (vec_clip_spec x lb ub eps r) as (c & Ec & Hw & Hd & Hb & Hv); auto.
  { intros i Hi Hz. apply Hdrop; auto. destruct (Hclip i Hi) as [A B]. rewrite <- B. apply is_zero_iff; auto. }
  exists c. split; [exact Ec|]. split; [exact Hw|]. split; [exact Hd|].
  assert (Hval : forall i, 0 <= i < vdim x -> nn (dense c i) /\
          let p := Rmax (Rmin (val (dense x i)) (val (dense ub i))) (val (dense lb i)) in
          (val (dense c i) = p \/ (Rabs p <= val eps /\ val (dense c i) = 0)%R)).
  { intros i Hi. destruct (Hclip i Hi) as [A B]. cbv zeta. rewrite <- B. specialize (Hv i Hi). cbv zeta in Hv.
    destruct Hv as [->|[Hz ->]].
    - auto.
    - split; [apply nn_0|]. right. split; [|apply val_0]. apply is_zero_iff; auto. }
  split.
  - intros i Hi. destruct (Hb i Hi) as [B1 B2]. destruct (Hval i Hi) as [A _]. destruct (Hn i Hi) as (H1 & H2 & H3 & H4).
    apply ltb_false_iff in B1; auto. apply ltb_false_iff in B2; auto.
  - intros i Hi. apply (Hval i Hi).
Qed.

Lemma clip_zero_tol : forall x lb ub r,
  wf x -> wf lb -> wf ub -> vdim lb = vdim x -> vdim ub = vdim x -> vdim r = vdim x -> 0 <= vcap r ->
  (forall i, 0 <= i < vdim x -> nn (dense x i) /\ nn (dense lb i) /\ nn (dense ub i)
                               /\ (val (dense lb i) <= val (dense ub i))%R) ->
  exists c, vec_clip x lb ub n0 r = Ok c /\ wf c /\ vdim c = vdim x
    /\ (forall i, 0 <= i < vdim x ->
          (val (dense lb i) <= val (dense c i) <= val (dense ub i))%R
          /\ val (dense c i) = Rmax (Rmin (val (dense x i)) (val (dense ub i))) (val (dense lb i))).
Proof.
  intros x lb ub r Hx Hl Hu E1 E2 E3 Hr Hn.
  assert (Habs0 : forall t, (Rabs t <= 0 -> t = 0)%R).
  { intros t Ht. destruct (Req_dec t 0) as [|H]; auto. pose proof (Rabs_pos_lt _ H). lra. }
  destruct (clip_spec_real x lb ub n0 r) as (c & Ec & Hw & Hd & Hb & Hv); auto.
  - apply nn_0.
  - rewrite val_0. lra.
  - intros i Hi Hz. rewrite val_0 in Hz. apply Habs0 in Hz. destruct (Hn i Hi) as (_ & _ & _ & H4).
    revert Hz. unfold Rmax, Rmin. repeat destruct Rle_dec; intros; lra.
  - exists c. repeat split; auto; try apply Hw; try apply Hb; auto.
    destruct (Hv i H) as [E|[Ez E]]; [exact E|]. rewrite val_0 in Ez. apply Habs0 in Ez. congruence.
Qed.
End Clip.

Lemma clip_refuted : exists (x lb ub r : @vec F64) (eps : f64),
  wf x /\ wf lb /\ wf ub /\ vdim lb = vdim x /\ vdim ub = vdim x /\ vdim r = vdim x /\ 0 <= vcap r
  /\ (forall i, 0 <= i < vdim x -> fnn (dense x i) /\ fnn (dense lb i) /\ fnn (dense ub i)
                                  /\ (f64val (dense lb i) <= f64val (dense ub i))%R)
  /\ tol eps /\ vec_clip x lb ub eps r = Trap.
Proof.
  pose (o := f64_of_Z 1). pose (t := f64_of_Z 2).
  exists (mkvec 1 0 []), (mkvec 1 1 [(0, o)]), (mkvec 1 1 [(0, t)]), (mkvec 1 1 []), o.
  assert (Ho : f64val o = 1%R).
  { unfold o. rewrite fval_fin by reflexivity. apply (f64_of_Z_exact 1). reflexivity. }
  assert (Ht : f64val t = 2%R).
  { unfold t. rewrite fval_fin by reflexivity. apply (f64_of_Z_exact 2). reflexivity. }
  repeat split; try (cbn; lia); try (cbn; tauto); try (cbn; auto; fail).
  - assert (i = 0) as -> by (cbn in H; lia). reflexivity.
  - assert (i = 0) as -> by (cbn in H; lia). reflexivity.
  - assert (i = 0) as -> by (cbn in H; lia). change (f64val o <= f64val t)%R. lra.
  - rewrite Ho. lra.
Qed.

(** *** [kept] is an order isomorphism *)
Lemma kept_bijection : forall fs d, sorted_in 0 d fs ->
  (forall i, 0 <= i < d -> ~ In i fs -> exists j, kept fs i j)
  /\ (forall j, 0 <= j < d - Z.of_nat (length fs) -> exists i, 0 <= i < d /\ kept fs i j)
  /\ (forall i i' j, kept fs i j -> kept fs i' j -> i = i')
  /\ (forall i i' j j', kept fs i j -> kept fs i' j' -> (i < i' <-> j < j')).
Proof.
  intros fs d Hs. split; [|split; [|split]].
  - intros i _ H. exists (i - count_lt fs i). split; auto.
  - intros j Hj. now apply kept_surj.
  - intros i i' j. now apply kept_inj with (lo := 0) (hi := d).
  - intros i i' j j' [H1 E1] [H2 E2]. split; intros H.
    + pose proof (count_lt_mono fs 0 d i i' Hs H1 H). lia.
    + destruct (Z.lt_trichotomy i i') as [|[->|Hgt]]; auto; [lia|].
      pose proof (count_lt_mono fs 0 d i' i Hs H2 Hgt). lia.
Qed.

(** *** Finiteness test *)
Lemma vec_is_finite_iff {N : Num} : forall v,
  vec_is_finite v = true <->
  forall k e, nth_error (vent v) k = Some e -> (S k < length (vent v))%nat ->
    nisnan (snd e) = false /\ nisinf (snd e) = false.
Proof.
  intros v. unfold vec_is_finite. rewrite forallb_forall.
  assert (Hrl : forall (l : list (Z * num)) e, In e (removelast l) <-> exists k, nth_error l k = Some e /\ (S k < length l)%nat).
  { intros l e.
    induction l as [|a l IH].
    - cbn. split; [tauto|]. intros (k & H & _). destruct k; discriminate.
    - destruct l as [|b l].
      + cbn. split; [tauto|]. intros (k & H & Hk). lia.
      + cbn [removelast In]. rewrite IH. split.
        * intros [<-|(k & H & Hk)]; [exists 0%nat; cbn; split; auto; lia|]. exists (S k). cbn [length nth_error] in *. split; auto; lia.
        * intros ([|k] & H & Hk); cbn [nth_error length] in *; [left; congruence|]. right. exists k. split; auto; lia. }
  split.
  - intros H k e He Hk. assert (Hin : In e (removelast (vent v))) by (apply Hrl; eauto).
    specialize (H _ Hin). apply negb_true_iff, orb_false_iff in H. exact H.
  - intros H e He. apply Hrl in He. destruct He as (k & He & Hk). destruct (H _ _ He Hk) as [-> ->]. reflexivity.
Qed.
