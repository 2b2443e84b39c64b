(** The bidiagonalization in exact arithmetic. *)
From Coq Require Import Reals Lra FunctionalExtensionality.
From Verif Require Import Base Num Cmp Sparse Vec VecFacts VecFacts2 RSum VecReal PreprocReal QnReal SteihaugFacts Steihaug Lsqr.
Local Open Scope R_scope.

Definition perp (n : Z) (l : list (Z -> R)) (y : Z -> R) : Prop := forall x, In x l -> dotd n x y = 0.
Definition scal (a : R) (x : Z -> R) : Z -> R := fun i => a * x i.
Lemma dot_scal_l n a x y : dotd n (scal a x) y = a * dotd n x y.
Proof. unfold dotd, scal. rewrite <- sumd_scal. apply sumd_ext. intros. ring. Qed.
Lemma dot_scal_r n a x y : dotd n x (scal a y) = a * dotd n x y.
Proof. rewrite dotd_sym, dot_scal_l, dotd_sym. reflexivity. Qed.

Section Math.
Variables (n m : Z) (A T : (Z -> R) -> Z -> R) (b : Z -> R).
Hypothesis Alin : forall a x c y, A (lc a x c y) = lc a (A x) c (A y).
Hypothesis Tlin : forall a x c y, T (lc a x c y) = lc a (T x) c (T y).
Hypothesis adj : forall x y, dotd m (A x) y = dotd n x (T y).

Lemma Ascal a x : A (scal a x) = scal a (A x).
Proof.
  replace (scal a x) with (lc a x 0 x) by (apply functional_extensionality; intros i; unfold lc, scal; ring).
  rewrite Alin. apply functional_extensionality; intros i; unfold lc, scal; ring.
Qed.
Lemma Tscal a x : T (scal a x) = scal a (T x).
Proof.
  replace (scal a x) with (lc a x 0 x) by (apply functional_extensionality; intros i; unfold lc, scal; ring).
  rewrite Tlin. apply functional_extensionality; intros i; unfold lc, scal; ring.
Qed.

(** Krylov vectors *)
Fixpoint kry (j : nat) : Z -> R := match j with 0%nat => T b | S j => T (A (kry j)) end.

Definition res_of (x : Z -> R) : Z -> R := lc 1 b (-1) (A x).

(** The state before an iteration: [us], [vs] are the vectors of all iterations so far without the
    current [u] and [v]; [z] is the direction of the residuum. *)
Record linv (us vs : list (Z -> R)) (u v w x z : Z -> R) (alpha rhob phib : R) : Prop := {
  li_res : res_of x = scal phib z;
  li_opt : T z = scal rhob v;
  li_w : A w = lc rhob z 1 (lc 1 (A v) (- alpha) u);
  li_uu : dotd m u u = 1;
  li_vv : dotd n v v = 1;
  li_u : perp m us u;
  li_v : perp n vs v;
  li_us : ortho m us;
  li_vs : ortho n vs;
  li_old_u : forall y, perp n vs y -> perp m us (A y);
  li_new_u : forall y, perp n vs y -> dotd n (T u) y = alpha * dotd n v y;
  li_old_v : forall y, perp m (u :: us) y -> perp n vs (T y);
  li_span_w : forall y, perp n (v :: vs) y -> dotd n w y = 0;
  li_span_x : forall y, perp n vs y -> dotd n x y = 0;
  li_kry : forall y j, perp n vs y -> (j < length vs)%nat -> dotd n (kry j) y = 0;
  li_b : forall y, perp n (v :: vs) y -> dotd n (T b) y = 0;
  li_len : length us = length vs;
  li_phib : 0 <= phib
}.

Lemma perp_cons k x l y : perp k (x :: l) y <-> dotd k x y = 0 /\ perp k l y.
Proof. unfold perp. cbn [In]. split; [intros H; split; auto|]. intros [H1 H2] z [<-|Hz]; auto. Qed.

Lemma linv_start beta u alpha v : b = scal beta u -> T u = scal alpha v -> dotd m u u = 1 -> dotd n v v = 1 -> 0 <= beta ->
  linv [] [] u v v (fun _ => 0) u alpha alpha beta.
Proof.
  intros Hb Hv Hu1 Hv1 Hbe.
  assert (A0 : A (fun _ => 0) = fun _ => 0).
  { replace (fun _ : Z => 0) with (scal 0 (fun _ => 0)) at 1 by (apply functional_extensionality; intros i; unfold scal; ring).
    rewrite Ascal. apply functional_extensionality; intros i; unfold scal; ring. }
  constructor; auto.
  - unfold res_of. rewrite A0, Hb. apply functional_extensionality; intros i; unfold lc, scal; ring.
  - apply functional_extensionality; intros i; unfold lc; ring.
  - intros y [].
  - intros y [].
  - exact I.
  - exact I.
  - intros y _ x [].
  - intros y _. rewrite Hv. apply dot_scal_l.
  - intros y _ x [].
  - intros y H. apply perp_cons in H. tauto.
  - intros y _. apply dot_zero_l.
  - intros y j _ Hj. cbn in Hj. lia.
  - intros y H. apply perp_cons in H as [H _]. rewrite Hb, Tscal, dot_scal_l, Hv, dot_scal_l, H. ring.
Qed.

(** One iteration *)
Section Step.
Variables (us vs : list (Z -> R)) (u v w x z : Z -> R) (alpha rhob phib : R).
Hypothesis I : linv us vs u v w x z alpha rhob phib.
Variables (beta : R) (u' : Z -> R) (alpha' : R) (v' : Z -> R).
Hypothesis Hu' : lc 1 (A v) (- alpha) u = scal beta u'.
Hypothesis Hv' : lc 1 (T u') (- beta) v = scal alpha' v'.
Hypothesis Hrhob : rhob <> 0.
Variable rho : R.
Hypothesis Hrho : rho * rho = rhob * rhob + beta * beta.
Notation c := (rhob / rho).
Notation s := (beta / rho).
Definition x' : Z -> R := lc 1 x (c * phib / rho) w.
Definition z' : Z -> R := lc s z (- c) u'.
Definition w' : Z -> R := lc 1 v' (- (s * alpha') / rho) w.

Lemma rho_nz : rho <> 0. Proof. intros ->. assert (0 < rhob * rhob) by nra. nra. Qed.
Lemma cs1 : c * c + s * s = 1.
Proof. pose proof rho_nz. replace (c * c + s * s) with ((rhob * rhob + beta * beta) / (rho * rho)) by (field; auto). rewrite <- Hrho. field. auto. Qed.
Lemma Av : A v = lc alpha u beta u'.
Proof.
  assert (E : forall i, lc 1 (A v) (- alpha) u i = scal beta u' i) by (intros; now rewrite Hu').
  apply functional_extensionality; intros i. specialize (E i). unfold lc, scal in *. lra.
Qed.
Lemma Tu : T u' = lc alpha' v' beta v.
Proof.
  assert (E : forall i, lc 1 (T u') (- beta) v i = scal alpha' v' i) by (intros; now rewrite Hv').
  apply functional_extensionality; intros i. specialize (E i). unfold lc, scal in *. lra.
Qed.
Lemma Aw : A w = lc rhob z beta u'.
Proof. rewrite (li_w _ _ _ _ _ _ _ _ _ _ I), Hu'. apply functional_extensionality; intros i. unfold lc, scal. ring. Qed.

(** Residuum and optimality condition after the iteration *)
Lemma step_res : res_of x' = scal (s * phib) z'.
Proof.
  pose proof (li_res _ _ _ _ _ _ _ _ _ _ I) as E. pose proof cs1 as E1. pose proof rho_nz as Hr.
  apply functional_extensionality; intros i.
  assert (Ei : res_of x i = scal phib z i) by now rewrite E. unfold res_of, x' in *. rewrite Alin, Aw. unfold z', lc, scal in *.
  assert (Er : rhob = c * rho) by (field; auto). assert (Eb : beta = s * rho) by (field; auto).
  replace (1 * b i + -1 * (1 * A x i + c * phib / rho * (rhob * z i + beta * u' i)))
    with (1 * b i + -1 * A x i - c * phib * (c * z i + s * u' i)) by (field; auto).
  rewrite Ei. replace (phib * z i - c * phib * (c * z i + s * u' i)) with (phib * ((1 - c * c) * z i - c * s * u' i)) by ring.
  replace (1 - c * c) with (s * s) by lra. ring.
Qed.
Lemma step_opt : T z' = scal (- c * alpha') v'.
Proof.
  unfold z'. rewrite Tlin, Tu, (li_opt _ _ _ _ _ _ _ _ _ _ I). apply functional_extensionality; intros i. unfold lc, scal.
  pose proof rho_nz. field. auto.
Qed.
Lemma step_w : A w' = lc (- c * alpha') z' 1 (lc 1 (A v') (- alpha') u').
Proof.
  unfold w'. rewrite Alin, Aw. pose proof cs1 as E1. pose proof rho_nz as Hr. apply functional_extensionality; intros i. unfold z', lc.
  replace (1 * A v' i + - (s * alpha') / rho * (rhob * z i + beta * u' i)) with (A v' i - s * alpha' * (c * z i + s * u' i)) by (field; auto).
  replace (- c * alpha' * (s * z i + - c * u' i)) with (- alpha' * c * s * z i + alpha' * (c * c) * u' i) by ring.
  replace (c * c) with (1 - s * s) by lra. ring.
Qed.

(** The new vectors are orthogonal to the old ones. *)
Lemma new_u y : In y (u :: us) -> beta * dotd m y u' = 0.
Proof.
  intros Hy. rewrite <- dot_scal_r, <- Hu', dot_lc_r. destruct Hy as [<-|Hy].
  - rewrite (li_uu _ _ _ _ _ _ _ _ _ _ I), (dotd_sym m u (A v)), adj, (dotd_sym n v), (li_new_u _ _ _ _ _ _ _ _ _ _ I v (li_v _ _ _ _ _ _ _ _ _ _ I)), (li_vv _ _ _ _ _ _ _ _ _ _ I). ring.
  - rewrite (li_old_u _ _ _ _ _ _ _ _ _ _ I v (li_v _ _ _ _ _ _ _ _ _ _ I) y Hy), (li_u _ _ _ _ _ _ _ _ _ _ I y Hy). ring.
Qed.
Hypothesis Hun : beta <> 0 -> dotd m u' u' = 1.
Hypothesis Huz : beta = 0 -> u' = fun _ => 0.
Lemma perp_u : perp m (u :: us) u'.
Proof.
  intros y Hy. destruct (Req_dec beta 0) as [Eb|Nb]; [rewrite (Huz Eb), dotd_sym; apply dot_zero_l|].
  pose proof (new_u y Hy). apply Rmult_integral in H as [H|H]; [contradiction|exact H].
Qed.
Lemma new_v y : In y (v :: vs) -> alpha' * dotd n y v' = 0.
Proof.
  intros Hy. rewrite <- dot_scal_r, <- Hv', dot_lc_r. pose proof perp_u as Pu. destruct Hy as [<-|Hy].
  - rewrite (li_vv _ _ _ _ _ _ _ _ _ _ I), <- adj, Av, dot_lc_l, (Pu u (or_introl eq_refl)).
    destruct (Req_dec beta 0) as [Eb|Nb]; [rewrite Eb; ring|rewrite (Hun Nb); ring].
  - rewrite (li_old_v _ _ _ _ _ _ _ _ _ _ I u' Pu y Hy), (li_v _ _ _ _ _ _ _ _ _ _ I y Hy). ring.
Qed.
Hypothesis Hvn : alpha' <> 0 -> dotd n v' v' = 1.
Hypothesis Hvz : alpha' = 0 -> v' = fun _ => 0.
Lemma perp_v : perp n (v :: vs) v'.
Proof.
  intros y Hy. destruct (Req_dec alpha' 0) as [Eb|Nb]; [rewrite (Hvz Eb), dotd_sym; apply dot_zero_l|].
  pose proof (new_v y Hy). apply Rmult_integral in H as [H|H]; [contradiction|exact H].
Qed.

Lemma old_u y : perp n (v :: vs) y -> perp m (u :: us) (A y).
Proof.
  intros H. apply perp_cons in H as [H1 H2]. apply perp_cons. split.
  - rewrite dotd_sym, adj, dotd_sym, (li_new_u _ _ _ _ _ _ _ _ _ _ I y H2), H1. ring.
  - exact (li_old_u _ _ _ _ _ _ _ _ _ _ I y H2).
Qed.
Lemma span_x y : perp n (v :: vs) y -> dotd n x' y = 0.
Proof.
  intros H. unfold x'. rewrite dot_lc_l, (li_span_w _ _ _ _ _ _ _ _ _ _ I y H). apply perp_cons in H as [_ H].
  rewrite (li_span_x _ _ _ _ _ _ _ _ _ _ I y H). ring.
Qed.
Lemma kry_next y j : perp n (v :: vs) y -> (j < S (length vs))%nat -> dotd n (kry j) y = 0.
Proof.
  intros H Hj. pose proof H as H'. apply perp_cons in H' as [_ H2].
  destruct (Nat.lt_ge_cases j (length vs)) as [L|L]; [exact (li_kry _ _ _ _ _ _ _ _ _ _ I y j H2 L)|].
  assert (j = length vs) by lia. subst j.
  pose proof (old_u y H) as Hu. pose proof (li_old_v _ _ _ _ _ _ _ _ _ _ I (A y) Hu) as Hv.
  destruct (length vs) as [|k] eqn:El; cbn [kry].
  - exact (li_b _ _ _ _ _ _ _ _ _ _ I y H).
  - rewrite dotd_sym, <- adj, dotd_sym, adj. apply (li_kry _ _ _ _ _ _ _ _ _ _ I); [exact Hv|lia].
Qed.

(** The invariant is kept as long as the scalars do not vanish. *)
Lemma linv_step : beta <> 0 -> alpha' <> 0 -> 0 <= s ->
  linv (u :: us) (v :: vs) u' v' w' x' z' alpha' (- c * alpha') (s * phib).
Proof.
  intros Nb Na Hs. pose proof perp_u as Pu. pose proof perp_v as Pv. constructor.
  - apply step_res.
  - apply step_opt.
  - apply step_w.
  - exact (Hun Nb).
  - exact (Hvn Na).
  - exact Pu.
  - exact Pv.
  - cbn [ortho]. rewrite (li_uu _ _ _ _ _ _ _ _ _ _ I). split; [lra|]. split; [|apply (li_us _ _ _ _ _ _ _ _ _ _ I)].
    intros y Hy. rewrite dotd_sym. exact (li_u _ _ _ _ _ _ _ _ _ _ I y Hy).
  - cbn [ortho]. rewrite (li_vv _ _ _ _ _ _ _ _ _ _ I). split; [lra|]. split; [|apply (li_vs _ _ _ _ _ _ _ _ _ _ I)].
    intros y Hy. rewrite dotd_sym. exact (li_v _ _ _ _ _ _ _ _ _ _ I y Hy).
  - exact old_u.
  - intros y Hy. apply perp_cons in Hy as [Hy _]. rewrite Tu, dot_lc_l, Hy. ring.
  - intros y Hy. apply perp_cons in Hy as [H1 H2]. apply perp_cons. split.
    + rewrite <- adj, Av, dot_lc_l, H1. apply perp_cons in H2 as [H2 _]. rewrite H2. ring.
    + exact (li_old_v _ _ _ _ _ _ _ _ _ _ I y H2).
  - intros y Hy. apply perp_cons in Hy as [H1 H2]. unfold w'. rewrite dot_lc_l, H1, (li_span_w _ _ _ _ _ _ _ _ _ _ I y H2). ring.
  - exact span_x.
  - intros y j Hy Hj. exact (kry_next y j Hy Hj).
  - intros y Hy. apply perp_cons in Hy as [_ Hy]. exact (li_b _ _ _ _ _ _ _ _ _ _ I y Hy).
  - cbn [length]. f_equal. apply (li_len _ _ _ _ _ _ _ _ _ _ I).
  - apply Rmult_le_pos; [exact Hs|apply (li_phib _ _ _ _ _ _ _ _ _ _ I)].
Qed.

(** The gradient of the objective after the iteration *)
Lemma step_grad : T (res_of x') = scal (s * phib * (- c * alpha')) v'.
Proof. rewrite step_res, Tscal, step_opt. apply functional_extensionality; intros i. unfold scal. ring. Qed.
End Step.
(** ** The objective *)
Definition obj (x : Z -> R) : R := / 2 * dotd m (res_of x) (res_of x).

Lemma obj_line x y t : dotd n (T (res_of y)) (lc 1 y (-1) x) = 0 ->
  obj (lc (1 - t) x t y) = obj y + (1 - t) * (1 - t) * (/ 2 * dotd m (A (lc 1 y (-1) x)) (A (lc 1 y (-1) x))).
Proof.
  intros H. rewrite dotd_sym, <- adj in H.
  assert (E : res_of (lc (1 - t) x t y) = lc 1 (res_of y) (1 - t) (A (lc 1 y (-1) x))).
  { unfold res_of. rewrite !Alin. apply functional_extensionality; intros i. unfold lc. ring. }
  unfold obj. rewrite E. rewrite !dot_lc_l, !dot_lc_r, (dotd_sym m (res_of y) (A _)), H. ring.
Qed.
Lemma obj_least x y : dotd n (T (res_of y)) (lc 1 y (-1) x) = 0 -> obj y <= obj x.
Proof.
  intros H. pose proof (obj_line x y 0 H) as E. replace (lc (1 - 0) x 0 y) with x in E by (apply functional_extensionality; intros i; unfold lc; ring).
  pose proof (dotd_nonneg m (A (lc 1 y (-1) x))). lra.
Qed.

(** [y] is a combination of the first [k] Krylov vectors. *)
Definition comb (k : nat) (a : nat -> R) : Z -> R := fun i => rsum k (fun j => a (Z.to_nat j) * kry (Z.to_nat j) i).
Lemma dot_comb k a y : (forall j, (j < k)%nat -> dotd n (kry j) y = 0) -> dotd n (comb k a) y = 0.
Proof.
  unfold comb. induction k as [|k IH]; intros H; [apply dot_zero_l|].
  replace (fun i => rsum (S k) (fun j => a (Z.to_nat j) * kry (Z.to_nat j) i))
    with (lc 1 (fun i => rsum k (fun j => a (Z.to_nat j) * kry (Z.to_nat j) i)) (a k) (kry k)).
  - rewrite dot_lc_l, IH by (intros; apply H; lia). rewrite (H k) by lia. ring.
  - apply functional_extensionality; intros i. unfold lc. cbn [rsum]. rewrite Nat2Z.id. ring.
Qed.

(** If the gradient at [y] is orthogonal to the space that contains [y], [y] is optimal there. *)
Lemma krylov_least k a y g v : T (res_of y) = scal g v -> (forall j, (j < k)%nat -> dotd n (kry j) v = 0) -> dotd n y v = 0 ->
  obj y <= obj (comb k a).
Proof.
  intros E H1 H2. apply obj_least. rewrite E, dot_scal_l, dot_lc_r, (dotd_sym n v y), H2, (dotd_sym n v), (dot_comb k a v H1). ring.
Qed.
End Math.

(** ** The code *)

(** Product with a matrix of [m] rows and [n] columns *)
Definition mprod (n m : Z) (M : Z -> Z -> R) (x : Z -> R) (i : Z) : R :=
  if ((0 <=? i) && (i <? m))%Z then sumd n (fun j => M i j * x j) else 0.
Definition applies (n m : Z) (F : (Z -> R) -> Z -> R) (f : rvec -> rvec -> res rvec) : Prop :=
  forall v t, vok n v -> vok m t -> exists p, f v t = Ok p /\ vok m p /\ forall i, (0 <= i < m)%Z -> dense p i = F (dense v) i.

Lemma mprod_lin n m M a x c y : mprod n m M (lc a x c y) = lc a (mprod n m M x) c (mprod n m M y).
Proof.
  apply functional_extensionality; intros i. unfold mprod, lc. destruct (_ && _)%bool; [|ring].
  rewrite <- !sumd_scal, <- sumd_plus. apply sumd_ext. intros. ring.
Qed.
Lemma mprod_adj n m M x y : dotd m (mprod n m M x) y = dotd n x (mprod m n (fun i j => M j i) y).
Proof.
  unfold dotd. rewrite (sumd_ext m _ (fun i => sumd n (fun j => M i j * x j * y i))).
  - rewrite sumd_swap. apply sumd_ext. intros j Hj. unfold mprod. replace ((0 <=? j) && (j <? n))%Z%bool with true by lia.
    rewrite <- sumd_scal. apply sumd_ext. intros. ring.
  - intros i Hi. unfold mprod. replace ((0 <=? i) && (i <? m))%Z%bool with true by lia. rewrite Rmult_comm, <- sumd_scal. apply sumd_ext. intros. ring.
Qed.
Lemma applies_fun n m M f v t : applies n m (mprod n m M) f -> vok n v -> vok m t ->
  exists p, f v t = Ok p /\ vok m p /\ dense p = mprod n m M (dense v).
Proof.
  intros H Hv Ht. destruct (H v t Hv Ht) as (p & E & Vp & D). exists p. split; [exact E|]. split; [exact Vp|].
  apply functional_extensionality; intros i. destruct (Z_lt_ge_dec i 0) as [L|L]; [|destruct (Z_lt_ge_dec i m) as [L'|L']].
  - unfold mprod. replace ((0 <=? i) && (i <? m))%Z%bool with false by lia. apply dense_range; [apply Vp|]. destruct Vp as [_ ->]. lia.
  - apply D. lia.
  - unfold mprod. replace ((0 <=? i) && (i <? m))%Z%bool with false by lia. apply dense_range; [apply Vp|]. destruct Vp as [_ ->]. lia.
Qed.

Lemma normalize_fun d (v : rvec) : vok d v -> exists v' b, normalize v = (v', b) /\ vok d v' /\ 0 <= b
  /\ dense v = scal b (dense v') /\ (b <> 0 -> dotd d (dense v') (dense v') = 1) /\ (b = 0 -> dense v' = fun _ => 0).
Proof.
  intros Hv. unfold normalize. rewrite (norm_fun d v Hv). set (q := sqrt (dotd d (dense v) (dense v))).
  assert (Hq : 0 <= q) by apply sqrt_pos. assert (Eq : q * q = dotd d (dense v) (dense v)) by (apply sqrt_sqrt, dotd_nonneg).
  rewrite rn_n0, rn_n1. destruct (@neqb RN q 0) eqn:E.
  - apply rn_eqb in E. exists v, q. split; [reflexivity|]. split; [exact Hv|]. split; [exact Hq|].
    assert (Z0 : dense v = fun _ => 0).
    { apply functional_extensionality; intros i. destruct (Z_lt_ge_dec i 0); [|destruct (Z_lt_ge_dec i d)].
      - apply dense_range; [apply Hv|]. destruct Hv as [_ ->]. lia.
      - apply (proj1 (dotd_zero d (dense v))); [|lia]. rewrite <- Eq, E. ring.
      - apply dense_range; [apply Hv|]. destruct Hv as [_ ->]. lia. }
    split; [rewrite Z0; apply functional_extensionality; intros i; change (0 = q * 0); ring|]. split; [contradiction|]. intros _. exact Z0.
  - apply rn_eqb_false in E. change (@ndiv RN 1 q) with (1 / q). destruct (scale_fun d v (1 / q) Hv) as [Vs Ds].
    eexists _, q. split; [reflexivity|]. split; [exact Vs|]. split; [exact Hq|]. rewrite Ds. split.
    + assert (G : forall y : R, y = q * (1 / q * y)) by (intros; field; exact E). apply functional_extensionality; intros i. apply G.
    + split; [|contradiction]. intros _. change (fun i => 1 / q * dense v i) with (scal (1 / q) (dense v)).
      rewrite dot_scal_l, dot_scal_r, <- Eq. field. exact E.
Qed.

Section Code.
Variables (n m : Z) (M : Z -> Z -> R) (fwd ad : rvec -> rvec -> res rvec) (bv : rvec) (hyp : R -> R -> R).
Hypothesis Hn : (0 <= n)%Z.
Hypothesis Hb : vok m bv.
Hypothesis Hfwd : applies n m (mprod n m M) fwd.
Hypothesis Hadj : applies m n (mprod m n (fun i j => M j i)) ad.
Hypothesis Hhyp : forall a b, hyp a b = sqrt (a * a + b * b).
Notation A := (mprod n m M).
Notation T := (mprod m n (fun i j => M j i)).
Notation b := (dense bv).
Notation linv := (linv n m A T b).

Record vecs_ok (s : @lsqr RN) : Prop := {
  vo_u : vok m (ls_u s); vo_v : vok n (ls_v s); vo_w : vok n (ls_w s); vo_p : vok m (ls_p s); vo_q : vok n (ls_q s);
  vo_d : vok n (ls_d s); vo_t : (0 <= vcap (ls_t s))%Z }.

(** The state of the code with the history [us], [vs] *)
Definition istate (us vs : list (Z -> R)) (i : @iter RN) : Prop :=
  vecs_ok (it_s i) /\ vok n (it_x i) /\ it_rhob i <> (0 : R) /\
  exists z, linv us vs (dense (ls_u (it_s i))) (dense (ls_v (it_s i))) (dense (ls_w (it_s i))) (dense (it_x i)) z (it_alpha i) (it_rhob i) (it_phib i).

Lemma product_ok f k l a t : vok k a -> vok l t -> product f k l a t = f a t.
Proof. intros [_ Ha] [_ Ht]. unfold product. rewrite Ha, Ht, !Z.eqb_refl. reflexivity. Qed.

Notation obj := (obj m A b).
Notation grad x := (T (res_of A b x)).
Notation kry := (kry A T b).

(** An iteration ends on the boundary or at the optimum over a larger space. *)
Lemma body_ok us vs i (radius : R) : istate us vs i ->
  (radius <> -1 -> 0 < radius /\ dotd n (dense (it_x i)) (dense (it_x i)) <= radius * radius) ->
  (exists x s, lsqr_body hyp fwd ad n m (0 : @num RN) (0 : @num RN) (radius : @num RN) i = Ok (LBdry x s)
     /\ radius <> -1 /\ vok n x /\ vecs_ok s /\ dotd n (dense x) (dense x) = radius * radius
     /\ exists y t, 0 <= t <= 1 /\ dense x = lc (1 - t) (dense (it_x i)) t y /\ (forall u, obj (lc (1 - u) (dense (it_x i)) u y) = obj y + (1 - u) * (1 - u) * (obj (dense (it_x i)) - obj y))
         /\ obj y <= obj (dense (it_x i)) /\ (exists a, y = lc 1 (dense (it_x i)) a (dense (ls_w (it_s i)))) /\ radius * radius < dotd n y y)
  \/ (exists i' (o : R), lsqr_body hyp fwd ad n m (0 : @num RN) (0 : @num RN) (radius : @num RN) i = Ok (LNext i' o)
     /\ vok n (it_x i') /\ vecs_ok (it_s i')
     /\ (radius <> -1 -> dotd n (dense (it_x i')) (dense (it_x i')) <= radius * radius)
     /\ o * o = dotd n (grad (dense (it_x i'))) (grad (dense (it_x i'))) /\ 0 <= o
     /\ (forall a, obj (dense (it_x i')) <= obj (comb A T b (S (length vs)) a))
     /\ (o <> 0 -> istate (dense (ls_u (it_s i)) :: us) (dense (ls_v (it_s i)) :: vs) i')).
Proof.
  intros (V & Vx & Hr & z & I) Hrad. unfold lsqr_body. set (s := it_s i) in *.
  rewrite (product_ok fwd n m _ _ (vo_v s V) (vo_p s V)).
  destruct (applies_fun n m M fwd _ _ Hfwd (vo_v s V) (vo_p s V)) as (p & Ep & Vp & Dp). rewrite Ep. cbn [rbind].
  rewrite rn_n1. change (@nopp RN (it_alpha i)) with (- it_alpha i).
  destruct (dense_lc m p (ls_u s) (ls_t s) 1 (- it_alpha i) Vp (vo_u s V) (vo_t s V)) as (t1 & E1 & Vt1 & Dt1). rewrite E1. cbn [rbind].
  destruct (copy_fun m t1 (ls_u s) Vt1 (vo_u s V)) as (u1 & E2 & Vu1 & _ & Du1). rewrite E2. cbn [rbind].
  destruct (normalize_fun m u1 Vu1) as (u' & beta & E3 & Vu' & Hbeta & Du' & Nu & Zu). rewrite E3.
  rewrite (product_ok ad m n _ _ Vu' (vo_q s V)).
  destruct (applies_fun m n (fun i j => M j i) ad _ _ Hadj Vu' (vo_q s V)) as (q & Eq & Vq & Dq). rewrite Eq. cbn [rbind].
  change (@nopp RN beta) with (- beta).
  destruct (dense_lc n q (ls_v s) t1 1 (- beta) Vq (vo_v s V) (vok_cap _ _ Vt1)) as (t2 & E4 & Vt2 & Dt2). rewrite E4. cbn [rbind].
  destruct (copy_fun n t2 (ls_v s) Vt2 (vo_v s V)) as (v1 & E5 & Vv1 & _ & Dv1). rewrite E5. cbn [rbind].
  destruct (normalize_fun n v1 Vv1) as (v' & alpha' & E6 & Vv' & Halpha & Dv' & Nv & Zv). rewrite E6.
  set (rho := hyp (it_rhob i) beta).
  assert (Hrho : rho * rho = it_rhob i * it_rhob i + beta * beta).
  { unfold rho. rewrite Hhyp. apply sqrt_sqrt. nra. }
  assert (Prho : 0 < rho).
  { assert (0 <= rho) by (unfold rho; rewrite Hhyp; apply sqrt_pos). destruct H as [H|H]; [exact H|]. exfalso. rewrite <- H in Hrho.
    assert (0 < it_rhob i * it_rhob i) by nra. nra. }
  (* the abstract step *)
  assert (Hu' : lc 1 (A (dense (ls_v s))) (- it_alpha i) (dense (ls_u s)) = scal beta (dense u')) by (rewrite <- Du', Du1, Dt1, Dp; reflexivity).
  assert (Hv' : lc 1 (T (dense u')) (- beta) (dense (ls_v s)) = scal alpha' (dense v')) by (rewrite <- Dv', Dv1, Dt2, Dq; reflexivity).
  set (X' := x' (dense (ls_w s)) (dense (it_x i)) (it_rhob i) (it_phib i) rho).
  assert (Pv : perp n (dense (ls_v s) :: vs) (dense v')).
  { eapply perp_v; try exact I; try exact Hu'; try exact Hv'; auto. intros a y. apply mprod_adj. }
  assert (Gr : grad X' = scal (beta / rho * it_phib i * (- (it_rhob i / rho) * alpha')) (dense v')).
  { eapply step_grad; try exact I; try exact Hu'; try exact Hv'; auto; intros; apply mprod_lin. }
  assert (Xv : dotd n X' (dense v') = 0) by (eapply span_x; [exact I|exact Pv]).
  assert (xv : dotd n (dense (it_x i)) (dense v') = 0) by (apply (li_span_x _ _ _ _ _ _ _ _ _ _ _ _ _ _ _ I); apply perp_cons in Pv; tauto).
  assert (Kr : forall a, obj X' <= obj (comb A T b (S (length vs)) a)).
  { intros a. eapply krylov_least; [intros; apply mprod_lin|intros; apply mprod_adj|exact Gr| |exact Xv].
    intros j Hj. eapply kry_next; [intros; apply mprod_adj|exact I|exact Pv|exact Hj]. }
  assert (Ln : forall u, obj (lc (1 - u) (dense (it_x i)) u X') = obj X' + (1 - u) * (1 - u) * (obj (dense (it_x i)) - obj X') /\ obj X' <= obj (dense (it_x i))).
  { assert (H0 : dotd n (grad X') (lc 1 X' (-1) (dense (it_x i))) = 0)
      by (rewrite Gr, dot_scal_l, dot_lc_r, (dotd_sym n _ X'), Xv, (dotd_sym n _ (dense (it_x i))), xv; ring).
    intros u. pose proof (obj_line n m A T b ltac:(intros; apply mprod_lin) ltac:(intros; apply mprod_adj) (dense (it_x i)) X') as L.
    pose proof (L u H0) as Lu. pose proof (L 0 H0) as L0.
    replace (lc (1 - 0) (dense (it_x i)) 0 X') with (dense (it_x i)) in L0 by (apply functional_extensionality; intros k; unfold lc; rnum; lra).
    split; [rewrite Lu, L0; ring|]. apply (obj_least n m A T b); auto; intros; [apply mprod_lin|apply mprod_adj]. }
  change (@ndiv RN (@nmul RN (@ndiv RN (it_rhob i) rho) (it_phib i)) rho) with (it_rhob i / rho * it_phib i / rho).
  destruct (dense_lc n (it_x i) (ls_w s) t2 1 (it_rhob i / rho * it_phib i / rho) Vx (vo_w s V) (vok_cap _ _ Vt2)) as (t3 & E7 & Vt3 & Dt3).
  change (dense t3 = X') in Dt3. rewrite E7. cbn [rbind]. rewrite (norm_fun n t3 Vt3), Dt3.
  set (c := it_rhob i / rho) in *. set (sn := beta / rho) in *.
  destruct (negb (@neqb RN radius (nlit (-1) 1)) && @is_gt RN (sqrt (dotd n X' X')) radius 0) eqn:Eb.
  - left. apply andb_prop in Eb as [Eb1 Eb2]. apply negb_true_iff, rn_eqb_false in Eb1. rewrite rn_lit1 in Eb1.
    destruct (Hrad Eb1) as [Prad Hx]. apply rn_is_gt in Eb2; [|lra].
    assert (Hout : radius * radius < dotd n X' X').
    { pose proof (sqrt_sqrt _ (dotd_nonneg n X')). nra. }
    rewrite rn_lit1.
    destruct (dense_lc n (it_x i) t3 (ls_d s) (-1) 1 Vx Vt3 (vok_cap _ _ (vo_d s V))) as (d & E8 & Vd & Dd). rewrite E8. cbn [rbind]. rewrite Dt3 in Dd.
    assert (Hdd : 0 < dotd n (dense d) (dense d)).
    { destruct (dotd_nonneg n (dense d)) as [H|H]; [exact H|]. exfalso. symmetry in H. pose proof (proj1 (dotd_zero n (dense d)) H) as Hz.
      assert (Ee : dotd n X' X' = dotd n (dense (it_x i)) (dense (it_x i))); [|lra].
      unfold dotd. apply sumd_ext. intros k Hk. specialize (Hz k Hk). rewrite Dd in Hz. unfold lc in Hz. rnum. replace (X' k) with (dense (it_x i) k) by lra. reflexivity. }
    destruct (bdry_sol_spec n (it_x i) d t3 radius Vx Vd (vok_cap _ _ Vt3) Hdd Hx) as (y & E9 & Vy & Dy). rewrite E9. cbn [rbind].
    destruct (copy_fun n y (it_x i) Vy Vx) as (x2 & E10 & Vx2 & _ & Dx2). rewrite E10. cbn [rbind].
    set (tm := tmax _ _ _ _) in Dy.
    eexists x2, _. split; [reflexivity|]. split; [exact Eb1|]. split; [exact Vx2|].
    split; [constructor; cbn [ls_u ls_v ls_w ls_p ls_q ls_d ls_t]; auto; [apply (vo_w s V)|apply (vok_cap _ _ Vy)]|].
    assert (Hq : forall t, dotd n (lc 1 (dense (it_x i)) t (dense d)) (lc 1 (dense (it_x i)) t (dense d))
       = qn (dotd n (dense (it_x i)) (dense (it_x i))) (dotd n (dense (it_x i)) (dense d)) (dotd n (dense d) (dense d)) t).
    { intros t. unfold qn. rewrite dot_lc_l, !dot_lc_r, (dotd_sym n (dense d) (dense (it_x i))). ring. }
    split; [rewrite Dx2, Dy, Hq; apply qn_tmax; auto|].
    exists X', tm. split.
    + split; [apply tmax_nonneg; auto|]. apply (qn_out _ _ _ radius Hdd Hx 1); [lra|]. rewrite <- Hq.
      replace (lc 1 (dense (it_x i)) 1 (dense d)) with X'; [lra|]. rewrite Dd. apply functional_extensionality; intros k. unfold lc. rnum. lra.
    + split; [rewrite Dx2, Dy, Dd; apply functional_extensionality; intros k; unfold lc; req; ring|].
      split; [intros u; apply Ln|]. split; [apply (Ln 0)|]. split; [eexists; reflexivity|exact Hout].
  - right. destruct (copy_fun n t3 (it_x i) Vt3 Vx) as (x2 & E8 & Vx2 & _ & Dx2). rewrite E8. cbn [rbind]. rewrite Dt3 in Dx2.
    change (@ndiv RN (@nopp RN (@nmul RN (@ndiv RN beta rho) alpha')) rho) with (- (sn * alpha') / rho).
    destruct (dense_lc n v' (ls_w s) t3 1 (- (sn * alpha') / rho) Vv' (vo_w s V) (vok_cap _ _ Vt3)) as (t4 & E9 & Vt4 & Dt4). rewrite E9. cbn [rbind].
    destruct (copy_fun n t4 (ls_w s) Vt4 (vo_w s V)) as (w2 & E10 & Vw2 & _ & Dw2). rewrite E10. cbn [rbind].
    change (@nmul RN (@nmul RN (@nmul RN (@ndiv RN beta rho) (it_phib i)) alpha') (@nabs RN (@ndiv RN (it_rhob i) rho)))
      with (sn * it_phib i * alpha' * @nabs RN c). rewrite rn_abs.
    change (@nmul RN (@nopp RN (@ndiv RN (it_rhob i) rho)) alpha') with (- c * alpha'). change (@nmul RN (@ndiv RN beta rho) (it_phib i)) with (sn * it_phib i).
    eexists _, _. split; [reflexivity|]. cbn [it_s it_x it_alpha it_rhob it_phib].
    assert (Hs : 0 <= sn) by (apply Rmult_le_pos; [exact Hbeta|left; apply Rinv_0_lt_compat; exact Prho]).
    pose proof (li_phib _ _ _ _ _ _ _ _ _ _ _ _ _ _ _ I) as Hphib.
    assert (Vs : vecs_ok (mklsqr u' v' w2 p q (ls_d s) t4)) by (constructor; cbn [ls_u ls_v ls_w ls_p ls_q ls_d ls_t]; auto; [apply (vo_d s V)|apply (vok_cap _ _ Vt4)]).
    split; [exact Vx2|]. split; [exact Vs|]. rewrite Dx2.
    split; [|split; [|split; [|split; [exact Kr|]]]].
    + intros Hr1. destruct (Hrad Hr1) as [Prad _]. apply andb_false_iff in Eb as [Eb|Eb].
      * apply negb_false_iff, rn_eqb in Eb. rewrite rn_lit1 in Eb. contradiction.
      * assert (Hle : sqrt (dotd n X' X') <= radius).
        { destruct (Rle_lt_dec (sqrt (dotd n X' X')) radius) as [L|L]; [exact L|]. exfalso. unfold is_gt in Eb. apply rn_ltb_false in Eb.
          destruct (rel_diff_real (sqrt (dotd n X' X')) radius) as (k & Hk & Ek). rewrite Ek in Eb.
          assert (0 < (sqrt (dotd n X' X') - radius) / k) by (apply Rmult_lt_0_compat; [lra|apply Rinv_0_lt_compat; lra]). lra. }
        pose proof (sqrt_sqrt _ (dotd_nonneg n X')) as Q. pose proof (sqrt_pos (dotd n X' X')). nra.
    + rewrite Gr, dot_scal_l, dot_scal_r. assert (Ea : Rabs c * Rabs c = c * c) by (rewrite <- Rabs_mult; apply Rabs_pos_eq; nra).
      destruct (Req_dec alpha' 0) as [E0|N0]; [rewrite E0; ring|]. rewrite (Nv N0).
      replace (sn * it_phib i * alpha' * Rabs c * (sn * it_phib i * alpha' * Rabs c)) with (sn * it_phib i * alpha' * (sn * it_phib i * alpha') * (Rabs c * Rabs c)) by ring.
      rewrite Ea. ring.
    + apply Rmult_le_pos; [|apply Rabs_pos]. apply Rmult_le_pos; [|exact Halpha]. apply Rmult_le_pos; auto.
    + intros Ho.
      assert (Na : alpha' <> 0) by (intros E0; apply Ho; rewrite E0; ring).
      assert (Nb : beta <> 0) by (intros E0; apply Ho; unfold sn; rewrite E0; unfold Rdiv; ring).
      assert (Nc : c <> 0) by (intros E0; apply Ho; rewrite E0, Rabs_R0; ring).
      split; [exact Vs|]. split; [exact Vx2|]. split; [intros E0; apply Rmult_integral in E0 as [E0|E0]; lra|].
      cbn [it_s it_x it_alpha it_rhob it_phib ls_u ls_v ls_w]. rewrite Dx2, Dw2, Dt4.
      eexists. eapply (linv_step n m A T b); try exact I; try exact Hu'; try exact Hv'; auto; intros; try apply mprod_lin; apply mprod_adj.
Qed.
End Code.
