(** C81: least squares by bidiagonalization. *)
From Coq Require Import Reals Lra FunctionalExtensionality.
From Flocq Require Import BinarySingleNaN.
From Verif Require Import Base Num Cmp Sparse Vec VecFacts VecFacts2 RSum VecReal Mat MatFacts MatFacts2 MatFacts4 Arr PreprocReal RestoreMain QnReal SteihaugFacts Steihaug PropsVec PropsSteihaug Lsqr LsqrFacts.
Local Open Scope R_scope.

Section Props.
Variables (n m : Z) (M : Z -> Z -> R) (fwd ad : rvec -> rvec -> res rvec) (bv : rvec) (hyp : R -> R -> R).
Variables (tol radius time_limit : R) (clock : Z -> R).
Hypothesis Hn : (0 <= n)%Z.
Hypothesis Hb : vok m bv.
Hypothesis Hfwd : applies n m (mprod n m M) fwd.
Hypothesis Hadj : applies m n (mprod m n (fun i j => M j i)) ad.
Hypothesis Hhyp : forall a b, hyp a b = sqrt (a * a + b * b).
Hypothesis Htol : 0 <= tol.
Hypothesis Hrad : radius <> -1 -> 0 < radius.
Notation A := (mprod n m M).
Notation T := (mprod m n (fun i j => M j i)).
Notation b := (dense bv).
Notation obj := (obj m A b).
Notation grad x := (T (res_of A b x)).
Notation comb := (comb A T b).
Notation loop k := (lsqr_loop (hyp : @num RN -> @num RN -> @num RN) k fwd ad n m (0 : @num RN) (0 : @num RN) (tol : @num RN) (radius : @num RN) (time_limit : @num RN) clock).

(** The results of the solver *)
Definition result (inner : bool) (x : rvec) (s : @lsqr RN) : Prop :=
  vok n x /\ vecs_ok n m s
  /\ (forall t, (radius <> -1 -> t * t * dotd n (T b) (T b) <= radius * radius) -> obj (dense x) <= obj (scal t (T b)))
  /\ if inner then sqrt (dotd n (grad (dense x)) (grad (dense x))) <= tol
          /\ (radius <> -1 -> dotd n (dense x) (dense x) <= radius * radius)
          /\ exists k, (1 <= k)%nat /\ forall a, obj (dense x) <= obj (comb k a)
     else radius <> -1 /\ dotd n (dense x) (dense x) = radius * radius.

Lemma comb_first k t : comb (S k) (fun j => match j with 0%nat => t | _ => 0 end) = scal t (T b).
Proof.
  apply functional_extensionality; intros i. unfold LsqrFacts.comb. induction k as [|k IH].
  - cbn [rsum]. change (Z.to_nat (Z.of_nat 0)) with 0%nat. unfold scal. cbn [kry]. ring.
  - change (rsum (S (S k)) ?f) with (rsum (S k) f + f (Z.of_nat (S k))). rewrite IH. rewrite Nat2Z.id. ring.
Qed.

Definition first_info (i : @iter RN) : Prop :=
  dense (it_x i) = (fun _ => 0) /\ dense (ls_w (it_s i)) = dense (ls_v (it_s i)) /\ exists k, T b = scal k (dense (ls_v (it_s i))).

Lemma loop_ok k : forall j us vs i, istate n m M bv us vs i -> (length vs + k)%nat = Z.to_nat n ->
  (radius <> -1 -> dotd n (dense (it_x i)) (dense (it_x i)) <= radius * radius) ->
  (forall a, obj (dense (it_x i)) <= obj (comb (length vs) a)) -> (vs = [] -> first_info i) ->
  (exists j', loop k j i = Err EAbortTime /\ @time_hit RN time_limit clock j' = true)
  \/ exists inner x s, loop k j i = Ok (inner, x, s) /\ result inner x s.
Proof.
  induction k as [|k IH]; intros j us vs i I Hk Hx Hbest Hf.
  - exfalso. destruct I as (_ & _ & _ & z & I).
    assert (Ho : ortho n (dense (ls_v (it_s i)) :: vs)).
    { cbn [ortho]. rewrite (li_vv _ _ _ _ _ _ _ _ _ _ _ _ _ _ _ I). split; [lra|]. split; [|apply (li_vs _ _ _ _ _ _ _ _ _ _ _ _ _ _ _ I)].
      intros y Hy. rewrite dotd_sym. exact (li_v _ _ _ _ _ _ _ _ _ _ _ _ _ _ _ I y Hy). }
    apply ortho_length in Ho; [|exact Hn]. cbn [length] in Ho. lia.
  - cbn [lsqr_loop].
    destruct (body_ok n m M fwd ad bv hyp Hfwd Hadj Hhyp us vs i radius I) as
      [(x & s & E & Hr1 & Vx & Vs & Nx & y & t & Ht & Dx & Ln & Ly & (a & Dy) & Hout)|(i' & o & E & Vx & Vs & Nx & Eo & Ho & Kr & I')].
    + intros Hr. split; [exact (Hrad Hr)|exact (Hx Hr)].
    + rewrite E. cbn [rbind]. right. exists false, x, s. split; [reflexivity|]. split; [exact Vx|]. split; [exact Vs|]. split; [|auto].
      intros u Hu. specialize (Hu Hr1). rewrite Dx, Ln.
      destruct vs as [|v0 vs].
      * destruct (Hf eq_refl) as (X0 & Ew & kk & Eb). destruct I as (_ & _ & _ & z & I). pose proof (li_vv _ _ _ _ _ _ _ _ _ _ _ _ _ _ _ I) as Hvv.
        set (v := dense (ls_v (it_s i))) in *. rewrite X0, Ew in Dy.
        assert (Ey : y = scal a v) by (rewrite Dy; apply functional_extensionality; intros q; unfold lc, scal; ring).
        rewrite Eb, dot_scal_l, dot_scal_r, Hvv in Hu. rewrite Ey, dot_scal_l, dot_scal_r, Hvv in Hout.
        assert (Ha : a <> 0) by (intros ->; nra).
        assert (Hd : dotd n (dense x) (dense x) = t * t * (a * a)).
        { rewrite Dx, X0, Ey. replace (lc (1 - t) (fun _ => 0) t (scal a v)) with (scal (t * a) v) by (apply functional_extensionality; intros q; unfold lc, scal; ring).
          rewrite dot_scal_l, dot_scal_r, Hvv. ring. }
        replace (scal u (T b)) with (lc (1 - u * kk / a) (dense (it_x i)) (u * kk / a) y).
        2:{ rewrite X0, Ey, Eb. apply functional_extensionality; intros q. unfold lc, scal. field. exact Ha. }
        rewrite Ln. set (w := u * kk / a).
        assert (Hw : w * w <= t * t).
        { assert (Ew2 : w * w * (a * a) = u * kk * (u * kk)) by (unfold w; field; exact Ha). assert (0 < a * a) by nra.
          apply Rmult_le_reg_r with (a * a); [auto|]. rewrite Ew2. lra. }
        assert (Hwt : w <= t) by nra. assert (0 <= obj (dense (it_x i)) - obj y) by lra.
        assert ((1 - t) * (1 - t) <= (1 - w) * (1 - w)) by nra. nra.
      * specialize (Hbest (fun j => match j with 0%nat => u | _ => 0 end)). cbn [length] in Hbest. rewrite comb_first in Hbest.
        assert ((1 - t) * (1 - t) <= 1) by nra. assert (0 <= obj (dense (it_x i)) - obj y) by lra. nra.
    + rewrite E. cbn [rbind]. destruct (@nleb RN o tol) eqn:Et.
      * apply rn_leb in Et. right. exists true, (it_x i'), (it_s i'). split; [reflexivity|]. split; [exact Vx|]. split; [exact Vs|]. split.
        -- intros u _. specialize (Kr (fun j => match j with 0%nat => u | _ => 0 end)). rewrite comb_first in Kr. exact Kr.
        -- split; [|split; [exact Nx|exists (S (length vs)); split; [lia|exact Kr]]].
           rewrite <- Eo, sqrt_square by exact Ho. exact Et.
      * apply rn_leb_false in Et. destruct (@time_hit RN time_limit clock j) eqn:Eh; [left; exists j; auto|].
        apply (IH (j + 1)%Z (dense (ls_u (it_s i)) :: us) (dense (ls_v (it_s i)) :: vs) i'); auto.
        -- apply I'. lra.
        -- cbn [length]. lia.
        -- discriminate.
Qed.

Lemma mprod_zero k l Q : mprod k l Q (fun _ => 0) = fun _ => 0.
Proof. apply functional_extensionality; intros i. unfold mprod. destruct (_ && _)%bool; [|reflexivity]. apply sumd_zero. intros. ring. Qed.
Lemma norm_zero d (v : rvec) : vok d v -> dense v = (fun _ => 0) -> exists v', normalize v = (v', 0 : @num RN) /\ vok d v' /\ dense v' = fun _ => 0.
Proof.
  intros Hv Hz. destruct (normalize_fun d v Hv) as (v' & q & E & Vv & Hq & D & N1 & N0). exists v'.
  destruct (Req_dec q 0) as [->|Nq]; [auto|]. exfalso. specialize (N1 Nq).
  assert (E0 : dotd d (dense v') (dense v') = 0); [|lra].
  unfold dotd. apply sumd_zero. intros i _. assert (Ei : scal q (dense v') i = 0) by (rewrite <- D, Hz; reflexivity).
  unfold scal in Ei. apply Rmult_integral in Ei as [Ei|Ei]; [contradiction|]. rewrite Ei. ring.
Qed.

(** Without a descent direction the first iteration changes nothing. *)
Lemma body_zero i : vecs_ok n m (it_s i) -> vok n (it_x i) -> dense (it_x i) = (fun _ => 0) -> dense (ls_w (it_s i)) = (fun _ => 0) ->
  dense (ls_v (it_s i)) = (fun _ => 0) -> it_alpha i = (0 : @num RN) ->
  exists i', lsqr_body (hyp : @num RN -> @num RN -> @num RN) fwd ad n m (0 : @num RN) (0 : @num RN) (radius : @num RN) i = Ok (LNext i' (0 : @num RN))
    /\ vok n (it_x i') /\ vecs_ok n m (it_s i') /\ dense (it_x i') = fun _ => 0.
Proof.
  intros V Vx X0 W0 V0 A0. unfold lsqr_body. set (s := it_s i) in *.
  rewrite (product_ok fwd n m _ _ (vo_v _ _ s V) (vo_p _ _ s V)).
  destruct (applies_fun n m M fwd _ _ Hfwd (vo_v _ _ s V) (vo_p _ _ s V)) as (p & Ep & Vp & Dp). rewrite Ep. cbn [rbind]. rewrite V0, mprod_zero in Dp.
  rewrite rn_n1, A0. change (@nopp RN (0 : @num RN)) with (- 0).
  destruct (dense_lc m p (ls_u s) (ls_t s) 1 (- 0) Vp (vo_u _ _ s V) (vo_t _ _ s V)) as (t1 & E1 & Vt1 & Dt1). rewrite E1. cbn [rbind].
  assert (Z1 : dense t1 = fun _ => 0) by (rewrite Dt1, Dp; apply functional_extensionality; intros k; unfold lc; req; ring).
  destruct (copy_fun m t1 (ls_u s) Vt1 (vo_u _ _ s V)) as (u1 & E2 & Vu1 & _ & Du1). rewrite E2. cbn [rbind]. rewrite Z1 in Du1.
  destruct (norm_zero m u1 Vu1 Du1) as (u' & E3 & Vu' & Du'). rewrite E3.
  rewrite (product_ok ad m n _ _ Vu' (vo_q _ _ s V)).
  destruct (applies_fun m n (fun i j => M j i) ad _ _ Hadj Vu' (vo_q _ _ s V)) as (q & Eq & Vq & Dq). rewrite Eq. cbn [rbind]. rewrite Du', mprod_zero in Dq.
  change (@nopp RN (0 : @num RN)) with (- 0).
  destruct (dense_lc n q (ls_v s) t1 1 (- 0) Vq (vo_v _ _ s V) (vok_cap _ _ Vt1)) as (t2 & E4 & Vt2 & Dt2). rewrite E4. cbn [rbind].
  assert (Z2 : dense t2 = fun _ => 0) by (rewrite Dt2, Dq; apply functional_extensionality; intros k; unfold lc; req; ring).
  destruct (copy_fun n t2 (ls_v s) Vt2 (vo_v _ _ s V)) as (v1 & E5 & Vv1 & _ & Dv1). rewrite E5. cbn [rbind]. rewrite Z2 in Dv1.
  destruct (norm_zero n v1 Vv1 Dv1) as (v' & E6 & Vv' & Dv'). rewrite E6.
  set (rho := hyp (it_rhob i) 0). set (phi := @ndiv RN _ rho).
  destruct (dense_lc n (it_x i) (ls_w s) t2 1 phi Vx (vo_w _ _ s V) (vok_cap _ _ Vt2)) as (t3 & E7 & Vt3 & Dt3). rewrite E7. cbn [rbind].
  assert (Z3 : dense t3 = fun _ => 0) by (rewrite Dt3, X0, W0; apply functional_extensionality; intros k; unfold lc; req; ring).
  rewrite (norm_fun n t3 Vt3), Z3, dot_zero_l, sqrt_0.
  assert (Eb : negb (@neqb RN radius (nlit (-1) 1)) && @is_gt RN 0 radius 0 = false).
  { apply not_true_is_false. intros H. apply andb_prop in H as [H1 H2]. apply negb_true_iff, rn_eqb_false in H1. rewrite rn_lit1 in H1.
    apply rn_is_gt in H2; [|lra]. pose proof (Hrad H1). lra. }
  rewrite Eb. destruct (copy_fun n t3 (it_x i) Vt3 Vx) as (x2 & E8 & Vx2 & _ & Dx2). rewrite E8. cbn [rbind].
  set (th := @ndiv RN (nopp _) rho).
  destruct (dense_lc n v' (ls_w s) t3 1 th Vv' (vo_w _ _ s V) (vok_cap _ _ Vt3)) as (t4 & E9 & Vt4 & Dt4). rewrite E9. cbn [rbind].
  destruct (copy_fun n t4 (ls_w s) Vt4 (vo_w _ _ s V)) as (w2 & E10 & Vw2 & _ & Dw2). rewrite E10. cbn [rbind].
  eexists. split.
  - f_equal. f_equal. match goal with |- @nmul RN (@nmul RN ?a ?z) ?c = _ => change (a * 0 * c = 0) end. ring.
  - cbn [it_x it_s]. split; [exact Vx2|]. split; [|rewrite Dx2; exact Z3].
    constructor; cbn [ls_u ls_v ls_w ls_p ls_q ls_d ls_t]; auto; [apply (vo_d _ _ s V)|apply (vok_cap _ _ Vt4)].
Qed.

Theorem C81_solve : forall s sol, vecs_ok n m s -> vok n sol ->
  let r := lsqr_solve (hyp : @num RN -> @num RN -> @num RN) fwd ad n m (0 : @num RN) (0 : @num RN) (tol : @num RN) (radius : @num RN) (time_limit : @num RN) clock s bv sol in
  (exists j, r = Err EAbortTime /\ @time_hit RN time_limit clock j = true)
  \/ exists inner x s', r = Ok (inner, x, s') /\ result inner x s'.
Proof.
  intros s sol V Vsol r. subst r. unfold lsqr_solve. pose proof Hb as [_ Db]. pose proof Vsol as [_ Ds]. rewrite Db, Ds, !Z.eqb_refl. cbn [check rbind].
  unfold lsqr_start. destruct (copy_fun m bv (ls_u s) Hb (vo_u _ _ s V)) as (u1 & E1 & Vu1 & _ & Du1). rewrite E1. cbn [rbind].
  destruct (normalize_fun m u1 Vu1) as (u & beta & E2 & Vu & Hbe & Du & Nu & Zu). rewrite E2.
  rewrite (product_ok ad m n _ _ Vu (vo_v _ _ s V)).
  destruct (applies_fun m n (fun i j => M j i) ad _ _ Hadj Vu (vo_v _ _ s V)) as (q & Eq & Vq & Dq). rewrite Eq. cbn [rbind].
  destruct (normalize_fun n q Vq) as (v & alpha & E3 & Vv & Hal & Dv & Nv & Zv). rewrite E3.
  destruct (copy_fun n v (ls_w s) Vv (vo_w _ _ s V)) as (w & E4 & Vw & _ & Dw). rewrite E4. cbn [rbind].
  set (i := mkiter _ _ _ _ _).
  assert (Vi : vecs_ok n m (it_s i)) by (constructor; cbn [i it_s ls_u ls_v ls_w ls_p ls_q ls_d ls_t]; auto; apply V).
  assert (Vx : vok n (it_x i)) by (cbn [i it_x]; destruct Vsol as [W D]; split; [apply wf_clear, W|exact D]).
  assert (X0 : dense (it_x i) = fun _ => 0) by (apply functional_extensionality; intros k; apply rn_n0).
  rewrite Du1 in Du. rewrite Dv in Dq.
  assert (ETb : T b = scal (beta * alpha) (dense v)).
  { rewrite Du, (Tscal T) by (intros; apply mprod_lin). rewrite <- Dq. apply functional_extensionality; intros k; unfold scal; req; ring. }
  destruct (Req_dec alpha 0) as [Ea|Na].
  - (* no descent direction *)
    assert (TB : T b = fun _ => 0) by (rewrite ETb, Ea; apply functional_extensionality; intros k; unfold scal; req; ring).
    assert (Hres : forall x s', vok n x -> vecs_ok n m s' -> dense x = (fun _ => 0) -> result true x s').
    { intros x s' Wx Ws Dx. split; [exact Wx|]. split; [exact Ws|]. rewrite Dx, TB.
      assert (Eo : forall t, scal t (fun _ : Z => 0) = fun _ => 0) by (intros; apply functional_extensionality; intros k; unfold scal; ring).
      split; [intros t _; rewrite Eo; lra|]. split; [|split].
      - assert (Er : res_of A b (fun _ => 0) = b).
        { unfold res_of. rewrite mprod_zero. apply functional_extensionality; intros k; unfold lc; req; ring. }
        rewrite Er, TB, dot_zero_l, sqrt_0. exact Htol.
      - intros Hr. rewrite dot_zero_l. pose proof (Hrad Hr). nra.
      - exists 1%nat. split; [lia|]. intros a. replace (comb 1 a) with (fun _ : Z => 0); [lra|].
        apply functional_extensionality; intros k. unfold LsqrFacts.comb. cbn [rsum]. change (Z.to_nat (Z.of_nat 0)) with 0%nat. cbn [kry]. rewrite TB. ring. }
    right. destruct (Z.to_nat n) as [|k] eqn:En.
    + exists true, (it_x i), (it_s i). split; [reflexivity|apply Hres; auto].
    + cbn [lsqr_loop].
      assert (V0 : dense v = fun _ => 0) by exact (Zv Ea).
      destruct (body_zero i Vi Vx X0) as (i' & E & Vx' & Vs' & D'); [cbn [i it_s ls_w]; rewrite Dw; exact V0|exact V0|exact Ea|].
      rewrite E. cbn [rbind]. rewrite (proj2 (rn_leb 0 tol) Htol). exists true, (it_x i'), (it_s i'). split; [reflexivity|apply Hres; auto].
  - (* the iterations *)
    assert (Nb : beta <> 0).
    { intros Eb. apply Na. assert (Q : dotd n (scal alpha (dense v)) (scal alpha (dense v)) = 0) by (rewrite Dq, (Zu Eb), mprod_zero; apply dot_zero_l).
      rewrite dot_scal_l, dot_scal_r, (Nv Na) in Q. nra. }
    apply (loop_ok (Z.to_nat n) 1%Z [] [] i).
    + split; [exact Vi|]. split; [exact Vx|]. split; [exact Na|]. exists (dense u). rewrite X0. cbn [i it_s it_alpha it_rhob it_phib ls_u ls_v ls_w]. rewrite Dw.
      apply (linv_start n m A T b); auto; intros; apply mprod_lin.
    + reflexivity.
    + intros Hr. rewrite X0, dot_zero_l. pose proof (Hrad Hr). nra.
    + intros a. rewrite X0. apply Req_le. reflexivity.
    + intros _. split; [exact X0|]. split; [exact Dw|]. exists (beta * alpha). exact ETb.
Qed.
End Props.
Print Assumptions C81_solve.

(** Without tolerance and trust region the result is a least squares solution. *)
Theorem C81_exact : forall n m M fwd ad bv hyp time_limit clock s sol inner x s', (0 <= n)%Z -> vok m bv ->
  applies n m (mprod n m M) fwd -> applies m n (mprod m n (fun i j => M j i)) ad -> (forall a b, hyp a b = sqrt (a * a + b * b)) ->
  vecs_ok n m s -> vok n sol ->
  lsqr_solve (hyp : @num RN -> @num RN -> @num RN) fwd ad n m (0 : @num RN) (0 : @num RN) (0 : @num RN) (-1 : @num RN) (time_limit : @num RN) clock s bv sol = Ok (inner, x, s') ->
  inner = true /\ (forall i, (0 <= i < n)%Z -> mprod m n (fun i j => M j i) (lc 1 (dense bv) (-1) (mprod n m M (dense x))) i = 0)
  /\ forall y, dotd m (lc 1 (dense bv) (-1) (mprod n m M (dense x))) (lc 1 (dense bv) (-1) (mprod n m M (dense x)))
      <= dotd m (lc 1 (dense bv) (-1) (mprod n m M y)) (lc 1 (dense bv) (-1) (mprod n m M y)).
Proof.
  intros n m M fwd ad bv hyp tl clock s sol inner x s' Hn Hb Hf Ha Hh Vs Vsol E.
  destruct (C81_solve n m M fwd ad bv hyp 0 (-1) tl clock Hn Hb Hf Ha Hh (Rle_refl 0) ltac:(lra) s sol Vs Vsol)
    as [(j & E' & _)|(inner' & x1 & s1 & E' & _ & _ & _ & Hr)]; cbn zeta in E'; rewrite E' in E; [discriminate|].
  injection E as -> -> ->. destruct inner; [|destruct Hr as [Hr _]; lra]. split; [reflexivity|]. destruct Hr as [Hg _].
  set (g := mprod m n (fun i j => M j i) (res_of (mprod n m M) (dense bv) (dense x))) in *.
  assert (Z0 : dotd n g g = 0).
  { pose proof (sqrt_sqrt _ (dotd_nonneg n g)). pose proof (sqrt_pos (dotd n g g)). assert (sqrt (dotd n g g) = 0) by lra. nra. }
  split; [intros i Hi; exact (proj1 (dotd_zero n g) Z0 i Hi)|].
  intros y. pose proof (obj_least n m (mprod n m M) (mprod m n (fun i j => M j i)) (dense bv) ltac:(intros; apply mprod_lin) ltac:(intros; apply mprod_adj) y (dense x)) as L.
  unfold obj, res_of in L. apply Rmult_le_reg_l with (/ 2); [lra|]. apply L. fold g. unfold dotd. apply sumd_zero. intros i Hi.
  change (mprod m n (fun i j => M j i) (lc 1 (dense bv) (-1) (mprod n m M (dense x))) i) with (g i). rewrite (proj1 (dotd_zero n g) Z0 i Hi). ring.
Qed.
Print Assumptions C81_exact.

(** ** Products with a stored matrix *)
Definition fwd_of {N : Num} (jac : mat) (zero_eps : num) (v t : vec) : res vec :=
  a <- mat_mult_vec jac v ;; vec_set_from_raw t a zero_eps.
Definition adj_of {N : Num} (jac : mat) (zero_eps : num) (v t : vec) : res vec := mat_mult_vec_trans jac v zero_eps t.

Lemma stored_products (jac : @mat RN) cs : stores jac cs -> let M := mR cs in let n := mnc jac in let m := mnr jac in
  applies n m (mprod n m M) (fwd_of jac (0 : @num RN)) /\ applies m n (mprod m n (fun i j => M j i)) (adj_of jac (0 : @num RN)).
Proof.
  intros Hs M n m. split.
  - intros v t [Wv Dv] [Wt Dt]. unfold fwd_of. destruct (mult_vec_real jac cs v Hs Wv Dv) as (a & E & L & Ha). rewrite E. cbn [rbind].
    assert (Hm : (0 <= m)%Z) by (destruct Wt; lia).
    destruct (set_from_raw_ok t a m (fun i => sumd n (fun j => M i j * dense v j)) Wt) as (w & Ew & Ww & Dw & Hw); [|exact Hm|].
    + split; [exact L|]. intros j Hj. rewrite (nth_error_nth' a 0) by lia. f_equal. apply Ha. exact Hj.
    + exists w. split; [exact Ew|]. split; [split; auto|]. intros i Hi. unfold mprod. replace ((0 <=? i) && (i <? m))%Z%bool with true by lia. apply Hw. exact Hi.
  - intros v t [Wv Dv] [Wt Dt]. unfold adj_of. destruct (mult_vec_trans_real jac cs v t Hs Wv Dv Wt Dt) as (r & E & Wr & Dr & Hr).
    exists r. split; [exact E|]. split; [split; auto|]. intros i Hi. unfold mprod. replace ((0 <=? i) && (i <? n))%Z%bool with true by lia. apply Hr. exact Hi.
Qed.

Lemma fresh_solver (n m : Z) : (0 <= n)%Z -> (0 <= m)%Z ->
  exists s0, lsqr_create (N := RN) n = Ok s0 /\ exists s, lsqr_resize s0 n m = Ok s /\ vecs_ok n m s.
Proof.
  intros Hn Hm. unfold lsqr_create, vec_create_empty, vec_create, check. replace (0 <=? n)%Z with true by lia. cbn [rbind Z.leb Z.compare].
  eexists. split; [reflexivity|]. unfold lsqr_resize. cbn [ls_u ls_v ls_w ls_p ls_q ls_d ls_t].
  assert (We : forall d, (0 <= d)%Z -> wf (mkvec (N := RN) d 0 [])) by (intros d Hd; split; [exact Hd|]; split; [exact I|cbn; lia]).
  destruct (vec_resize_spec (mkvec (N := RN) n 0 []) n (We n Hn) Hn) as (v & Ev & Wv & Dv & _).
  destruct (vec_resize_spec (mkvec (N := RN) 0 0 []) m (We 0%Z ltac:(lia)) Hm) as (u & Eu & Wu & Du & _).
  rewrite Ev, Eu. cbn [rbind]. eexists. split; [reflexivity|].
  constructor; cbn [ls_u ls_v ls_w ls_p ls_q ls_d ls_t]; try (split; assumption). cbn. lia.
Qed.

(** The solver as it is created and resized, with the products of any stored matrix, no radius and
    tolerance zero: a least squares solution. *)
Theorem C81_stored : forall (jac : @mat RN) cs bv (hyp : R -> R -> R) time_limit clock sol, stores jac cs -> vok (mnr jac) bv ->
  (forall a b, hyp a b = sqrt (a * a + b * b)) -> vok (mnc jac) sol ->
  exists s0 s, lsqr_create (N := RN) (mnc jac) = Ok s0 /\ lsqr_resize s0 (mnc jac) (mnr jac) = Ok s /\
  let r := lsqr_solve (hyp : @num RN -> @num RN -> @num RN) (fwd_of jac (0 : @num RN)) (adj_of jac (0 : @num RN)) (mnc jac) (mnr jac)
             (0 : @num RN) (0 : @num RN) (0 : @num RN) (-1 : @num RN) (time_limit : @num RN) clock s bv sol in
  let sq y := dotd (mnr jac) (lc 1 (dense bv) (-1) (mprod (mnc jac) (mnr jac) (mR cs) y)) (lc 1 (dense bv) (-1) (mprod (mnc jac) (mnr jac) (mR cs) y)) in
  r = Err EAbortTime \/ exists x s', r = Ok (true, x, s') /\ vok (mnc jac) x /\ forall y, sq (dense x) <= sq y.
Proof.
  intros jac cs bv hyp tl clock sol Hs Hb Hh Vsol.
  assert (Hn : (0 <= mnc jac)%Z) by (destruct Vsol as [[] D]; lia). assert (Hm : (0 <= mnr jac)%Z) by (destruct Hb as [[] D]; lia).
  destruct (fresh_solver (mnc jac) (mnr jac) Hn Hm) as (s0 & E0 & s & E1 & Vs). exists s0, s. split; [exact E0|]. split; [exact E1|].
  destruct (stored_products jac cs Hs) as [Hf Ha]. cbn zeta in *.
  destruct (C81_solve _ _ _ _ _ bv hyp 0 (-1) tl clock Hn Hb Hf Ha Hh (Rle_refl 0) ltac:(lra) s sol Vs Vsol)
    as [(j & E & _)|(inner & x & s' & E & R)]; cbn zeta in E; [left; exact E|].
  destruct (C81_exact _ _ _ _ _ bv hyp tl clock s sol inner x s' Hn Hb Hf Ha Hh Vs Vsol E) as (-> & _ & L).
  right. exists x, s'. split; [exact E|]. split; [apply R|exact L].
Qed.
Print Assumptions C81_stored.

(** ** Runs of the code in doubles *)
Definition hyp64 (a b : f64) : f64 := @nsqrt F64 (@nadd F64 (@nmul F64 a a) (@nmul F64 b b)).
Definition F (p q : Z) : f64 := @nlit F64 p q.
Definition diag2 (a b : f64) (v t : @vec F64) : res (@vec F64) :=
  @vec_set_from_raw F64 t [@nmul F64 a (dense v 0); @nmul F64 b (dense v 1)] (F 0 1).
Definition run2 (fwd ad : @vec F64 -> @vec F64 -> res (@vec F64)) (b1 b2 eps tol radius : f64) : res (bool * @vec F64 * @lsqr F64) :=
  s <- @lsqr_create F64 2 ;; s <- @lsqr_resize F64 s 2 2 ;;
  r <- @vec_create F64 2 2 ;; r <- @vec_set_from_raw F64 r [b1; b2] (F 0 1) ;; x <- @vec_create F64 2 2 ;;
  @lsqr_solve F64 hyp64 fwd ad 2 2 eps (F 0 1) tol radius (F (-1) 1) (fun _ => F 0 1) s r x.
Definition sees (r : res (bool * @vec F64 * @lsqr F64)) (P : bool -> @vec F64 -> Prop) : Prop :=
  match r with Ok (i, x, _) => P i x | _ => False end.
Definition D1 := diag2 (F 1 1) (F 1 2).
Definition D5 := diag2 (F 100000 1) (F 50000 1).
Definition e10 : f64 := F 1 10000000000.
Definition e8 : f64 := F 1 100000000.
Definition e12 : f64 := F 1 1000000000000.
Lemma seen r (P : bool -> @vec F64 -> Prop) : sees r P -> exists i x s, r = Ok (i, x, s) /\ P i x.
Proof. destruct r as [[[i x] s]| |]; cbn; try contradiction. intros. exists i, x, s. auto. Qed.

(** Without a radius the solution (1, 2) is found up to the last bits. *)
Example C81_interior : exists i x s, run2 D1 D1 (F 1 1) (F 1 1) e10 e8 (F (-1) 1) = Ok (i, x, s)
  /\ (i = true /\ B2SF (dense x 0 : f64) = B2SF (F 1 1) /\ @nltb F64 (@nabs F64 (@nsub F64 (dense x 1) (F 2 1))) e12 = true).
Proof. refine (seen _ (fun i x => _) _). vm_compute. repeat split. Qed.

(** With the radius 1 the step stops on the boundary, on the line through the gradient. *)
Example C81_boundary : exists i x s, run2 D1 D1 (F 1 1) (F 1 1) e10 e8 (F 1 1) = Ok (i, x, s)
  /\ (i = false /\ @nltb F64 (@nabs F64 (@nsub F64 (vec_norm x) (F 1 1))) e12 = true
      /\ B2SF (dense x 0 : f64) = B2SF (@nmul F64 (F 2 1) (dense x 1))).
Proof. refine (seen _ (fun i x => _) _). vm_compute. repeat split. Qed.

(** If there is no descent direction the residuum is not a number: the loop does not stop early and
    the solution is zero. *)
Example C81_no_descent : exists i x s, run2 (diag2 (F 1 1) (F 0 1)) (diag2 (F 1 1) (F 0 1)) (F 0 1) (F 1 1) e10 e8 (F 1 1) = Ok (i, x, s)
  /\ (i = true /\ match vent x with [] => True | _ => False end).
Proof. refine (seen _ (fun i x => _) _). vm_compute. repeat split. Qed.

(** The comparison with the radius is relative only for large radii: for small ones a solution
    sixty times as long as the radius is reported as an interior one. *)
Theorem C81_radius_refuted : exists i x s, run2 D1 D1 (F 5 100000000000) (F 5 100000000000) e10 e8 e12 = Ok (i, x, s)
  /\ (i = true /\ @nltb F64 (@nmul F64 (F 60 1) e12) (vec_norm x) = true).
Proof. refine (seen _ (fun i x => _) _). vm_compute. repeat split. Qed.
Print Assumptions C81_radius_refuted.

Lemma trapped (r : res (bool * @vec F64 * @lsqr F64)) : match r with Trap => True | _ => False end -> r = Trap.
Proof. now destruct r. Qed.
(** If the iteration continues from such a solution and leaves the (enlarged) ball, then the point on
    the boundary is sought from a point outside of it: an assertion fails. *)
Theorem C81_outside_refuted : run2 D5 D5 (F 5 1000000) (F 5 1000000) e10 e8 e12 = Trap.
Proof. apply trapped. vm_compute. exact I. Qed.
Print Assumptions C81_outside_refuted.

(** The hypotheses of [C81_stored] for a matrix of full size *)
Example C81_stored_ex : exists jac : @mat RN, stores jac [[(0%Z, 1 : R); (2%Z, 2 : R)]; [(1%Z, -3 : R)]] /\ mnr jac = 3%Z /\ mnc jac = 2%Z
  /\ vok (mnr jac) (mkvec (N := RN) 3 3 [(0%Z, 1 : R); (1%Z, 1 : R)]) /\ vok (mnc jac) (mkvec (N := RN) 2 0 []).
Proof.
  destruct (build_spec (N := RN) 3 2 3 [[(0%Z, 1 : R); (2%Z, 2 : R)]; [(1%Z, -3 : R)]]) as (jac & _ & S & R & C); [lia|reflexivity|cbn; lia| |].
  - repeat constructor; cbn; lia.
  - exists jac. rewrite R, C. split; [exact S|]. split; [reflexivity|]. split; [reflexivity|]. repeat split; cbn; lia.
Qed.
