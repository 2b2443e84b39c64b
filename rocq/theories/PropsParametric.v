(** C79: the search for the radius of the linear program. *)
From Coq Require Import Reals Lra FunctionalExtensionality Classical_Prop.
From Flocq Require Import BinarySingleNaN.
From Verif Require Import Base Num Cmp Sparse Vec VecFacts Order VecFacts2 RSum VecReal Mat MatFacts MatFacts2 MatFacts4 Arr
  WorkingSet Feas FeasFacts MeritFacts OrdArith PreprocReal QnReal SteihaugFacts LineSearch LineSearchFacts WorkingStep WorkingStepReal
  Cauchy PropsVec PropsCauchy PropsSteihaug PropsLineSearch Parametric ParametricFacts.
Local Open Scope R_scope.

(** The data: iterate [X] with Jacobian [J], Hessian [H] of the Lagrangian, memory of the right
    sizes, and factors by which the radius grows and shrinks. *)
Record given (n : Z) (X : @lctx RN) (jac : @mat RN) (J H : (Z -> R) -> Z -> R) (hess : rvec -> rvec -> res rvec)
    (mcache : rvec) (Q : @par RN) (d : @dirn RN) : Prop := {
  gv_ctx : ctx_ok n X;
  gv_jac : jac_is n (lx_nc X) jac J;
  gv_lin : linear_map n H;
  gv_hess : computes n H hess;
  gv_cache : (0 <= vcap mcache)%Z;
  gv_par : par_ok n X Q;
  gv_dir : dir_room n X d;
  gv_inc : 1 <= pr_inc Q;
  gv_dec : 0 < pr_dec Q <= 1;
  gv_max : (0 < pr_max Q)%nat;
  gv_eps : 0 <= lx_eps X }.

(** All radii that can be tried *)
Definition radii (Q : @par RN) (r0 : R) (ok : R -> Prop) : Prop :=
  0 < r0 /\ forall k, (k <= pr_max Q)%nat -> ok (r0 * pr_inc Q ^ k) /\ ok (r0 * pr_dec Q ^ k).

Section Props.
Variables (n : Z) (X : @lctx RN) (jac : @mat RN) (J H : (Z -> R) -> Z -> R) (hess : rvec -> rvec -> res rvec) (mcache : rvec).
Variables (Q : @par RN) (d : @dirn RN).
Variables (C : Type) (O : @lpops RN C) (Ready : C -> Prop) (At Sol : R -> C -> Prop) (ok : R -> Prop) (allowed : R -> (Z -> R) -> Prop).
Notation lm := (lmerit n X J).
Notation qm := (qmerit n X J H).
Notation m0 := (qmerit n X J H zerof).
Notation best := (best n X J allowed).
Notation enough := (enough n X J H).
Hypothesis G : given n X jac J H hess mcache Q d.
Hypothesis LP : lp_spec n X J C O Ready At Sol ok allowed.

(** The state in which a search starts *)
Lemma start LS (c : C) (lp_step : rvec) (r0 : R) : vok n lp_step ->
  exists d1 Q1 b, par_solve O X jac hess mcache Q LS c lp_step d (r0 : @num RN)
    = (if (b : bool) then s <- search_forward O X hess mcache (mkpst c d1 (@nmul RN r0 (pr_inc Q1)) (qm (dense lp_step) : @num RN) Q1) ;; Ok (s, LS)
       else search_back O X jac hess LS (mkpst c d1 (@nmul RN r0 (pr_dec Q1)) (qm (dense lp_step) : @num RN) Q1))
    /\ dir_ok n X J H d1 /\ dense (d_primal d1) = dense lp_step /\ par_ok n X Q1 /\ same_rule Q Q1
    /\ pr_viol Q1 = total_viol (lx_nc X) (lx_clb X) (lx_cub X) (dense (lx_cons X)) /\ (b = true <-> enough (dense lp_step)).
Proof.
  intros Vl. pose proof (gv_ctx _ _ _ _ _ _ _ _ _ G) as CX. pose proof (gv_jac _ _ _ _ _ _ _ _ _ G) as HJ. pose proof (gv_hess _ _ _ _ _ _ _ _ _ G) as HC.
  destruct (gv_dir _ _ _ _ _ _ _ _ _ G) as (R1 & R2 & R3). unfold par_solve.
  destruct (copy_fun n lp_step (d_primal d) Vl R1) as (p & E1 & Vp & _ & Dp). rewrite E1. cbn [rbind].
  destruct (reset_ok n X jac J H hess CX HJ HC (set_primal d p)) as (d1 & E2 & Hd1 & Ep).
  { split; [exact Vp|]. split; [exact R2|exact R3]. }
  rewrite E2. cbn [rbind]. rewrite (viol_real n X CX _ (cx_cons _ _ CX)). cbn [rbind].
  set (Q0 := par_set_viol Q _). pose proof (gv_par _ _ _ _ _ _ _ _ _ G) as HQ.
  assert (HQ0 : par_ok n X Q0) by (constructor; cbn; apply HQ).
  destruct (decrease_ok n X jac J H CX HJ Q0 d1 HQ0 eq_refl Hd1) as (Q1 & b & E3 & HQ1 & HV & HS & Hb).
  rewrite E3. cbn [rbind]. cbn [set_primal d_primal] in Ep. rewrite Ep, Dp in *. exists d1, Q1, b.
  split; [destruct b; reflexivity|]. split; [exact Hd1|]. split; [rewrite Ep; exact Dp|]. split; [exact HQ1|]. split; [exact HS|]. split; [exact HV|exact Hb].
Qed.

Lemma fwd_start (c : C) d1 Q1 (lp_step : rvec) (r0 : R) : dir_ok n X J H d1 -> dense (d_primal d1) = dense lp_step ->
  par_ok n X Q1 -> same_rule Q Q1 -> Sol r0 c -> best r0 (dense lp_step) ->
  exists ld, dir_copy d1 (pr_last Q1) = Ok ld
    /\ fwd n X J H C Ready Sol allowed (dense lp_step) r0 (pr_inc Q) 0 (qm (dense lp_step))
         (mkpst c d1 (@nmul RN r0 (pr_inc Q1)) (qm (dense lp_step) : @num RN) (par_set_last Q1 ld)).
Proof.
  intros Hd1 Ep HQ1 (Si & _ & _) Hs Hb. apply stale_fresh in Hd1. rewrite Ep in Hd1.
  destruct (dir_copy_ok n X J H (dense lp_step) d1 _ Hd1 (pk_last _ _ _ HQ1)) as (ld & E & Sl & Dl).
  exists ld. split; [exact E|]. rewrite Ep in Dl.
  constructor; cbn [ps_c ps_dir ps_radius ps_merit ps_par par_set_last pr_last pr_inc]; rewrite ?Ep; auto.
  - eapply ls_ready; [exact LP|exact Hs].
  - intros Hx. exfalso. lia.
  - cbn [pow]. rewrite Rmult_1_r. exact Hb.
  - rewrite Si. req. cbn [nmul RN pow]. ring.
  - constructor; cbn; [apply HQ1|exact (stale_room _ _ _ _ _ _ Sl)|apply HQ1].
Qed.

Lemma bwd_start (c : C) d1 Q1 (m : R) (r0 : R) : dir_ok n X J H d1 -> par_ok n X Q1 -> same_rule Q Q1 -> Ready c ->
  pr_viol Q1 = total_viol (lx_nc X) (lx_clb X) (lx_cub X) (dense (lx_cons X)) ->
  bwd n X C Ready r0 (pr_dec Q) 1 (mkpst c d1 (@nmul RN r0 (pr_dec Q1)) (m : @num RN) Q1).
Proof.
  intros Hd1 HQ1 (_ & Sd & _) Hc HV. constructor; cbn [ps_c ps_dir ps_radius ps_merit ps_par]; auto.
  - apply stale_fresh in Hd1. exact (stale_room _ _ _ _ _ _ Hd1).
  - rewrite Sd. req. cbn [nmul RN pow]. ring.
Qed.

(** If the step at hand decreases the quadratic model enough, greater radii are tried. The step
    that is returned minimises the linear model for one of them and does not increase the
    quadratic model; the linear program was solved with that radius at last.  But its products
    with gradient and Jacobian are those of the first step, and so is the linear part of the
    value that is returned. *)
Theorem C79_forward_partial : forall LS (c : C) (lp_step : rvec) (r0 : R) s' LS',
  vok n lp_step -> Sol r0 c -> best r0 (dense lp_step) -> radii Q r0 ok -> enough (dense lp_step) ->
  par_solve O X jac hess mcache Q LS c lp_step d (r0 : @num RN) = Ok (s', LS') ->
  let p := dense (d_primal (ps_dir s')) in
  LS' = LS
  /\ exists k, best (r0 * pr_inc Q ^ k) p /\ qm p <= ps_merit s' <= qm (dense lp_step)
     /\ ps_merit s' = lm (dense lp_step) + / 2 * dotd n p (H p)
     /\ (k = 0%nat -> p = dense lp_step /\ dir_ok n X J H (ps_dir s'))
     /\ ((0 < k)%nat -> ps_merit s' < qm (dense lp_step) /\ stale n X J H (dense lp_step) (ps_dir s'))
     /\ Sol (r0 * pr_inc Q ^ k) (ps_c s')
     /\ ((k < pr_max Q)%nat /\ ps_radius s' = r0 * pr_inc Q ^ k
         /\ (exists v, best (r0 * pr_inc Q ^ S k) v
              /\ @is_lt RN (lm (dense lp_step) + / 2 * dotd n v (H v)) (ps_merit s') (lx_eps X) = false)
        \/ k = pr_max Q /\ ps_radius s' = r0 * pr_inc Q ^ S k).
Proof.
  intros LS c lp_step r0 s' LS' Vl Hs Hb (Hr0 & Hr) He E p.
  destruct (start LS c lp_step r0 Vl) as (d1 & Q1 & b & E1 & Hd1 & Ep & HQ1 & HS & HV & Hen). rewrite E1 in E.
  destruct b; [|exfalso; apply Hen in He; discriminate]. apply rbind_ok in E as (s1 & E2 & E). injection E as <- <-. split; [reflexivity|].
  destruct (fwd_start c d1 Q1 lp_step r0 Hd1 Ep HQ1 HS Hs Hb) as (ld & El & F).
  unfold search_forward in E2. cbn [ps_dir ps_par ps_c ps_radius ps_merit] in E2. rewrite El in E2. cbn [rbind ps_par par_set_last pr_max] in E2.
  pose proof (gv_inc _ _ _ _ _ _ _ _ _ G) as Hinc. pose proof (gv_max _ _ _ _ _ _ _ _ _ G) as Hmax. destruct HS as (_ & _ & Sm).
  rewrite Sm in E2.
  destruct (forward_loop_ok n X J H hess mcache (gv_ctx _ _ _ _ _ _ _ _ _ G) (gv_hess _ _ _ _ _ _ _ _ _ G) (gv_cache _ _ _ _ _ _ _ _ _ G) C O Ready At Sol ok allowed LP
    (dense lp_step) r0 (pr_inc Q) ltac:(lra) (gv_eps _ _ _ _ _ _ _ _ _ G) (pr_max Q) 0 (qm (dense lp_step)) _ s1 F) as (k & _ & K); [|unfold stale_value, qmerit; lra|lia|exact E2|].
  { intros k Hk. apply Hr. lia. }
  cbn [Nat.add] in K. exists k. assert (Hpow : r0 * 1 <= r0 * pr_inc Q ^ k).
  { apply Rmult_le_compat_l; [lra|]. apply pow_R1_Rle. exact Hinc. }
  assert (Hlin : lm p <= lm (dense lp_step)).
  { apply (fe_best _ _ _ _ _ _ _ _ _ _ _ _ _ K). apply (ls_mono _ _ _ _ _ _ _ _ _ _ LP) with r0; [lra|]. apply Hb. }
  assert (Hsv : stale_value n X J H (dense lp_step) (dense lp_step) = qm (dense lp_step)) by reflexivity.
  pose proof (fe_m _ _ _ _ _ _ _ _ _ _ _ _ _ K) as Em. fold p in Em.
  split; [apply K|]. split; [split|].
  - rewrite Em. unfold stale_value, qmerit. lra.
  - destruct (Nat.eq_dec k 0) as [->|Hk].
    + pose proof (fe_first _ _ _ _ _ _ _ _ _ _ _ _ _ K eq_refl) as Ef. fold p in Ef. rewrite Em, Ef. rewrite Hsv. lra.
    + pose proof (fe_le _ _ _ _ _ _ _ _ _ _ _ _ _ K ltac:(lia)) as Hlt. rewrite Hsv in Hlt. lra.
  - split; [exact Em|]. split.
    { intros Hk. pose proof (fe_first _ _ _ _ _ _ _ _ _ _ _ _ _ K Hk) as Ef. split; [exact Ef|].
      apply stale_fresh. rewrite Ef. apply K. }
    split; [intros Hk; split; [rewrite <- Hsv; now apply K|apply K]|].
    destruct (fe_cases _ _ _ _ _ _ _ _ _ _ _ _ _ K) as [(A1 & A2 & A3 & A4)|(A1 & A2 & A3)].
    + split; [exact A3|]. left. split; [exact A1|]. split; [exact A2|exact A4].
    + split; [apply A3; lia|]. right. split; [exact A1|exact A2].
Qed.

Lemma not_enough_nonzero (v : rvec) : vok n v -> ~ enough (dense v) -> 0 < dotd n (dense v) (dense v).
Proof.
  intros Hv Hn. pose proof (dotd_nonneg n (dense v)) as H0. destruct (Rle_lt_or_eq_dec _ _ H0) as [Hl|Hz]; [exact Hl|].
  exfalso. apply Hn. assert (Ez : dense v = zerof).
  { apply functional_extensionality. intros i. unfold zerof. destruct Hv as [Hw Hd].
    destruct (Z_lt_le_dec i 0) as [Hi|Hi]; [apply dense_range; [exact Hw|lia]|].
    destruct (Z_lt_le_dec i n) as [Hj|Hj]; [|apply dense_range; [exact Hw|rewrite Hd; lia]].
    assert (Hq : dense v i * dense v i = 0).
    { apply (sumd_nonneg_zero n (fun i => dense v i * dense v i)); [intros; apply Rle_0_sqr|symmetry; exact Hz|lia]. }
    apply Rmult_integral in Hq as [Hq|Hq]; exact Hq. }
  rewrite Ez. unfold ParametricFacts.enough.
  assert (Hq : qmerit n X J H zerof = lmerit n X J zerof) by (unfold qmerit; rewrite dot_zero_l; lra).
  rewrite Hq. lra.
Qed.

(** Otherwise smaller radii are tried. Either one is found that leads to enough decrease, and then
    everything that is returned belongs to it. *)
Theorem C79_back : forall LS (c : C) (lp_step : rvec) (r0 : R) s' LS',
  vok n lp_step -> Sol r0 c -> best r0 (dense lp_step) -> radii Q r0 ok -> ~ enough (dense lp_step) ->
  par_solve O X jac hess mcache Q LS c lp_step d (r0 : @num RN) = Ok (s', LS') ->
  let p := dense (d_primal (ps_dir s')) in
  (exists k, (1 <= k <= pr_max Q)%nat /\ LS' = LS
     /\ (forall i, (1 <= i < k)%nat -> exists v, best (r0 * pr_dec Q ^ i) v /\ ~ enough v)
     /\ best (r0 * pr_dec Q ^ k) p /\ enough p /\ dir_ok n X J H (ps_dir s') /\ ps_merit s' = qm p
     /\ ps_radius s' = r0 * pr_dec Q ^ k /\ Sol (r0 * pr_dec Q ^ k) (ps_c s'))
  \/ (exists v : @dirn RN, (forall i, (1 <= i <= pr_max Q)%nat -> exists v, best (r0 * pr_dec Q ^ i) v /\ ~ enough v)
     /\ dir_ok n X J H v /\ best (r0 * pr_dec Q ^ pr_max Q) (dense (d_primal v)) /\ ~ enough (dense (d_primal v))
     /\ ls_cauchy LS v = Ok (ps_dir s', ps_merit s', LS')
     /\ ps_radius s' = r0 * pr_dec Q ^ S (pr_max Q) /\ Sol (r0 * pr_dec Q ^ pr_max Q) (ps_c s')).
Proof.
  intros LS c lp_step r0 s' LS' Vl Hs Hb (Hr0 & Hr) He E p.
  destruct (start LS c lp_step r0 Vl) as (d1 & Q1 & b & E1 & Hd1 & Ep & HQ1 & HS & HV & Hen). rewrite E1 in E.
  destruct b; [exfalso; apply He, Hen; reflexivity|]. unfold search_back in E. apply rbind_ok in E as ([s1 b] & E2 & E).
  pose proof (bwd_start c d1 Q1 (qm (dense lp_step)) r0 Hd1 HQ1 HS (ls_ready _ _ _ _ _ _ _ _ _ _ LP _ _ Hs) HV) as B.
  pose proof (gv_max _ _ _ _ _ _ _ _ _ G) as Hmax. destruct HS as (_ & _ & Sm).
  cbn [ps_par] in E2. rewrite Sm in E2.
  pose proof (back_loop_ok n X jac J H hess (gv_ctx _ _ _ _ _ _ _ _ _ G) (gv_jac _ _ _ _ _ _ _ _ _ G) (gv_hess _ _ _ _ _ _ _ _ _ G) C O Ready At Sol ok allowed LP
    r0 (pr_dec Q) (pr_max Q) 1 _ s1 b B ltac:(intros k Hk; apply Hr; lia) E2) as K.
  destruct b.
  - left. injection E as <- <-. destruct K as (k & Hk & Hk1 & K1 & K2 & K3 & K4 & K5 & K6). exists k. split; [lia|]. split; [reflexivity|].
    split; [exact Hk1|]. split; [exact K3|]. split; [exact K4|]. split; [exact K2|]. split; [exact K5|]. split; [exact K6|exact K1].
  - right. destruct K as (K1 & K2 & K3). destruct (K3 Hmax) as (i & Hi & K4 & K5 & K6 & K7). clear K3.
    replace i with (pr_max Q) in * by lia. apply rbind_ok in E as ([[d2 v] LS2] & E3 & E). injection E as <- <-.
    exists (ps_dir s1). cbn [ps_dir ps_merit ps_radius ps_c]. split; [intros j Hj; apply K2; lia|]. split; [exact K5|]. split; [exact K6|].
    split; [exact K7|]. split; [exact E3|]. split; [|exact K4]. rewrite (bw_r _ _ _ _ _ _ _ _ K1). reflexivity.
Qed.

Lemma enough_descent r v : ok r -> 0 <= lx_eta X -> best r v -> enough v -> qm v <= m0.
Proof.
  intros Hr He [Ha Hb] Hn. pose proof (Hb _ (ls_zero _ _ _ _ _ _ _ _ _ _ LP r Hr)) as Hz.
  assert (Hq : qmerit n X J H zerof = lmerit n X J zerof) by (unfold qmerit; rewrite dot_zero_l; lra).
  unfold ParametricFacts.enough in Hn. rewrite <- Hq in Hz.
  assert (0 <= lx_eta X * (m0 - lm v)) by (apply Rmult_le_pos; lra). lra.
Qed.

(** If no radius leads to enough decrease and the line search knows this very iterate, the step
    is a multiple of the step for the last radius, or zero; the radius that is returned is smaller
    than the one the linear program was solved with.  The step lies within it if the factor of
    the line search is at most the one of the search and the first length is one. *)
Theorem C79_linesearch : forall L (v : @dirn RN) dir m LS' (r : R),
  caches_ok n (lx_nc X) L -> 0 < lx_radius X -> shrinks (lx_tau X) (lx_eps X) ->
  dir_ok n X J H v -> ~ enough (dense (d_primal v)) ->
  ls_cauchy (Some X, L) v = Ok (dir, m, LS') ->
  let p := dense (d_primal dir) in
  dir_ok n X J H dir /\ dotd n p p <= lx_radius X * lx_radius X
  /\ (exists L', LS' = (Some X, L') /\ caches_ok n (lx_nc X) L')
  /\ (exists t, 0 <= t <= 1 /\ p = scaled t (dense (d_primal v)) /\ (0 < t -> enough p /\ m = qm p)
       /\ (dotd n (dense (d_primal v)) (dense (d_primal v)) <= lx_radius X * lx_radius X -> t <= lx_tau X))
  /\ (dotd n (dense (d_primal v)) (dense (d_primal v)) <= lx_radius X * lx_radius X -> lx_tau X <= pr_dec Q -> 0 <= r ->
      (forall i, (0 <= i < n)%Z -> Rabs (dense (d_primal v) i) <= r) ->
      forall i, (0 <= i < n)%Z -> Rabs (p i) <= r * pr_dec Q).
Proof.
  intros L v dir m LS' r HL Hrad Hsh Hd Hne E p. pose proof (not_enough_nonzero _ (do_p _ _ _ _ _ Hd) Hne) as Hnz.
  destruct (C65_step n X J H v L (gv_ctx _ _ _ _ _ _ _ _ _ G) HL (jac_linear _ _ _ _ (gv_jac _ _ _ _ _ _ _ _ _ G)) (gv_lin _ _ _ _ _ _ _ _ _ G) Hd Hrad Hnz Hsh)
    as (d' & full & w & L' & E1 & HL' & Hd' & Hn & Hc).
  unfold ls_cauchy in E. cbn [fst snd] in E. rewrite E1 in E. cbn [rbind] in E. injection E as <- <- <-. subst p.
  set (p := dense (d_primal d')) in *. set (y := dense (d_primal v)) in *.
  destruct (first_length_pos n (lx_radius X) y Hrad Hnz) as [F0 F1]. destruct Hsh as [[T0 T1] _].
  assert (Ht : exists t, 0 <= t <= 1 /\ p = scaled t y /\ (0 < t -> enough p /\ w = qm p)
       /\ (dotd n y y <= lx_radius X * lx_radius X -> t <= lx_tau X)).
  { destruct Hc as [(k & Hk1 & _ & Hk2 & Hk3 & _)|(Hz & _)].
    - assert (P0 : 0 < lx_tau X ^ k) by (now apply pow_lt). assert (P1 : lx_tau X ^ k <= 1).
      { rewrite <- (pow1 k). apply pow_incr. lra. }
      exists (first_length n (lx_radius X) y * lx_tau X ^ k). split; [split; [nra|nra]|]. split; [exact Hk1|].
      assert (He : enough p) by (unfold ParametricFacts.enough; rewrite <- Hk2; exact Hk3).
      split; [intros _; split; [exact He|exact Hk2]|]. intros Hin.
      assert (Hf : first_length n (lx_radius X) y = 1).
      { unfold first_length. apply Rmin_left. assert (Hs : 0 < sqrt (dotd n y y)) by now apply sqrt_lt_R0.
        apply Rmult_le_reg_r with (sqrt (dotd n y y)); [exact Hs|]. unfold Rdiv. rewrite Rmult_assoc, Rinv_l by lra.
        rewrite Rmult_1_l, Rmult_1_r, <- (sqrt_square (lx_radius X)) by lra. now apply sqrt_le_1_alt. }
      rewrite Hf in *. destruct k as [|k].
      + exfalso. apply Hne. fold y. replace y with p; [exact He|]. rewrite Hk1. apply functional_extensionality. intros i.
        unfold scaled. cbn [pow]. req. cbn. ring.
      + cbn [pow]. rewrite Rmult_1_l. assert (lx_tau X ^ k <= 1) by (rewrite <- (pow1 k); apply pow_incr; lra).
        assert (0 < lx_tau X ^ k) by now apply pow_lt. nra.
    - exists 0. split; [lra|]. split; [rewrite <- zerof_scaled; exact Hz|]. split; [lra|intros _; lra]. }
  split; [exact Hd'|]. split; [exact Hn|]. split; [exists L'; split; [reflexivity|exact HL']|]. split; [exact Ht|].
  intros Hin Htd Hr Hv i Hi. destruct Ht as (t & Ht & -> & _ & Ht2). specialize (Ht2 Hin). unfold scaled. specialize (Hv i Hi).
  change (Rabs (t * y i) <= r * pr_dec Q). rewrite Rabs_mult, (Rabs_right t) by lra. pose proof (Rabs_pos (y i)) as Hy. rewrite (Rmult_comm r).
  apply Rmult_le_compat; rnum; lra.
Qed.

(** The quadratic model is never raised, if the line search knows this very iterate. *)
Theorem C79_descent : forall L (c : C) (lp_step : rvec) (r0 : R) s' LS',
  vok n lp_step -> Sol r0 c -> best r0 (dense lp_step) -> radii Q r0 ok ->
  caches_ok n (lx_nc X) L -> 0 < lx_radius X -> 0 < lx_tau X <= 1 -> 0 <= lx_eta X <= 1 ->
  par_solve O X jac hess mcache Q (Some X, L) c lp_step d (r0 : @num RN) = Ok (s', LS') ->
  qm (dense (d_primal (ps_dir s'))) <= m0.
Proof.
  intros L c lp_step r0 s' LS' Vl Hs Hb Hr HL Hrad Ht He E.
  destruct (classic (enough (dense lp_step))) as [Hen|Hen].
  - destruct (C79_forward_partial _ _ _ _ _ _ Vl Hs Hb Hr Hen E) as (_ & k & _ & Hle & _).
    assert (Hok : ok r0). { destruct Hr as [_ Hr]. specialize (Hr 0%nat ltac:(lia)). cbn [pow] in Hr. rewrite Rmult_1_r in Hr. apply Hr. }
    pose proof (enough_descent r0 _ Hok ltac:(lra) Hb Hen). rnum. lra.
  - destruct (C79_back _ _ _ _ _ _ Vl Hs Hb Hr Hen E) as [(k & Hk & _ & _ & Kb & Ke & _)|(v & _ & Vd & Vb & Vn & Ev & _)].
    + apply (enough_descent (r0 * pr_dec Q ^ k)); [apply Hr; lia|lra|exact Kb|exact Ke].
    + unfold ls_cauchy in Ev. cbn [fst snd] in Ev. apply rbind_ok in Ev as ([[[d2 fl] w] L2] & Ev & Ew). injection Ew as Ed _ _. rewrite <- Ed.
      pose proof (not_enough_nonzero _ (do_p _ _ _ _ _ Vd) Vn) as Hnz.
      refine (proj1 (C65_descent n X J H v L _ _ _ _ (gv_ctx _ _ _ _ _ _ _ _ _ G) HL (jac_linear _ _ _ _ (gv_jac _ _ _ _ _ _ _ _ _ G)) (gv_lin _ _ _ _ _ _ _ _ _ G) Vd Hrad Hnz Ht He _ Ev)).
      assert (Hq : qmerit n X J H zerof = lmerit n X J zerof) by (unfold qmerit; rewrite dot_zero_l; lra). rewrite Hq.
      apply Vb. apply (ls_zero _ _ _ _ _ _ _ _ _ _ LP). apply Hr. lia.
Qed.

(** The search comes to an end without an error, provided the line search was told an iterate. *)
Theorem C79_total : forall L (c : C) (lp_step : rvec) (r0 : R), lp_total n X C O Ready At Sol ok ->
  vok n lp_step -> Sol r0 c -> best r0 (dense lp_step) -> radii Q r0 ok ->
  caches_ok n (lx_nc X) L -> 0 < lx_radius X -> shrinks (lx_tau X) (lx_eps X) ->
  exists s' LS', par_solve O X jac hess mcache Q (Some X, L) c lp_step d (r0 : @num RN) = Ok (s', LS').
Proof.
  intros L c lp_step r0 LT Vl Hs Hb (Hr0 & Hr) HL Hrad Hsh.
  destruct (start (Some X, L) c lp_step r0 Vl) as (d1 & Q1 & b & E1 & Hd1 & Ep & HQ1 & HS & HV & Hen). rewrite E1.
  pose proof (gv_max _ _ _ _ _ _ _ _ _ G) as Hmax. destruct b.
  - destruct (fwd_start c d1 Q1 lp_step r0 Hd1 Ep HQ1 HS Hs Hb) as (ld & El & F). destruct HS as (_ & _ & Sm).
    unfold search_forward. cbn [ps_dir ps_par ps_c ps_radius ps_merit]. rewrite El. cbn [rbind ps_par par_set_last pr_max]. rewrite Sm.
    pose proof (gv_inc _ _ _ _ _ _ _ _ _ G) as Hinc.
    destruct (forward_total n X J H hess mcache (gv_ctx _ _ _ _ _ _ _ _ _ G) (gv_hess _ _ _ _ _ _ _ _ _ G) (gv_cache _ _ _ _ _ _ _ _ _ G) C O Ready At Sol ok allowed LP
      (dense lp_step) r0 (pr_inc Q) ltac:(lra) (pr_max Q) LT 0 _ _ F) as (s1 & E2).
    { intros k Hk. apply Hr. lia. }
    cbn [ps_merit]. rewrite E2. cbn [rbind]. eexists _, _. reflexivity.
  - pose proof (bwd_start c d1 Q1 (qm (dense lp_step)) r0 Hd1 HQ1 HS (ls_ready _ _ _ _ _ _ _ _ _ _ LP _ _ Hs) HV) as B. destruct HS as (_ & _ & Sm).
    unfold search_back. cbn [ps_par]. rewrite Sm.
    assert (Hok : forall k, (k < 1 + pr_max Q)%nat -> ok (r0 * pr_dec Q ^ k)) by (intros k Hk; apply Hr; lia).
    destruct (back_total n X jac J H hess (gv_ctx _ _ _ _ _ _ _ _ _ G) (gv_jac _ _ _ _ _ _ _ _ _ G) (gv_hess _ _ _ _ _ _ _ _ _ G) C O Ready At Sol ok allowed LP
      r0 (pr_dec Q) (pr_max Q) LT 1 _ B Hok) as (s1 & b & E2).
    pose proof (back_loop_ok n X jac J H hess (gv_ctx _ _ _ _ _ _ _ _ _ G) (gv_jac _ _ _ _ _ _ _ _ _ G) (gv_hess _ _ _ _ _ _ _ _ _ G) C O Ready At Sol ok allowed LP
      r0 (pr_dec Q) (pr_max Q) 1 _ s1 b B Hok E2) as K.
    rewrite E2. cbn [rbind]. destruct b; [eexists _, _; reflexivity|]. destruct K as (_ & _ & K3). destruct (K3 Hmax) as (i & _ & _ & Vd & _ & Vn).
    pose proof (not_enough_nonzero _ (do_p _ _ _ _ _ Vd) Vn) as Hnz.
    destruct (C65_step n X J H (ps_dir s1) L (gv_ctx _ _ _ _ _ _ _ _ _ G) HL (jac_linear _ _ _ _ (gv_jac _ _ _ _ _ _ _ _ _ G)) (gv_lin _ _ _ _ _ _ _ _ _ G) Vd Hrad Hnz Hsh)
      as (d' & full & w & L' & E3 & _).
    unfold ls_cauchy. cbn [fst snd]. rewrite E3. cbn [rbind]. eexists _, _. reflexivity.
Qed.
End Props.
Print Assumptions C79_forward_partial.
Print Assumptions C79_back.
Print Assumptions C79_linesearch.
Print Assumptions C79_descent.
Print Assumptions C79_total.

(** ** The unconstrained case *)

(** The solver of /repo/src/main/cauchy/unconstrained_cauchy.c, together with the iterate it was
    given; penalty and gradient passed to sleqp_cauchy_solve are not read. *)
Definition uops {N : Num} : lpops (cunc * option citer) :=
  mklpops (fun s r => cu_exec s (ORadius r)) (fun s _ _ => cu_exec s OSolve) (fun s t => d <- cu_lp_step (fst s) t ;; Ok (s, d)).

Section Unconstrained.
Variables (n : Z) (X : @lctx RN) (J : (Z -> R) -> Z -> R).
Hypothesis Hn : (0 <= n)%Z.
Hypothesis Hnc : lx_nc X = 0%Z.

(** States after calls of the solver of which the last ones gave it the gradient and the radius *)
Definition uhist (h : list (@cop RN)) (r : R) (s : @cunc RN * option (@citer RN)) : Prop :=
  ucalls_ok n false h /\ (c0 <- cu_create n ;; rfold cu_exec (c0, None) h) = Ok s
  /\ exists it, current (None, @n0 RN) h = (Some it, r) /\ ci_grad it = lx_grad X.
Definition uat (r : R) s : Prop := exists h, uhist h r s.
Definition usol (r : R) s : Prop := exists h, uhist (h ++ [OSolve]) r s /\ exists s0, uhist h r s0.
Definition uready s : Prop := exists r, uat r s.
Definition within (r : R) (v : Z -> R) : Prop := forall j, (0 <= j < n)%Z -> Rabs (v j) <= r.

Lemma ucalls_snoc (o : @cop RN) : forall h cur st, ucalls_ok n st h -> fst (current cur h) <> None -> (fst cur <> None -> st = true) ->
  ucalls_ok n true [o] -> ucalls_ok n st (h ++ [o]).
Proof.
  induction h as [|q h IH]; intros cur st Hh Hc Hst Ho.
  - cbn [app current] in *. rewrite (Hst Hc). exact Ho.
  - destruct q as [it r|r|]; cbn [app ucalls_ok current] in *.
    + destruct Hh as (A & B & D & Hh). split; [exact A|]. split; [exact B|]. split; [exact D|]. apply (IH _ true Hh Hc); auto.
    + destruct Hh as (A & Hh). split; [exact A|]. apply (IH _ st Hh Hc); auto.
    + destruct Hh as (A & Hh). split; [exact A|]. apply (IH _ st Hh Hc); auto.
Qed.
Lemma current_app : forall h1 h2 (cur : option (@citer RN) * @num RN), current cur (h1 ++ h2) = current (current cur h1) h2.
Proof. induction h1 as [|o h1 IH]; intros h2 cur; [reflexivity|]. destruct o; cbn [app current]; apply IH. Qed.

Lemma uhist_snoc h r s o r' s' : uhist h r s -> ucalls_ok n true [o] -> cu_exec s o = Ok s' ->
  (forall it, current (Some it, r : @num RN) [o] = (Some it, r' : @num RN)) -> uhist (h ++ [o]) r' s'.
Proof.
  intros (H1 & H2 & it & H3 & H4) Ho E Hc. split; [|split].
  - apply (ucalls_snoc o h (None, @n0 RN)); [exact H1| |intros Hx; now contradict Hx|exact Ho]. rewrite H3. discriminate.
  - apply rbind_ok in H2 as (c0 & E0 & E1). rewrite E0. cbn [rbind]. rewrite rfold_app, E1. cbn [rbind rfold]. rewrite E. reflexivity.
  - exists it. split; [|exact H4]. rewrite current_app, H3. apply Hc.
Qed.

Lemma radius_ok_rn (r : R) : 0 <= r -> @radius_ok RN r.
Proof.
  intros Hr. split.
  - apply rn_leb. rewrite rn_n0. exact Hr.
  - apply rn_eqb_false. rewrite rn_lit1. intros E. change (r = IZR (-1)) in E. lra.
Qed.

Lemma no_viol p : lviol X J p = 0.
Proof. unfold lviol, total_viol. rewrite Hnc. reflexivity. Qed.

Theorem C79_unconstrained : lp_spec n X J _ uops uready uat usol (fun r => 0 <= r) within
  /\ lp_total n X _ uops uready uat usol (fun r => 0 <= r).
Proof.
  split; constructor.
  - intros s r s' (r1 & h & Hh) Hr E. exists (h ++ [ORadius (r : @num RN)]).
    apply (uhist_snoc h r1 s _ r s' Hh); [split; [now apply radius_ok_rn|exact I]|exact E|reflexivity].
  - intros s r s' (h & Hh) E. exists h. split; [|now exists s].
    apply (uhist_snoc h r s _ r s' Hh); [split; [reflexivity|exact I]|exact E|reflexivity].
  - intros s r t s' v (h & Hh & s0 & Hh0) Ht E. cbn [uops po_step] in E. apply rbind_ok in E as (d & Ed & E). injection E as <- <-.
    split; [exists h; split; [exact Hh|now exists s0]|].
    destruct Hh0 as (H1 & _ & it & H3 & H4). destruct (C60_unconstrained_step n h it r Hn H1 H3) as (c & E1 & Hst & _).
    destruct Hh as (_ & E2 & _). rewrite E1 in E2. injection E2 as <-. cbn [fst] in Ed.
    destruct (Hst t) as (d' & Ed' & Wd & Dd & Hb & Ho & Hmin); [apply Ht|apply Ht|]. rewrite Ed in Ed'. injection Ed' as <-.
    split; [split; [exact Wd|exact Dd]|]. split; [exact Hb|]. intros v' Hv'. specialize (Hmin v' Hv'). rewrite Ho in Hmin.
    unfold lmerit. rewrite !no_viol. unfold model in Hmin. rewrite H4 in Hmin.
    rewrite !(dotd_sym n (dense (lx_grad X))). rewrite ?(dotd_sym n (dense (lx_grad X))) in Hmin. rnum. lra.
  - intros s r (h & Hh & _). now exists r, (h ++ [OSolve]).
  - intros r r' v Hr Hv j Hj. specialize (Hv j Hj). lra.
  - intros r Hr j Hj. unfold zerof. rewrite Rabs_R0. exact Hr.
  - intros s r _ _. eexists. reflexivity.
  - intros s r (h & H1 & H2 & it & H3 & H4).
    destruct (C60_unconstrained_step n h it r Hn H1 H3) as (c & E1 & _). apply rbind_ok in E1 as (c0 & E0 & E1).
    rewrite E0 in H2. cbn [rbind] in H2. rewrite rfold_app, H2 in E1. cbn [rbind rfold] in E1. cbn [uops po_solve].
    apply rbind_ok in E1 as (s' & E1 & _). now exists s'.
  - intros s r t (h & Hh & s0 & Hh0) Ht. destruct Hh0 as (H1 & _ & it & H3 & H4).
    destruct (C60_unconstrained_step n h it r Hn H1 H3) as (c & E1 & Hst & _). destruct Hh as (_ & E2 & _). rewrite E1 in E2. injection E2 as <-.
    destruct (Hst t) as (d' & Ed' & _); [apply Ht|apply Ht|]. cbn [uops po_step fst]. rewrite Ed'. cbn [rbind]. eexists _, _. reflexivity.
Qed.
End Unconstrained.
Print Assumptions C79_unconstrained.

(** Example: one variable, gradient 1, Hessian [h], trust radius 100, first radius 1, doubling and
    halving. *)
Definition ux : @lctx RN :=
  mklctx 0 (mkvec 0 0 []) (mkvec 0 0 []) (rv (-1000)) (rv 1000) (rv 0) (0 : @num RN) (rv 1) (mkvec 0 0 []) (1 : @num RN) (100 : @num RN)
    (/ 1024 : @num RN) (0 : @num RN) (/ 10 : @num RN) (/ 2 : @num RN) (1 : @num RN).
Definition ujac : @mat RN := mkmat 0 1 0 0 [0; 0]%Z [].
Definition uJ (p : Z -> R) (i : Z) : R := sumd 1 (fun j => mR [[]] i j * p j).
Definition udir : @dirn RN := mkdirn (rv 0) (0 : @num RN) (mkvec 0 0 []) (rv 0).
Definition upar : @par RN := mkpar (0 : @num RN) (mkvec 0 0 []) udir (2 : @num RN) (/ 2 : @num RN) 5 (1 : @num RN).
Definition ucaches : @lsd RN := mklsd (rv 0) (mkvec 0 0 []) (mkvec 0 0 []) (mkvec 0 0 []) (mkvec 0 0 []) (rv 0) (mkvec 0 0 []) 0.
Definition uit : @citer RN := mkciter (rv 0) (0 : @num RN) (rv 1).
Lemma vok0 : vok 0 (mkvec 0 0 [] : rvec). Proof. split; [unfold wf; cbn; lia|reflexivity]. Qed.
Lemma uroom : dir_room 1 ux udir.
Proof. split; [apply vok_rv|]. split; [apply vok0|apply vok_rv]. Qed.

Example C79_given (h : R) : given 1 ux ujac uJ (fun x i => h * x i) (ex_hess (h : @num RN)) (mkvec 0 0 []) upar udir.
Proof.
  constructor; cbn [upar pr_inc pr_dec pr_max ux lx_eps lx_nc lx_pen vcap]; try lra; try lia.
  - constructor; cbn [ux lx_nc lx_clb lx_cub lx_vlb lx_vub lx_x lx_grad lx_cons lx_pen lx_zero]; try apply vok_rv; try apply vok0; try reflexivity; try lia; try lra; intros i Hi; lia.
  - exists [[]]. split; [|split; [reflexivity|split; [reflexivity|reflexivity]]].
    destruct (@build_spec RN 0 1 0 [[]]) as (m & E & St & _); [lia|reflexivity|cbn; lia|repeat constructor; cbn; lia|].
    cbn in E. injection E as <-. exact St.
  - intros a x b y i Hi. unfold lc. ring.
  - apply ex_hess_ok.
  - constructor; cbn; [lia|apply uroom|reflexivity].
  - apply uroom.
Qed.

Example C79_start (h : R) : radii upar 1 (fun r => 0 <= r)
  /\ exists s, usol 1 ux 1 s /\ best 1 ux uJ (within 1) 1 (dense (rv (-1)))
  /\ ((h <= 0 -> enough 1 ux uJ (fun x i => h * x i) (dense (rv (-1)))) /\ (100 <= h -> ~ enough 1 ux uJ (fun x i => h * x i) (dense (rv (-1))))).
Proof.
  split.
  { split; [lra|]. intros k _. cbn [upar pr_inc pr_dec]. split; rewrite Rmult_1_l; apply pow_le; lra. }
  assert (R1 : @radius_ok RN 1) by (apply radius_ok_rn; lra).
  assert (Hu : ucalls_ok 1 false [OIter uit (1 : @num RN)]).
  { split; [apply vok_rv|]. split; [reflexivity|]. split; [exact R1|exact I]. }
  destruct (C60_unconstrained_step 1 [OIter uit (1 : @num RN)] uit 1 ltac:(lia) Hu eq_refl) as (c & E & _).
  exists (c, Some uit). split.
  { exists [OIter uit (1 : @num RN)]. split.
    - split; [|split; [exact E|exists uit; split; reflexivity]]. split; [apply vok_rv|]. split; [reflexivity|]. split; [exact R1|]. split; [reflexivity|exact I].
    - eexists. split; [exact Hu|]. split; [reflexivity|exists uit; split; reflexivity]. }
  assert (Hl : forall p, lmerit 1 ux uJ p = p 0%Z).
  { intros p. unfold lmerit. rewrite (no_viol ux uJ eq_refl), dot1. cbn [ux lx_obj lx_grad lx_pen]. rewrite dense_rv. req. cbn. ring. }
  assert (Hq : forall p, qmerit 1 ux uJ (fun x i => h * x i) p = p 0%Z + / 2 * (p 0%Z * (h * p 0%Z))).
  { intros p. unfold qmerit. rewrite Hl, dot1. reflexivity. }
  split.
  { split.
    - intros j Hj. assert (j = 0%Z) by lia. subst j. rewrite dense_rv. apply Rabs_le. lra.
    - intros v' Hv'. rewrite !Hl, dense_rv. specialize (Hv' 0%Z ltac:(lia)). apply abs_between in Hv'. lra. }
  unfold enough. rewrite !Hq, Hl, dense_rv. cbn [ux lx_eta]. unfold zerof. split; intros Hh; lra.
Qed.

(** Hence both searches end, and neither raises the model. *)
Example C79_example (h : R) : exists s (c : @cunc RN * option (@citer RN)) s' LS', usol 1 ux 1 c /\ s = rv (-1)
  /\ par_solve uops ux ujac (ex_hess (h : @num RN)) (mkvec 0 0 []) upar (Some ux, ucaches) c s udir (1 : @num RN) = Ok (s', LS')
  /\ qmerit 1 ux uJ (fun x i => h * x i) (dense (d_primal (ps_dir s'))) <= qmerit 1 ux uJ (fun x i => h * x i) zerof.
Proof.
  destruct (C79_unconstrained 1 ux uJ ltac:(lia) eq_refl) as [LP LT].
  destruct (C79_start h) as (Hr & c & Hs & Hb & _). exists (rv (-1)), c.
  assert (HL : caches_ok 1 (lx_nc ux) ucaches) by (constructor; cbn; try lia; try apply vok_rv; apply vok0).
  assert (Hrad : 0 < lx_radius ux) by (cbn; lra).
  assert (Hsh : shrinks (lx_tau ux) (lx_eps ux)) by (apply shrinks_half; cbn; lra).
  destruct (C79_total 1 ux ujac uJ _ _ _ upar udir _ uops _ _ _ _ _ (C79_given h) LP ucaches c (rv (-1)) 1 LT (vok_rv _) Hs Hb Hr HL Hrad Hsh) as (s' & LS' & E).
  exists s', LS'. split; [exact Hs|]. split; [reflexivity|]. split; [exact E|].
  apply (C79_descent 1 ux ujac uJ _ _ _ upar udir _ uops _ _ _ _ _ (C79_given h) LP ucaches c (rv (-1)) 1 s' LS' (vok_rv _) Hs Hb Hr HL Hrad); [cbn; lra|cbn; lra|exact E].
Qed.

(** The same in floating point arithmetic: creation, one solve, search. *)
Definition fx (radius : f64) : @lctx F64 :=
  let X := fctx 0 1 [] [] [(0, 1)]%Z [] 1 1 tenth in
  mklctx (lx_nc X) (lx_clb X) (lx_cub X) (lx_vlb X) (lx_vub X) (lx_x X) (lx_obj X) (lx_grad X) (lx_cons X) (lx_pen X) radius
    (lx_eps X) (lx_zero X) (lx_eta X) (lx_tau X) (lx_cutoff X).
Definition fjac : @mat F64 := mkmat 0 1 0 0 [0; 0]%Z [].
Definition frun (radius r0 h : f64) (LS : @lsearch F64) : res (@pst F64 (@cunc F64 * option (@citer F64)) * @lsearch F64) :=
  let X := fx radius in
  Q <- par_create 1 0 PCoarse (fz 0) (fz 0) ;;
  c <- cu_create 1 ;;
  s <- rfold cu_exec (c, None) [OIter (mkciter (lx_x X) (lx_obj X) (lx_grad X)) r0; OSolve] ;;
  t <- cu_lp_step (fst s) (ve 1 []) ;;
  d <- dir_create 1 0 ;;
  step_parametric uops X fjac (ex_hess h) (ve 0 []) Q LS s t d r0.
Lemma got {A B} (r : res (A * B)) (P : A -> Prop) : match r with Ok (s, _) => P s | _ => False end -> exists s l, r = Ok (s, l) /\ P s.
Proof. destruct r as [[s l]| |]; [|intros []|intros []]. intros Hp. now exists s, l. Qed.
Definition same (x y : f64) : Prop := B2SF x = B2SF y.
Definition rsame (x : res f64) (y : f64) : Prop := match x with Ok x => same x y | _ => False end.
Definition fnone : @lsearch F64 := (None, fcaches 0 1).

(** Negative curvature: the radius is doubled five times.  The product with the gradient is still
    the one of the first step, and the value that is returned is not the one of the model. *)
Theorem C79_forward_refuted : exists s LS, frun (fz 100) (fz 1) (fz (-1)) fnone = Ok (s, LS)
  /\ same (dense (d_primal (ps_dir s)) 0) (fz (-32)) /\ same (d_obj (ps_dir s)) (fz (-1))
  /\ rsame (vec_dot (d_primal (ps_dir s)) (lx_grad (fx (fz 100)))) (fz (-32))
  /\ same (ps_merit s) (fz (-513)) /\ rsame (dmerit (fx (fz 100)) (ps_dir s)) (fz (-513))
  /\ same (ps_radius s) (fz 64).
Proof. refine (got _ (fun s => _) _). vm_compute. repeat split. Qed.
Print Assumptions C79_forward_refuted.

(** Without curvature no greater radius is accepted, although twice the step leads to twice the
    decrease. *)
Theorem C79_missed_refuted : exists s LS, frun (fz 100) (fz 1) (fz 0) fnone = Ok (s, LS)
  /\ same (dense (d_primal (ps_dir s)) 0) (fz (-1)) /\ same (ps_merit s) (fz (-1)) /\ same (ps_radius s) (fz 1)
  /\ rsame (dmerit (fx (fz 100)) (mkdirn (ve 1 [(0, -2)]%Z) (fz (-2)) (ve 0 []) (ve 1 []))) (fz (-2)).
Proof. refine (got _ (fun s => _) _). vm_compute. repeat split. Qed.
Print Assumptions C79_missed_refuted.

(** If no radius is found during the first call, the line search is used before it knows an
    iterate. *)
Theorem C79_first_call_refuted : frun (fz 100) (fz 1) (fz 1000) fnone = Trap.
Proof.
  assert (B : match frun (fz 100) (fz 1) (fz 1000) fnone with Trap => true | _ => false end = true) by (vm_compute; reflexivity).
  destruct (frun (fz 100) (fz 1) (fz 1000) fnone); [discriminate B|discriminate B|reflexivity].
Qed.
Print Assumptions C79_first_call_refuted.

(** Later on it knows the previous iterate and trust radius. The step exceeds the current one,
    which it would not have done with the current one. *)
Theorem C79_stale_refuted : let r : f64 := @nlit F64 1 4096 in
  (exists s LS, frun r (fz 1) (fz 1000) (Some (fx (fz 100)), fcaches 0 1) = Ok (s, LS)
    /\ @nltb F64 r (nabs (dense (d_primal (ps_dir s)) 0)) = true)
  /\ (exists s LS, frun r (fz 1) (fz 1000) (Some (fx r), fcaches 0 1) = Ok (s, LS)
    /\ same (dense (d_primal (ps_dir s)) 0) (nopp r)).
Proof. split; refine (got _ (fun s => _) _); vm_compute; reflexivity. Qed.
Print Assumptions C79_stale_refuted.

(** If a radius is found, the step need not lie within the trust region at all. *)
Theorem C79_trust_refuted : exists s LS, frun (@nlit F64 1 4) (fz 1) (fz 1) (Some (fx (@nlit F64 1 4)), fcaches 0 1) = Ok (s, LS)
  /\ same (dense (d_primal (ps_dir s)) 0) (fz (-1)).
Proof. refine (got _ (fun s => _) _). vm_compute. reflexivity. Qed.
Print Assumptions C79_trust_refuted.

(** If none is found, the step may exceed the radius that is returned. *)
Theorem C79_radius_refuted : exists s LS, frun (@nlit F64 3 128) (fz 1) (fz 66) (Some (fx (@nlit F64 3 128)), fcaches 0 1) = Ok (s, LS)
  /\ same (ps_radius s) (@nlit F64 1 64) /\ same (dense (d_primal (ps_dir s)) 0) (nopp (@nlit F64 3 128)).
Proof. refine (got _ (fun s => _) _). vm_compute. repeat split. Qed.
Print Assumptions C79_radius_refuted.

(** Positive curvature: the radius is halved until the decrease suffices, and all products belong
    to the step. *)
Example C79_back_example : exists s LS, frun (fz 100) (fz 1) (fz 10) fnone = Ok (s, LS)
  /\ same (dense (d_primal (ps_dir s)) 0) (nopp (@nlit F64 1 8)) /\ same (d_obj (ps_dir s)) (nopp (@nlit F64 1 8))
  /\ same (ps_radius s) (@nlit F64 1 8) /\ rsame (dmerit (fx (fz 100)) (ps_dir s)) (ps_merit s).
Proof. refine (got _ (fun s => _) _). vm_compute. repeat split. Qed.
