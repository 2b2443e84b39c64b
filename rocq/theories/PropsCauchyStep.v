(** C80: penalty parameter, linear program and Cauchy step belong together. *)
From Coq Require Import Reals Lra FunctionalExtensionality Classical_Prop.
From Flocq Require Import BinarySingleNaN.
From Verif Require Import Base Num Cmp Sparse Vec VecFacts Order VecFacts2 RSum VecReal Mat MatFacts MatFacts2 MatFacts4 Arr
  WorkingSet Feas FeasFacts MeritFacts OrdArith PreprocReal QnReal SteihaugFacts TrustRadius LineSearch LineSearchFacts WorkingStep WorkingStepReal
  PropsVec PropsMat PropsCauchy PropsSteihaug PropsLineSearch StdCauchy Parametric ParametricFacts CauchyStep.
Local Open Scope R_scope.

Section Props.
Variables (n : Z) (X : @lctx RN) (jac : @mat RN) (J H : (Z -> R) -> Z -> R) (hess : rvec -> rvec -> res rvec).
Hypothesis CX : ctx_ok n X.
Hypothesis HJ : jac_is n (lx_nc X) jac J.
Notation nc := (lx_nc X).
Notation lv := (lviol X J).
Notation G := (dense (lx_grad X)).

(** Linear model of objective and violation; without gradient only the violation counts. *)
Definition gval (g : option rvec) (v : Z -> R) : R := match g with Some g => dotd n (dense g) v | None => 0 end.
Definition lmodel (g : option rvec) (p : R) (v : Z -> R) : R := gval g v + p * lv v.

Variable C : Type.
Variable O : @cops RN C.
(** States of the solver: [Any] at all times, [At r] after the iterate was passed with radius [r],
    [Sol r g p] after a solve; [allowed r] are the steps it chooses from. *)
Variables (Any : C -> Prop) (At : R -> C -> Prop) (Sol : R -> option rvec -> R -> C -> Prop) (ok : R -> Prop) (allowed : R -> (Z -> R) -> Prop).
Definition minimal (r : R) (g : option rvec) (p : R) (v : Z -> R) : Prop :=
  allowed r v /\ forall v', allowed r v' -> lmodel g p v <= lmodel g p v'.
Definition our (g : option rvec) : Prop := g = None \/ g = Some (lx_grad X).
Record cspec : Prop := {
  cs_iterate : forall c r c', Any c -> ok r -> co_iterate O c (r : @num RN) = Ok c' -> At r c';
  cs_solve : forall c r g p t c', At r c -> our g -> 0 <= p -> co_solve O c g (p : @num RN) t = Ok c' -> Sol r g p c';
  cs_at : forall c r g p, Sol r g p c -> At r c;
  cs_violation : forall c r g p c' v, Sol r g p c -> our g -> co_violation O c = Ok (c', v) ->
     Sol r g p c' /\ (0 < p -> exists y, minimal r g p y /\ v = lv y);
  cs_step : forall c r g p t c' v, Sol r g p c -> our g -> vok n t -> co_step O c t = Ok (c', v) -> Sol r g p c' /\ vok n v /\ minimal r g p (dense v);
  cs_working_set : forall c r g p w c' w', Sol r g p c -> our g -> co_working_set O c w = Ok (c', w') -> Sol r g p c';
  cs_zero : forall r, ok r -> allowed r zerof }.
Hypothesis SP : cspec.
Notation sg := (Some (lx_grad X)).
Lemma our_g : our sg. Proof. now right. Qed.
Lemma our_n : our None. Proof. now left. Qed.

(** A greater penalty parameter never leads to more violation. *)
Lemma violation_monotone r g p p' v v' : minimal r g p v -> minimal r g p' v' -> p < p' -> lv v' <= lv v.
Proof. intros [A B] [A' B'] Hp. specialize (B _ A'). specialize (B' _ A). unfold lmodel in *. nra. Qed.
Lemma violation_least r g p p' v v' : minimal r g p v -> minimal r None p' v' -> 0 < p' -> lv v' <= lv v.
Proof. intros [A B] [A' B'] Hp. specialize (B' _ A). unfold lmodel, gval in B'. nra. Qed.

(** ** The penalty parameter *)
Lemma raise_loop_ok m (ok0 : R -> bool) fuel : forall r c (p : R) c' (p' : R), 0 < p -> At r c ->
  raise_loop O (lx_grad X) (m : @num RN) (ok0 : @num RN -> bool) fuel c (p : @num RN) = Ok (c', p' : @num RN) ->
  exists k, (k <= fuel)%nat /\ p' = p * 10 ^ k /\ ((0 < k)%nat -> Sol r sg p' c') /\ ((0 < fuel)%nat -> (0 < k)%nat)
    /\ (forall i, (1 <= i < k)%nat -> exists y, minimal r sg (p * 10 ^ i) y /\ ok0 (lv y / m) = false)
    /\ ((k < fuel)%nat -> exists y, minimal r sg p' y /\ ok0 (lv y / m) = true)
    /\ (k = fuel -> forall c0, k = 0%nat -> c0 = c -> c' = c0).
Proof.
  induction fuel as [|fuel IH]; intros r c p c' p' Hp Hc E.
  { cbn [raise_loop] in E. injection E as <- <-. exists 0%nat. split; [lia|]. split; [cbn; ring|]. split; [lia|]. split; [lia|]. split; [lia|]. split; [lia|].
    intros _ c0 _ ->. reflexivity. }
  cbn [raise_loop] in E. apply rbind_ok in E as (c1 & E1 & E). apply rbind_ok in E as ([c2 v] & E2 & E).
  assert (Hi : @nmul RN p penalty_increase = p * 10).
  { unfold penalty_increase. rewrite rn_lit1. reflexivity. }
  rewrite Hi in *. assert (Hp1 : 0 < p * 10) by lra.
  pose proof (cs_solve SP _ _ _ _ _ _ Hc our_g (Rlt_le _ _ Hp1) E1) as S1.
  destruct (cs_violation SP _ _ _ _ _ _ S1 our_g E2) as (S2 & Hv). destruct (Hv Hp1) as (y & My & ->).
  change (@ndiv RN (lv y) m) with (lv y / m) in E. destruct (ok0 (lv y / m)) eqn:Ek.
  - injection E as <- <-. exists 1%nat. split; [lia|]. split; [cbn; ring|]. split; [intros _; exact S2|]. split; [lia|]. split; [lia|].
    split; [intros _; exists y; auto|]. intros _ c0 Hx. discriminate.
  - assert (Hx := IH r c2 (p * 10) c' p' Hp1 (cs_at SP _ _ _ _ S2) E).
    destruct Hx as (k & K1 & K2 & K3 & K4 & K5 & K6 & K7). exists (S k).
    assert (Hpk : forall i, p * 10 * 10 ^ i = p * 10 ^ S i) by (intros i; cbn [pow]; ring).
    split; [lia|]. split; [rewrite <- Hpk; exact K2|]. split.
    { intros _. destruct k as [|k]; [|apply K3; lia]. destruct fuel as [|fuel]; [|exfalso; specialize (K4 ltac:(lia)); lia].
      rewrite (K7 eq_refl c2 eq_refl eq_refl), K2. cbn [pow]. rewrite Rmult_1_r. exact S2. }
    split; [lia|]. split.
    { intros i Hi'. destruct i as [|[|i]]; [lia| |].
      - exists y. cbn [pow]. rewrite Rmult_1_r. auto.
      - destruct (K5 (S i) ltac:(lia)) as (y' & H1 & H2). exists y'. rewrite <- (Hpk (S i)). auto. }
    split; [intros Hk; apply K6; lia|]. intros _ c0 Hz. discriminate.
Qed.

(** The tolerance on the average violation *)
Definition tol : R := / 100000000.
Lemma tol_rn : @violation_tolerance RN = tol.
Proof. unfold violation_tolerance, tol. cbn [nlit RN]. unfold rn_lit. change (IZR (10 ^ 8)) with 100000000. req. cbn. lra. Qed.
Definition avg (v : Z -> R) : R := lv v / IZR nc.

(** Outcome of the update from a state in which the program was solved with the gradient: nothing
    to do; or no progress possible, in which case the solver is left with the program without
    objective; or the parameter was raised, and the solver holds the program for the new value.
    It was then raised no further than to the first power of ten that passes the test, or a
    hundred times. *)
Theorem C80_penalty : forall r c (p : R) c' (p' : R), 0 < p -> Sol r sg p c ->
  raise_penalty O (lx_grad X) nc c (p : @num RN) = Ok (c', p' : @num RN) ->
  exists y, minimal r sg p y /\
  ((p' = p /\ Sol r sg p c' /\ avg y <= tol)
   \/ (tol < avg y /\ exists z, minimal r None p z /\ lv z <= lv y
       /\ ((p' = p /\ Sol r None p c' /\ tol < avg z /\ avg y - avg z <= tol)
           \/ exists k, (1 <= k <= 100)%nat /\ p' = p * 10 ^ k /\ Sol r sg p' c'
              /\ let enough v := if Rle_dec (avg z) tol then avg v <= tol else / 10 * (avg y - avg z) <= avg y - avg v in
                 (avg z <= tol \/ tol < avg y - avg z)
                 /\ (forall i, (1 <= i < k)%nat -> exists v, minimal r sg (p * 10 ^ i) v /\ ~ enough v)
                 /\ ((k < 100)%nat -> exists v, minimal r sg p' v /\ enough v)))).
Proof.
  intros r c p c' p' Hp Hs E. unfold raise_penalty in E. apply rbind_ok in E as ([] & Ec & E).
  assert (Hm : @nlit RN nc 1 = IZR nc) by apply rn_lit1. rewrite Hm, tol_rn in E.
  apply rbind_ok in E as ([c1 v] & E1 & E). destruct (cs_violation SP _ _ _ _ _ _ Hs our_g E1) as (S1 & Hv). destruct (Hv Hp) as (y & My & ->).
  change (@ndiv RN (lv y) (IZR nc)) with (avg y) in E. exists y. split; [exact My|].
  destruct (@nleb RN (avg y) tol) eqn:L1.
  { apply rn_leb in L1. injection E as <- <-. left. auto. }
  apply rn_leb_false in L1. right. split; [exact L1|]. apply rbind_ok in E as (c2 & E2 & E).
  pose proof (cs_solve SP _ _ _ _ _ _ (cs_at SP _ _ _ _ S1) our_n (Rlt_le _ _ Hp) E2) as S2.
  apply rbind_ok in E as ([c3 v] & E3 & E). destruct (cs_violation SP _ _ _ _ _ _ S2 our_n E3) as (S3 & Hv'). destruct (Hv' Hp) as (z & Mz & ->). clear Hv Hv'.
  change (@ndiv RN (lv z) (IZR nc)) with (avg z) in E. exists z. split; [exact Mz|]. split; [exact (violation_least _ _ _ _ _ _ My Mz Hp)|].
  change (@nsub RN (avg y) (avg z)) with (avg y - avg z) in E.
  assert (A3 := cs_at SP _ _ _ _ S3). destruct (@nleb RN (avg z) tol) eqn:L2; [apply rn_leb in L2|apply rn_leb_false in L2].
  - right. destruct (raise_loop_ok (IZR nc) _ max_increases r c3 p c' p' Hp A3 E) as (k & K1 & K2 & K3 & K4 & K5 & K6 & _).
    specialize (K4 ltac:(unfold max_increases; lia)). unfold max_increases in *. exists k. split; [lia|]. split; [exact K2|]. split; [apply K3; lia|].
    cbv zeta. destruct (Rle_dec (avg z) tol) as [_|]; [|contradiction]. split; [left; exact L2|]. split.
    + intros i Hi. destruct (K5 i Hi) as (u & U1 & U2). exists u. split; [exact U1|]. apply rn_leb_false in U2. unfold avg. rnum. lra.
    + intros Hk. destruct (K6 Hk) as (u & U1 & U2). exists u. split; [exact U1|]. apply rn_leb in U2. exact U2.
  - destruct (@nleb RN (avg y - avg z) tol) eqn:L3; [apply rn_leb in L3|apply rn_leb_false in L3].
    + injection E as <- <-. left. auto.
    + right. destruct (raise_loop_ok (IZR nc) _ max_increases r c3 p c' p' Hp A3 E) as (k & K1 & K2 & K3 & K4 & K5 & K6 & _).
      specialize (K4 ltac:(unfold max_increases; lia)). unfold max_increases in *. exists k. split; [lia|]. split; [exact K2|]. split; [apply K3; lia|].
      cbv zeta. destruct (Rle_dec (avg z) tol) as [|_]; [lra|]. split; [right; exact L3|].
      assert (Hd : @min_decrease RN = / 10) by (unfold min_decrease; cbn [nlit RN]; unfold rn_lit; req; cbn; lra). rewrite Hd in *. split.
      * intros i Hi. destruct (K5 i Hi) as (u & U1 & U2). exists u. split; [exact U1|]. apply rn_leb_false in U2. unfold avg in *. cbn [nsub nmul RN] in U2. rnum. lra.
      * intros Hk. destruct (K6 Hk) as (u & U1 & U2). exists u. split; [exact U1|]. apply rn_leb in U2. exact U2.
Qed.

(** ** The direction *)
Notation viol0 := (total_viol nc (lx_clb X) (lx_cub X) (dense (lx_cons X))).
Lemma lv_zero : lv zerof = viol0.
Proof.
  unfold lviol. apply total_viol_ext. intros i Hi.
  rewrite (zerof_scaled zerof), (linear_scaled nc J 0 zerof i (jac_linear _ _ _ _ HJ) Hi). ring.
Qed.

Definition norms (E : @pctx RN) : R := Rmax (@vec_inf_norm RN (pc_cd E)) (@vec_inf_norm RN (pc_vd E)).

Lemma step_penalty_ok E r c (p : R) c' (p' : R) b : 0 < p -> Sol r sg p c -> 0 <= norms E ->
  step_penalty O (lx_grad X) nc E c (p : @num RN) = Ok (c', p' : @num RN, b) ->
  if b then pc_allow E = true /\ (@pc_res RN E <= @pc_feas RN E) /\ 1000 * (norms E + 1) < p /\ p' = norms E + 10 /\ p' < p /\ Sol r sg p c'
  else p' = p /\ (Sol r sg p c' \/ Sol r None p c') \/ p < p' /\ Sol r sg p' c'.
Proof.
  intros Hp Hs Hn Es. unfold step_penalty in Es. destruct (nc =? 0)%Z; [injection Es as <- <- <-; auto|].
  destruct (is_feasible (pc_res E) (pc_feas E)) eqn:Ef.
  - destruct (pc_allow E); [|injection Es as <- <- <-; auto].
    assert (Hm : @nmax RN (vec_inf_norm (pc_cd E)) (vec_inf_norm (pc_vd E)) = norms E) by apply rn_max. rewrite Hm in Es.
    destruct (@nltb RN _ p) eqn:El; [|injection Es as <- <- <-; auto]. injection Es as <- <- <-.
    apply rn_ltb in El. rewrite rn_lit1, rn_n1 in El. cbn [nmul nadd RN] in El. rewrite rn_lit1. cbn [nadd RN].
    unfold is_feasible in Ef. apply rn_leb in Ef. split; [reflexivity|]. split; [exact Ef|]. split; [exact El|]. split; [reflexivity|]. split; [lra|exact Hs].
  - apply rbind_ok in Es as ([c1 p1] & Es & E1). injection E1 as <- <- <-.
    destruct (C80_penalty r c p c1 p1 Hp Hs Es) as (y & My & [(-> & A & _)|(_ & z & _ & _ & [(-> & A & _)|(k & K1 & K2 & K3 & _)])]); auto.
    right. split; [|exact K3]. rewrite K2. destruct k as [|k]; [lia|]. cbn [pow]. assert (1 <= 10 ^ k) by (apply pow_R1_Rle; lra). nra.
Qed.

(** Unless the penalty parameter was reset, the step minimises the linear model for the value in
    use afterwards; after a reset it is the one for the value before.  The merit value of the
    iterate is always the one for the value in use. *)
Theorem C80_direction : forall E c (r : R) merit lp_step w D, Any c -> ok r -> vok n lp_step -> 0 < lx_pen X -> 0 <= norms E ->
  merit = lx_obj X + lx_pen X * viol0 ->
  cauchy_direction O X E c (r : @num RN) (merit : @num RN) lp_step w = Ok D ->
  let s := dense (cd_step D) in
  vok n (cd_step D) /\ 0 < cd_pen D /\ cd_merit D = lx_obj X + cd_pen D * viol0
  /\ (cd_reset D = false -> lx_pen X <= cd_pen D /\ minimal r sg (cd_pen D) s
       /\ (lx_pen X < cd_pen D -> Sol r sg (cd_pen D) (cd_c D)))
  /\ (cd_reset D = true -> cd_pen D < lx_pen X /\ cd_pen D = norms E + 10 /\ pc_allow E = true /\ (@pc_res RN E <= @pc_feas RN E) /\ minimal r sg (lx_pen X) s
       /\ lmodel sg (cd_pen D) s <= lmodel sg (cd_pen D) zerof + (lx_pen X - cd_pen D) * (viol0 - lv s))
  /\ (viol0 = 0 \/ cd_reset D = false -> lmodel sg (cd_pen D) s <= lmodel sg (cd_pen D) zerof).
Proof.
  intros E c r merit lp_step w D Hc Hr Hl Hp Hn Hm Ed s. unfold cauchy_direction in Ed.
  apply rbind_ok in Ed as (c1 & E1 & Ed). pose proof (cs_iterate SP _ _ _ Hc Hr E1) as A1.
  apply rbind_ok in Ed as (c2 & E2 & Ed). pose proof (cs_solve SP _ _ _ _ _ _ A1 our_g (Rlt_le _ _ Hp) E2) as S2.
  apply rbind_ok in Ed as ([c3 s3] & E3 & Ed). destruct (cs_step SP _ _ _ _ _ _ _ S2 our_g Hl E3) as (S3 & V3 & M3).
  apply rbind_ok in Ed as ([c4 w4] & E4 & Ed). pose proof (cs_working_set SP _ _ _ _ _ _ _ S3 our_g E4) as S4.
  apply rbind_ok in Ed as ([[c5 p'] b] & E5 & Ed). pose proof (step_penalty_ok E r c4 (lx_pen X) c5 p' b Hp S4 Hn E5) as K.
  assert (Hz : forall p v, minimal r sg p v -> lmodel sg p v <= lmodel sg p zerof) by (intros p v [_ Hb]; apply Hb, (cs_zero SP r Hr)).
  assert (HV0 : lv zerof = viol0) by apply lv_zero.
  assert (Hfin : forall cf sf mf wf0, D = mkcdir cf sf wf0 p' mf b -> vok n sf -> mf = lx_obj X + p' * viol0 ->
     minimal r sg (if b then lx_pen X else p') (dense sf) -> (lx_pen X < p' -> b = false -> Sol r sg p' cf) ->
     vok n (cd_step D) /\ 0 < cd_pen D /\ cd_merit D = lx_obj X + cd_pen D * viol0
     /\ (cd_reset D = false -> lx_pen X <= cd_pen D /\ minimal r sg (cd_pen D) s
          /\ (lx_pen X < cd_pen D -> Sol r sg (cd_pen D) (cd_c D)))
     /\ (cd_reset D = true -> cd_pen D < lx_pen X /\ cd_pen D = norms E + 10 /\ pc_allow E = true /\ (@pc_res RN E <= @pc_feas RN E) /\ minimal r sg (lx_pen X) s
          /\ lmodel sg (cd_pen D) s <= lmodel sg (cd_pen D) zerof + (lx_pen X - cd_pen D) * (viol0 - lv s))
     /\ (viol0 = 0 \/ cd_reset D = false -> lmodel sg (cd_pen D) s <= lmodel sg (cd_pen D) zerof)).
  { intros cf sf mf wf0 -> Vf Hmf Mf Sf. subst s. cbn [cd_step cd_pen cd_merit cd_reset cd_c] in *. split; [exact Vf|].
    pose proof (Hz _ _ Mf) as Hd. destruct b.
    - destruct K as (K1 & K2 & K3 & K4 & K5 & _). split; [rnum; lra|]. split; [exact Hmf|]. split; [discriminate|].
      assert (Hb : lmodel sg p' (dense sf) <= lmodel sg p' zerof + (lx_pen X - p') * (viol0 - lv (dense sf))).
      { unfold lmodel in *. rewrite HV0 in *. rnum. nra. }
      split; [intros _; auto 8|]. intros [Hv|Hx]; [|discriminate]. assert (0 <= lv (dense sf)) by (apply total_viol_nonneg). rewrite Hv in Hb. rnum. nra.
    - assert (lx_pen X <= p') by (destruct K as [[-> _]|[K _]]; rnum; lra). split; [rnum; lra|]. split; [exact Hmf|].
      split; [intros _; auto|]. split; [discriminate|]. intros _. exact Hd. }
  destruct (negb (@neqb RN (lx_pen X) p')) eqn:Ep.
  - apply rbind_ok in Ed as ([c6 s6] & E6 & Ed). apply rbind_ok in Ed as ([c7 w7] & E7 & Ed). apply rbind_ok in Ed as (m' & E8 & Ed).
    injection Ed as <-. apply negb_true_iff, rn_eqb_false in Ep.
    rewrite (merit_func_real nc _ _ (proj1 (cx_clb _ _ CX)) (proj1 (cx_cub _ _ CX)) (proj2 (cx_clb _ _ CX)) (proj2 (cx_cub _ _ CX)) (cx_cle _ _ CX) _ _ _ (proj1 (cx_cons _ _ CX)) (proj2 (cx_cons _ _ CX))) in E8. injection E8 as <-.
    assert (S5 : Sol r sg (if b then lx_pen X else p') c5).
    { destruct b; [apply K|]. destruct K as [[K _]|[_ K]]; [congruence|exact K]. }
    destruct (cs_step SP _ _ _ _ _ _ _ S5 our_g V3 E6) as (S6 & V6 & M6). pose proof (cs_working_set SP _ _ _ _ _ _ _ S6 our_g E7) as S7.
    eapply Hfin; [reflexivity|exact V6|reflexivity|exact M6|]. intros _ Hb. subst b. exact S7.
  - injection Ed as <-. apply negb_false_iff, rn_eqb in Ep. eapply Hfin; [reflexivity|exact V3|rewrite <- Ep; exact Hm| |].
    + destruct b; [exact M3|]. rewrite <- Ep. exact M3.
    + intros Hx. rnum. lra.
Qed.

(** ** The step *)
Lemma set_pen_ctx p : 0 <= p -> ctx_ok n (set_pen X p).
Proof. intros Hp. destruct CX. constructor; cbn [set_pen lx_nc lx_clb lx_cub lx_vlb lx_vub lx_x lx_grad lx_cons lx_pen lx_zero]; auto. Qed.
Lemma set_pen_lm p v : lmerit n (set_pen X p) J v = lx_obj X + lmodel sg p v.
Proof. unfold lmerit, lmodel, gval. cbn [set_pen lx_obj lx_grad lx_pen]. unfold lviol. cbn [set_pen lx_nc lx_clb lx_cub lx_cons]. ring. Qed.

(** With the line search, which is given the new penalty parameter: all products belong to the
    step, it lies in the trust region and is a multiple of the step of the linear program, and
    the quadratic model for the new parameter is not raised, unless the parameter was reset at an
    iterate that is not quite feasible.  *)
Theorem C80_step : forall E LS c (r : R) merit lp_step w d D d' full v LS',
  linear_map n H -> computes n H hess -> dir_room n X d -> caches_ok n nc (snd LS) ->
  0 < lx_radius X -> shrinks (lx_tau X) (lx_eps X) -> 0 <= lx_eta X <= 1 ->
  Any c -> ok r -> vok n lp_step -> 0 < lx_pen X -> 0 <= norms E -> merit = lx_obj X + lx_pen X * viol0 ->
  cauchy_simple O X jac hess E LS true c (r : @num RN) (merit : @num RN) lp_step w d = Ok (D, d', full, v, LS') ->
  let X' := set_pen X (cd_pen D) in
  let q := dense (d_primal d') in
  let s := dense (cd_step D) in
  s <> zerof ->
  dir_ok n X' J H d' /\ fst LS' = Some X' /\ caches_ok n nc (snd LS')
  /\ dotd n q q <= lx_radius X * lx_radius X
  /\ (exists t, 0 <= t <= 1 /\ q = scaled t s)
  /\ (viol0 = 0 \/ cd_reset D = false -> qmerit n X' J H q <= cd_merit D)
  /\ (q <> zerof -> v = Some (qmerit n X' J H q)).
Proof.
  intros E LS c r merit lp_step w d D d' full v LS' HL HC (R1 & R2 & R3) HS Hrad Hsh Het Hc Hr Hl Hp Hn Hm Ed X' q s Hs0.
  unfold cauchy_simple in Ed. apply rbind_ok in Ed as (D0 & E0 & Ed).
  apply rbind_ok in Ed as (p & E1 & Ed). apply rbind_ok in Ed as (d1 & E2 & Ed). cbn [negb] in Ed. apply rbind_ok in Ed as ([[[d2 f2] v2] L2] & E3 & Ed).
  injection Ed as <- <- <- <- <-. subst X' q s.
  destruct (C80_direction E c r merit lp_step w D0 Hc Hr Hl Hp Hn Hm E0) as (V & P & M & N0 & N1 & Hd).
  set (X' := set_pen X (cd_pen D0)) in *. set (s := dense (cd_step D0)) in *.
  assert (CX' : ctx_ok n X') by (apply set_pen_ctx; rnum; lra).
  destruct (copy_fun n _ _ V R1) as (p1 & E1' & Vp & _ & Dp). rewrite E1' in E1. injection E1 as <-.
  destruct (reset_ok n X' jac J H hess CX' HJ HC (set_primal d p1)) as (d3 & E2' & Hd3 & Ep).
  { split; [exact Vp|]. split; [exact R2|exact R3]. }
  rewrite E2' in E2. injection E2 as <-. cbn [set_primal d_primal] in Ep.
  assert (Es : dense (d_primal d3) = s) by (rewrite Ep; exact Dp).
  assert (HJ' : linear_map (lx_nc X') J) by (exact (jac_linear _ _ _ _ HJ)).
  assert (Hnz : 0 < dotd n s s).
  { destruct (Rle_lt_or_eq_dec _ _ (dotd_nonneg n s)) as [Hlt|Heq]; [exact Hlt|]. exfalso. apply Hs0.
    apply functional_extensionality. intros i. unfold zerof. destruct V as [Hw Hdm].
    destruct (Z_lt_le_dec i 0) as [Hi|Hi]; [apply dense_range; [exact Hw|lia]|].
    destruct (Z_lt_le_dec i n) as [Hj|Hj]; [|apply dense_range; [exact Hw|rewrite Hdm; lia]].
    assert (Hq : s i * s i = 0).
    { apply (sumd_nonneg_zero n (fun i => s i * s i)); [intros; apply Rle_0_sqr|symmetry; exact Heq|lia]. }
    apply Rmult_integral in Hq as [Hq|Hq]; exact Hq. }
  assert (Hnz' : 0 < dotd n (dense (d_primal d3)) (dense (d_primal d3))) by (rewrite Es; exact Hnz).
  destruct (C65_step n X' J H d3 (snd LS) CX' HS HJ' HL Hd3 Hrad Hnz' Hsh) as (d4 & f4 & v4 & L4 & E4 & CL & Hd4 & Hb & Hcase).
  rewrite E4 in E3. injection E3 as <- <- <- <-. rewrite Es in Hcase.
  split; [exact Hd4|]. split; [reflexivity|]. split; [exact CL|]. split; [exact Hb|].
  destruct (first_length_pos n (lx_radius X') s Hrad Hnz) as [F0 F1]. destruct Hsh as [[T0 T1] Hsh].
  assert (Ht : exists t, 0 <= t <= 1 /\ dense (d_primal d4) = scaled t s).
  { destruct Hcase as [(k & Hk & _)|(Hz & _)].
    - exists (first_length n (lx_radius X') s * lx_tau X' ^ k). split; [|exact Hk].
      assert (P0 : 0 < lx_tau X' ^ k) by (now apply pow_lt). assert (P1 : lx_tau X' ^ k <= 1) by (rewrite <- (pow1 k); apply pow_incr; change (lx_tau X') with (lx_tau X); lra).
      split; nra.
    - exists 0. split; [lra|]. rewrite <- zerof_scaled. exact Hz. }
  split; [exact Ht|]. split.
  - intros Hor. specialize (Hd Hor).
    refine (Rle_trans _ _ _ (proj1 (C65_descent n X' J H d3 (snd LS) _ _ _ _ CX' HS HJ' HL Hd3 Hrad Hnz' _ Het _ E4)) _).
    + change (lx_tau X') with (lx_tau X). lra.
    + rewrite Es. unfold qmerit. rewrite dot_zero_l, Rmult_0_r, Rplus_0_r. unfold X'. rewrite !set_pen_lm. fold s. lra.
    + unfold qmerit. rewrite dot_zero_l. unfold X'. rewrite set_pen_lm, M. unfold lmodel, gval. rewrite lv_zero, dotd_sym, dot_zero_l. lra.
  - intros Hq. destruct Hcase as [(k & _ & _ & Hv & _)|(Hzz & _)]; [now rewrite Hv|contradiction].
Qed.
End Props.
Print Assumptions C80_penalty.
Print Assumptions C80_direction.
Print Assumptions C80_step.

(** ** A solver for one variable and one constraint *)

(** Value [cv] of the constraint at the iterate, slope 1, upper bound 0: the slope of the model is
    the gradient before the kink at [- cv], and more by the penalty parameter behind it. *)
Record tst {N : Num} := mktst { t_r : num; t_g : option vec; t_p : num }.
Definition t_min {N : Num} (cv : num) (s : tst) : num :=
  let g := match t_g s with Some g => dense g 0 | None => n0 end in
  if (g + t_p s <? n0)%num then t_r s
  else if (n0 <? g)%num then nopp (t_r s)
  else nmax (nopp (t_r s)) (nmin (t_r s) (nopp cv)).
Definition tops {N : Num} (cv : num) : cops tst :=
  mkcops (fun s r => Ok (mktst N r (t_g s) (t_p s))) (fun s g p _ => Ok (mktst N (t_r s) g p))
    (fun s => Ok (s, nmax n0 (cv + t_min cv s)%num))
    (fun s _ => Ok (s, mkvec 1 1 [(0%Z, t_min cv s)])) (fun s w => Ok (s, w)).

(** The constraint is the variable itself. *)
Definition tjac {N : Num} : mat := mkmat 1 1 1 1 [0%Z; 1%Z] [(0%Z, n1)].
Definition tJ (p : Z -> R) (i : Z) : R := if (i =? 0)%Z then p 0%Z else 0.
Lemma tjac_is : jac_is 1 1 (@tjac RN) tJ.
Proof.
  exists [[(0%Z, @n1 RN)]]. split; [|split; [reflexivity|split; [reflexivity|]]].
  - destruct (@PropsMat.C11_build RN 1 1 [[(0%Z, @n1 RN)]]) as (m & E & Hm); [lia|cbn; lia|repeat constructor; cbn; lia|].
    assert (Em : m = tjac) by (cbn in E; now injection E as <-). now rewrite <- Em.
  - intros p i. unfold tJ, sumd. change (Z.to_nat 1) with 1%nat. cbn [rsum]. change (Z.of_nat 0) with 0%Z.
    destruct (i =? 0)%Z eqn:Ei.
    + apply Z.eqb_eq in Ei. subst i. change (mR [[(0%Z, @n1 RN)]] 0 0) with (@n1 RN). rewrite rn_n1. lra.
    + assert (Hz : mR [[(0%Z, @n1 RN)]] i 0 = 0).
      { unfold mR, mdense, mget. cbn [nth Z.to_nat get]. rewrite (Z.eqb_sym 0 i), Ei. apply rn_n0. }
      rewrite Hz. lra.
Qed.

Section Toy.
Variables (obj g cv pen radius eps eta tau cutoff : R).
Hypothesis Hcv : -5 <= cv <= 5.
Notation X := (rctx obj g cv pen radius eps eta tau cutoff).
Definition t_any (s : @tst RN) : Prop := True.
Definition t_at (r : R) (s : @tst RN) : Prop := t_r s = r /\ 0 <= r <= 1.
Definition t_sol (r : R) (q : option rvec) (p : R) (s : @tst RN) : Prop := t_at r s /\ t_g s = q /\ t_p s = p /\ 0 <= p.
Definition t_allowed (r : R) (v : Z -> R) : Prop := Rabs (v 0%Z) <= r.

Lemma t_viol v : t_allowed 1 v -> lviol X tJ v = Rmax 0 (cv + v 0%Z).
Proof.
  intros Hv. apply abs_between in Hv. unfold lviol, total_viol. cbn [rctx lx_nc lx_clb lx_cub lx_cons].
  unfold sumd. change (Z.to_nat 1) with 1%nat. cbn [rsum]. change (Z.of_nat 0) with 0%Z. rewrite !dense_rv. unfold tJ, rviol. cbn [Z.eqb].
  unfold Rmax. destruct (Rle_dec (cv + v 0%Z - 0) (-10 - (cv + v 0%Z))), (Rle_dec 0 (cv + v 0%Z)); destruct (Rle_dec 0 _); lra.
Qed.

Lemma t_min_ok r q p s : t_sol r q p s -> our X q -> minimal 1 X tJ t_allowed r q p (fun _ => @t_min RN cv s)
  /\ @nmax RN (@n0 RN) (cv + t_min cv s)%num = lviol X tJ (fun _ => @t_min RN cv s).
Proof.
  intros ((E1 & Hr) & E2 & E3 & Hp) Hq.
  assert (Hg : exists a, (forall v, gval 1 q v = a * v 0%Z) /\ (match q with Some g => dense g 0%Z | None => @n0 RN end) = a).
  { destruct Hq as [->| ->]; [exists 0|exists g].
    - split; [intros v; cbn [gval]; ring|apply rn_n0].
    - split; [intros v; cbn [gval rctx lx_grad]; rewrite dot1, dense_rv; reflexivity|reflexivity]. }
  destruct Hg as (a & Ha & Hd).
  assert (Hm : t_allowed r (fun _ => @t_min RN cv s) /\ forall x, Rabs x <= r -> a * @t_min RN cv s + p * Rmax 0 (cv + @t_min RN cv s) <= a * x + p * Rmax 0 (cv + x)).
  { unfold t_min, t_allowed. rewrite E1, E2, E3, Hd, rn_n0.
    change (@nadd RN a p) with (a + p). change (@nopp RN r) with (- r). change (@nopp RN cv) with (- cv).
    destruct (@nltb RN (a + p) 0) eqn:L1; [apply rn_ltb in L1|apply rn_ltb_false in L1].
    - split; [apply Rabs_le; lra|]. intros x Hx. apply abs_between in Hx. unfold Rmax. destruct (Rle_dec 0 (cv + r)), (Rle_dec 0 (cv + x)); nra.
    - destruct (@nltb RN 0 a) eqn:L2; [apply rn_ltb in L2|apply rn_ltb_false in L2].
      + split; [apply Rabs_le; lra|]. intros x Hx. apply abs_between in Hx. unfold Rmax. destruct (Rle_dec 0 (cv + - r)), (Rle_dec 0 (cv + x)); nra.
      + rewrite rn_min, rn_max. assert (Hy : exists y, Rmax (- r) (Rmin r (- cv)) = y /\ (y = - r /\ - cv <= - r \/ y = r /\ r <= - cv \/ y = - cv /\ - r <= - cv <= r)).
        { eexists. split; [reflexivity|]. unfold Rmax, Rmin. destruct (Rle_dec r (- cv)); destruct (Rle_dec (- r) _); lra. }
        destruct Hy as (y & -> & Hy). split; [apply Rabs_le; lra|]. intros x Hx. apply abs_between in Hx.
        destruct Hy as [[-> Hy]|[[-> Hy]|[-> Hy]]]; unfold Rmax; destruct (Rle_dec 0 _), (Rle_dec 0 (cv + x)); nra. }
  destruct Hm as [Hal Hm].
  assert (Hw : forall v, t_allowed r v -> t_allowed 1 v) by (unfold t_allowed; intros; lra).
  split.
  - split; [exact Hal|]. intros v Hv. unfold lmodel. rewrite !Ha, !t_viol by auto. apply Hm. exact Hv.
  - rewrite t_viol by auto. rewrite rn_max, rn_n0. reflexivity.
Qed.

Example C80_toy : cspec 1 X tJ (@tst RN) (tops (cv : @num RN)) t_any t_at t_sol (fun r => 0 <= r <= 1) t_allowed.
Proof.
  constructor.
  - intros c r c' _ Hr E. injection E as <-. split; [reflexivity|exact Hr].
  - intros c r q p t c' [E1 Hr] Hq Hp E. injection E as <-. split; [split; [exact E1|exact Hr]|]. auto.
  - intros c r q p [H _]. exact H.
  - intros c r q p c' v Hs Hq E. injection E as <- <-. split; [exact Hs|]. intros _. destruct (t_min_ok r q p c Hs Hq) as [M V].
    eexists. split; [exact M|exact V].
  - intros c r q p t c' v Hs Hq _ E. injection E as E1 E2. assert (Ev : v = rv (@t_min RN cv c)) by (symmetry; exact E2).
    clear E2. subst c' v. split; [exact Hs|]. split; [apply vok_rv|].
    destruct (t_min_ok r q p c Hs Hq) as [[M1 M2] _].
    split; [exact M1|]. intros v' Hv'. specialize (M2 v' Hv').
    replace (lmodel 1 X tJ q p (dense (rv (@t_min RN cv c)))) with (lmodel 1 X tJ q p (fun _ => @t_min RN cv c)); [exact M2|].
    reflexivity.
  - intros c r q p w c' w' Hs _ E. injection E as <- <-. exact Hs.
  - intros r Hr. unfold t_allowed, zerof. rewrite Rabs_R0. lra.
Qed.
End Toy.

(** ** Floating point runs *)

(** Default settings, slope 1, upper bound 0, lower bound -9, radius 1 of the linear program and
    of the step *)
Definition tx (cv : f64) (g pen : Z) : @lctx F64 :=
  let X := fctx 1 1 [(0, -9)]%Z [] [(0, g)]%Z [] pen 1 tenth in
  mklctx (lx_nc X) (lx_clb X) (lx_cub X) (lx_vlb X) (lx_vub X) (lx_x X) (lx_obj X) (lx_grad X) (mkvec 1 1 [(0%Z, cv)]) (lx_pen X) (lx_radius X)
    (lx_eps X) (lx_zero X) (lx_eta X) (lx_tau X) (lx_cutoff X).
(** The residuum of the iterate is the violation of the constraint; no multipliers, resets allowed. *)
Definition trun (cv : f64) (g pen : Z) (h : f64) : res (@cdir F64 (@tst F64) * @dirn F64 * bool * option f64 * @lsearch F64) :=
  let X := tx cv g pen in
  let E := mkpctx (cv : @num F64) (@nlit F64 1 1000000) true (ve 1 []) (ve 1 []) in
  d <- dir_create 1 1 ;;
  m <- merit_func (lx_nc X) (lx_obj X) (lx_cons X) (lx_clb X) (lx_cub X) (lx_pen X) ;;
  cauchy_simple (tops cv) X (@tjac F64) (ex_hess h) E (None, fcaches 1 1) true (mktst F64 (fz 7) None (fz 7)) (fz 1) m (ve 1 [])
    (ws_create 1 1) d.
Lemma got_run (r : res (@cdir F64 (@tst F64) * @dirn F64 * bool * option f64 * @lsearch F64)) (P : @cdir F64 (@tst F64) -> @dirn F64 -> bool -> option f64 -> Prop) :
  match r with Ok (D, d, b, v, _) => P D d b v | _ => False end -> exists D d b v l, r = Ok (D, d, b, v, l) /\ P D d b v.
Proof. destruct r as [[[[[D d] b] v] l]| |]; [|tauto|tauto]. intros H. eauto 10. Qed.
Definition same64 (x y : f64) : Prop := B2SF x = B2SF y.
Definition above (x y : f64) : Prop := @nltb F64 y x = true.
Definition e7 : f64 := @nlit F64 1 10000000.

(** The claims of [C80_direction] and [C80_step] without the hypothesis about resets: the
    constraint is violated by 1e-7, which counts as feasible, the reset lowers the penalty parameter
    from 1e6 to 10, but the step is the one of the linear program for 1e6.  The step raises the
    model, and the search along it returns the zero step or a step that raises the model. *)
Theorem C80_reset_refuted :
  (exists D d full v l, trun e7 (-100) 1000000 (fz 0) = Ok (D, d, full, v, l)
    /\ cd_reset D = true /\ same64 (cd_pen D) (fz 10) /\ same64 (dense (cd_step D) 0) (nopp e7)
    /\ above (lx_obj (tx e7 (-100) 10) + fz (-100) * dense (cd_step D) 0)%num (cd_merit D)
    /\ match vent (d_primal d) with [] => True | _ => False end /\ full = false)
  /\ (exists D d full v l, trun e7 (-100) 1000000 (fz (-1700000000)) = Ok (D, d, full, v, l)
    /\ cd_reset D = true /\ same64 (cd_pen D) (fz 10) /\ same64 (dense (d_primal d) 0) (nopp e7) /\ full = true
    /\ match v with Some v => above v (cd_merit D) | None => False end).
Proof.
  split.
  - refine (got_run _ (fun D d full v => _) _). vm_compute. repeat split.
  - refine (got_run _ (fun D d full v => _) _). vm_compute. repeat split.
Qed.
Print Assumptions C80_reset_refuted.

(** [C80_penalty] leaves open which program the solver holds when the penalty parameter stays:
    here it is the one without objective, although the parameter and the step are the ones of the
    program with objective. *)
Theorem C80_left_refuted : exists D d full v l, trun (fz 2) (-1) 10 (fz 0) = Ok (D, d, full, v, l)
  /\ cd_reset D = false /\ same64 (cd_pen D) (fz 10) /\ same64 (dense (d_primal d) 0) (fz (-1)) 
  /\ match t_g (cd_c D) with None => True | Some _ => False end.
Proof. refine (got_run _ (fun D d full v => _) _). vm_compute. repeat split. Qed.
Print Assumptions C80_left_refuted.

(** The parameter 10 is raised twice until the step leads to the constraint; a rejected full step. *)
Example C80_raised : exists D d full v l, trun (fz 1) (-500) 10 (fz 0) = Ok (D, d, full, v, l)
  /\ cd_reset D = false /\ same64 (cd_pen D) (fz 1000) /\ same64 (dense (d_primal d) 0) (fz (-1)) /\ match t_g (cd_c D) with None => False | Some _ => True end
  /\ same64 (cd_merit D) (fz 1000) /\ match v with Some v => same64 v (fz 500) | None => False end.
Proof. refine (got_run _ (fun D d full v => _) _). vm_compute. repeat split. Qed.
Example C80_short : exists D d full v l, trun (fz 2) (-1) 10 (fz 100) = Ok (D, d, full, v, l)
  /\ same64 (dense (cd_step D) 0) (fz (-1)) /\ same64 (dense (d_primal d) 0) (nopp (@nlit F64 1 8)) /\ full = false.
Proof. refine (got_run _ (fun D d full v => _) _). vm_compute. repeat split. Qed.


(** All hypotheses of [C80_step] but the run hold for this solver; the program is the one of the
    run [C80_short]. *)
Example C80_example : forall D d d' full v LS',
  let X := rctx 0 (-1) 2 10 1 (/ 1000) (/ 10) (/ 2) (/ 1000) in
  let E := mkpctx (2 : @num RN) (0 : @num RN) false (rv 0) (rv 0) in
  dir_room 1 X d ->
  cauchy_simple (tops (2 : @num RN)) X tjac (ex_hess (100 : @num RN)) E (None, rcaches) true (mktst RN (7 : @num RN) None (7 : @num RN))
    (1 : @num RN) (20 : @num RN) (rv 0) (ws_create 1 1) d = Ok (D, d', full, v, LS') ->
  dense (cd_step D) <> zerof ->
  dense (d_primal d') 0 * dense (d_primal d') 0 <= 1 /\ qmerit 1 (set_pen X (cd_pen D)) tJ (fun x i => 100 * x i) (dense (d_primal d')) <= cd_merit D.
Proof.
  intros D d d' full v LS' X E Hd Er Hs.
  assert (CX : ctx_ok 1 X) by (apply rctx_ok; lra).
  pose proof (C80_step 1 X tjac tJ (fun x i => 100 * x i) (ex_hess (100 : @num RN)) CX tjac_is (@tst RN) (tops (2 : @num RN)) t_any t_at t_sol
    (fun r => 0 <= r <= 1) t_allowed (C80_toy 0 (-1) 2 10 1 (/ 1000) (/ 10) (/ 2) (/ 1000) ltac:(lra))) as K.
  specialize (K E (None, rcaches) (mktst RN (7 : @num RN) None (7 : @num RN)) 1 20 (rv 0) (ws_create 1 1) d D d' full v LS').
  assert (H1 : 0 <= norms E).
  { unfold norms. apply Rle_trans with (2 := Rmax_l _ _). unfold vec_inf_norm. cbn. rewrite rn_max. apply Rle_trans with (2 := Rmax_r _ _). unfold rn_lit. lra. }
  assert (H2 : 20 = lx_obj X + lx_pen X * total_viol (lx_nc X) (lx_clb X) (lx_cub X) (dense (lx_cons X))).
  { subst X. cbn [rctx lx_nc lx_obj lx_pen lx_clb lx_cub lx_cons]. unfold total_viol, sumd. change (Z.to_nat 1) with 1%nat. cbn [rsum].
    change (Z.of_nat 0) with 0%Z. rewrite !dense_rv. unfold rviol, Rmax. repeat destruct (Rle_dec _ _); lra. }
  assert (H3 : cd_reset D = false).
  { pose proof Er as Er'. unfold cauchy_simple in Er'. apply rbind_ok in Er' as (D0 & E0 & Er'). apply rbind_ok in Er' as (p0 & _ & Er').
    apply rbind_ok in Er' as (d0 & _ & Er'). cbn [negb] in Er'. apply rbind_ok in Er' as ([[[d2 f2] v2] L2] & _ & Er').
    assert (D0 = D) by congruence. subst D0. destruct (cd_reset D) eqn:Eb; [|reflexivity]. exfalso.
    pose proof (C80_direction 1 X tjac tJ CX tjac_is (@tst RN) (tops (2 : @num RN)) t_any t_at t_sol
      (fun r => 0 <= r <= 1) t_allowed (C80_toy 0 (-1) 2 10 1 (/ 1000) (/ 10) (/ 2) (/ 1000) ltac:(lra)) E _ 1 20 (rv 0) (ws_create 1 1) D I ltac:(lra)
      (vok_rv 0) ltac:(cbn; lra) H1 H2 E0) as (_ & _ & _ & _ & K2 & _). destruct (K2 Eb) as (_ & _ & Ha & _). discriminate Ha. }
  destruct K as (_ & _ & _ & K1 & _ & K2 & _).
  - intros a x b y i Hi. unfold lc. ring.
  - apply ex_hess_ok.
  - exact Hd.
  - apply rcaches_ok.
  - cbn. lra.
  - apply shrinks_half. cbn. lra.
  - cbn. lra.
  - exact I.
  - lra.
  - apply vok_rv.
  - cbn. lra.
  - exact H1.
  - exact H2.
  - exact Er.
  - exact Hs.
  - split; [rewrite dot1 in K1; cbn in K1; lra|]. apply K2. right. exact H3.
Qed.
