(** The search for the radius of the linear program in exact arithmetic. *)
From Coq Require Import Reals Lra FunctionalExtensionality.
From Verif Require Import Base Num Cmp Sparse Vec VecFacts Order VecFacts2 RSum VecReal Mat MatFacts MatFacts2 MatFacts4 Arr
  WorkingSet Feas FeasFacts MeritFacts OrdArith PreprocReal QnReal SteihaugFacts LineSearch LineSearchFacts WorkingStep WorkingStepReal Parametric.
Local Open Scope R_scope.

Section Real.
Variables (n : Z) (X : @lctx RN) (jac : @mat RN) (J H : (Z -> R) -> Z -> R) (hess : rvec -> rvec -> res rvec) (mcache : rvec).
Notation nc := (lx_nc X).
Notation lm := (lmerit n X J).
Notation qm := (qmerit n X J H).
Hypothesis CX : ctx_ok n X.
Hypothesis HJ : jac_is n nc jac J.
Hypothesis HL : linear_map n H.
Hypothesis HC : computes n H hess.
Hypothesis Hmc : (0 <= vcap mcache)%Z.

(** A direction whose first order products belong to the step [y]; its product with the Hessian
    is up to date. *)
Record stale (y : Z -> R) (d : @dirn RN) : Prop := {
  sa_p : vok n (d_primal d); sa_c : vok nc (d_cons d); sa_h : vok n (d_hess d);
  sa_obj : d_obj d = dotd n (dense (lx_grad X)) y;
  sa_cons : forall i, (0 <= i < nc)%Z -> (dense (d_cons d) i : R) = J y i;
  sa_hess : forall i, (0 <= i < n)%Z -> (dense (d_hess d) i : R) = H (dense (d_primal d)) i }.
Definition stale_value (y p : Z -> R) : R := lm y + / 2 * dotd n p (H p).

Lemma stale_fresh d : dir_ok n X J H d <-> stale (dense (d_primal d)) d.
Proof. split; intros [? ? ? ? ? ?]; constructor; auto. Qed.

Lemma reset_ok d : dir_room n X d ->
  exists d', dir_reset X jac hess d = Ok d' /\ dir_ok n X J H d' /\ d_primal d' = d_primal d.
Proof.
  intros (Vp & Vc & Vh). unfold dir_reset.
  assert (E : exists c, (if (0 <? nc)%Z then fill_direction X jac d
        else o <- vec_dot (d_primal d) (lx_grad X) ;;
             Ok (mkdirn (d_primal d) o (vec_clear (d_cons d)) (d_hess d)))
      = Ok (mkdirn (d_primal d) (dotd n (dense (lx_grad X)) (dense (d_primal d))) c (d_hess d))
      /\ vok nc c /\ forall i, (0 <= i < nc)%Z -> (dense c i : R) = J (dense (d_primal d)) i).
  { destruct (Z.ltb_spec 0 nc) as [Hc|Hc].
    - apply (fill_direction_real n X jac J d CX HJ Vp (proj1 Vc)).
    - rewrite (dot_fun n _ _ Vp (cx_grad _ _ CX)). cbn [rbind]. rewrite dotd_sym. eexists. split; [reflexivity|]. split.
      + split; [apply wf_clear, Vc|apply Vc].
      + intros i Hi. lia. }
  destruct E as (c & E & Vc' & Hc). rewrite E. cbn [rbind d_primal d_obj d_cons d_hess].
  destruct (HC (d_primal d) (d_hess d) Vp Vh) as (h & Eh & Vh' & Dh). rewrite Eh. cbn [rbind].
  eexists. split; [reflexivity|]. split; [|reflexivity]. constructor; cbn [d_primal d_obj d_cons d_hess]; auto.
Qed.

Lemma dir_copy_ok y (a r : @dirn RN) : stale y a -> dir_room n X r ->
  exists t, dir_copy a r = Ok t /\ stale y t /\ dense (d_primal t) = dense (d_primal a).
Proof.
  intros [Vp Vc Vh Eo Ec Eh] (Rp & Rc & Rh). unfold dir_copy.
  destruct (copy_fun _ _ _ Vp Rp) as (p & E1 & P1 & _ & D1). rewrite E1. cbn [rbind].
  destruct (copy_fun _ _ _ Vc Rc) as (c & E2 & P2 & _ & D2). rewrite E2. cbn [rbind].
  destruct (copy_fun _ _ _ Vh Rh) as (h & E3 & P3 & _ & D3). rewrite E3. cbn [rbind].
  eexists. split; [reflexivity|]. split; [|exact D1].
  constructor; cbn [d_primal d_obj d_cons d_hess]; auto; rewrite ?D1, ?D2, ?D3; auto.
Qed.

Lemma stale_room y d : stale y d -> dir_room n X d.
Proof. intros [V1 V2 V3 _ _ _]. split; [exact V1|split; [exact V2|exact V3]]. Qed.

(** The data of the search *)
Record par_ok (Q : @par RN) : Prop := {
  pk_comb : (0 <= vcap (pr_comb Q))%Z;
  pk_last : dir_room n X (pr_last Q);
  pk_pen : pr_pen Q = lx_pen X }.
Definition same_rule (Q Q' : @par RN) : Prop := pr_inc Q' = pr_inc Q /\ pr_dec Q' = pr_dec Q /\ pr_max Q' = pr_max Q.

(** The test *)
Definition enough (p : Z -> R) : Prop := lx_eta X * (qm zerof - lm p) <= qm zerof - qm p.

Lemma zero_value : qm zerof = lx_obj X + lx_pen X * total_viol nc (lx_clb X) (lx_cub X) (dense (lx_cons X)).
Proof.
  unfold qmerit, lmerit, lviol. rewrite dot_zero_l, dotd_sym, dot_zero_l.
  rewrite (total_viol_ext nc _ _ _ (dense (lx_cons X))).
  - ring.
  - intros i Hi. rewrite (zerof_scaled zerof), (linear_scaled nc J 0 zerof i (jac_linear _ _ _ _ HJ) Hi). ring.
Qed.

Lemma decrease_ok Q d : par_ok Q -> pr_viol Q = total_viol nc (lx_clb X) (lx_cub X) (dense (lx_cons X)) -> dir_ok n X J H d ->
  exists Q' b, has_decrease X Q d = Ok (Q', qm (dense (d_primal d)), b) /\ par_ok Q' /\ pr_viol Q' = pr_viol Q /\ same_rule Q Q'
    /\ (b = true <-> enough (dense (d_primal d))).
Proof.
  intros HQ HV Hd. unfold has_decrease, vec_add. rewrite (cx_zero _ _ CX), rn_n1.
  destruct (dense_lc nc (lx_cons X) (d_cons d) (pr_comb Q) 1 1 (cx_cons _ _ CX) (do_c _ _ _ _ _ Hd) (pk_comb _ HQ)) as (comb & E & V & D).
  rewrite E. cbn [rbind]. rewrite (viol_real n X CX comb V). cbn [rbind].
  rewrite (dot_fun n _ _ (do_p _ _ _ _ _ Hd) (do_h _ _ _ _ _ Hd)). cbn [rbind].
  set (p := dense (d_primal d)).
  assert (Ev : total_viol nc (lx_clb X) (lx_cub X) (dense comb) = lviol X J p).
  { apply total_viol_ext. intros i Hi. rewrite D. unfold lc. rewrite (do_cons _ _ _ _ _ Hd) by auto. fold p. ring. }
  assert (Eh : dotd n p (dense (d_hess d)) = dotd n p (H p)) by (apply dotd_eq, (do_hess _ _ _ _ _ Hd)).
  rewrite Ev, Eh, half_rn. rewrite (pk_pen _ HQ), (do_obj _ _ _ _ _ Hd), HV. fold p.
  eexists _, _. split; [reflexivity|].
  split; [constructor; cbn; [now apply vok_cap with nc|apply HQ|apply HQ]|]. split; [exact HV|]. split; [repeat split|].
  rewrite rn_leb. unfold enough. rewrite zero_value. unfold qmerit, lmerit. cbn [nadd nsub nmul RN]. split; intros; nra.
Qed.

(** ** The linear programs *)
Variable C : Type.
Variable O : @lpops RN C.
(** The solver of the linear programs: [At r] after the radius was set to [r], [Sol r] after a
    solve with it; [allowed r] are the steps it chooses from. *)
Variables (Ready : C -> Prop) (At Sol : R -> C -> Prop) (ok : R -> Prop) (allowed : R -> (Z -> R) -> Prop).
Definition best (r : R) (v : Z -> R) : Prop := allowed r v /\ forall v', allowed r v' -> lm v <= lm v'.
Record lp_spec : Prop := {
  ls_radius : forall c r c', Ready c -> ok r -> po_radius O c (r : @num RN) = Ok c' -> At r c';
  ls_solve : forall c r c', At r c -> po_solve O c (lx_grad X) (lx_pen X) = Ok c' -> Sol r c';
  ls_step : forall c r t c' v, Sol r c -> vok n t -> po_step O c t = Ok (c', v) -> Sol r c' /\ vok n v /\ best r (dense v);
  ls_ready : forall c r, Sol r c -> Ready c;
  ls_mono : forall r r' v, 0 <= r <= r' -> allowed r v -> allowed r' v;
  ls_zero : forall r, ok r -> allowed r zerof }.
(** None of the calls fails. *)
Record lp_total : Prop := {
  lt_radius : forall c r, Ready c -> ok r -> exists c', po_radius O c (r : @num RN) = Ok c';
  lt_solve : forall c r, At r c -> exists c', po_solve O c (lx_grad X) (lx_pen X) = Ok c';
  lt_step : forall c r t, Sol r c -> vok n t -> exists c' v, po_step O c t = Ok (c', v) }.
Hypothesis LP : lp_spec.

Lemma resolve_ok Q c (r : R) t c' v : pr_pen Q = lx_pen X -> Ready c -> ok r -> vok n t ->
  resolve O X Q c (r : @num RN) t = Ok (c', v) -> Sol r c' /\ vok n v /\ best r (dense v).
Proof.
  intros Hp Hc Hr Ht E. unfold resolve in E. rewrite Hp in E.
  apply rbind_ok in E as (c1 & E1 & E). apply rbind_ok in E as (c2 & E2 & E).
  eapply ls_step; [exact LP| |exact Ht|exact E]. eapply ls_solve; [exact LP| |exact E2]. eapply ls_radius; [exact LP|exact Hc|exact Hr|exact E1].
Qed.

Lemma resolve_total Q c (r : R) t : lp_total -> pr_pen Q = lx_pen X -> Ready c -> ok r -> vok n t ->
  exists c' v, resolve O X Q c (r : @num RN) t = Ok (c', v).
Proof.
  intros LT Hp Hc Hr Ht. unfold resolve. rewrite Hp. destruct (lt_radius LT c r Hc Hr) as (c1 & E1). rewrite E1. cbn [rbind].
  pose proof (ls_radius LP _ _ _ Hc Hr E1) as H1. destruct (lt_solve LT _ _ H1) as (c2 & E2). rewrite E2. cbn [rbind].
  exact (lt_step LT _ _ _ (ls_solve LP _ _ _ H1 E2) Ht).
Qed.

(** ** Searching forward *)
Section Forward.
Variables (d0 : Z -> R) (r0 : R).
Variable inc : R.
Hypothesis Hinc : 0 < inc.
Hypothesis Heps : 0 <= lx_eps X.

(** Before a turn of the loop, [j] radii having been accepted *)
Record fwd (j : nat) (last : R) (s : pst C) : Prop := {
  fw_c : Ready (ps_c s);
  fw_sol : (0 < j)%nat -> Sol (r0 * inc ^ j) (ps_c s);
  fw_dir : stale d0 (ps_dir s);
  fw_best : best (r0 * inc ^ j) (dense (d_primal (ps_dir s)));
  fw_first : j = 0%nat -> dense (d_primal (ps_dir s)) = d0;
  fw_r : ps_radius s = r0 * inc ^ (S j);
  fw_m : ps_merit s = last;
  fw_v : last = stale_value d0 (dense (d_primal (ps_dir s)));
  fw_par : par_ok (ps_par s);
  fw_last : stale d0 (pr_last (ps_par s));
  fw_same : dense (d_primal (pr_last (ps_par s))) = dense (d_primal (ps_dir s));
  fw_inc : pr_inc (ps_par s) = inc }.

(** The outcome, [k] radii having been accepted *)
Record fwd_end (k top : nat) (s : pst C) : Prop := {
  fe_dir : stale d0 (ps_dir s);
  fe_best : best (r0 * inc ^ k) (dense (d_primal (ps_dir s)));
  fe_first : k = 0%nat -> dense (d_primal (ps_dir s)) = d0;
  fe_m : ps_merit s = stale_value d0 (dense (d_primal (ps_dir s)));
  fe_le : (0 < k)%nat -> ps_merit s < stale_value d0 d0;
  fe_cases : (k < top)%nat /\ ps_radius s = r0 * inc ^ k /\ Sol (r0 * inc ^ k) (ps_c s)
       /\ (exists v, best (r0 * inc ^ (S k)) v /\ @is_lt RN (stale_value d0 v) (ps_merit s) (lx_eps X) = false)
     \/ k = top /\ ps_radius s = r0 * inc ^ (S k) /\ ((0 < k)%nat -> Sol (r0 * inc ^ k) (ps_c s)) }.

Lemma stale_linear d : stale d0 d -> exists v, merit_linear nc (lx_obj X) (d_obj d) (lx_cons X) (d_cons d) (lx_clb X) (lx_cub X) (0 : @num RN) (lx_pen X) mcache = Ok v /\ v = lm d0.
Proof.
  intros Hd. unfold merit_linear, vec_add. rewrite rn_n1.
  destruct (dense_lc nc (d_cons d) (lx_cons X) mcache 1 1 (sa_c _ _ Hd) (cx_cons _ _ CX) Hmc) as (comb & E & V & D).
  rewrite E. cbn [rbind]. rewrite (viol_real n X CX comb V). cbn [rbind].
  assert (Ev : total_viol nc (lx_clb X) (lx_cub X) (dense comb) = lviol X J d0).
  { apply total_viol_ext. intros i Hi. rewrite D. unfold lc. rewrite (sa_cons _ _ Hd) by auto. ring. }
  rewrite Ev, (sa_obj _ _ Hd). eexists. split; [reflexivity|]. unfold lmerit. reflexivity.
Qed.

Lemma forward_loop_ok fuel : forall j last s s', fwd j last s -> (forall k, (k <= j + fuel)%nat -> ok (r0 * inc ^ k)) ->
  last <= stale_value d0 d0 -> ((0 < j)%nat -> last < stale_value d0 d0) ->
  forward_loop fuel O X hess mcache (last : @num RN) s = Ok s' ->
  exists k, (j <= k)%nat /\ fwd_end k (j + fuel) s'.
Proof.
  induction fuel as [|fuel IH]; intros j last s s' F Hr Hle Hlt E.
  { cbn [forward_loop] in E. injection E as <-. exists j. split; [lia|]. constructor.
    - apply F.
    - apply F.
    - apply F.
    - rewrite (fw_m _ _ _ F). apply F.
    - rewrite (fw_m _ _ _ F). exact Hlt.
    - right. split; [lia|]. split; [apply F|apply F]. }
  cbn [forward_loop] in E. apply rbind_ok in E as ([c p] & E1 & E).
  pose proof (fw_dir _ _ _ F) as Hd. pose proof (fw_par _ _ _ F) as HQ.
  rewrite (fw_r _ _ _ F) in E1.
  destruct (resolve_ok _ _ _ _ _ _ (pk_pen _ HQ) (fw_c _ _ _ F) (Hr (S j) ltac:(lia)) (sa_p _ _ Hd) E1) as (Sc & Vp & Bp).
  set (d := set_primal (ps_dir s) p) in E.
  assert (Elin : exists v, merit_linear nc (lx_obj X) (d_obj d) (lx_cons X) (d_cons d) (lx_clb X) (lx_cub X) (lx_zero X) (pr_pen (ps_par s)) mcache = Ok v /\ v = lm d0).
  { rewrite (cx_zero _ _ CX), (pk_pen _ HQ). exact (stale_linear _ Hd). }
  destruct Elin as (v & Ev & ->). rewrite Ev in E. cbn [rbind] in E.
  destruct (HC p (d_hess (ps_dir s)) Vp (sa_h _ _ Hd)) as (h & Eh & Vh & Dh).
  change (d_primal d) with p in E. change (d_hess d) with (d_hess (ps_dir s)) in E. rewrite Eh in E. cbn [rbind] in E.
  change (d_primal (set_hess d h)) with p in E. change (d_hess (set_hess d h)) with h in E. rewrite (dot_fun n _ _ Vp Vh) in E. cbn [rbind] in E.
  rewrite (dotd_eq n _ _ (H (dense p)) Dh), half_rn in E.
  change (@nadd RN (lm d0) (@nmul RN (/ 2) (dotd n (dense p) (H (dense p))))) with (stale_value d0 (dense p)) in E.
  set (d1 := mkdirn p (d_obj (ps_dir s)) (d_cons (ps_dir s)) h). change (set_hess d h) with d1 in E.
  assert (Hd1 : stale d0 d1).
  { destruct Hd. constructor; cbn [d1 d_primal d_obj d_cons d_hess]; auto. }
  destruct (@is_lt RN _ _ _) eqn:El.
  - apply rbind_ok in E as (ld & El1 & E).
    destruct (dir_copy_ok d0 d1 _ Hd1 (pk_last _ HQ)) as (ld' & El2 & Sld & Dld). rewrite El2 in El1. injection El1 as <-.
    pose proof (rn_is_lt _ _ _ Heps El) as Hl.
    assert (Hx : exists k, (S j <= k)%nat /\ fwd_end k (S j + fuel) s').
    { refine (IH (S j) (stale_value d0 (dense p)) _ s' _ _ _ _ E).
    + constructor; cbn [ps_c ps_dir ps_radius ps_merit ps_par d1 d_primal par_set_last pr_last pr_inc].
      * eapply ls_ready; [exact LP|exact Sc].
      * intros _. exact Sc.
      * exact Hd1.
      * exact Bp.
      * discriminate.
      * rewrite (fw_r _ _ _ F), (fw_inc _ _ _ F). req. cbn [nmul RN pow]. ring.
      * reflexivity.
      * reflexivity.
      * constructor; cbn; [apply HQ|exact (stale_room _ _ Sld)|apply HQ].
      * exact Sld.
      * exact Dld.
      * apply F.
    + intros k Hk. apply Hr. lia.
    + lra.
    + intros _. lra. }
    destruct Hx as (k & Hk & He). exists k. split; [lia|]. replace (j + S fuel)%nat with (S j + fuel)%nat by lia. exact He.
  - set (rr := @ndiv RN (ps_radius s) (pr_inc (ps_par s))) in E.
    assert (Err : rr = r0 * inc ^ j).
    { unfold rr. rewrite (fw_r _ _ _ F), (fw_inc _ _ _ F). req. cbn [ndiv RN pow]. field. lra. }
    rewrite Err in E. rewrite (pk_pen _ HQ) in E.
    apply rbind_ok in E as (c1 & E2 & E). apply rbind_ok in E as (c2 & E3 & E). apply rbind_ok in E as (d2 & E4 & E).
    destruct (dir_copy_ok d0 _ d1 (fw_last _ _ _ F) (stale_room _ _ Hd1)) as (d2' & E4' & S2 & D2).
    rewrite E4' in E4. injection E4 as <-. injection E as <-. exists j. split; [lia|].
    assert (Dp : dense (d_primal d2') = dense (d_primal (ps_dir s))) by (rewrite D2; apply F).
    constructor; cbn [ps_c ps_dir ps_radius ps_merit ps_par]; rewrite ?Dp.
    + exact S2.
    + apply F.
    + apply F.
    + apply F.
    + exact Hlt.
    + left. split; [lia|]. split; [reflexivity|]. split.
      * eapply ls_solve; [exact LP| |exact E3]. eapply ls_radius; [exact LP| |apply Hr; lia|exact E2].
        eapply ls_ready; [exact LP|exact Sc].
      * exists (dense p). split; [exact Bp|exact El].
Qed.

Lemma forward_total fuel : lp_total -> forall j last s, fwd j last s -> (forall k, (k <= j + fuel)%nat -> ok (r0 * inc ^ k)) ->
  exists s', forward_loop fuel O X hess mcache (last : @num RN) s = Ok s'.
Proof.
  intros LT. induction fuel as [|fuel IH]; intros j last s F Hr; [eexists; reflexivity|].
  pose proof (fw_dir _ _ _ F) as Hd. pose proof (fw_par _ _ _ F) as HQ.
  cbn [forward_loop]. rewrite (fw_r _ _ _ F).
  destruct (resolve_total _ _ _ _ LT (pk_pen _ HQ) (fw_c _ _ _ F) (Hr (S j) ltac:(lia)) (sa_p _ _ Hd)) as (c & p & E1). rewrite E1. cbn [rbind].
  destruct (resolve_ok _ _ _ _ _ _ (pk_pen _ HQ) (fw_c _ _ _ F) (Hr (S j) ltac:(lia)) (sa_p _ _ Hd) E1) as (Sc & Vp & Bp).
  set (d := set_primal (ps_dir s) p).
  assert (Elin : exists v, merit_linear nc (lx_obj X) (d_obj d) (lx_cons X) (d_cons d) (lx_clb X) (lx_cub X) (lx_zero X) (pr_pen (ps_par s)) mcache = Ok v /\ v = lm d0).
  { rewrite (cx_zero _ _ CX), (pk_pen _ HQ). exact (stale_linear _ Hd). }
  destruct Elin as (v & Ev & ->). rewrite Ev. cbn [rbind].
  destruct (HC p (d_hess (ps_dir s)) Vp (sa_h _ _ Hd)) as (h & Eh & Vh & Dh).
  change (d_primal d) with p. change (d_hess d) with (d_hess (ps_dir s)). rewrite Eh. cbn [rbind].
  change (d_primal (set_hess d h)) with p. change (d_hess (set_hess d h)) with h. rewrite (dot_fun n _ _ Vp Vh). cbn [rbind].
  rewrite (dotd_eq n _ _ (H (dense p)) Dh), half_rn.
  change (@nadd RN (lm d0) (@nmul RN (/ 2) (dotd n (dense p) (H (dense p))))) with (stale_value d0 (dense p)).
  set (d1 := mkdirn p (d_obj (ps_dir s)) (d_cons (ps_dir s)) h). change (set_hess d h) with d1.
  assert (Hd1 : stale d0 d1).
  { destruct Hd. constructor; cbn [d1 d_primal d_obj d_cons d_hess]; auto. }
  destruct (@is_lt RN _ _ _) eqn:El.
  - destruct (dir_copy_ok d0 d1 _ Hd1 (pk_last _ HQ)) as (ld' & El2 & Sld & Dld). rewrite El2. cbn [rbind].
    apply (IH (S j)); [|intros k Hk; apply Hr; lia].
    constructor; cbn [ps_c ps_dir ps_radius ps_merit ps_par d1 d_primal par_set_last pr_last pr_inc].
    + eapply ls_ready; [exact LP|exact Sc].
    + intros _. exact Sc.
    + exact Hd1.
    + exact Bp.
    + discriminate.
    + rewrite (fw_inc _ _ _ F). req. cbn [nmul RN pow]. ring.
    + reflexivity.
    + reflexivity.
    + constructor; cbn; [apply HQ|exact (stale_room _ _ Sld)|apply HQ].
    + exact Sld.
    + exact Dld.
    + apply F.
  - assert (Err : @ndiv RN (r0 * inc ^ (S j)) (pr_inc (ps_par s)) = r0 * inc ^ j).
    { rewrite (fw_inc _ _ _ F). req. cbn [ndiv RN pow]. field. lra. }
    rewrite Err, (pk_pen _ HQ).
    destruct (lt_radius LT c (r0 * inc ^ j) (ls_ready LP _ _ Sc) (Hr j ltac:(lia))) as (c1 & E2). rewrite E2. cbn [rbind].
    destruct (lt_solve LT _ _ (ls_radius LP _ _ _ (ls_ready LP _ _ Sc) (Hr j ltac:(lia)) E2)) as (c2 & E3). rewrite E3. cbn [rbind].
    destruct (dir_copy_ok d0 _ d1 (fw_last _ _ _ F) (stale_room _ _ Hd1)) as (d2' & E4' & _). rewrite E4'. cbn [rbind]. eexists. reflexivity.
Qed.
End Forward.

(** ** Searching backward *)
Section Backward.
Variables (r0 dec : R).

Record bwd (j : nat) (s : pst C) : Prop := {
  bw_c : Ready (ps_c s);
  bw_room : dir_room n X (ps_dir s);
  bw_r : ps_radius s = r0 * dec ^ j;
  bw_par : par_ok (ps_par s);
  bw_viol : pr_viol (ps_par s) = total_viol nc (lx_clb X) (lx_cub X) (dense (lx_cons X));
  bw_dec : pr_dec (ps_par s) = dec }.

(** All radii from the power [j] up to the power [k] were tried in vain. *)
Definition refused (j k : nat) : Prop := forall i, (j <= i < k)%nat -> exists v, best (r0 * dec ^ i) v /\ ~ enough v.

Lemma back_loop_ok fuel : forall j s s' b, bwd j s -> (forall k, (k < j + fuel)%nat -> ok (r0 * dec ^ k)) ->
  back_loop fuel O X jac hess s = Ok (s', b) ->
  if b then exists k, (j <= k < j + fuel)%nat /\ refused j k /\ Sol (r0 * dec ^ k) (ps_c s') /\ dir_ok n X J H (ps_dir s')
         /\ best (r0 * dec ^ k) (dense (d_primal (ps_dir s'))) /\ enough (dense (d_primal (ps_dir s')))
         /\ ps_merit s' = qm (dense (d_primal (ps_dir s'))) /\ ps_radius s' = r0 * dec ^ k
  else bwd (j + fuel) s' /\ refused j (j + fuel)
       /\ ((0 < fuel)%nat -> exists i, (i = j + fuel - 1)%nat /\ Sol (r0 * dec ^ i) (ps_c s') /\ dir_ok n X J H (ps_dir s')
            /\ best (r0 * dec ^ i) (dense (d_primal (ps_dir s'))) /\ ~ enough (dense (d_primal (ps_dir s')))).
Proof.
  induction fuel as [|fuel IH]; intros j s s' b B Hr E.
  { cbn [back_loop] in E. injection E as <- <-. rewrite Nat.add_0_r. split; [exact B|]. split; [intros i Hi; lia|lia]. }
  cbn [back_loop] in E. apply rbind_ok in E as ([c p] & E1 & E). rewrite (bw_r _ _ B) in E1.
  pose proof (bw_par _ _ B) as HQ. destruct (bw_room _ _ B) as (Vp0 & Vc0 & Vh0).
  destruct (resolve_ok _ _ _ _ _ _ (pk_pen _ HQ) (bw_c _ _ B) (Hr j ltac:(lia)) Vp0 E1) as (Sc & Vp & Bp).
  destruct (reset_ok (set_primal (ps_dir s) p)) as (d & Ed & Hd & Dp).
  { split; [exact Vp|]. split; [exact Vc0|exact Vh0]. }
  cbn [set_primal d_primal] in Dp. rewrite Ed in E. cbn [rbind] in E.
  destruct (decrease_ok _ d HQ (bw_viol _ _ B) Hd) as (Q' & ok' & Et & HQ' & HV' & (Hi & Hde & Hm) & Hok). rewrite Et in E. cbn [rbind] in E.
  destruct ok'.
  - injection E as <- <-. exists j. split; [lia|]. split; [intros i Hi'; lia|]. cbn [ps_c ps_dir ps_radius ps_merit].
    rewrite Dp in *. split; [exact Sc|]. split; [exact Hd|]. split; [exact Bp|]. split; [now apply Hok|]. split; [reflexivity|apply B].
  - assert (Hno : ~ enough (dense (d_primal d))) by (intros Hc; apply Hok in Hc; discriminate).
    assert (B' : bwd (S j) (mkpst c d (@nmul RN (ps_radius s) (pr_dec Q')) (qm (dense (d_primal d))) Q')).
    { constructor; cbn [ps_c ps_dir ps_radius ps_merit ps_par].
      - eapply ls_ready; [exact LP|exact Sc].
      - apply stale_fresh in Hd. exact (stale_room _ _ Hd).
      - rewrite (bw_r _ _ B), Hde, (bw_dec _ _ B). req. cbn [nmul RN pow]. ring.
      - exact HQ'.
      - rewrite HV'. apply B.
      - rewrite Hde. apply B. }
    assert (Rj : forall k, refused (S j) k -> refused j k).
    { intros k Hk i Hi'. destruct (Nat.eq_dec i j) as [->|]; [|apply Hk; lia]. exists (dense p). split; [exact Bp|]. now rewrite Dp in Hno. }
    specialize (IH (S j) _ s' b B' ltac:(intros k Hk; apply Hr; lia) E). destruct b.
    + destruct IH as (k & Hk & Hk' & R1). exists k. split; [lia|]. split; [apply Rj, Hk'|exact R1].
    + destruct IH as (I1 & I2 & I3). replace (j + S fuel)%nat with (S j + fuel)%nat by lia. split; [exact I1|]. split; [apply Rj, I2|].
      intros _. destruct fuel as [|fuel].
      * cbn [back_loop] in E. injection E as <-. exists j. split; [lia|]. cbn [ps_c ps_dir].
        split; [exact Sc|]. split; [exact Hd|]. split; [rewrite Dp; exact Bp|exact Hno].
      * destruct (I3 ltac:(lia)) as (i & Hi' & R1). exists i. split; [lia|exact R1].
Qed.

Lemma back_total fuel : lp_total -> forall j s, bwd j s -> (forall k, (k < j + fuel)%nat -> ok (r0 * dec ^ k)) ->
  exists s' b, back_loop fuel O X jac hess s = Ok (s', b).
Proof.
  intros LT. induction fuel as [|fuel IH]; intros j s B Hr; [eexists _, _; reflexivity|].
  pose proof (bw_par _ _ B) as HQ. destruct (bw_room _ _ B) as (Vp0 & Vc0 & Vh0).
  cbn [back_loop]. rewrite (bw_r _ _ B).
  destruct (resolve_total _ _ _ _ LT (pk_pen _ HQ) (bw_c _ _ B) (Hr j ltac:(lia)) Vp0) as (c & p & E1). rewrite E1. cbn [rbind].
  destruct (resolve_ok _ _ _ _ _ _ (pk_pen _ HQ) (bw_c _ _ B) (Hr j ltac:(lia)) Vp0 E1) as (Sc & Vp & Bp).
  destruct (reset_ok (set_primal (ps_dir s) p)) as (d & Ed & Hd & Dp).
  { split; [exact Vp|]. split; [exact Vc0|exact Vh0]. }
  rewrite Ed. cbn [rbind].
  destruct (decrease_ok _ d HQ (bw_viol _ _ B) Hd) as (Q' & ok' & Et & HQ' & HV' & (Hi & Hde & Hm) & Hok). rewrite Et. cbn [rbind].
  destruct ok'; [eexists _, _; reflexivity|].
  apply (IH (S j)); [|intros k Hk; apply Hr; lia]. constructor; cbn [ps_c ps_dir ps_radius ps_merit ps_par].
  - eapply ls_ready; [exact LP|exact Sc].
  - apply stale_fresh in Hd. exact (stale_room _ _ Hd).
  - rewrite Hde, (bw_dec _ _ B). req. cbn [nmul RN pow]. ring.
  - exact HQ'.
  - rewrite HV'. apply B.
  - rewrite Hde. apply B.
Qed.
End Backward.
End Real.
