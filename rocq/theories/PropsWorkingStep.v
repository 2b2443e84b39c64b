(** C68-C71: the step to the working set, the Newton direction, the second-order correction and
    the refinement of dynamic functions.

    Specification vocabulary (WorkingStepReal.v, NewtonReal.v, SocReal.v): [fits w J d r] = the
    rows of the working set take the values [r] at the step [d]; [in_null] = the rows vanish;
    [min_norm_ok] = the augmented system returns the solution orthogonal to the nullspace;
    [shrinks … t] = the distances of the working set to its bounds are multiplied by [t];
    [qmerit] (LineSearchFacts.v) = the quadratic model of the merit function;
    [newton_model] = its restriction to the nullspace with the violations of the start. *)
From Coq Require Import Reals Lra FunctionalExtensionality.
From Flocq Require Import BinarySingleNaN.
From Verif Require Import Base Num Cmp Sparse Vec VecFacts Mat MatFacts MatFacts2 MatFacts4 RSum VecReal WorkingSet WorkingSetFacts Feas MeritFacts QnReal
  DualEst DualEstFacts Steihaug SteihaugFacts LineSearch LineSearchFacts WorkingStep WorkingStepFacts WorkingStepReal NewtonReal SocReal
  PropsVec PropsMat PropsDualEst PropsSteihaug.
Local Open Scope R_scope.

Lemma box_null w J z : consistent w -> wnc w = 0%Z ->
  (in_null w J z <-> forall j, (0 <= j < wnv w)%Z -> free w z j = z j).
Proof.
  intros C Hc. unfold in_null, fits, free, zerof. split.
  - intros [H _] j Hj. specialize (H j). destruct (proj1 (vix_ok w C j Hj)) as []. rewrite (proj1 (vix_ok w C j Hj)).
    destruct (Z.eqb_spec (vix w j) none) as [|Hk]; [reflexivity|]. symmetry. apply (H (vix w j) Hj); auto. apply (vix_ok w C j Hj).
  - intros H. split; [|intros; lia]. intros j k Hj Ek Hk. rewrite <- (H j Hj), Ek. destruct (Z.eqb_spec k none); [contradiction|reflexivity].
Qed.

(** ** C68: the step to the working set *)

Theorem C68_step : forall w (X : @lctx RN) jac J min_norm (T : @wstep RN),
  ctx_ok (wnv w) X -> set_ok w X -> jac_is (wnv w) (lx_nc X) jac J -> min_norm_ok w J min_norm ->
  room_ok (wnv w) (lx_nc X) T -> 0 < lx_radius X -> 0 <= lx_eps X <= / 5 ->
  exists T' a, working_step X jac w min_norm T = Ok T'
    /\ let p := dense (d_primal (t_dir T')) in
       0 < a <= 1 /\ (t_in T' = true <-> a = 1)
    /\ shrinks w X (dense (lx_x X)) (dense (lx_cons X)) (fun j => dense (lx_x X) j + p j) (fun i => dense (lx_cons X) i + J p i) (1 - a)
    /\ (forall q, fits w J (fun j => q j - p j) zerof -> dotd (wnv w) p p <= dotd (wnv w) q q)
    /\ 0 <= t_reduced T' /\ dotd (wnv w) p p + t_reduced T' * t_reduced T' = lx_radius X * lx_radius X
    /\ (t_in T' = false -> dotd (wnv w) p p = (8 / 10 * lx_radius X) * (8 / 10 * lx_radius X)).
Proof.
  intros w X jac J f T CX SO HJ HM R Hr He.
  destruct (working_step_real w X jac J f T CX SO HJ HM R Hr He) as (T' & a & E & S). exists T', a. split; [exact E|].
  destruct S as [S1 S2 S3 S4 S5 S6 S7 S8 _ _ _ _ _ _ _ _]. cbv zeta in *.
  split; [exact S2|]. split; [exact S3|]. split; [exact S4|]. split; [|auto].
  intros q Hq. set (p := dense (d_primal (t_dir T'))) in *. specialize (S5 _ Hq).
  assert (Eq : dotd (wnv w) q q = dotd (wnv w) p p + 2 * dotd (wnv w) p (fun j => q j - p j)
                + dotd (wnv w) (fun j => q j - p j) (fun j => q j - p j)).
  { unfold dotd. rewrite <- sumd_scal, <- !sumd_plus. apply sumd_ext. intros j _. ring. }
  rewrite Eq, S5. pose proof (dotd_nonneg (wnv w) (fun j => q j - p j)). lra.
Qed.
Print Assumptions C68_step.

(** A further step in the nullspace within the reduced radius stays in the trust region and
    leaves the distances to the working set as they are. *)
Theorem C68_tangential : forall w (X : @lctx RN) jac J min_norm (T T' : @wstep RN) z,
  ctx_ok (wnv w) X -> set_ok w X -> jac_is (wnv w) (lx_nc X) jac J -> min_norm_ok w J min_norm ->
  room_ok (wnv w) (lx_nc X) T -> 0 < lx_radius X -> 0 <= lx_eps X <= / 5 ->
  working_step X jac w min_norm T = Ok T' ->
  in_null w J z -> dotd (wnv w) z z <= t_reduced T' * t_reduced T' ->
  let p := dense (d_primal (t_dir T')) in
  dotd (wnv w) (fun j => p j + z j) (fun j => p j + z j) <= lx_radius X * lx_radius X
  /\ exists a, 0 < a <= 1 /\ (t_in T' = true -> a = 1)
     /\ shrinks w X (dense (lx_x X)) (dense (lx_cons X)) (fun j => dense (lx_x X) j + (p j + z j))
          (fun i => dense (lx_cons X) i + J (fun j => p j + z j) i) (1 - a).
Proof.
  intros w X jac J f T T' z CX SO HJ HM R Hr He E Hz Hn p.
  destruct (working_step_real w X jac J f T CX SO HJ HM R Hr He) as (T1 & a & E1 & S). rewrite E in E1. injection E1 as <-.
  destruct S as [S1 S2 S3 S4 S5 S6 S7 S8 _ _ _ _ _ _ _ _]. cbv zeta in *. fold p in S4, S5, S7. split.
  - specialize (S5 z Hz).
    assert (Eq : dotd (wnv w) (fun j => p j + z j) (fun j => p j + z j) = dotd (wnv w) p p + 2 * dotd (wnv w) p z + dotd (wnv w) z z).
    { unfold dotd. rewrite <- sumd_scal, <- !sumd_plus. apply sumd_ext. intros j _. ring. }
    rewrite Eq, S5. rnum. lra.
  - exists a. split; [exact S2|]. split; [apply S3|]. destruct S4 as [A B], Hz as [Z1 Z2]. split.
    + intros j s Hj Es Hs. cbv zeta. rewrite <- (A j s Hj Es Hs).
      destruct (cs_total w (so_c _ _ SO) (IVar j)) as (s' & k & Q1 & Q2 & Q3); [exact Hj|]. cbn in Q1, Q2.
      rewrite Es in Q1. injection Q1 as <-. assert (k <> none) by tauto.
      specialize (Z1 j k Hj Q2 H). unfold zerof in Z1. rewrite Z1. ring.
    + intros i s Hi Es Hs. cbv zeta. rewrite <- (B i s Hi Es Hs).
      destruct (cs_total w (so_c _ _ SO) (ICons i)) as (s' & k & Q1 & Q2 & Q3); [exact Hi|]. cbn in Q1, Q2.
      rewrite Es in Q1. injection Q1 as <-. assert (k <> none) by tauto.
      specialize (Z2 i k Hi Q2 H). unfold zerof in Z2.
      assert (EJ : J (fun j => p j + z j) i = J p i + J z i).
      { destruct HJ as (cs & _ & _ & _ & HJ). rewrite !HJ, <- sumd_plus. apply sumd_ext. intros. ring. }
      rewrite EJ, Z2. ring.
Qed.
Print Assumptions C68_tangential.

(** The values and signs handed to the Newton step: those of the linearised constraints at the
    end of the step; members of the working set do not take part. *)
Theorem C68_violation : forall w (X : @lctx RN) jac J min_norm (T T' : @wstep RN),
  ctx_ok (wnv w) X -> set_ok w X -> jac_is (wnv w) (lx_nc X) jac J -> min_norm_ok w J min_norm ->
  room_ok (wnv w) (lx_nc X) T -> 0 < lx_radius X -> 0 <= lx_eps X <= / 5 ->
  working_step X jac w min_norm T = Ok T' ->
  let p := dense (d_primal (t_dir T')) in
  d_obj (t_dir T') = dotd (wnv w) (dense (lx_grad X)) p
  /\ forall i, (0 <= i < lx_nc X)%Z ->
     let c := dense (lx_cons X) i + J p i in
     dense (t_cons T') i = c
     /\ (forall s, ws_cons_state w i = Ok s -> s <> Inactive -> dense (t_mult T') i = 0)
     /\ (ws_cons_state w i = Ok Inactive ->
           (dense (lx_cub X) i < c -> dense (t_mult T') i = 1)
           /\ (c < dense (lx_clb X) i -> dense (t_mult T') i = -1)
           /\ (dense (lx_clb X) i <= c <= dense (lx_cub X) i -> dense (t_mult T') i = 0)).
Proof.
  intros w X jac J f T T' CX SO HJ HM R Hr He E p.
  destruct (working_step_real w X jac J f T CX SO HJ HM R Hr He) as (T1 & a & E1 & S). rewrite E in E1. injection E1 as <-.
  split; [exact (sr_obj _ _ _ _ _ S)|]. intros i Hi c.
  pose proof (sr_consv _ _ _ _ _ S i Hi) as Ec. cbv beta in Ec. fold p in Ec. fold c in Ec.
  split; [exact Ec|]. pose proof (cx_cle _ _ CX i Hi) as Hle. split.
  - intros s Es Hs. rewrite (sr_multv _ _ _ _ _ S i s Hi Es). destruct s; try reflexivity. congruence.
  - intros Es. rewrite (sr_multv _ _ _ _ _ S i _ Hi Es). cbn [active]. rewrite Ec. unfold viol_sign.
    repeat split; intros; repeat destruct (Rlt_dec _ _); rnum; try lra. all: reflexivity.
Qed.
Print Assumptions C68_violation.

(** With bounds only, the solution without an augmented system meets the demand. *)
Theorem C68_box : forall w J, consistent w -> in_order w -> wnc w = 0%Z -> min_norm_ok w J (box_min_norm (wnv w) w).
Proof.
  intros w J C O Hc rhs sol [W D] [Ws Ds].
  destruct (@box_min_norm_spec RN w rhs sol C O Hc W D Ws Ds) as (x & E & Wx & Dx & G).
  exists x. split; [exact E|]. split; [split; auto|].
  assert (V : forall j k, (0 <= j < wnv w)%Z -> ws_var_index w j = Ok k -> k = vix w j).
  { intros j k Hj Ek. destruct (vix_ok w C j Hj) as [H _]. rewrite H in Ek. congruence. }
  split; [split; [|intros; lia]|].
  - intros j k Hj Ek Hk. apply (V j k Hj) in Ek. subst k. unfold dense. rewrite (G j Hj). destruct (Z.eqb_spec (vix w j) none); [contradiction|reflexivity].
  - intros z Hz0. pose proof (proj1 (box_null w J z C Hc) Hz0) as Hz. unfold dotd. apply sumd_zero. intros j Hj.
    specialize (Hz j Hj). unfold free in Hz. rewrite (proj1 (vix_ok w C j Hj)) in Hz. unfold dense. rewrite (G j Hj).
    destruct (vix w j =? none)%Z; cbn; [unfold rn_lit; lra|]. rewrite <- Hz. lra.
Qed.
Print Assumptions C68_box.

(** Example: two variables, the constraint x0 + x1 <= 2 active, start at the origin. *)
Definition cjac {N : Num} : mat := mkmat 1 2 2 2 [0%Z; 1%Z; 2%Z] [(0%Z, n1); (0%Z, n1)].
Definition cJ (p : Z -> R) (i : Z) : R := sumd 2 (fun j => mR [[(0%Z, @n1 RN)]; [(0%Z, @n1 RN)]] i j * p j).
Lemma cJ0 p : cJ p 0 = p 0%Z + p 1%Z.
Proof.
  unfold cJ, sumd. change (Z.to_nat 2) with 2%nat. cbn [rsum]. change (Z.of_nat 0) with 0%Z. change (Z.of_nat 1) with 1%Z.
  change (mR [[(0%Z, @n1 RN)]; [(0%Z, @n1 RN)]] 0 0) with (@n1 RN). change (mR [[(0%Z, @n1 RN)]; [(0%Z, @n1 RN)]] 0 1) with (@n1 RN).
  rewrite rn_n1. lra.
Qed.
Lemma cjac_is : jac_is 2 1 (@cjac RN) cJ.
Proof.
  exists [[(0%Z, @n1 RN)]; [(0%Z, @n1 RN)]]. split; [|split; [reflexivity|split; [reflexivity|reflexivity]]].
  destruct (@C11_build RN 1 2 [[(0%Z, @n1 RN)]; [(0%Z, @n1 RN)]]) as (m & E & S); [lia|cbn; lia|repeat constructor; cbn; lia|].
  assert (Em : m = cjac) by (cbn in E; now injection E as <-). now rewrite <- Em.
Qed.
Definition cw : wset := match ws_add_cons (ws_create 2 1) 0 ActUpper with Ok w => w | _ => ws_create 0 0 end.
Definition half_norm {N : Num} (rhs sol : vec) : res vec :=
  let h := (oval (get (vent rhs) 0) * nlit 1 2)%num in Ok (mkvec 2 2 [(0%Z, h); (1%Z, h)]).
Definition cv (r : R) : rvec := mkvec 1 1 [(0%Z, r)].
Definition c2 (r s : R) : rvec := mkvec 2 2 [(0%Z, r); (1%Z, s)].
Lemma vok_cv r : vok 1 (cv r). Proof. split; [unfold wf; cbn; lia|reflexivity]. Qed.
Lemma vok_c2 r s : vok 2 (c2 r s). Proof. split; [unfold wf; cbn; lia|reflexivity]. Qed.
(** Radius, penalty, gradient, value of the constraint *)
Definition cX (rad pen g0 g1 c : R) : @lctx RN :=
  mklctx 1 (cv (-10)) (cv 2) (c2 (-10) (-10)) (c2 10 10) (c2 0 0) 0 (c2 g0 g1) (cv c) pen rad (/ 10) 0 0 0 0.
Definition ce : rvec := mkvec 2 0 [].
Definition ce1 : rvec := mkvec 1 0 [].
Definition cT : @wstep RN := mkwstep ce ce ce1 ce (mkdirn ce 0 ce1 ce) ce1 ce1 0 false.
Lemma vok_ce : vok 2 ce. Proof. split; [unfold wf; cbn; lia|reflexivity]. Qed.
Lemma vok_ce1 : vok 1 ce1. Proof. split; [unfold wf; cbn; lia|reflexivity]. Qed.
Lemma cX_ok rad pen g0 g1 c : 0 <= pen -> ctx_ok 2 (cX rad pen g0 g1 c).
Proof.
  intros Hp. constructor; try apply vok_cv; try apply vok_c2; try lia; try exact Hp; try reflexivity.
  intros i Hi. change (lx_nc (cX rad pen g0 g1 c)) with 1%Z in Hi. assert (i = 0%Z) by lia. subst i. cbn. lra.
Qed.
Lemma cw_ok X : lx_nc X = 1%Z -> set_ok cw X.
Proof.
  intros HX. assert (H0 : holds (ws_create 2 1) [] []) by (apply create_holds; lia).
  destruct (add_cons_holds _ _ _ 0 ActUpper H0) as (w1 & E1 & H1 & _); [cbn; lia|cbn; tauto|discriminate|].
  assert (E : cw = w1) by (unfold cw; now rewrite E1).
  constructor.
  - rewrite E. eapply holds_consistent; eassumption.
  - intros k l a b Hk Hl. change (ws_size cw) with 1%Z in Hl. lia.
  - rewrite HX. reflexivity.
  - reflexivity.
Qed.
Lemma cw_in p r : fits cw cJ p r <-> p 0%Z + p 1%Z = r 0%Z.
Proof.
  split.
  - intros [_ H]. rewrite <- cJ0. apply (H 0%Z 0%Z); [vm_compute; split; congruence|reflexivity|discriminate].
  - intros H. split.
    + intros j k Hj Ek Hk. change (wnv cw) with 2%Z in Hj. assert (j = 0 \/ j = 1)%Z as [-> | ->] by lia; vm_compute in Ek; injection Ek as <-; now destruct Hk.
    + intros i k Hi Ek Hk. change (wnc cw) with 1%Z in Hi. assert (i = 0%Z) by lia. subst i. vm_compute in Ek. injection Ek as <-. rewrite cJ0. exact H.
Qed.
Lemma half_norm_ok : min_norm_ok cw cJ half_norm.
Proof.
  intros rhs sol [W D] _. unfold half_norm. set (h := (_ * _)%num). exists (c2 h h). split; [reflexivity|]. split; [apply vok_c2|].
  assert (Eh : (h : R) + h = dense rhs 0) by (unfold h, dense, oval; cbn; unfold rn_lit; destruct (get (vent rhs) 0); lra).
  split; [apply cw_in; exact Eh|].
  intros z Hz. apply cw_in in Hz. unfold zerof in Hz. change (wnv cw) with 2%Z. rewrite dot2. change (dense (c2 h h) 0) with h. change (dense (c2 h h) 1) with h.
  replace (z 1%Z) with (- z 0%Z) by lra. rnum. ring.
Qed.
Lemma cT_ok : room_ok 2 1 cT.
Proof. constructor; try apply vok_ce; try apply vok_ce1; cbn; try lia; try apply vok_ce1; try apply vok_ce. Qed.
Example C68_example : exists T', working_step (cX 1 1 0 0 0) cjac cw half_norm cT = Ok T' /\ t_in T' = false
  /\ 0 < dense (d_primal (t_dir T')) 0 < 1 /\ dense (d_primal (t_dir T')) 0 = dense (d_primal (t_dir T')) 1
  /\ t_reduced T' = 6 / 10.
Proof.
  destruct (C68_step cw (cX 1 1 0 0 0) cjac cJ half_norm cT) as (T' & a & E & Ha & Hin & [_ Hs] & Hmin & Hr0 & Hr & Hcut).
  { apply (cX_ok 1 1 0 0 0). lra. }
  { now apply cw_ok. }
  { exact cjac_is. }
  { exact half_norm_ok. }
  { exact cT_ok. }
  { cbn; lra. }
  { cbn; lra. }
  exists T'. split; [exact E|]. set (p := dense (d_primal (t_dir T'))) in *. change (wnv cw) with 2%Z in *.
  specialize (Hs 0%Z ActUpper). cbn [bound_of] in Hs. rewrite cJ0 in Hs. cbv zeta in Hs.
  assert (Hp : p 0%Z + p 1%Z = 2 * a).
  { assert (H := Hs ltac:(vm_compute; split; congruence) eq_refl ltac:(discriminate)). cbn in H. lra. }
  rewrite dot2 in Hr, Hcut. change (lx_radius (cX 1 1 0 0 0)) with 1 in *.
  assert (Hq : dotd 2 p p <= dotd 2 (fun j => a) (fun j => a)) by (apply Hmin; apply cw_in; unfold zerof; lra).
  rewrite !dot2 in Hq.
  assert (Hd : (p 0%Z - p 1%Z) * (p 0%Z - p 1%Z) <= 0) by nra.
  assert (Heq : p 0%Z = p 1%Z) by nra. assert (Hpa : p 0%Z = a) by lra. rewrite Heq in Hpa.
  assert (Hf : t_in T' = false).
  { destruct (t_in T') eqn:Et; [|reflexivity]. assert (a = 1) by now apply Hin. rewrite Heq, Hpa, H in Hr. rnum. nra. }
  split; [exact Hf|]. specialize (Hcut Hf). rewrite Heq, Hpa in Hcut. rewrite Heq, Hpa in Hr.
  split; [rewrite Heq, Hpa; nra|]. split; [exact Heq|]. rnum. nra.
Qed.

(** The distance 1/5 is sharp: with a coarser accuracy a step longer than the trust radius counts
    as complete, and the reduced radius is the square root of a negative number. *)
Definition fX (rad eps : f64) (ub : Z) : @lctx F64 :=
  mklctx 0 (ve 0 []) (ve 0 []) (ve 1 [(0%Z, (-9)%Z)]) (ve 1 [(0%Z, ub)]) (ve 1 []) (fz 0) (ve 1 []) (ve 0 []) (fz 1) rad eps (fz 0) (fz 0) (fz 0) (fz 0).
Definition fw1 : wset := match ws_add_var (ws_create 1 0) 0 ActUpper with Ok w => w | _ => ws_create 0 0 end.
Definition fT : @wstep F64 := mkwstep (ve 1 []) (ve 1 []) (ve 1 []) (mkvec 1 1 []) (mkdirn (mkvec 1 1 []) (fz 0) (ve 0 []) (mkvec 1 1 [])) (ve 0 []) (ve 0 []) (fz 0) false.
Definition fjac0 : @mat F64 := mkmat 0 1 0 0 [0%Z; 0%Z] [].
Theorem C68_accuracy_refuted : exists T', working_step (fX (fz 7) (nlit 3 10) 8) fjac0 fw1 (box_min_norm 1 fw1) fT = Ok T'
  /\ t_in T' = true /\ is_nan (t_reduced T') = true /\ nltb (fz 7) (vec_norm (d_primal (t_dir T'))) = true.
Proof.
  assert (H : match working_step (fX (fz 7) (nlit 3 10) 8) fjac0 fw1 (box_min_norm 1 fw1) fT with
    | Ok T' => t_in T' && is_nan (t_reduced T') && nltb (fz 7) (vec_norm (d_primal (t_dir T'))) | _ => false end = true) by (vm_compute; reflexivity).
  destruct (working_step _ _ _ _ _) as [T'| |]; [|discriminate..]. exists T'.
  apply andb_true_iff in H as [H H3]. apply andb_true_iff in H as [H1 H2]. auto.
Qed.
Print Assumptions C68_accuracy_refuted.

(** The square of a large trust radius overflows: the reduced radius is infinite. *)
Theorem C68_overflow_refuted : exists (rad : f64) T', is_finite_SF (B2SF rad) = true
  /\ working_step (fX rad (nlit 1 10000000000) 8) fjac0 fw1 (box_min_norm 1 fw1) fT = Ok T' /\ t_reduced T' = B754_infinity false.
Proof.
  set (rad := fz (2 ^ 600)). exists rad.
  assert (H : match working_step (fX rad (nlit 1 10000000000) 8) fjac0 fw1 (box_min_norm 1 fw1) fT with
    | Ok T' => match t_reduced T' : f64 with B754_infinity false => true | _ => false end | _ => false end = true) by (vm_compute; reflexivity).
  destruct (working_step _ _ _ _ _) as [T'| |]; [|discriminate..]. exists T'. split; [vm_compute; reflexivity|]. split; [reflexivity|].
  destruct (t_reduced T') as [|[|]| |]; try discriminate. reflexivity.
Qed.
Print Assumptions C68_overflow_refuted.

(** ** C69: the Newton direction *)

(** The direction is the step to the working set plus a step in its nullspace; it lies in the
    trust region, keeps the distances to the working set and does not increase the model that
    the trust region solver sees.  The only failures are the two assertions that the value of
    the model is finite; they hold if the value is small enough on the trust region. *)
Theorem C69_direction : forall w (X : @lctx RN) jac J H hess solve min_norm (T0 T : @wstep RN) cache product gradient tr_step (d : @dirn RN),
  ctx_ok (wnv w) X -> set_ok w X -> jac_is (wnv w) (lx_nc X) jac J -> min_norm_ok w J min_norm ->
  room_ok (wnv w) (lx_nc X) T0 -> 0 < lx_radius X -> 0 <= lx_eps X <= / 5 ->
  working_step X jac w min_norm T0 = Ok T ->
  computes (wnv w) H hess -> tr_ok w J H solve ->
  (0 <= vcap cache)%Z -> vok (wnv w) product -> (0 <= vcap gradient)%Z -> vok (wnv w) tr_step -> dir_room (wnv w) X d ->
  let run := newton_direction X jac hess solve T cache product gradient tr_step d in
  let p := dense (d_primal (t_dir T)) in
  exists d' z, (run = Ok d' \/ run = Trap)
    /\ dir_ok (wnv w) X J H d'
    /\ (forall j, (0 <= j < wnv w)%Z -> dense (d_primal d') j = p j + z j)
    /\ in_null w J z
    /\ dotd (wnv w) (dense (d_primal d')) (dense (d_primal d')) <= lx_radius X * lx_radius X
    /\ newton_model w X J H p (dense (t_mult T)) z <= 0
    /\ ((forall q, dotd (wnv w) q q <= lx_radius X * lx_radius X ->
           Rabs (lx_obj X + lx_pen X * total_viol (lx_nc X) (lx_clb X) (lx_cub X) (fun i => dense (lx_cons X) i + J p i)
                 + dotd (wnv w) (dense (lx_grad X)) q + / 2 * dotd (wnv w) q (H q)) < 5 * 10 ^ 99) -> run = Ok d').
Proof.
  intros w X jac J H hess solve f T0 T cache product gradient tr_step d CX SO HJ HM R Hr He E Hh Ht H1 H2 H3 H4 H5 run p.
  destruct (working_step_real w X jac J f T0 CX SO HJ HM R Hr He) as (T1 & a & E1 & S). rewrite E in E1. injection E1 as <-.
  destruct (newton_real w X jac J H CX HJ hess solve T a cache product gradient tr_step d Hh Ht S H1 H2 H3 H4 H5)
    as (d' & z & [N1 N2 N3 N4 N5] & _ & Hrun & Hok). exists d', z.
  split; [exact Hrun|]. split; [exact N1|]. split; [exact N2|]. split; [exact N3|]. split; [exact N4|]. split; [exact N5|].
  intros Hq. apply Hok. intros q Hn. unfold newton_value.
  replace (total_viol (lx_nc X) (lx_clb X) (lx_cub X) (dense (t_cons T)))
    with (total_viol (lx_nc X) (lx_clb X) (lx_cub X) (fun i => dense (lx_cons X) i + J p i)).
  - now apply Hq.
  - unfold total_viol. apply sumd_ext. intros i Hi. now rewrite (sr_consv _ _ _ _ _ S i Hi).
Qed.
Print Assumptions C69_direction.

(** The model of the trust region solver against the merit model: it is a lower bound of the
    change on the nullspace, and exact as long as no constraint outside of the working set
    changes between violated and satisfied. *)
Theorem C69_model : forall w (X : @lctx RN) jac J H min_norm (T0 T : @wstep RN) z,
  ctx_ok (wnv w) X -> set_ok w X -> jac_is (wnv w) (lx_nc X) jac J -> min_norm_ok w J min_norm ->
  room_ok (wnv w) (lx_nc X) T0 -> 0 < lx_radius X -> 0 <= lx_eps X <= / 5 ->
  working_step X jac w min_norm T0 = Ok T ->
  linear_map (wnv w) H -> self_adjoint (wnv w) H -> in_null w J z ->
  let p := dense (d_primal (t_dir T)) in
  newton_model w X J H p (dense (t_mult T)) z <= qmerit (wnv w) X J H (fun j => p j + z j) - qmerit (wnv w) X J H p
  /\ (side_kept w X J p z ->
      newton_model w X J H p (dense (t_mult T)) z = qmerit (wnv w) X J H (fun j => p j + z j) - qmerit (wnv w) X J H p).
Proof.
  intros w X jac J H f T0 T z CX SO HJ HM R Hr He E HL HS Hz p.
  destruct (working_step_real w X jac J f T0 CX SO HJ HM R Hr He) as (T1 & a & E1 & S). rewrite E in E1. injection E1 as <-.
  assert (Sg : signs w X J p (dense (t_mult T))).
  { intros i s Hi Es. rewrite (sr_multv _ _ _ _ _ S i s Hi Es). now rewrite (sr_consv _ _ _ _ _ S i Hi). }
  assert (El : lc 1 p 1 z = fun j => p j + z j) by (apply functional_extensionality; intros j; unfold lc; rnum; lra).
  pose proof (model_below w X jac J H CX SO HJ HL HS p (dense (t_mult T)) z Hz Sg) as B. rewrite El in B. split; [lra|].
  intros K. pose proof (model_exact w X jac J H CX SO HJ HL HS p (dense (t_mult T)) z Hz Sg K) as Q. rewrite El in Q. lra.
Qed.
Print Assumptions C69_model.

(** Hence the merit model does not increase over the step to the working set, if no constraint
    outside of the working set changes sides. *)
Theorem C69_descent : forall w (X : @lctx RN) jac J H hess solve min_norm (T0 T : @wstep RN) cache product gradient tr_step (d d' : @dirn RN),
  ctx_ok (wnv w) X -> set_ok w X -> jac_is (wnv w) (lx_nc X) jac J -> min_norm_ok w J min_norm ->
  room_ok (wnv w) (lx_nc X) T0 -> 0 < lx_radius X -> 0 <= lx_eps X <= / 5 ->
  working_step X jac w min_norm T0 = Ok T ->
  computes (wnv w) H hess -> linear_map (wnv w) H -> self_adjoint (wnv w) H -> tr_ok w J H solve ->
  (0 <= vcap cache)%Z -> vok (wnv w) product -> (0 <= vcap gradient)%Z -> vok (wnv w) tr_step -> dir_room (wnv w) X d ->
  newton_direction X jac hess solve T cache product gradient tr_step d = Ok d' ->
  let p := dense (d_primal (t_dir T)) in
  side_kept w X J p (fun j => dense (d_primal d') j - p j) ->
  qmerit (wnv w) X J H (dense (d_primal d')) <= qmerit (wnv w) X J H p.
Proof.
  intros w X jac J H hess solve f T0 T cache product gradient tr_step d d' CX SO HJ HM R Hr He E Hh HL HS Ht H1 H2 H3 H4 H5 Ed p K.
  destruct (C69_direction w X jac J H hess solve f T0 T cache product gradient tr_step d CX SO HJ HM R Hr He E Hh Ht H1 H2 H3 H4 H5)
    as (d1 & z & [E1|E1] & D1 & D2 & D3 & D4 & D5 & _); rewrite Ed in E1; [|discriminate]. injection E1 as <-. fold p in D2, D5.
  assert (EJ : forall i, J (fun j => dense (d_primal d') j - p j) i = J z i).
  { intros i. destruct HJ as (cs & _ & _ & _ & HJ). rewrite !HJ. apply sumd_ext. intros j Hj. rewrite (D2 j Hj). rnum. ring. }
  assert (K' : side_kept w X J p z).
  { intros i Hi Es. specialize (K i Hi Es). cbv zeta in K. rewrite EJ in K. exact K. }
  destruct (C69_model w X jac J H f T0 T z CX SO HJ HM R Hr He E HL HS D3) as [_ Q]. fold p in Q. specialize (Q K').
  replace (qmerit (wnv w) X J H (dense (d_primal d'))) with (qmerit (wnv w) X J H (fun j => p j + z j)); [lra|].
  assert (HJ' : forall q q', (forall j, (0 <= j < wnv w)%Z -> q j = q' j) -> forall i, J q i = J q' i).
  { intros q q' Hq i. destruct HJ as (cs & _ & _ & _ & HJ). rewrite !HJ. apply sumd_ext. intros j Hj. now rewrite (Hq j Hj). }
  assert (Ex : forall j, (0 <= j < wnv w)%Z -> p j + z j = dense (d_primal d') j) by (intros; symmetry; auto).
  unfold qmerit, lmerit. f_equal.
  - f_equal; [f_equal; apply dotd_ext; auto|]. f_equal. apply sumd_ext. intros i Hi. now rewrite (HJ' _ _ Ex).
  - f_equal. transitivity (dotd (wnv w) (dense (d_primal d')) (H (fun j => p j + z j))); [apply dotd_ext; auto|].
    rewrite <- (HS (dense (d_primal d'))), <- (HS (dense (d_primal d')) (dense (d_primal d'))). apply dotd_ext; auto.
Qed.
Print Assumptions C69_descent.

(** With bounds only, the conjugate gradient solver with the projection of the working set is
    such a trust region solver. *)
Theorem C69_box : forall w J H hess stat_tol max_iter clock (s : @cg RN) fuel,
  consistent w -> wnc w = 0%Z -> (0 <= wnv w)%Z -> (wnv w < Z.of_nat fuel)%Z ->
  computes (wnv w) H hess -> self_adjoint (wnv w) H -> 0 < stat_tol ->
  vok (wnv w) (cd s) -> vok (wnv w) (cbd s) -> vok (wnv w) (cgr s) -> vok (wnv w) (cr s) -> vok (wnv w) (cz s) -> vok (wnv w) (ccache s) ->
  tr_ok w J H (fun g step rad =>
    r <- steihaug fuel hess (box_project (wnv w) w) g step (0 : @num RN) rad (stat_tol : @num RN) max_iter (nlit (-1) 1 : @num RN) clock s ;;
    let '(p, _, s') := r in Ok (p, cmin s', cmax s')).
Proof.
  intros w J H hess tol max_iter clock s fuel C Hc Hn Hf Hh HS Ht V1 V2 V3 V4 V5 V6 g step rad Vg Vs Hr.
  destruct (C64_box w C) as (P1 & P2 & P3).
  assert (CO : call_ok (wnv w) g H (free w) hess (box_project (wnv w) w) rad tol step s) by (constructor; auto).
  destruct (C64_outcome _ _ _ _ _ _ _ _ _ _ CO max_iter (@nlit RN (-1) 1) clock fuel Hf) as [[_ [Hne _]]|(p & du & s' & E & Wp & Dp & Hin & Hnm & Hm)].
  { exfalso. apply Hne. cbn. unfold rn_lit. lra. }
  cbv zeta in E. destruct (C64_rayleigh _ _ _ _ _ _ _ _ _ _ CO max_iter (@nlit RN (-1) 1) clock fuel p du s' Hf E) as [[R1 R2] _].
  exists p, (cmin s'), (cmax s'). rewrite E. cbn [rbind]. split; [reflexivity|]. split; [split; auto|]. split.
  - apply (box_null w J (dense p) C Hc). intros j Hj. apply (Hin j Hj).
  - split; [exact Hnm|]. split; [exact Hm|]. rnum. lra.
Qed.
Print Assumptions C69_box.

(** Example: three variables, two at their bounds, the steps of C68 and C69 without constraints. *)
Definition bX : @lctx RN :=
  mklctx 0 (mkvec 0 0 []) (mkvec 0 0 []) (mkvec 3 3 [(0%Z, -1); (1%Z, -9); (2%Z, -9)]) (mkvec 3 3 [(0%Z, 9); (1%Z, 9); (2%Z, 1)])
    (mkvec 3 0 []) 0 ex_gv (mkvec 0 0 []) 1 10 (/ 10) 0 0 0 0.
Definition be : rvec := mkvec 3 0 [].
Definition be0 : rvec := mkvec 0 0 [].
Definition bT : @wstep RN := mkwstep be be be0 be (mkdirn be 0 be0 be) be0 be0 0 false.
Definition bjac : @mat RN := mkmat 0 3 0 0 [0%Z; 0%Z; 0%Z; 0%Z] [].
Definition bJ (p : Z -> R) (i : Z) : R := sumd 3 (fun j => mR [[]; []; []] i j * p j).
Definition bsolve (g step : rvec) (rad : @num RN) : res (rvec * R * R) :=
  r <- steihaug 4 (ex_hess (2 : @num RN)) (box_project 3 ex_w) g step (0 : @num RN) rad (1 / 100 : @num RN) 100 (nlit (-1) 1 : @num RN) (fun _ => 0) (ex_cg 3) ;;
  let '(p, _, s') := r in Ok (p, cmin s', cmax s').
Lemma vok_be : vok 3 be. Proof. split; [unfold wf; cbn; lia|reflexivity]. Qed.
Lemma vok_be0 : vok 0 be0. Proof. split; [unfold wf; cbn; lia|reflexivity]. Qed.
Lemma bX_ok : ctx_ok 3 bX.
Proof.
  constructor; try lia; try reflexivity; try (split; [unfold wf; cbn; lia|reflexivity]); cbn; try lra.
  intros; lia.
Qed.
Lemma bset_ok : set_ok ex_w bX.
Proof.
  destruct ex_w_ok as (C & O & Nc & _). now constructor.
Qed.
Lemma bjac_is : jac_is 3 0 bjac bJ.
Proof.
  exists [[]; []; []]. split; [|split; [reflexivity|split; [reflexivity|reflexivity]]].
  destruct (@C11_build RN 0 0 [[]; []; []]) as (m & E & S); [lia|cbn; lia|repeat constructor; cbn; lia|].
  assert (Em : m = bjac) by (cbn in E; now injection E as <-). now rewrite <- Em.
Qed.
Example C69_example : exists T d' z,
  working_step bX bjac ex_w (box_min_norm 3 ex_w) bT = Ok T
  /\ newton_direction bX bjac (ex_hess (2 : @num RN)) bsolve T be be be be (mkdirn be 0 be0 be) = Ok d'
  /\ dense (d_primal d') 0 = -1 /\ dense (d_primal d') 2 = 1
  /\ (forall j, (0 <= j < 3)%Z -> dense (d_primal d') j = dense (d_primal (t_dir T)) j + z j)
  /\ qmerit 3 bX bJ (fun x i => 2 * x i) (dense (d_primal d')) <= qmerit 3 bX bJ (fun x i => 2 * x i) (dense (d_primal (t_dir T))).
Proof.
  destruct ex_w_ok as (C & O & Nc & Nv & Sz).
  pose proof (C68_box ex_w bJ C O Nc) as HM. pose proof bX_ok as CX. pose proof bjac_is as HJ. rewrite <- Nv in CX, HJ.
  assert (HH : computes (wnv ex_w) (fun x i => 2 * x i) (ex_hess (2 : @num RN))) by apply ex_hess_ok.
  pose proof (scal_adjoint (wnv ex_w) 2) as HS.
  assert (HL : linear_map (wnv ex_w) (fun x i => 2 * x i)) by (intros a x b y i _; unfold lc; ring).
  assert (HT : tr_ok ex_w bJ (fun x i => 2 * x i) bsolve).
  { unfold bsolve. rewrite <- Nv. apply C69_box; auto; rewrite ?Nv; try lia; try lra; try apply vok_be. }
  assert (RO : room_ok (wnv ex_w) (lx_nc bX) bT).
  { rewrite Nv. constructor; try apply vok_be; try apply vok_be0; cbn; try lia; try apply vok_be0; try apply vok_be. }
  assert (DR : dir_room (wnv ex_w) bX (mkdirn be 0 be0 be)).
  { rewrite Nv. split; [apply vok_be|]. split; [apply vok_be0|apply vok_be]. }
  destruct (working_step_real ex_w bX bjac bJ _ bT CX bset_ok HJ HM RO ltac:(cbn; lra) ltac:(cbn; lra)) as (T & a & E & S).
  assert (Vb : vok (wnv ex_w) be) by (rewrite Nv; apply vok_be).
  destruct (C69_direction ex_w bX bjac bJ (fun x i => 2 * x i) _ bsolve _ bT T be be be be (mkdirn be 0 be0 be) CX bset_ok HJ HM RO
    ltac:(cbn; lra) ltac:(cbn; lra) E HH HT ltac:(cbn; lia) Vb ltac:(cbn; lia) Vb DR) as (d' & z & _ & D1 & D2 & D3 & D4 & D5 & Dok).
  rewrite Nv in D2.
  assert (Er : newton_direction bX bjac (ex_hess (2 : @num RN)) bsolve T be be be be (mkdirn be 0 be0 be) = Ok d').
  { apply Dok. intros q Hq. rewrite Nv in Hq |- *.
    assert (D3' : forall x y, dotd 3 x y = x 0%Z * y 0%Z + x 1%Z * y 1%Z + x 2%Z * y 2%Z).
    { intros x y. unfold dotd, sumd. change (Z.to_nat 3) with 3%nat. cbn [rsum].
      change (Z.of_nat 0) with 0%Z. change (Z.of_nat 1) with 1%Z. change (Z.of_nat 2) with 2%Z. lra. }
    unfold total_viol. change (lx_nc bX) with 0%Z. unfold sumd. cbn [Z.to_nat rsum]. rewrite !D3'. rewrite D3' in Hq.
    change (lx_radius bX) with 10 in Hq. change (lx_obj bX) with 0. change (lx_pen bX) with 1.
    change (dense (lx_grad bX) 0%Z) with 1. change (dense (lx_grad bX) 1%Z) with (-4). change (dense (lx_grad bX) 2%Z) with 1.
    assert (P : 1000 <= 10 ^ 99).
    { change 99%nat with (3 + 96)%nat. rewrite pow_add. assert (1 <= 10 ^ 96) by (apply pow_R1_Rle; lra). cbn [pow] in *. lra. }
    set (B := 10 ^ 99) in *. clearbody B. pose proof (Rle_0_sqr (q 0%Z + 1)) as S0. pose proof (Rle_0_sqr (q 0%Z - 1)) as S1.
    pose proof (Rle_0_sqr (q 1%Z + 2)) as S2. pose proof (Rle_0_sqr (q 1%Z - 2)) as S3.
    pose proof (Rle_0_sqr (q 2%Z + 1)) as S4. pose proof (Rle_0_sqr (q 2%Z - 1)) as S5. unfold Rsqr in *.
    apply Rabs_def1; rnum; lra. }
  exists T, d', z. rewrite <- Nv. split; [exact E|]. split; [exact Er|].
  assert (Vz : z 0%Z = 0 /\ z 2%Z = 0).
  { destruct D3 as [D3 _]. rewrite Nv in D3. split; [apply (D3 0%Z 0%Z)|apply (D3 2%Z 1%Z)]; try lia; try discriminate; vm_compute; reflexivity. }
  pose proof (sr_shrinks _ _ _ _ _ S) as [Sh _]. cbv zeta in Sh. rewrite Nv in Sh.
  assert (A0 := Sh 0%Z ActLower ltac:(lia) eq_refl ltac:(discriminate)). assert (A2 := Sh 2%Z ActUpper ltac:(lia) eq_refl ltac:(discriminate)).
  cbn in A0, A2. unfold rn_lit in A0, A2.
  assert (D3' : forall x y, dotd 3 x y = x 0%Z * y 0%Z + x 1%Z * y 1%Z + x 2%Z * y 2%Z).
  { intros x y. unfold dotd, sumd. change (Z.to_nat 3) with 3%nat. cbn [rsum].
    change (Z.of_nat 0) with 0%Z. change (Z.of_nat 1) with 1%Z. change (Z.of_nat 2) with 2%Z. lra. }
  pose proof (sr_cut _ _ _ _ _ S) as Hc. pose proof (sr_normal _ _ _ _ _ S (fun j => if (j =? 1)%Z then 1 else 0)) as Hn.
  pose proof (sr_a _ _ _ _ _ S) as Ha. pose proof (proj1 (sr_in _ _ _ _ _ S)) as Hi.
  assert (D2' := D2). set (p := dense (d_primal (t_dir T))) in *.
  rewrite Nv, D3' in Hc, Hn. change (lx_radius bX) with 10 in Hc. cbn [Z.eqb Pos.eqb] in Hn.
  assert (P1 : p 1%Z = 0).
  { assert (Hz : in_null ex_w bJ (fun j => if (j =? 1)%Z then 1 else 0)).
    { apply (box_null ex_w bJ _ C Nc). intros j Hj. rewrite Nv in Hj. assert (j = 0 \/ j = 1 \/ j = 2)%Z as [-> | [-> | ->]] by lia; reflexivity. }
    specialize (Hn Hz). rnum. lra. }
  assert (A : a = 1).
  { destruct (t_in T); [now apply Hi|]. specialize (Hc eq_refl). rewrite P1 in Hc.
    assert (Q0 : p 0%Z = - a) by lra. assert (Q2 : p 2%Z = a) by lra. rewrite Q0, Q2 in Hc. rnum. nra. }
  split; [rewrite D2 by lia; rnum; lra|]. split; [rewrite D2 by lia; rnum; lra|]. rewrite Nv. split; [exact D2'|].
  pose proof (C69_descent ex_w bX bjac bJ (fun x i => 2 * x i) _ bsolve _ bT T be be be be (mkdirn be 0 be0 be) d' CX bset_ok HJ HM RO
    ltac:(cbn; lra) ltac:(cbn; lra) E HH HL HS HT ltac:(cbn; lia) Vb ltac:(cbn; lia) Vb DR Er) as Q. rewrite Nv in Q. apply Q.
  intros i Hi'. change (lx_nc bX) with 0%Z in Hi'. lia.
Qed.

(** A constraint that is satisfied at the start and not in the working set is not seen by the
    trust region solver: the Newton direction can be worse than the step to the working set. *)
Definition nX : @lctx F64 :=
  mklctx 1 (ve 1 [(0%Z, (-9)%Z)]) (ve 1 [(0%Z, 1%Z)]) (ve 1 [(0%Z, (-9)%Z)]) (ve 1 [(0%Z, 9%Z)]) (ve 1 []) (fz 0) (ve 1 [(0%Z, (-1)%Z)])
    (ve 1 []) (fz 10) (fz 5) (nlit 1 10000000000) (fz 0) (fz 0) (fz 0) (fz 0).
Definition nT : @wstep F64 :=
  mkwstep (ve 1 []) (ve 1 []) (ve 0 []) (mkvec 1 1 []) (mkdirn (mkvec 1 1 []) (fz 0) (mkvec 1 1 []) (mkvec 1 1 [])) (mkvec 1 1 []) (mkvec 1 1 []) (fz 0) false.
Definition njac : @mat F64 := mkmat 1 1 1 1 [0%Z; 1%Z] [(0%Z, fz 1)].
Definition fe1 : @vec F64 := mkvec 1 1 [].
Definition ncg : @cg F64 := mkcg fe1 fe1 fe1 fe1 fe1 fe1 (fz 0) (fz 0) (fz 0) (fz 0).
Definition nsolve (g step : @vec F64) (rad : f64) : res (@vec F64 * f64 * f64) :=
  r <- steihaug 4 (ex_hess (nlit 1 10 : @num F64)) (fun v t => vec_copy v t) g step (fz 0) rad (nlit 1 1000000) 100 (nlit (-1) 1 : @num F64) (fun _ => fz 0) ncg ;;
  let '(p, _, s') := r in Ok (p, cmin s', cmax s').
Definition nmerit (d : @dirn F64) : res f64 :=
  merit_quadratic (lx_nc nX) (lx_obj nX) (d_obj d) (lx_cons nX) (d_cons d) (lx_clb nX) (lx_cub nX) (d_primal d) (d_hess d) (lx_zero nX) (lx_pen nX) fe1.
Theorem C69_descent_refuted : exists T d' (m m' : f64),
  working_step nX njac (ws_create 1 1) (fun _ sol => Ok (vec_clear sol)) nT = Ok T
  /\ newton_direction nX njac (ex_hess (nlit 1 10 : @num F64)) nsolve T fe1 fe1 fe1 fe1 (mkdirn fe1 (fz 0) fe1 fe1) = Ok d'
  /\ nmerit (t_dir T) = Ok m /\ nmerit d' = Ok m' /\ nltb m m' = true.
Proof.
  assert (H : match working_step nX njac (ws_create 1 1) (fun _ sol => Ok (vec_clear sol)) nT with
    | Ok T => match newton_direction nX njac (ex_hess (nlit 1 10 : @num F64)) nsolve T fe1 fe1 fe1 fe1 (mkdirn fe1 (fz 0) fe1 fe1) with
      | Ok d' => match nmerit (t_dir T), nmerit d' with Ok m, Ok m' => nltb m m' | _, _ => false end | _ => false end | _ => false end = true)
    by (vm_compute; reflexivity).
  destruct (working_step nX njac _ _ _) as [T| |]; [|discriminate..].
  destruct (newton_direction _ _ _ _ _ _ _ _ _ _) as [d'| |] eqn:E0; [|discriminate..].
  destruct (nmerit (t_dir T)) as [m| |] eqn:E1; [|discriminate..]. destruct (nmerit d') as [m'| |] eqn:E2; [|discriminate..].
  exists T, d', m, m'. repeat split; auto.
Qed.
Print Assumptions C69_descent_refuted.

(** ** C70: the second-order correction *)

(** The correction cancels the distances of the trial point to the bounds of the working set,
    linearised; distances up to the accuracy are ignored unless both bounds are active.  It is
    the shortest such step.  It is cut so that the components that can move stay within the
    variable bounds. *)
Theorem C70_step : forall w (X : @lctx RN) J min_norm (step tx tc : rvec) (S : @soc RN) (r : rvec),
  ctx_ok (wnv w) X -> set_ok w X -> min_norm_ok w J min_norm -> both_equal w X ->
  vok (wnv w) tx -> vok (lx_nc X) tc ->
  (forall j, (0 <= j < wnv w)%Z -> dense (lx_vlb X) j <= dense tx j <= dense (lx_vub X) j) ->
  soc_room (wnv w) S -> vok (wnv w) step -> (0 <= vcap r)%Z ->
  exists r' S' a, soc_step X (wnv w) w min_norm step tx tc S r = Ok (r', S')
    /\ let d := dense (o_dir S') in
       corrects w X J (dense tx) (dense tc) d
    /\ (forall q, fits w J (fun j => q j - d j) zerof -> dotd (wnv w) d d <= dotd (wnv w) q q)
    /\ length_ok w X tx d a
    /\ forall j, dense r' j = dense step j + a * d j.
Proof.
  intros w X J f step tx tc S r CX SO HM HB Vx Vc Hbox HS Vs Hr.
  destruct (soc_step_real w X J f CX SO HM HB tx tc Vx Vc Hbox step S r HS Vs Hr) as (r' & S' & a & E & V & _ & C & Hn & L & D).
  exists r', S', a. split; [exact E|]. cbv zeta. split; [exact C|]. split; [|split; [exact L|]].
  - intros q Hq. set (p := dense (o_dir S')) in *. specialize (Hn _ Hq).
    assert (Eq : dotd (wnv w) q q = dotd (wnv w) p p + 2 * dotd (wnv w) p (fun j => q j - p j)
                  + dotd (wnv w) (fun j => q j - p j) (fun j => q j - p j)).
    { unfold dotd. rewrite <- sumd_scal, <- !sumd_plus. apply sumd_ext. intros j _. ring. }
    rewrite Eq, Hn. pose proof (dotd_nonneg (wnv w) (fun j => q j - p j)). lra.
  - intros j. rewrite D. unfold lc. rnum. lra.
Qed.
Print Assumptions C70_step.

(** If all distances count, the correction multiplies those of the linearised working set by
    one minus the step length; a full correction meets the bounds. *)
Definition counts (w : wset) (X : @lctx RN) (x c : Z -> R) : Prop :=
  (forall j s, (0 <= j < wnv w)%Z -> ws_var_state w j = Ok s -> s = ActLower \/ s = ActUpper ->
     lx_eps X < Rabs (bound_of s (dense (lx_vlb X) j) (dense (lx_vub X) j) - x j))
  /\ (forall i s, (0 <= i < wnc w)%Z -> ws_cons_state w i = Ok s -> s = ActLower \/ s = ActUpper ->
     lx_eps X < Rabs (bound_of s (dense (lx_clb X) i) (dense (lx_cub X) i) - c i)).
Theorem C70_shrinks : forall w (X : @lctx RN) jac J min_norm (step tx tc : rvec) (S S' : @soc RN) (r r' : rvec),
  ctx_ok (wnv w) X -> set_ok w X -> jac_is (wnv w) (lx_nc X) jac J -> min_norm_ok w J min_norm -> both_equal w X ->
  vok (wnv w) tx -> vok (lx_nc X) tc ->
  (forall j, (0 <= j < wnv w)%Z -> dense (lx_vlb X) j <= dense tx j <= dense (lx_vub X) j) ->
  soc_room (wnv w) S -> vok (wnv w) step -> (0 <= vcap r)%Z -> counts w X (dense tx) (dense tc) ->
  soc_step X (wnv w) w min_norm step tx tc S r = Ok (r', S') ->
  let e := fun j => dense r' j - dense step j in
  exists a, 0 < a <= 1
    /\ shrinks w X (dense tx) (dense tc) (fun j => dense tx j + e j) (fun i => dense tc i + J e i) (1 - a)
    /\ (a = 1 \/ exists j, (0 <= j < wnv w)%Z /\
         (0 < e j /\ dense tx j + e j = dense (lx_vub X) j \/ e j < 0 /\ dense tx j + e j = dense (lx_vlb X) j)).
Proof.
  intros w X jac J f step tx tc S S' r r' CX SO HJ HM HB Vx Vc Hbox HS Vs Hr [K1 K2] E e.
  destruct (C70_step w X J f step tx tc S r CX SO HM HB Vx Vc Hbox HS Vs Hr) as (r1 & S1 & a & E1 & [C1 C2] & _ & (A & _ & L) & D).
  rewrite E in E1. injection E1 as <- <-. set (d := dense (o_dir S')) in *.
  assert (Ee : forall j, e j = a * d j) by (intros j; unfold e; rewrite D; ring).
  assert (EJ : forall i, J e i = a * J d i).
  { intros i. destruct HJ as (cs & _ & _ & _ & HJ). rewrite !HJ, <- sumd_scal. apply sumd_ext. intros j Hj. rewrite Ee. ring. }
  exists a. split; [exact A|]. split; [split|].
  - intros j s Hj Es Hs. cbv zeta. rewrite Ee. destruct (C1 j s Hj Es Hs) as [Q _].
    rewrite Q; [ring|]. destruct s; try (now left); try congruence; right; apply (K1 j _ Hj Es); auto.
  - intros i s Hi Es Hs. cbv zeta. rewrite EJ. destruct (C2 i s Hi Es Hs) as [Q _].
    rewrite Q; [ring|]. destruct s; try (now left); try congruence; right; apply (K2 i _ Hi Es); auto.
  - destruct L as [L|(j & Hj & L)]; [now left|]. right. exists j. split; [exact Hj|]. rewrite Ee.
    destruct L as [[L1 L2]|[L1 L2]]; [left|right]; (split; [|exact L2]).
    + apply Rmult_lt_0_compat; lra.
    + assert (0 < a * - d j) by (apply Rmult_lt_0_compat; lra). lra.
Qed.
Print Assumptions C70_shrinks.

(** The trial iterate of the static variant: the iterate plus the corrected step, clipped to the
    variable bounds. *)
Theorem C70_static : forall w (X : @lctx RN) J min_norm (step tx tc cache : rvec) (S : @soc RN) (d : @dirn RN),
  ctx_ok (wnv w) X -> set_ok w X -> min_norm_ok w J min_norm -> both_equal w X ->
  vok (wnv w) tx -> vok (lx_nc X) tc ->
  (forall j, (0 <= j < wnv w)%Z -> dense (lx_vlb X) j <= dense tx j <= dense (lx_vub X) j) ->
  soc_room (wnv w) S -> vok (wnv w) step -> (0 <= vcap (d_primal d))%Z -> (0 <= vcap cache)%Z ->
  exists tx' d' S', soc_static X (wnv w) w min_norm step tx tc S cache d = Ok (tx', d')
    /\ soc_step X (wnv w) w min_norm step tx tc S (d_primal d) = Ok (d_primal d', S')
    /\ vok (wnv w) tx'
    /\ forall j, (0 <= j < wnv w)%Z ->
       dense (lx_vlb X) j <= dense tx' j <= dense (lx_vub X) j
       /\ (let y := dense (lx_x X) j + dense (d_primal d') j in
           (dense (lx_vlb X) j <= y <= dense (lx_vub X) j -> dense tx' j = y)
           /\ (y < dense (lx_vlb X) j -> dense tx' j = dense (lx_vlb X) j)
           /\ (dense (lx_vub X) j < y -> dense tx' j = dense (lx_vub X) j)).
Proof.
  intros w X J f step tx tc cache S d CX SO HM HB Vx Vc Hbox HS Vs Hr Hc.
  destruct (soc_step_real w X J f CX SO HM HB tx tc Vx Vc Hbox step S (d_primal d) HS Vs Hr) as (r' & S' & a & E & V & _).
  assert (Hle : forall j, (0 <= j < wnv w)%Z -> dense (lx_vlb X) j <= dense (lx_vub X) j) by (intros j Hj; specialize (Hbox j Hj); rnum; lra).
  destruct (trial_iterate_real w X CX r' cache tx V Hc Vx Hle) as (p & Ep & Vp & Dp).
  unfold soc_static. rewrite E. cbn [rbind]. rewrite Ep. cbn [rbind].
  eexists p, _, S'. split; [reflexivity|]. split; [reflexivity|]. split; [exact Vp|]. cbn [d_primal].
  intros j Hj. specialize (Hle j Hj). rewrite (Dp j Hj). set (y := dense (lx_x X) j + dense r' j). cbv zeta. fold y.
  set (l := dense (lx_vlb X) j) in *. set (u := dense (lx_vub X) j) in *. unfold Rmax, Rmin. cbn in y, l, u. clearbody y l u.
  repeat destruct (Rle_dec _ _); repeat split; intros; try lra.
Qed.
Print Assumptions C70_static.

(** Example: the constraint x0 + x1 <= 2 of C68 after a step that misses it. *)
Definition cS : @soc RN := mksoc ce ce ce ce ce1.
Example C70_example : exists tx' d', soc_static (cX 5 1 0 0 0) 2 cw half_norm (c2 2 2) (c2 2 2) (cv 4) cS ce (mkdirn ce 0 ce1 ce) = Ok (tx', d')
  /\ dense tx' 0 = 1 /\ dense tx' 1 = 1.
Proof.
  set (X := cX 5 1 0 0 0). assert (CX : ctx_ok 2 X) by (apply cX_ok; lra). pose proof (cw_ok X eq_refl) as SO.
  assert (HB : both_equal cw X).
  { split.
    - intros j Hj Es. change (wnv cw) with 2%Z in Hj. assert (j = 0 \/ j = 1)%Z as [-> | ->] by lia; discriminate.
    - intros i Hi Es. change (wnc cw) with 1%Z in Hi. assert (i = 0)%Z as -> by lia. discriminate. }
  assert (Hbox : forall j, (0 <= j < 2)%Z -> dense (lx_vlb X) j <= dense (c2 2 2) j <= dense (lx_vub X) j).
  { intros j Hj. assert (j = 0 \/ j = 1)%Z as [-> | ->] by lia; cbn; lra. }
  assert (HS : soc_room 2 cS) by (constructor; try apply vok_ce; try apply vok_ce1; cbn; lia).
  destruct (C70_static cw X cJ half_norm (c2 2 2) (c2 2 2) (cv 4) ce cS (mkdirn ce 0 ce1 ce) CX SO half_norm_ok HB (vok_c2 2 2) (vok_cv 4) Hbox HS (vok_c2 2 2))
    as (tx' & d' & S' & E & E' & _ & Q); [cbn; lia|cbn; lia|].
  destruct (C70_step cw X cJ half_norm (c2 2 2) (c2 2 2) (cv 4) cS ce CX SO half_norm_ok HB (vok_c2 2 2) (vok_cv 4) Hbox HS (vok_c2 2 2))
    as (r1 & S1 & a & E1 & [_ C2] & Hmin & (Ha & _ & L) & D); [cbn; lia|].
  change (wnv cw) with 2%Z in E1, E'. cbn [d_primal] in E'. rewrite E' in E1. injection E1 as <- <-.
  set (d := dense (o_dir S')) in *. cbv zeta in Hmin.
  specialize (C2 0%Z ActUpper ltac:(vm_compute; split; congruence) eq_refl ltac:(discriminate)).
  assert (Hd : d 0%Z + d 1%Z = -2).
  { destruct C2 as [C2 _]. rewrite cJ0 in C2. cbn in C2. rewrite C2; [lra|]. right. rewrite Rabs_left; lra. }
  assert (Hq : dotd 2 d d <= dotd 2 (fun _ => -1) (fun _ => -1)) by (apply Hmin; apply cw_in; unfold zerof; lra).
  rewrite !dot2 in Hq. assert (D01 : (d 0%Z - d 1%Z) * (d 0%Z - d 1%Z) <= 0) by nra. assert (D0 : d 0%Z = -1) by nra. assert (D1 : d 1%Z = -1) by lra.
  assert (A : a = 1).
  { destruct L as [|(j & Hj & L)]; [auto|]. change (wnv cw) with 2%Z in Hj.
    assert (j = 0 \/ j = 1)%Z as [-> | ->] by lia; rewrite ?D0, ?D1 in L; cbn in L; lra. }
  exists tx', d'. change (wnv cw) with 2%Z in E. split; [exact E|].
  assert (Y0 : dense (d_primal d') 0 = 1) by (rewrite D, D0, A; cbn; lra).
  assert (Y1 : dense (d_primal d') 1 = 1) by (rewrite D, D1, A; cbn; lra).
  split.
  - destruct (Q 0%Z) as [_ [Q0 _]]; [change (wnv cw) with 2%Z; lia|]. cbv zeta in Q0. rewrite Y0 in Q0. cbn in Q0. rewrite Q0; lra.
  - destruct (Q 1%Z) as [_ [Q1 _]]; [change (wnv cw) with 2%Z; lia|]. cbv zeta in Q1. rewrite Y1 in Q1. cbn in Q1. rewrite Q1; lra.
Qed.

(** The variant for dynamic functions computes the corrected direction and the decision to
    reject, but leaves the trial iterate as it is. *)
Theorem C70_dynamic_unchanged {N : Num} : forall X nv w jac min_norm hess quadratic accepted merit estimate step tx tc S cache d tx' d' rej,
  soc_dynamic X nv w jac min_norm hess quadratic accepted merit estimate step tx tc S cache d = Ok (tx', d', rej) -> tx' = tx.
Proof.
  intros X nv w jac f hess qu acc me es step tx tc S cache d tx' d' rej E. unfold soc_dynamic in E.
  destruct (soc_step _ _ _ _ _ _ _ _ _) as [[p S']| |]; cbn [rbind] in E; try discriminate.
  destruct (dir_reset _ _ _ _) as [d1| |]; cbn [rbind] in E; try discriminate.
  destruct (if qu then _ else _) as [m| |]; cbn [rbind] in E; try discriminate. now injection E.
Qed.
Print Assumptions C70_dynamic_unchanged.

(** Both variants on the same data: the static one moves the trial point onto the constraint
    x0 + x1 <= 2, the dynamic one accepts with the trial point where it was. *)
Definition dX : @lctx F64 :=
  mklctx 1 (ve 1 [(0%Z, (-9)%Z)]) (ve 1 [(0%Z, 2%Z)]) (ve 2 [(0%Z, (-9)%Z); (1%Z, (-9)%Z)]) (ve 2 [(0%Z, 9%Z); (1%Z, 9%Z)]) (ve 2 []) (fz 0)
    (ve 2 [(0%Z, (-1)%Z); (1%Z, (-1)%Z)]) (ve 1 []) (fz 10) (fz 5) (nlit 1 10000000000) (fz 0) (fz 0) (fz 0) (fz 0).
Definition fe2 : @vec F64 := mkvec 2 2 [].
Definition dS : @soc F64 := mksoc fe2 fe2 fe2 fe2 fe1.
Definition dd : @dirn F64 := mkdirn fe2 (fz 0) fe1 fe2.
Definition zero_hess {N : Num} (v t : vec) : res vec := Ok (vec_clear t).
Definition is_at (v : @vec F64) (a b : Z) : bool :=
  match v with mkvec _ _ es => match es with [(_, x); (_, y)] => (x =? fz a)%num && (y =? fz b)%num | _ => false end end.
Theorem C70_dynamic_refuted : exists t1 d1 t2 d2,
  soc_static dX 2 cw half_norm (ve 2 [(0%Z, 2%Z); (1%Z, 2%Z)]) (ve 2 [(0%Z, 2%Z); (1%Z, 2%Z)]) (ve 1 [(0%Z, 4%Z)]) dS fe2 dd = Ok (t1, d1)
  /\ soc_dynamic dX 2 cw cjac half_norm zero_hess true (nlit 1 100000000) (fz 0) (fz 0)
       (ve 2 [(0%Z, 2%Z); (1%Z, 2%Z)]) (ve 2 [(0%Z, 2%Z); (1%Z, 2%Z)]) (ve 1 [(0%Z, 4%Z)]) dS fe1 dd = Ok (t2, d2, false)
  /\ is_at (d_primal d1) 1 1 = true /\ is_at (d_primal d2) 1 1 = true /\ is_at t1 1 1 = true /\ is_at t2 2 2 = true.
Proof.
  match goal with |- exists t1 d1 t2 d2, ?A = _ /\ ?B = _ /\ _ => set (a := A); set (b := B) end.
  assert (H : match a, b with Ok (t1, d1), Ok (t2, d2, rej) =>
    negb rej && (is_at (d_primal d1) 1 1 && is_at (d_primal d2) 1 1 && is_at t1 1 1 && is_at t2 2 2) | _, _ => false end = true) by (vm_compute; reflexivity).
  clearbody a b. destruct a as [[t1 d1]| |]; [|discriminate..]. destruct b as [[[t2 d2] [|]]| |]; try discriminate.
  exists t1, d1, t2, d2. cbn [negb andb] in H. repeat (apply andb_true_iff in H as [H ?]). repeat split; auto.
Qed.
Print Assumptions C70_dynamic_refuted.

(** A component at its bound that the correction pushes outside does not shorten the step: the
    corrected point is outside of the bounds (the function is not called in the library; the
    static variant clips). *)
Definition oX : @lctx F64 :=
  mklctx 1 (ve 1 [(0%Z, (-9)%Z)]) (ve 1 [(0%Z, 4%Z)]) (ve 2 [(0%Z, (-9)%Z); (1%Z, (-9)%Z)]) (ve 2 [(0%Z, 1%Z); (1%Z, 9%Z)]) (ve 2 []) (fz 0)
    (ve 2 [(0%Z, (-1)%Z); (1%Z, (-1)%Z)]) (ve 1 []) (fz 10) (fz 5) (nlit 1 10000000000) (fz 0) (fz 0) (fz 0) (fz 0).
Theorem C70_bounds_refuted : exists r n S',
  soc_trial_point oX 2 cw half_norm (ve 2 [(0%Z, 1%Z); (1%Z, 1%Z)]) (ve 2 [(0%Z, 1%Z); (1%Z, 1%Z)]) (ve 1 [(0%Z, 2%Z)]) dS fe2 = Ok (r, n, S')
  /\ is_at r 2 2 = true.
Proof.
  match goal with |- exists r n S', ?A = _ /\ _ => set (a := A) end.
  assert (H : match a with Ok (r, _, _) => is_at r 2 2 | _ => false end = true) by (vm_compute; reflexivity).
  clearbody a. destruct a as [[[r n] S']| |]; [|discriminate..]. exists r, n, S'. auto.
Qed.
Print Assumptions C70_bounds_refuted.

(** ** C71: the refinement of dynamic functions *)

(** When the loop ends regularly, the error of the function is at most 0.4 times the accepted
    fraction of the predicted reduction; every property that a refinement keeps still holds. *)
Theorem C71_exit : forall (A : Type) fuel (accepted : R) (estimate value model : A -> R) (refine : R -> A -> res A) (s s' : A) (P : A -> Prop),
  P s -> (forall b t t', P t -> b < estimate t -> refine b t = Ok t' -> P t') ->
  @refine_step RN A fuel accepted estimate value model refine s = Some (Ok s') ->
  P s' /\ estimate s' <= 4 / 10 * accepted * (value s' - model s').
Proof.
  intros A fuel acc es va mo re s s' P. revert s. induction fuel as [|fuel IH]; intros s Hs Hre E; cbn [refine_step] in E; [discriminate|].
  set (b := required_error _ _) in E. assert (Eb : b = 4 / 10 * acc * (va s - mo s)) by (unfold b, required_error; rnum; reflexivity).
  destruct (@nleb RN _ _) eqn:Et.
  - injection E as <-. apply rn_leb in Et. rewrite Eb in Et. auto.
  - apply rn_leb_false in Et. destruct (re b s) as [t| |] eqn:Er; try discriminate. apply (IH t); auto. apply (Hre b s t); auto.
Qed.
Print Assumptions C71_exit.

(** If the values of the iterate and of the trial point are known up to that error, a step that
    the evaluated values accept reduces the true value by a fifth of the accepted fraction of the
    predicted reduction, which is not negative. *)
Theorem C71_reduction : forall (A : Type) fuel (accepted : R) (estimate value model : A -> R) (refine : R -> A -> res A) (s s' : A) (trial f f' : R),
  0 < accepted -> 0 <= estimate s -> (forall b t t', refine b t = Ok t' -> 0 <= estimate t') ->
  @refine_step RN A fuel accepted estimate value model refine s = Some (Ok s') ->
  Rabs (value s' - f) <= estimate s' -> Rabs (trial - f') <= estimate s' ->
  accepted * (value s' - model s') <= value s' - trial ->
  0 <= value s' - model s' /\ accepted / 5 * (value s' - model s') <= f - f'.
Proof.
  intros A fuel acc es va mo re s s' tr f f' Ha H0 Hre E H1 H2 H3.
  destruct (C71_exit A fuel acc es va mo re s s' (fun t => 0 <= es t) H0 (fun b t t' _ _ => Hre b t t') E) as [P Q].
  assert (Hm : 0 <= va s' - mo s').
  { destruct (Rle_lt_dec 0 (va s' - mo s')); [lra|]. assert (0 < acc * - (va s' - mo s')) by (apply Rmult_lt_0_compat; lra). lra. }
  split; [exact Hm|]. unfold Rabs in *. repeat destruct (Rcase_abs _); lra.
Qed.
Print Assumptions C71_reduction.

(** The contract of dyn.c:124-136: the new error is between zero and the bound. *)
Definition meets {A : Type} (estimate : A -> R) (refine : R -> A -> res A) : Prop :=
  forall b t t', refine b t = Ok t' -> 0 <= estimate t' <= b.

(** If all refinements leave a margin below the bound and the predicted reduction does not
    vanish, the loop ends. *)
Theorem C71_ends_partial : forall (A : Type) (accepted theta delta : R) (estimate value model : A -> R) (refine : R -> A -> res A) (s : A),
  0 < accepted -> 0 < theta < 1 -> 0 < delta ->
  (forall b t t', refine b t = Ok t' -> estimate t' <= theta * b) ->
  (forall t, delta <= value t - model t) ->
  exists fuel, @refine_step RN A fuel accepted estimate value model refine s <> None.
Proof.
  intros A acc th de es va mo re s Ha Hth Hde Hre Hm.
  set (c := 4 / 10 * acc * de). assert (Hc : 0 < c) by (unfold c; repeat apply Rmult_lt_0_compat; lra).
  assert (Hb : forall t, c <= @required_error RN acc (@nsub RN (va t) (mo t))).
  { intros t. assert (Eb : @required_error RN acc (@nsub RN (va t) (mo t)) = 4 / 10 * acc * (va t - mo t)) by (unfold required_error; rnum; reflexivity).
    rewrite Eb. unfold c. specialize (Hm t). assert (0 <= acc * (va t - mo t - de)) by (apply Rmult_le_pos; lra). lra. }
  assert (Main : forall fuel t, es t * th ^ fuel <= c -> @refine_step RN A (S fuel) acc es va mo re t <> None).
  { induction fuel as [|fuel IH]; intros t Ht.
    - cbn [refine_step]. cbn in Ht. destruct (@nleb RN _ _) eqn:Et; [discriminate|]. apply rn_leb_false in Et. specialize (Hb t). rnum. lra.
    - cbn [refine_step]. destruct (@nleb RN _ _) eqn:Et; [discriminate|]. apply rn_leb_false in Et.
      set (b := required_error _ _) in *. destruct (re b t) as [t'| |] eqn:Er; try discriminate.
      change (@refine_step RN A (S fuel) acc es va mo re t' <> None). apply IH.
      specialize (Hre b t t' Er). assert (0 < th ^ fuel) by (apply pow_lt; lra). cbn [pow] in Ht.
      assert (es t' * th ^ fuel <= th * es t * th ^ fuel) by (apply Rmult_le_compat_r; [lra|]; nra). lra. }
  destruct (Rle_lt_dec (es s) 0) as [Hs|Hs].
  - exists 1%nat. apply Main. rewrite pow_O. lra.
  - destruct (pow_lt_1_zero th ltac:(rewrite Rabs_pos_eq; lra) (c / es s) ltac:(apply Rdiv_lt_0_compat; lra)) as (k & Hk).
    exists (S k). apply Main. specialize (Hk k ltac:(lia)). rewrite Rabs_pos_eq in Hk by (apply pow_le; lra).
    apply (Rmult_lt_compat_l (es s)) in Hk; [|lra]. replace (es s * (c / es s)) with c in Hk by (field; lra). lra.
Qed.
Print Assumptions C71_ends_partial.

(** Meeting the bound is not enough: the predicted reduction may fall along with the error, even
    when it stays above 1, and the loop runs forever. *)
Theorem C71_ends_refuted : exists (estimate value model : nat -> R) (refine : R -> nat -> res nat),
  meets estimate refine /\ (forall k, 1 <= value k - model k)
  /\ forall fuel, @refine_step RN nat fuel 1 estimate value model refine 0%nat = None.
Proof.
  set (m := fun k => 1 + / INR (S k)).
  set (es := fun k => match k with O => 1 | S j => 4 / 10 * m j end).
  set (re := fun (b : R) k => if Rle_dec (es (S k)) b then Ok (S k) else Err EInternal).
  assert (P : forall k, 0 < / INR (S k)) by (intros; apply Rinv_0_lt_compat, lt_0_INR; lia).
  assert (Dec : forall k, m (S k) < m k).
  { intros k. unfold m. apply Rplus_lt_compat_l, Rinv_lt_contravar; [apply Rmult_lt_0_compat; apply lt_0_INR; lia|apply lt_INR; lia]. }
  exists es, m, (fun _ => 0), re. split; [|split].
  - intros b t t' E. unfold re in E. destruct (Rle_dec _ _); [|discriminate]. injection E as <-. split; [|auto].
    cbn [es]. unfold m. specialize (P t). lra.
  - intros k. unfold m. specialize (P k). lra.
  - assert (Main : forall fuel k, @refine_step RN nat fuel 1 es m (fun _ => 0) re k = None).
    { induction fuel as [|fuel IH]; intros k; [reflexivity|]. cbn [refine_step].
      set (b := required_error _ _). assert (Eb : b = 4 / 10 * m k).
      { transitivity (4 / 10 * 1 * (m k - 0)); [unfold b, required_error; rnum; reflexivity|lra]. }
      destruct (@nleb RN _ _) eqn:Et.
      - exfalso. apply rn_leb in Et. rewrite Eb in Et. destruct k as [|k]; cbn [es] in Et.
        + unfold m in Et. cbn in Et. lra.
        + specialize (Dec k). lra.
      - assert (Er : re b k = Ok (S k)) by (unfold re; rewrite Eb; cbn [es]; destruct (Rle_dec _ _); [reflexivity|lra]).
        rewrite Er. apply IH. }
    intros fuel. apply Main.
Qed.
Print Assumptions C71_ends_refuted.

(** Without predicted reduction the demand cannot be met: a negative bound is handed to the
    function and the call fails, whatever the function returns; with a reduction of zero, only an
    exact function passes. *)
Theorem C71_no_reduction : forall (A : Type) fuel (accepted : R) (estimate value model : A -> R) (refine : R -> A -> res A) (s : A),
  0 < accepted -> meets estimate refine -> 0 <= estimate s ->
  (value s < model s -> forall s', @refine_step RN A fuel accepted estimate value model refine s <> Some (Ok s'))
  /\ (value s = model s -> 0 < estimate s ->
      @refine_step RN A 1 accepted estimate value model refine s <> Some (Ok s)
      /\ forall s', refine 0 s = Ok s' -> estimate s' = 0).
Proof.
  intros A fuel acc es va mo re s Ha Hre H0. split.
  - intros Hlt s' E. destruct fuel as [|fuel]; cbn [refine_step] in E; [discriminate|].
    set (b := required_error _ _) in E.
    assert (Eb : b < 0).
    { replace b with (4 / 10 * acc * (va s - mo s)) by (unfold b, required_error; rnum; reflexivity).
      assert (0 < acc * (mo s - va s)) by (apply Rmult_lt_0_compat; lra). lra. }
    destruct (@nleb RN _ _) eqn:Et; [apply rn_leb in Et; rnum; lra|]. destruct (re b s) as [t| |] eqn:Er; try discriminate.
    specialize (Hre b s t Er). lra.
  - intros Heq Hpos. split.
    + intros E. cbn [refine_step] in E. set (b := required_error _ _) in E.
      assert (Eb : b = 0).
      { replace b with (4 / 10 * acc * (va s - mo s)) by (unfold b, required_error; rnum; reflexivity). rewrite Heq. rnum. lra. }
      destruct (@nleb RN _ _) eqn:Et; [apply rn_leb in Et; rnum; lra|]. destruct (re b s); discriminate.
    + intros s' Er. specialize (Hre 0 s s' Er). lra.
Qed.
Print Assumptions C71_no_reduction.

(** Example: the error is halved below the bound; one refinement is enough. *)
Example C71_example : exists s', @refine_step RN (R * R) 2 (/ 2) fst (fun s => 1) snd (fun b _ => Ok (b / 2, 0)) (10, 0) = Some (Ok s')
  /\ fst s' <= 4 / 10 * / 2 * (1 - snd s').
Proof.
  exists (2 / 10 / 2, 0). split; [|cbn; lra]. cbn [refine_step fst snd].
  set (b := required_error _ _). assert (Eb : b = 2 / 10).
  { transitivity (4 / 10 * / 2 * (1 - 0)); [unfold b, required_error; rnum; reflexivity|lra]. } rewrite Eb.
  destruct (@nleb RN _ _) eqn:E1; [apply rn_leb in E1; rnum; lra|].
  destruct (@nleb RN (2 / 10 / 2) _) eqn:E2; [|apply rn_leb_false in E2; rnum; lra].
  reflexivity.
Qed.
