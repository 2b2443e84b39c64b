(** The line searches in exact arithmetic. *)
From Coq Require Import Reals Lra FunctionalExtensionality.
From Verif Require Import Base Num Cmp Sparse Vec VecFacts RSum VecReal WorkingSet Feas MeritFacts QnReal
  SteihaugFacts LineSearch FeasFacts Order OrdArith.
Local Open Scope R_scope.

(** [m] rows; only the values in range matter. *)
Definition linear_map (m : Z) (L : (Z -> R) -> Z -> R) : Prop :=
  forall a x b y i, (0 <= i < m)%Z -> L (lc a x b y) i = a * L x i + b * L y i.
Definition scaled (t : R) (x : Z -> R) : Z -> R := fun i => t * x i.

(** What is assumed of the data: [n] variables, bounds and values of matching lengths, lower
    bounds below upper bounds, a non-negative penalty, no filtering of small values. *)
Record ctx_ok (n : Z) (X : @lctx RN) : Prop := {
  cx_n : (0 <= n)%Z;
  cx_clb : vok (lx_nc X) (lx_clb X);
  cx_cub : vok (lx_nc X) (lx_cub X);
  cx_cle : forall i, (0 <= i < lx_nc X)%Z -> (dense (lx_clb X) i : R) <= dense (lx_cub X) i;
  cx_cons : vok (lx_nc X) (lx_cons X);
  cx_vlb : vok n (lx_vlb X);
  cx_vub : vok n (lx_vub X);
  cx_x : vok n (lx_x X);
  cx_grad : vok n (lx_grad X);
  cx_pen : 0 <= lx_pen X;
  cx_zero : lx_zero X = 0 }.

Record caches_ok (n nc : Z) (L : @lsd RN) : Prop := {
  ca_point : (0 <= vcap (l_point L))%Z;
  ca_cnj : (0 <= vcap (l_cnj L))%Z;
  ca_ccv : (0 <= vcap (l_ccv L))%Z;
  ca_viol : (0 <= vcap (l_viol L))%Z;
  ca_comb : (0 <= vcap (l_comb L))%Z;
  ca_cnd : (0 <= vcap (l_cnd L))%Z;
  ca_mult : vok nc (l_mult L) }.

Section Spec.
Variables (n : Z) (X : @lctx RN) (J H : (Z -> R) -> Z -> R).

(** Total violation of the linearised constraints at a step *)
Definition lviol (p : Z -> R) : R :=
  total_viol (lx_nc X) (lx_clb X) (lx_cub X) (fun i => dense (lx_cons X) i + J p i).
(** Linear and quadratic model of the merit function *)
Definition lmerit (p : Z -> R) : R := lx_obj X + dotd n (dense (lx_grad X)) p + lx_pen X * lviol p.
Definition qmerit (p : Z -> R) : R := lmerit p + / 2 * dotd n p (H p).

(** A direction with the products that belong to it *)
Record dir_ok (d : @dirn RN) : Prop := {
  do_p : vok n (d_primal d);
  do_c : vok (lx_nc X) (d_cons d);
  do_h : vok n (d_hess d);
  do_obj : d_obj d = dotd n (dense (lx_grad X)) (dense (d_primal d));
  do_cons : forall i, (0 <= i < lx_nc X)%Z -> (dense (d_cons d) i : R) = J (dense (d_primal d)) i;
  do_hess : forall i, (0 <= i < n)%Z -> (dense (d_hess d) i : R) = H (dense (d_primal d)) i }.
Definition dir_room (d : @dirn RN) : Prop :=
  vok n (d_primal d) /\ vok (lx_nc X) (d_cons d) /\ vok n (d_hess d).
End Spec.

Lemma vok_cap n (v : rvec) : vok n v -> (0 <= vcap v)%Z.
Proof. intros [W _]. now apply wf_cap. Qed.

Lemma total_viol_ext nc l u c c' : (forall i, (0 <= i < nc)%Z -> c i = c' i) -> total_viol nc l u c = total_viol nc l u c'.
Proof. intros E. apply sumd_ext. intros i Hi. now rewrite E. Qed.

Lemma dotd_eq n x y z : (forall i, (0 <= i < n)%Z -> y i = z i) -> dotd n x y = dotd n x z.
Proof. intros. apply dotd_ext; auto. Qed.

Lemma dense_clear (v : rvec) : dense (vec_clear v) = zerof.
Proof. apply functional_extensionality. intros i. unfold dense, zerof. cbn. unfold rn_lit. lra. Qed.

Lemma scaled_lc t x : scaled t x = lc t x 0 x.
Proof. apply functional_extensionality. intros i. unfold scaled, lc. ring. Qed.
Lemma dot_scaled_r n t x y : dotd n x (scaled t y) = t * dotd n x y.
Proof. rewrite scaled_lc, dot_lc_r. lra. Qed.
Lemma linear_scaled m L t x i : linear_map m L -> (0 <= i < m)%Z -> L (scaled t x) i = t * L x i.
Proof. intros HL Hi. rewrite scaled_lc, HL by auto. lra. Qed.
Lemma zerof_scaled x : zerof = scaled 0 x.
Proof. apply functional_extensionality. intros i. unfold scaled, zerof. ring. Qed.

Lemma half_rn : @lhalf RN = / 2. Proof. unfold lhalf. cbn. unfold rn_lit. lra. Qed.
Lemma minus1_rn : @nlit RN (-1) 1 = -1. Proof. cbn. unfold rn_lit. lra. Qed.

(** Convexity of the violation *)
Lemma rviol_convex t a b l u : 0 <= t <= 1 -> rviol ((1 - t) * a + t * b) l u <= (1 - t) * rviol a l u + t * rviol b l u.
Proof.
  intros Ht. unfold rviol.
  assert (A1 : 0 <= Rmax 0 (Rmax (a - u) (l - a))) by apply Rmax_l.
  assert (A2 : a - u <= Rmax 0 (Rmax (a - u) (l - a))) by (eapply Rle_trans; [|apply Rmax_r]; apply Rmax_l).
  assert (A3 : l - a <= Rmax 0 (Rmax (a - u) (l - a))) by (eapply Rle_trans; [|apply Rmax_r]; apply Rmax_r).
  assert (B1 : 0 <= Rmax 0 (Rmax (b - u) (l - b))) by apply Rmax_l.
  assert (B2 : b - u <= Rmax 0 (Rmax (b - u) (l - b))) by (eapply Rle_trans; [|apply Rmax_r]; apply Rmax_l).
  assert (B3 : l - b <= Rmax 0 (Rmax (b - u) (l - b))) by (eapply Rle_trans; [|apply Rmax_r]; apply Rmax_r).
  revert A1 A2 A3 B1 B2 B3. generalize (Rmax 0 (Rmax (a - u) (l - a))) (Rmax 0 (Rmax (b - u) (l - b))).
  intros p q A1 A2 A3 B1 B2 B3. repeat apply Rmax_lub; nra.
Qed.
Lemma total_viol_convex nc l u t c e : 0 <= t <= 1 ->
  total_viol nc l u (fun i => (1 - t) * c i + t * e i) <= (1 - t) * total_viol nc l u c + t * total_viol nc l u e.
Proof.
  intros Ht. unfold total_viol. rewrite <- !sumd_scal, <- sumd_plus. apply sumd_le. intros i Hi. now apply rviol_convex.
Qed.

Section Cauchy.
Variables (n : Z) (X : @lctx RN) (J H : (Z -> R) -> Z -> R) (d : @dirn RN).
Hypothesis CX : ctx_ok n X.
Hypothesis HJ : linear_map (lx_nc X) J.
Hypothesis HH : linear_map n H.
Hypothesis Hd : dir_ok n X J H d.
Notation D := (dense (d_primal d)).
Notation qm t := (qmerit n X J H (scaled t D)).
Notation lm t := (lmerit n X J (scaled t D)).
Notation nc := (lx_nc X).

Lemma viol_real (c : rvec) : vok nc c ->
  total_violation nc c (lx_clb X) (lx_cub X) = Ok (total_viol nc (lx_clb X) (lx_cub X) (dense c)).
Proof.
  intros [Wc Dc]. destruct CX as [_ [Wl Dl] [Wu Du] Hle _ _ _ _ _ _ _].
  now apply total_violation_real.
Qed.

(** The state of the loop belongs to the step length [t]. *)
Record cinv (t : R) (s : @cls RN) : Prop := {
  iv_cj : vok nc (s_cj s);
  iv_cjv : forall i, (0 <= i < nc)%Z -> (dense (s_cj s) i : R) = t * J D i;
  iv_comb : (0 <= vcap (s_comb s))%Z;
  iv_hp : s_hp s = t * t * dotd n D (H D);
  iv_od : s_od s = t * dotd n (dense (lx_grad X)) D;
  iv_delta : s_delta s = t }.

(** The test: the decrease of the quadratic model is at least the fraction [eta] of the
    decrease of the linear model. *)
Definition accept (t : R) : Prop :=
  lx_eta X * (qm 0 - lm t) <= qm 0 - qm t.

Lemma q0 : qm 0 = lm 0.
Proof.
  unfold qmerit. rewrite (dotd_sym n (scaled 0 D)). rewrite (dot_scaled_r n 0). lra.
Qed.
Lemma qm_val t : qm t = lm t + / 2 * (t * t * dotd n D (H D)).
Proof.
  unfold qmerit. f_equal. f_equal. rewrite (dotd_eq n _ _ (scaled t (H D))).
  - rewrite dot_scaled_r, dotd_sym, dot_scaled_r, (dotd_sym n (H D)). ring.
  - intros i Hi. rewrite (linear_scaled n H) by auto. reflexivity.
Qed.
Lemma lm_val t : lm t = lx_obj X + t * dotd n (dense (lx_grad X)) D
  + lx_pen X * total_viol nc (lx_clb X) (lx_cub X) (fun i => dense (lx_cons X) i + t * J D i).
Proof.
  unfold lmerit, lviol. rewrite dot_scaled_r. f_equal. f_equal. apply total_viol_ext.
  intros i Hi. now rewrite (linear_scaled nc J).
Qed.

Lemma lm0_val : lm 0 = lx_obj X + lx_pen X * total_viol nc (lx_clb X) (lx_cub X) (dense (lx_cons X)).
Proof. rewrite lm_val. rewrite (total_viol_ext nc _ _ _ (dense (lx_cons X))); [lra|]. intros; lra. Qed.

Notation ev := (total_viol nc (lx_clb X) (lx_cub X) (dense (lx_cons X))).

Lemma accept_test t lv : lv = total_viol nc (lx_clb X) (lx_cub X) (fun i => dense (lx_cons X) i + t * J D i) ->
  (/ 2 * (t * t * dotd n D (H D))
    <= (lx_pen X * (ev - lv) - t * dotd n (dense (lx_grad X)) D) * (1 - lx_eta X)) <-> accept t.
Proof. intros ->. unfold accept. rewrite q0, qm_val, lm0_val, lm_val. split; intros; nra. Qed.

Lemma pow_shift (t tau : R) k : t * tau ^ (S k) = t * tau * tau ^ k.
Proof. cbn [pow]. ring. Qed.

Lemma cauchy_loop_spec fuel : forall t s, cinv t s -> 0 < t -> 0 < lx_tau X ->
  (exists k s', (k < fuel)%nat /\ cauchy_loop fuel X ev s = Ok (s', qm (t * lx_tau X ^ k), false)
    /\ cinv (t * lx_tau X ^ k) s' /\ s_full s' = (match k with O => s_full s | _ => false end)
    /\ accept (t * lx_tau X ^ k) /\ (forall j, (j < k)%nat -> ~ accept (t * lx_tau X ^ j) /\ lx_eps X < t * lx_tau X ^ (S j)))
  \/ (exists k s', (k < fuel)%nat /\ cauchy_loop fuel X ev s = Ok (s', qm (t * lx_tau X ^ k), true)
    /\ cinv (t * lx_tau X ^ S k) s' /\ s_full s' = false
    /\ ~ accept (t * lx_tau X ^ k) /\ t * lx_tau X ^ (S k) <= lx_eps X
    /\ (forall j, (j < k)%nat -> ~ accept (t * lx_tau X ^ j) /\ lx_eps X < t * lx_tau X ^ (S j)))
  \/ (cauchy_loop fuel X ev s = Trap
    /\ forall j, (j < fuel)%nat -> ~ accept (t * lx_tau X ^ j) /\ lx_eps X < t * lx_tau X ^ (S j)).
Proof.
  induction fuel as [|fuel IH]; intros t s I Ht Htau.
  { right. right. split; [reflexivity|]. intros; lia. }
  cbn [cauchy_loop]. destruct I as [Vcj Ecj Hcap Ehp Eod Ede].
  assert (Hz := cx_zero _ _ CX). rnum. 
  unfold vec_add. rewrite Hz, rn_n1.
  destruct (dense_lc nc (lx_cons X) (s_cj s) (s_comb s) 1 1 (cx_cons _ _ CX) Vcj Hcap) as (comb & Ecomb & Vcomb & Dcomb).
  rewrite Ecomb. cbn [rbind]. rewrite (viol_real comb Vcomb). cbn [rbind].
  set (lv := total_viol nc (lx_clb X) (lx_cub X) (dense comb)).
  assert (Elv : lv = total_viol nc (lx_clb X) (lx_cub X) (fun i => dense (lx_cons X) i + t * J D i)).
  { apply total_viol_ext. intros i Hi. rewrite Dcomb. unfold lc. rewrite Ecj by auto. lra. }
  rewrite Ehp, Eod, Ede, half_rn. 
  assert (Eq : @nadd RN (@nadd RN (@nadd RN n0 (@nadd RN (lx_obj X) (t * dotd n (dense (lx_grad X)) D)))
      (@nmul RN (lx_pen X) lv)) (@nmul RN (/ 2) (t * t * dotd n D (H D))) = qm t).
  { rewrite qm_val, lm_val, <- Elv, rn_n0. req. cbn [nadd nmul RN]. ring. }
  rewrite Eq. clear Eq.
  destruct (@nleb RN _ _) eqn:Et.
  - left. exists O. rewrite pow_O, Rmult_1_r. apply rn_leb in Et. apply accept_test in Et; [|exact Elv].
    eexists. split; [lia|]. split; [reflexivity|]. split; [|split; [reflexivity|split; [exact Et|intros; lia]]].
    constructor; auto; try (cbn; congruence); cbn. now apply vok_cap with nc.
  - apply rn_leb_false in Et.
    assert (Nt : ~ accept t). { intros A. apply (accept_test t lv Elv) in A. cbn [nadd nsub nmul RN] in Et. lra. }
    destruct (scale_fun nc (s_cj s) (lx_tau X) Vcj) as [Vsc Dsc].
    set (s1 := mkcls _ _ _ _ _ _).
    assert (I1 : cinv (t * lx_tau X) s1).
    { constructor; cbn [s_cj s_comb s_hp s_od s_delta s1].
      - exact Vsc.
      - intros i Hi. rewrite Dsc, Ecj by auto. ring.
      - now apply vok_cap with nc.
      - req. cbn. ring.
      - req. cbn. ring.
      - reflexivity. }
    assert (Ed1 : s_delta s1 = t * lx_tau X) by apply I1.
    assert (Ht1 : 0 < t * lx_tau X) by nra.
    destruct (@is_zero RN _ _) eqn:Ez.
    + right. left. exists O. exists s1. apply rn_is_zero in Ez. rewrite pow_O, Rmult_1_r.
      split; [lia|]. split; [reflexivity|]. rewrite (pow_shift _ _ 0), pow_O, Rmult_1_r.
      split; [exact I1|]. split; [reflexivity|]. split; [exact Nt|]. split; [|intros; lia].
      rewrite Ed1, Rabs_right in Ez by lra. exact Ez.
    + assert (Hgt : lx_eps X < t * lx_tau X).
      { destruct (Rlt_le_dec (lx_eps X) (t * lx_tau X)) as [?|L]; auto. exfalso.
        assert (@is_zero RN (s_delta s1) (lx_eps X) = true) by (apply rn_is_zero; rewrite Ed1, Rabs_right by lra; exact L). congruence. }
      assert (Hst : forall k, (forall j, (j < k)%nat -> ~ accept (t * lx_tau X * lx_tau X ^ j) /\ lx_eps X < t * lx_tau X * lx_tau X ^ (S j)) ->
        forall j, (j < S k)%nat -> ~ accept (t * lx_tau X ^ j) /\ lx_eps X < t * lx_tau X ^ (S j)).
      { intros k Hk [|j] Hj.
        - rewrite (pow_shift _ _ 0), pow_O, !Rmult_1_r. auto.
        - rewrite (pow_shift t _ (S j)), (pow_shift t _ j). apply Hk. lia. }
      destruct (IH _ _ I1 Ht1 Htau) as [(k & s' & Hk & E & I' & F & A & P)|[(k & s' & Hk & E & I' & F & A & B & P)|(E & P)]].
      * left. exists (S k), s'. rewrite pow_shift. split; [lia|]. split; [exact E|]. split; [exact I'|]. split.
        { rewrite F. destruct k; reflexivity. }
        split; [exact A|]. now apply Hst.
      * right. left. exists (S k), s'. rewrite (pow_shift t _ (S k)), (pow_shift t _ k). split; [lia|]. split; [exact E|].
        split; [exact I'|]. split; [exact F|]. split; [exact A|]. split; [exact B|]. now apply Hst.
      * right. right. split; [exact E|]. now apply Hst.
Qed.
End Cauchy.

(** ** The Cauchy step *)

(** The step length that is tried first *)
Definition first_length (n : Z) (radius : R) (x : Z -> R) : R := Rmin 1 (radius / sqrt (dotd n x x)).

Lemma first_length_pos n radius x : 0 < radius -> 0 < dotd n x x -> 0 < first_length n radius x <= 1.
Proof.
  intros Hr Hx. unfold first_length. assert (0 < sqrt (dotd n x x)) by now apply sqrt_lt_R0.
  split; [|apply Rmin_l]. apply Rmin_glb_lt; [lra|]. now apply Rdiv_lt_0_compat.
Qed.
Lemma first_length_norm n radius x t : 0 < radius -> 0 < dotd n x x -> 0 <= t <= first_length n radius x ->
  dotd n (scaled t x) (scaled t x) <= radius * radius.
Proof.
  intros Hr Hx Ht. assert (Hs : 0 < sqrt (dotd n x x)) by now apply sqrt_lt_R0.
  rewrite dot_scaled_r, (dotd_sym n (scaled t x)), dot_scaled_r.
  rewrite <- (sqrt_sqrt (dotd n x x)) by lra. set (w := sqrt (dotd n x x)) in *.
  assert (t * w <= radius).
  { apply Rle_trans with (radius / w * w); [|right; field; lra]. apply Rmult_le_compat_r; [lra|].
    eapply Rle_trans; [apply Ht|apply Rmin_r]. }
  assert (0 <= t * w) by (apply Rmult_le_pos; lra). nra.
Qed.

Lemma dir_scaled n X J H d t (d' : @dirn RN) : linear_map (lx_nc X) J -> linear_map n H -> dir_ok n X J H d ->
  vok n (d_primal d') -> vok (lx_nc X) (d_cons d') -> vok n (d_hess d') ->
  dense (d_primal d') = scaled t (dense (d_primal d)) ->
  d_obj d' = t * dotd n (dense (lx_grad X)) (dense (d_primal d)) ->
  (forall i, (0 <= i < lx_nc X)%Z -> (dense (d_cons d') i : R) = t * J (dense (d_primal d)) i) ->
  (forall i, (0 <= i < n)%Z -> (dense (d_hess d') i : R) = t * dense (d_hess d) i) ->
  dir_ok n X J H d'.
Proof.
  intros HJ HH Hd Vp Vc Vh Ep Eo Ec Eh. constructor; auto.
  - now rewrite Ep, dot_scaled_r.
  - intros i Hi. rewrite Ec, Ep by auto. now rewrite (linear_scaled (lx_nc X) J).
  - intros i Hi. rewrite Eh, Ep by auto. rewrite (linear_scaled n H) by auto. f_equal. now apply (do_hess _ _ _ _ _ Hd).
Qed.

Section CauchyStep.
Variables (n : Z) (X : @lctx RN) (J H : (Z -> R) -> Z -> R) (d : @dirn RN) (L : @lsd RN).
Hypothesis CX : ctx_ok n X.
Hypothesis CL : caches_ok n (lx_nc X) L.
Hypothesis HJ : linear_map (lx_nc X) J.
Hypothesis HH : linear_map n H.
Hypothesis Hd : dir_ok n X J H d.
Hypothesis Hrad : 0 < lx_radius X.
Hypothesis Hnz : 0 < dotd n (dense (d_primal d)) (dense (d_primal d)).
Hypothesis Htau : 0 < lx_tau X.
Notation D := (dense (d_primal d)).
Notation t0 := (first_length n (lx_radius X) D).
Notation tk k := (t0 * lx_tau X ^ k).
Notation ok := (accept n X J H d).

Lemma cauchy_step_spec :
  (exists k d' L', (k < max_it)%nat
    /\ cauchy_step X d L = Ok (d', match k with O => true | _ => false end, qmerit n X J H (scaled (tk k) D), L')
    /\ dir_ok n X J H d' /\ dense (d_primal d') = scaled (tk k) D /\ caches_ok n (lx_nc X) L' /\ ok (tk k)
    /\ (forall j, (j < k)%nat -> ~ ok (tk j) /\ lx_eps X < tk (S j)))
  \/ (exists k d' L', (k < max_it)%nat
    /\ cauchy_step X d L = Ok (d', false, qmerit n X J H (scaled (tk k) D), L')
    /\ dir_ok n X J H d' /\ dense (d_primal d') = zerof /\ caches_ok n (lx_nc X) L' /\ ~ ok (tk k)
    /\ tk (S k) <= lx_eps X /\ (forall j, (j < k)%nat -> ~ ok (tk j) /\ lx_eps X < tk (S j)))
  \/ (cauchy_step X d L = Trap /\ forall j, (j < max_it)%nat -> ~ ok (tk j) /\ lx_eps X < tk (S j)).
Proof.
  destruct (first_length_pos n (lx_radius X) D Hrad Hnz) as [Ht0 Ht1].
  assert (Hs : 0 < sqrt (dotd n D D)) by now apply sqrt_lt_R0.
  unfold cauchy_step. rewrite (viol_real n X CX _ (cx_cons _ _ CX)). cbn [rbind].
  rewrite (dot_fun n _ _ (do_p _ _ _ _ _ Hd) (do_h _ _ _ _ _ Hd)). cbn [rbind].
  assert (Eh : dotd n D (dense (d_hess d)) = dotd n D (H D)) by (apply dotd_eq, (do_hess _ _ _ _ _ Hd)).
  rewrite Eh, (norm_fun n _ (do_p _ _ _ _ _ Hd)).
  change (@ndiv RN (lx_radius X) (sqrt (dotd n D D))) with (lx_radius X / sqrt (dotd n D D)).
  set (fac := lx_radius X / sqrt (dotd n D D)).
  match goal with |- context [cauchy_loop max_it X _ ?s] => set (s0 := s) end.
  assert (I0 : cinv n X J H d t0 s0 /\ s_full s0 = true).
  { unfold s0, first_length. fold fac. destruct (@nltb RN fac n1) eqn:E.
    - apply rn_ltb in E. rewrite rn_n1 in E. rewrite Rmin_right by lra.
      destruct (scale_fun (lx_nc X) (d_cons d) fac (do_c _ _ _ _ _ Hd)) as [Vs Ds].
      split; [|reflexivity]. constructor; cbn [s_cj s_comb s_hp s_od s_delta].
      + exact Vs.
      + intros i Hi. rewrite Ds. rewrite (do_cons _ _ _ _ _ Hd) by auto. reflexivity.
      + apply CL.
      + req. cbn. ring.
      + rewrite (do_obj _ _ _ _ _ Hd). req. cbn. ring.
      + reflexivity.
    - apply rn_ltb_false in E. rewrite rn_n1 in E. rewrite Rmin_left by lra.
      split; [|reflexivity]. constructor; cbn [s_cj s_comb s_hp s_od s_delta].
      + apply Hd.
      + intros i Hi. rewrite (do_cons _ _ _ _ _ Hd) by auto. lra.
      + apply CL.
      + req. lra.
      + rewrite (do_obj _ _ _ _ _ Hd). req. lra.
      + apply rn_n1. }
  destruct I0 as [I0 F0].
  assert (HL' : forall s : @cls RN, (0 <= vcap (s_comb s))%Z -> caches_ok n (lx_nc X)
     (mklsd (l_point L) (l_cnj L) (l_ccv L) (l_viol L) (s_comb s) (l_cnd L) (l_mult L) (l_max L))).
  { intros s Hc. destruct CL. constructor; auto. }
  destruct (cauchy_loop_spec n X J H d CX HJ HH max_it t0 s0 I0 Ht0 Htau)
    as [(k & s' & Hk & E & I' & F & A & P)|[(k & s' & Hk & E & I' & F & A & B & P)|(E & P)]]; rewrite E; cbn [rbind].
  - left. exists k. destruct (scale_fun n (d_primal d) (tk k) (do_p _ _ _ _ _ Hd)) as [Vp Dp].
    destruct (scale_fun n (d_hess d) (tk k) (do_h _ _ _ _ _ Hd)) as [Vh Dh].
    eexists _, _. split; [exact Hk|]. split.
    { rewrite F, F0. replace (match k with O => true | _ => false end) with (match k with O => true | S _ => false end) by reflexivity. reflexivity. }
    rewrite (iv_delta _ _ _ _ _ _ _ I').
    split; [|split; [exact Dp|split; [apply HL', I'|split; [exact A|exact P]]]].
    apply (dir_scaled n X J H d (tk k)); cbn [d_primal d_cons d_hess d_obj]; auto.
    + apply I'.
    + apply I'.
    + apply I'.
    + intros i Hi. now rewrite Dh.
  - right. left. exists k. eexists _, _. split; [exact Hk|]. split; [rewrite F; reflexivity|].
    assert (Vc : forall m (v : rvec), vok m v -> vok m (vec_clear v)) by (intros m v [W Dv]; split; [now apply wf_clear|auto]).
    split; [|split; [apply dense_clear|split; [apply HL', I'|auto]]].
    apply (dir_scaled n X J H d 0); cbn [dir_set_zero d_primal d_cons d_hess d_obj]; auto.
    + apply Vc, Hd.
    + apply Vc, I'.
    + apply Vc, Hd.
    + rewrite dense_clear. apply zerof_scaled.
    + rewrite rn_n0. req. lra.
    + intros i Hi. rewrite dense_clear. unfold zerof. lra.
    + intros i Hi. rewrite dense_clear. unfold zerof. lra.
  - right. right. split; [reflexivity|exact P].
Qed.

Lemma length_le k : lx_tau X <= 1 -> 0 < tk k <= t0.
Proof.
  intros H1. destruct (first_length_pos n (lx_radius X) D Hrad Hnz) as [Ht0 Ht1].
  assert (0 < lx_tau X ^ k) by now apply pow_lt.
  assert (lx_tau X ^ k <= 1) by (rewrite <- (pow1 k); apply pow_incr; lra). split; nra.
Qed.

(** The linear model decreases along the step. *)
Lemma linear_decrease t : 0 <= t <= 1 ->
  t * (qmerit n X J H zerof - lmerit n X J D) <= qmerit n X J H zerof - lmerit n X J (scaled t D).
Proof.
  intros Ht. rewrite (zerof_scaled D), (q0 n X J H d).
  assert (E1 : lmerit n X J D = lmerit n X J (scaled 1 D)).
  { f_equal. apply functional_extensionality. intros i. unfold scaled. change ((dense (d_primal d) i : R) = 1 * dense (d_primal d) i). symmetry. apply Rmult_1_l. }
  rewrite E1, !(lm_val n X J d HJ).
  pose proof (total_viol_convex (lx_nc X) (lx_clb X) (lx_cub X) t
    (fun i => dense (lx_cons X) i + 0 * J D i) (fun i => dense (lx_cons X) i + 1 * J D i) Ht) as V.
  rewrite (total_viol_ext _ _ _ (fun i => (1 - t) * (dense (lx_cons X) i + 0 * J D i) + t * (dense (lx_cons X) i + 1 * J D i))
    (fun i => dense (lx_cons X) i + t * J D i)) in V by (intros; ring).
  pose proof (cx_pen _ _ CX) as Hpen. cbv beta in V.
  pose proof (Rmult_le_compat_l _ _ _ Hpen V). rnum. lra.
Qed.

Lemma accept_small t : 0 < t <= 1 -> lx_eta X <= 1 ->
  t * dotd n D (H D) <= 2 * (1 - lx_eta X) * (qmerit n X J H zerof - lmerit n X J D) -> ok t.
Proof.
  intros Ht He Hs. unfold accept. rewrite (qm_val n X J H d HH t), <- (zerof_scaled D).
  pose proof (linear_decrease t ltac:(lra)) as Hl. set (m0 := qmerit n X J H zerof) in *.
  set (lt := lmerit n X J (scaled t D)) in *. set (l1 := lmerit n X J D) in *. set (h := dotd n D (H D)) in *. rnum.
  assert (/ 2 * (t * t * h) <= (1 - lx_eta X) * (t * (m0 - l1))) by nra.
  assert ((1 - lx_eta X) * (t * (m0 - l1)) <= (1 - lx_eta X) * (m0 - lt)) by (apply Rmult_le_compat_l; lra).
  lra.
Qed.
End CauchyStep.

(** ** The trial step: both searches *)

(** Sign of the derivative of the violation *)
Definition viol_sign (l u c : R) : R := if Rlt_dec u c then 1 else if Rlt_dec c l then -1 else 0.

Section Trial.
Variables (n : Z) (X : @lctx RN) (J H : (Z -> R) -> Z -> R) (c nw : @dirn RN).
Hypothesis CX : ctx_ok n X.
Hypothesis HJ : linear_map (lx_nc X) J.
Hypothesis HH : linear_map n H.
Hypothesis HS : self_adjoint n H.
Hypothesis Hc : dir_ok n X J H c.
Hypothesis Hn : dir_ok n X J H nw.
Notation C := (dense (d_primal c)).
Notation W := (dense (d_primal nw)).
Notation nc := (lx_nc X).
Notation G := (dense (lx_grad X)).
Notation cv := (dense (lx_cons X)).

(** The point between the two directions *)
Definition between (a : R) : Z -> R := lc (1 - a) C a W.
Notation qb a := (qmerit n X J H (between a)).

Lemma qb_val a : qb a = lx_obj X + (1 - a) * dotd n G C + a * dotd n G W
  + lx_pen X * total_viol nc (lx_clb X) (lx_cub X) (fun i => cv i + (1 - a) * J C i + a * J W i)
  + (/ 2 * ((1 - a) * (1 - a) * dotd n C (H C)) + (1 - a) * a * dotd n C (H W) + / 2 * (a * a * dotd n W (H W))).
Proof.
  unfold qmerit, lmerit, lviol, between. rewrite dot_lc_r.
  rewrite (total_viol_ext nc _ _ (fun i => cv i + J (lc (1 - a) C a W) i) (fun i => cv i + (1 - a) * J C i + a * J W i)).
  2: { intros i Hi. rewrite (HJ (1 - a) C a W i Hi). ring. }
  rewrite (dotd_eq n _ (H (lc (1 - a) C a W)) (lc (1 - a) (H C) a (H W))).
  2: { intros i Hi. now rewrite (HH (1 - a) C a W i Hi). }
  rewrite dot_lc_r, !dot_lc_l.
  assert (E : dotd n W (H C) = dotd n C (H W)) by (rewrite <- (HS W C), (dotd_sym n (H W) C); reflexivity).
  rewrite E. lra.
Qed.

Lemma between_0 : between 0 = C.
Proof. apply functional_extensionality. intros i. unfold between, lc. req. ring. Qed.
Lemma between_1 : between 1 = W.
Proof. apply functional_extensionality. intros i. unfold between, lc. req. ring. Qed.

Lemma between_norm a r : 0 <= a <= 1 -> 0 <= r -> dotd n C C <= r * r -> dotd n W W <= r * r ->
  dotd n (between a) (between a) <= r * r.
Proof.
  intros Ha Hr H1 H2. unfold between. rewrite dot_lc_r, !dot_lc_l, (dotd_sym n W C).
  assert (0 <= dotd n (lc 1 C (-1) W) (lc 1 C (-1) W)) by apply dotd_nonneg.
  rewrite dot_lc_r, !dot_lc_l, (dotd_sym n W C) in H0.
  assert (2 * dotd n C W <= dotd n C C + dotd n W W) by lra.
  assert (0 <= (1 - a) * a) by (apply Rmult_le_pos; lra).
  assert ((1 - a) * a * (2 * dotd n C W) <= (1 - a) * a * (dotd n C C + dotd n W W)) by (apply Rmult_le_compat_l; lra).
  assert ((1 - a) * dotd n C C <= (1 - a) * (r * r)) by (apply Rmult_le_compat_l; lra).
  assert (a * dotd n W W <= a * (r * r)) by (apply Rmult_le_compat_l; lra).
  lra.
Qed.

Lemma dir_between a r : dir_room n X r ->
  exists t, dir_add_scaled c nw (1 - a : @num RN) (a : @num RN) (0 : @num RN) r = Ok t
    /\ dir_ok n X J H t /\ dense (d_primal t) = between a.
Proof.
  intros (Rp & Rc & Rh). unfold dir_add_scaled.
  destruct (dense_lc n (d_primal c) (d_primal nw) (d_primal r) (1 - a) a (do_p _ _ _ _ _ Hc) (do_p _ _ _ _ _ Hn)
    (vok_cap _ _ Rp)) as (p & -> & Vp & Dp). cbn [rbind].
  destruct (dense_lc nc (d_cons c) (d_cons nw) (d_cons r) (1 - a) a (do_c _ _ _ _ _ Hc) (do_c _ _ _ _ _ Hn)
    (vok_cap _ _ Rc)) as (q & -> & Vq & Dq). cbn [rbind].
  destruct (dense_lc n (d_hess c) (d_hess nw) (d_hess r) (1 - a) a (do_h _ _ _ _ _ Hc) (do_h _ _ _ _ _ Hn)
    (vok_cap _ _ Rh)) as (h & -> & Vh & Dh). cbn [rbind].
  eexists. split; [reflexivity|]. split; [|exact Dp]. constructor; cbn [d_primal d_cons d_hess d_obj]; auto.
  - rewrite Dp, dot_lc_r, (do_obj _ _ _ _ _ Hc), (do_obj _ _ _ _ _ Hn). reflexivity.
  - intros i Hi. rewrite Dq, Dp, (HJ (1 - a) C a W i Hi). unfold lc.
    now rewrite (do_cons _ _ _ _ _ Hc i Hi), (do_cons _ _ _ _ _ Hn i Hi).
  - intros i Hi. rewrite Dh, Dp, (HH (1 - a) C a W i Hi). unfold lc.
    now rewrite (do_hess _ _ _ _ _ Hc i Hi), (do_hess _ _ _ _ _ Hn i Hi).
Qed.

Lemma dir_copy_spec r : dir_room n X r ->
  exists t, dir_copy c r = Ok t /\ dir_ok n X J H t /\ dense (d_primal t) = C.
Proof.
  intros (Rp & Rc & Rh). unfold dir_copy.
  destruct (copy_fun n _ _ (do_p _ _ _ _ _ Hc) Rp) as (p & -> & Vp & _ & Dp). cbn [rbind].
  destruct (copy_fun nc _ _ (do_c _ _ _ _ _ Hc) Rc) as (q & -> & Vq & _ & Dq). cbn [rbind].
  destruct (copy_fun n _ _ (do_h _ _ _ _ _ Hc) Rh) as (h & -> & Vh & _ & Dh). cbn [rbind].
  eexists. split; [reflexivity|]. split; [|exact Dp]. constructor; cbn [d_primal d_cons d_hess d_obj]; auto;
    rewrite ?Dp, ?Dq, ?Dh; apply Hc.
Qed.

Definition the_prods : @prods RN := mkprods (dotd n G C : @num RN) (dotd n G W : @num RN)
  (dotd n C (H C) : @num RN) (dotd n C (H W) : @num RN) (dotd n W (H W) : @num RN).

Lemma trial_merit_spec a ccv comb : (0 <= vcap ccv)%Z -> (0 <= vcap comb)%Z ->
  exists ccv' comb', trial_merit X the_prods (d_cons c) (d_cons nw) (a : @num RN) ccv comb = Ok (qb a : @num RN, ccv', comb')
    /\ (0 <= vcap ccv')%Z /\ (0 <= vcap comb')%Z.
Proof.
  intros H1 H2. unfold trial_merit. rewrite (cx_zero _ _ CX), rn_n1.
  change (@nsub RN 1 a) with (1 - a).
  destruct (dense_lc nc (lx_cons X) (d_cons c) ccv 1 (1 - a) (cx_cons _ _ CX) (do_c _ _ _ _ _ Hc) H1) as (v1 & -> & V1 & D1).
  cbn [rbind].
  destruct (dense_lc nc v1 (d_cons nw) comb 1 a V1 (do_c _ _ _ _ _ Hn) H2) as (v2 & -> & V2 & D2). cbn [rbind].
  rewrite (viol_real n X CX v2 V2). cbn [rbind].
  rewrite (total_viol_ext nc _ _ (dense v2) (fun i => cv i + (1 - a) * J C i + a * J W i)).
  2: { intros i Hi. rewrite D2, D1. unfold lc. rewrite (do_cons _ _ _ _ _ Hc i Hi), (do_cons _ _ _ _ _ Hn i Hi). req. ring. }
  exists v1, v2. split; [|split; eapply vok_cap; eauto]. f_equal. f_equal. f_equal.
  rewrite qb_val, half_rn, rn_n0. unfold the_prods. cbn [q_cg q_ng q_cc q_cn q_nn nadd nmul nsub RN]. req. ring.
Qed.

Variables (merit slope : R).
Definition accept2 (a : R) : Prop := qb a <= merit + lx_eta X * (a * slope).

Lemma trial_loop_spec r fuel : dir_room n X r -> forall a ccv comb, (0 <= vcap ccv)%Z -> (0 <= vcap comb)%Z ->
  (exists k t ccv' comb', (k < fuel)%nat
    /\ trial_loop fuel X the_prods c nw r (merit : @num RN) (slope : @num RN) (a : @num RN) ccv comb
       = Ok (t, a * lx_tau X ^ k : @num RN, qb (a * lx_tau X ^ k) : @num RN, ccv', comb')
    /\ dir_ok n X J H t /\ dense (d_primal t) = between (a * lx_tau X ^ k) /\ (0 <= vcap ccv')%Z /\ (0 <= vcap comb')%Z
    /\ accept2 (a * lx_tau X ^ k)
    /\ (forall j, (j < k)%nat -> ~ accept2 (a * lx_tau X ^ j) /\ lx_cutoff X < a * lx_tau X ^ (S j)))
  \/ (exists k t ccv' comb', (k < fuel)%nat
    /\ trial_loop fuel X the_prods c nw r (merit : @num RN) (slope : @num RN) (a : @num RN) ccv comb
       = Ok (t, 0 : @num RN, merit : @num RN, ccv', comb')
    /\ dir_ok n X J H t /\ dense (d_primal t) = C /\ (0 <= vcap ccv')%Z /\ (0 <= vcap comb')%Z
    /\ ~ accept2 (a * lx_tau X ^ k) /\ a * lx_tau X ^ (S k) <= lx_cutoff X
    /\ (forall j, (j < k)%nat -> ~ accept2 (a * lx_tau X ^ j) /\ lx_cutoff X < a * lx_tau X ^ (S j)))
  \/ (trial_loop fuel X the_prods c nw r (merit : @num RN) (slope : @num RN) (a : @num RN) ccv comb = Trap
    /\ forall j, (j < fuel)%nat -> ~ accept2 (a * lx_tau X ^ j) /\ lx_cutoff X < a * lx_tau X ^ (S j)).
Proof.
  intros Hr. induction fuel as [|fuel IH]; intros a ccv comb H1 H2.
  { right. right. split; [reflexivity|]. intros; lia. }
  cbn [trial_loop]. destruct (trial_merit_spec a ccv comb H1 H2) as (ccv1 & comb1 & -> & Hc1 & Hc2). cbn [rbind].
  destruct (@nleb RN _ _) eqn:Et.
  - apply rn_leb in Et. left. destruct (dir_between a r Hr) as (t & Edir & Vt & Dt). exists O, t, ccv1, comb1.
    rewrite pow_O, Rmult_1_r. split; [lia|]. split.
    { rewrite (cx_zero _ _ CX), rn_n1. change (@nsub RN 1 a) with (1 - a). rewrite Edir. reflexivity. }
    repeat (split; [assumption|]). intros; lia.
  - apply rn_leb_false in Et. assert (Nt : ~ accept2 a). { unfold accept2. cbn [nadd nmul RN] in Et. lra. }
    change (@nmul RN a (lx_tau X)) with (a * lx_tau X).
    destruct (@nleb RN _ _) eqn:Eb.
    + apply rn_leb in Eb. right. left. destruct (dir_copy_spec r Hr) as (t & Edir & Vt & Dt). exists O, t, ccv1, comb1.
      rewrite (pow_shift _ _ 0), pow_O, !Rmult_1_r. split; [lia|]. split.
      { rewrite Edir, rn_n0. reflexivity. }
      repeat (split; [assumption|]). intros; lia.
    + apply rn_leb_false in Eb.
      assert (Hst : forall k, (forall j, (j < k)%nat -> ~ accept2 (a * lx_tau X * lx_tau X ^ j) /\ lx_cutoff X < a * lx_tau X * lx_tau X ^ (S j)) ->
        forall j, (j < S k)%nat -> ~ accept2 (a * lx_tau X ^ j) /\ lx_cutoff X < a * lx_tau X ^ (S j)).
      { intros k Hk [|j] Hj.
        - rewrite (pow_shift _ _ 0), pow_O, !Rmult_1_r. auto.
        - rewrite (pow_shift a _ (S j)), (pow_shift a _ j). apply Hk. lia. }
      destruct (IH (a * lx_tau X) ccv1 comb1 Hc1 Hc2) as [(k & t & v1 & v2 & Hk & E & P)|[(k & t & v1 & v2 & Hk & E & P)|(E & P)]].
      * left. exists (S k), t, v1, v2. rewrite pow_shift. split; [lia|]. split; [exact E|].
        destruct P as (P1 & P2 & P3 & P4 & P5 & P6). repeat (split; [assumption|]). now apply Hst.
      * right. left. exists (S k), t, v1, v2. rewrite (pow_shift a _ (S k)), (pow_shift a _ k). split; [lia|]. split; [exact E|].
        destruct P as (P1 & P2 & P3 & P4 & P5 & P6 & P7). repeat (split; [assumption|]). now apply Hst.
      * right. right. split; [exact E|]. now apply Hst.
Qed.
End Trial.

Section TrialStep.
Variables (n : Z) (X : @lctx RN) (J H : (Z -> R) -> Z -> R) (c nw : @dirn RN).
Hypothesis CX : ctx_ok n X.
Hypothesis HJ : linear_map (lx_nc X) J.
Hypothesis HH : linear_map n H.
Hypothesis HS : self_adjoint n H.
Hypothesis Hc : dir_ok n X J H c.
Hypothesis Hn : dir_ok n X J H nw.
Notation C := (dense (d_primal c)).
Notation W := (dense (d_primal nw)).
Notation nc := (lx_nc X).
Notation G := (dense (lx_grad X)).
Notation cv := (dense (lx_cons X)).
Notation bt := (between c nw).
Notation qb a := (qmerit n X J H (bt a)).

(** The slope that the search uses: the violation enters without the penalty parameter. *)
Definition used_slope : R :=
  (dotd n G W - dotd n G C)
  + sumd nc (fun i => viol_sign (dense (lx_clb X) i) (dense (lx_cub X) i) (cv i + J C i) * (J W i - J C i))
  + (dotd n C (H W) - dotd n C (H C)).

(** [i] sits at a bound of its variable and the direction points outside. *)
Definition blocked (i : Z) : Prop :=
  (dense (lx_x X) i + C i = dense (lx_vub X) i /\ C i < W i) \/ (dense (lx_x X) i + C i = dense (lx_vlb X) i /\ W i < C i).

Variables (merit : R) (r : @dirn RN) (L : @lsd RN).
Hypothesis CL : caches_ok n nc L.
Hypothesis Hr : dir_room n X r.
Hypothesis Hbox : forall i, (0 <= i < n)%Z ->
  dense (lx_vlb X) i <= dense (lx_x X) i + C i <= dense (lx_vub X) i.
Notation acc := (accept2 n X J H c nw merit used_slope).

Lemma trial_step_spec : exists a0, 0 < a0 <= 1
  /\ (a0 = 1 \/ exists i, (0 <= i < n)%Z /\ ((C i < W i /\ dense (lx_x X) i + bt a0 i = dense (lx_vub X) i)
        \/ (W i < C i /\ dense (lx_x X) i + bt a0 i = dense (lx_vlb X) i)))
  /\ (forall i a, (0 <= i < n)%Z -> ~ blocked i -> 0 <= a <= a0 ->
        dense (lx_vlb X) i <= dense (lx_x X) i + bt a i <= dense (lx_vub X) i)
  /\ ((exists k t L', (k < max_it)%nat /\ lx_cutoff X < a0
        /\ trial_step X c (merit : @num RN) nw r L = Ok (t, a0 * lx_tau X ^ k : @num RN, qb (a0 * lx_tau X ^ k) : @num RN, L')
        /\ dir_ok n X J H t /\ dense (d_primal t) = bt (a0 * lx_tau X ^ k) /\ caches_ok n nc L'
        /\ acc (a0 * lx_tau X ^ k)
        /\ (forall j, (j < k)%nat -> ~ acc (a0 * lx_tau X ^ j) /\ lx_cutoff X < a0 * lx_tau X ^ (S j)))
      \/ (exists t L', trial_step X c (merit : @num RN) nw r L = Ok (t, 0 : @num RN, merit : @num RN, L')
        /\ dir_ok n X J H t /\ dense (d_primal t) = C /\ caches_ok n nc L'
        /\ (a0 <= lx_cutoff X \/ exists k, (k < max_it)%nat /\ a0 * lx_tau X ^ (S k) <= lx_cutoff X
             /\ forall j, (j <= k)%nat -> ~ acc (a0 * lx_tau X ^ j)))
      \/ (trial_step X c (merit : @num RN) nw r L = Trap
        /\ forall j, (j < max_it)%nat -> ~ acc (a0 * lx_tau X ^ j) /\ lx_cutoff X < a0 * lx_tau X ^ (S j))).
Proof.
  destruct CX as [Hn0 Vl Vu Hle Vcv Vvl Vvu Vx Vg Hpen Hz]. destruct CL as [K1 K2 K3 K4 K5 K6 K7].
  unfold trial_step. rewrite Hz. unfold vec_add. rewrite minus1_rn, rn_n1.
  destruct (dense_lc n (d_primal nw) (d_primal c) (l_cnd L) 1 (-1) (do_p _ _ _ _ _ Hn) (do_p _ _ _ _ _ Hc) K6)
    as (cnd & -> & Vcnd & Dcnd). cbn [rbind].
  rewrite (dot_fun n _ _ (do_p _ _ _ _ _ Hc) (do_h _ _ _ _ _ Hc)). cbn [rbind].
  rewrite (dot_fun n _ _ (do_p _ _ _ _ _ Hc) (do_h _ _ _ _ _ Hn)). cbn [rbind].
  rewrite (dot_fun n _ _ (do_p _ _ _ _ _ Hn) (do_h _ _ _ _ _ Hn)). cbn [rbind].
  destruct (dense_lc n (lx_x X) (d_primal c) (l_point L) 1 1 Vx (do_p _ _ _ _ _ Hc) K1) as (pt & -> & Vpt & Dpt). cbn [rbind].
  assert (Ept : forall i, dense pt i = dense (lx_x X) i + C i) by (intros i; rewrite Dpt; unfold lc; req; ring).
  assert (Ecnd : forall i, dense cnd i = W i - C i) by (intros i; rewrite Dcnd; unfold lc; req; ring).
  destruct (max_step_real pt cnd (lx_vlb X) (lx_vub X) 1) as (a0 & Ea & Ha & Hin & Hmax);
    try (first [apply Vpt|apply Vcnd|apply Vvl|apply Vvu]).
  { destruct Vpt, Vcnd; congruence. }
  { destruct Vpt, Vvl; congruence. }
  { destruct Vpt, Vvu; congruence. }
  { intros i Hi. rewrite Ept. apply Hbox. destruct Vpt as [_ E]. now rewrite E in Hi. }
  { lra. }
  cbv beta in Hin. rewrite Ea. cbn [rbind].
  assert (C1 : @nleb RN n0 a0 = true) by (apply rn_leb; rewrite rn_n0; lra).
  assert (C2 : @nleb RN a0 1 = true) by (apply rn_leb; lra). rewrite C1, C2. cbn [check rbind].
  destruct (dense_lc nc (lx_cons X) (d_cons c) (l_ccv L) 1 1 Vcv (do_c _ _ _ _ _ Hc) K3) as (ccv & -> & Vccv & Dccv). cbn [rbind].
  assert (Eccv : forall i, (0 <= i < nc)%Z -> dense ccv i = cv i + J C i).
  { intros i Hi. rewrite Dccv. unfold lc. rewrite (do_cons _ _ _ _ _ Hc i Hi). req. ring. }
  destruct (violated_multipliers_spec nc ccv (lx_clb X) (lx_cub X)) with (r := l_mult L) (w := @None wset)
    as (mu & -> & Wmu & Dmu & Emu); try (first [apply Vccv|apply Vl|apply Vu|apply rno_nan|apply K7|exact I]).
  cbn [rbind]. assert (Vmu : vok nc mu) by (split; auto).
  rewrite (dot_fun nc _ _ Vmu (do_c _ _ _ _ _ Hc)). cbn [rbind].
  rewrite (dot_fun nc _ _ Vmu (do_c _ _ _ _ _ Hn)). cbn [rbind].
  rewrite (dotd_eq n C _ _ (do_hess _ _ _ _ _ Hc)), (dotd_eq n C _ _ (do_hess _ _ _ _ _ Hn)), (dotd_eq n W _ _ (do_hess _ _ _ _ _ Hn)).
  rewrite (dotd_eq nc (dense mu) _ _ (do_cons _ _ _ _ _ Hc)), (dotd_eq nc (dense mu) _ _ (do_cons _ _ _ _ _ Hn)).
  rewrite (do_obj _ _ _ _ _ Hc), (do_obj _ _ _ _ _ Hn).
  match goal with |- context [trial_loop _ _ _ _ _ _ _ ?s _ _ _] => assert (Es : s = used_slope) end.
  { unfold used_slope. cbn [nadd nsub RN].
    assert (E : sumd nc (fun i => viol_sign (dense (lx_clb X) i) (dense (lx_cub X) i) (cv i + J C i) * (J W i - J C i))
      = dotd nc (dense mu) (J W) - dotd nc (dense mu) (J C)).
    { unfold dotd. replace (sumd nc (fun i => dense mu i * J W i) - sumd nc (fun i => dense mu i * J C i))
        with (sumd nc (fun i => dense mu i * J W i) + -1 * sumd nc (fun i => dense mu i * J C i)) by ring.
      rewrite <- sumd_scal, <- sumd_plus. apply sumd_ext. intros i Hi. rewrite (Emu i Hi). cbn [skipped]. unfold viol_sign.
      rewrite (Eccv i Hi). rewrite rn_n1, rn_n0, minus1_rn.
      destruct (Rlt_dec _ _) as [A|A].
      - assert (T : @nltb RN (dense (lx_cub X) i) (cv i + J C i) = true) by (apply rn_ltb; exact A). rewrite T. lra.
      - assert (T : @nltb RN (dense (lx_cub X) i) (cv i + J C i) = false) by (apply rn_ltb_false; lra). rewrite T.
        destruct (Rlt_dec _ _) as [B|B].
        + assert (T' : @nltb RN (cv i + J C i) (dense (lx_clb X) i) = true) by (apply rn_ltb; exact B). rewrite T'. lra.
        + assert (T' : @nltb RN (cv i + J C i) (dense (lx_clb X) i) = false) by (apply rn_ltb_false; lra). rewrite T'. lra. }
    rewrite E. req. ring. }
  rewrite Es.
  exists a0. split; [exact Ha|]. split.
  { destruct Hmax as [E|(i & Hi & P)]; [left; exact E|right]. exists i. rewrite (proj2 Vpt) in Hi. split; [exact Hi|].
    rewrite !Ept, !Ecnd in P. unfold between, lc. rnum. destruct P as [[P1 P2]|[P1 P2]]; [left|right]; split; lra. }
  split.
  { intros i a Hi Hb Hra. unfold between, lc.
    assert (Hi' : (0 <= i < vdim pt)%Z) by (destruct Vpt as [_ ->]; exact Hi).
    pose proof (Hbox i Hi) as [B1 B2]. specialize (Hin i Hi'). rewrite Ept, Ecnd in Hin.
    assert (S : dense (lx_vlb X) i <= dense (lx_x X) i + C i + a0 * (W i - C i) <= dense (lx_vub X) i).
    { apply Hin; intros [Q1 Q2]; apply Hb; [left|right]; split; lra. }
    rnum. split; nra. }
  assert (HL' : forall v1 v2, (0 <= vcap v1)%Z -> (0 <= vcap v2)%Z ->
     caches_ok n nc (mklsd pt (l_cnj L) v1 (l_viol L) v2 cnd mu (l_max L))).
  { intros v1 v2 Q1 Q2. constructor; cbn; auto; try (eapply vok_cap; eauto; fail). }
  destruct (@nleb RN a0 (lx_cutoff X)) eqn:Eb.
  - apply rn_leb in Eb. right. left. destruct (dir_copy_spec n X J H c Hc r Hr) as (t & -> & Vt & Dt). cbn [rbind].
    rewrite rn_n0. exists t. eexists. split; [reflexivity|]. split; [exact Vt|]. split; [exact Dt|]. split.
    + apply HL'; auto. eapply vok_cap; eauto.
    + left. exact Eb.
  - apply rn_leb_false in Eb.
    destruct (trial_loop_spec n X J H c nw CX HJ HH HS Hc Hn merit used_slope r max_it Hr a0 ccv (l_comb L) (vok_cap _ _ Vccv) K5)
      as [(k & t & v1 & v2 & Hk & E & P1 & P2 & P3 & P4 & P5 & P6)|[(k & t & v1 & v2 & Hk & E & P1 & P2 & P3 & P4 & P5 & P6 & P7)|(E & P)]];
    unfold the_prods in E; rewrite E; cbn [rbind].
    + left. exists k, t. eexists. split; [exact Hk|]. split; [exact Eb|]. split; [reflexivity|]. split; [exact P1|]. split; [exact P2|]. split; [auto|]. split; [exact P5|]. exact P6.
    + right. left. exists t. eexists. split; [reflexivity|]. split; [exact P1|]. split; [exact P2|]. split; [auto|]. right. exists k. split; [exact Hk|]. split; [exact P6|].
      intros j Hj. destruct (Nat.eq_dec j k) as [->|]; [exact P5|]. apply P7. lia.
    + right. right. split; [reflexivity|exact P].
Qed.
End TrialStep.
