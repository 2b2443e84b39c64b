(** C65, C66, C67: the line searches on the model of the merit function. *)
From Coq Require Import Reals Lra FunctionalExtensionality Permutation Sorted.
From Flocq Require Import BinarySingleNaN.
From Verif Require Import Base Num Cmp Sparse Vec VecFacts Mat RSum VecReal WorkingSet Feas MeritFacts QnReal
  SteihaugFacts LineSearch LineSearchFacts LineExactFacts PropsVec PropsCauchy.
Local Open Scope R_scope.

(** ** C65: the Cauchy line search *)

(** Settings under which the number of tests is bounded by LINESEARCH_MAX_IT *)
Definition shrinks (tau eps : R) : Prop := 0 < tau < 1 /\ tau ^ max_it <= eps.

Theorem C65_step : forall n (X : @lctx RN) J H (d : @dirn RN) (L : @lsd RN),
  ctx_ok n X -> caches_ok n (lx_nc X) L -> linear_map (lx_nc X) J -> linear_map n H -> dir_ok n X J H d ->
  0 < lx_radius X -> 0 < dotd n (dense (d_primal d)) (dense (d_primal d)) -> shrinks (lx_tau X) (lx_eps X) ->
  let p := dense (d_primal d) in
  let t0 := first_length n (lx_radius X) p in
  let m0 := qmerit n X J H zerof in
  exists d' full v L', cauchy_step X d L = Ok (d', full, v, L') /\ caches_ok n (lx_nc X) L' /\ dir_ok n X J H d'
    /\ dotd n (dense (d_primal d')) (dense (d_primal d')) <= lx_radius X * lx_radius X
    /\ (let p' := dense (d_primal d') in
        (exists k, p' = scaled (t0 * lx_tau X ^ k) p /\ full = (Nat.eqb k 0)
          /\ v = qmerit n X J H p'
          /\ lx_eta X * (m0 - lmerit n X J p') <= m0 - v
          /\ forall j, (j < k)%nat ->
               m0 - qmerit n X J H (scaled (t0 * lx_tau X ^ j) p) < lx_eta X * (m0 - lmerit n X J (scaled (t0 * lx_tau X ^ j) p)))
        \/ (p' = zerof /\ full = false
          /\ exists t, 0 < t /\ lx_tau X * t <= lx_eps X /\ v = qmerit n X J H (scaled t p)
               /\ m0 - v < lx_eta X * (m0 - lmerit n X J (scaled t p)))).
Proof.
  intros n X J H d L CX CL HJ HH Hd Hrad Hnz [[Ht0 Ht1] Hpow] p t0 m0.
  assert (Ez : m0 = qmerit n X J H (scaled 0 p)) by (unfold m0; now rewrite <- zerof_scaled).
  assert (Hno : forall t, ~ accept n X J H d t ->
    m0 - qmerit n X J H (scaled t p) < lx_eta X * (m0 - lmerit n X J (scaled t p))).
  { intros t Hna. unfold accept in Hna. fold p in Hna. rewrite <- Ez in Hna. lra. }
  destruct (first_length_pos n (lx_radius X) p Hrad Hnz) as [F0 F1].
  destruct (cauchy_step_spec n X J H d L CX CL HJ HH Hd Hrad Hnz Ht0)
    as [(k & d' & L' & Hk & E & Vd & Dd & CL' & A & P)|[(k & d' & L' & Hk & E & Vd & Dd & CL' & A & B & P)|(E & P)]].
  - eexists d', _, _, L'. split; [exact E|]. split; [exact CL'|]. split; [exact Vd|]. split.
    { rewrite Dd. apply first_length_norm; auto.
      destruct (length_le n X d Hrad Hnz Ht0 k ltac:(lra)). lra. }
    left. exists k. split; [exact Dd|]. split; [now destruct k|]. split; [now rewrite Dd|]. split.
    + rewrite Dd. unfold accept in A. fold p in A. rewrite <- Ez in A. exact A.
    + intros j Hj. apply Hno, P, Hj.
  - eexists d', _, _, L'. split; [exact E|]. split; [exact CL'|]. split; [exact Vd|]. split.
    { rewrite Dd, dot_zero_l. nra. }
    right. split; [exact Dd|]. split; [reflexivity|]. exists (t0 * lx_tau X ^ k). split.
    { apply (length_le n X d Hrad Hnz Ht0 k). lra. }
    split. { cbn [pow] in B. fold p in B. fold t0 in B. rnum. lra. }
    split; [reflexivity|]. now apply Hno.
  - exfalso. destruct (P (pred max_it)) as [_ Hlt]; [unfold max_it; lia|].
    replace (S (pred max_it)) with max_it in Hlt by (unfold max_it; lia). fold p in Hlt.
    assert (0 < lx_tau X ^ max_it) by now apply pow_lt. fold t0 in F0, F1, Hlt. nra.
Qed.
Print Assumptions C65_step.

(** If the direction does not raise the linear model, neither does the step raise the quadratic
    model, and the zero direction is returned only if the curvature is large. *)
Theorem C65_descent : forall n (X : @lctx RN) J H (d : @dirn RN) (L : @lsd RN) d' full v L',
  ctx_ok n X -> caches_ok n (lx_nc X) L -> linear_map (lx_nc X) J -> linear_map n H -> dir_ok n X J H d ->
  0 < lx_radius X -> 0 < dotd n (dense (d_primal d)) (dense (d_primal d)) -> 0 < lx_tau X <= 1 -> 0 <= lx_eta X <= 1 ->
  let p := dense (d_primal d) in
  let m0 := qmerit n X J H zerof in
  lmerit n X J p <= m0 -> cauchy_step X d L = Ok (d', full, v, L') ->
  qmerit n X J H (dense (d_primal d')) <= m0
  /\ (dense (d_primal d') = zerof ->
      2 * (1 - lx_eta X) * lx_tau X * (m0 - lmerit n X J p) <= lx_eps X * dotd n p (H p)).
Proof.
  intros n X J H d L d' full v L' CX CL HJ HH Hd Hrad Hnz [Ht0 Ht1] [He0 He1] p m0 Hlin E.
  destruct (first_length_pos n (lx_radius X) p Hrad Hnz) as [F0 F1].
  set (t0 := first_length n (lx_radius X) p) in *.
  destruct (cauchy_step_spec n X J H d L CX CL HJ HH Hd Hrad Hnz Ht0)
    as [(k & d1 & L1 & Hk & E' & Vd & Dd & CL' & A & P)|[(k & d1 & L1 & Hk & E' & Vd & Dd & CL' & A & B & P)|(E' & P)]];
    rewrite E' in E; [injection E as <- <- <- <-|injection E as <- <- <- <-|discriminate];
    destruct (length_le n X d Hrad Hnz Ht0 k Ht1) as [K0 K1]; fold p in K0, K1, A; fold t0 in K0, K1, A.
  - fold p in Dd. fold t0 in Dd. rewrite Dd. split.
    + unfold accept in A. fold p in A. rewrite <- (zerof_scaled p) in A. fold m0 in A.
      pose proof (linear_decrease n X J H d CX HJ (t0 * lx_tau X ^ k) ltac:(lra)) as LD. fold p in LD. fold m0 in LD.
      assert (0 <= t0 * lx_tau X ^ k * (m0 - lmerit n X J p)) by (apply Rmult_le_pos; lra).
      assert (0 <= lx_eta X * (m0 - lmerit n X J (scaled (t0 * lx_tau X ^ k) p))) by (apply Rmult_le_pos; lra). rnum. lra.
    + intros Hz. exfalso. assert (Hp : dotd n (scaled (t0 * lx_tau X ^ k) p) (scaled (t0 * lx_tau X ^ k) p) = 0).
      { rewrite Hz. apply dot_zero_l. }
      rewrite dot_scaled_r, dotd_sym, dot_scaled_r in Hp. fold p in Hnz.
      assert (0 < t0 * lx_tau X ^ k * (t0 * lx_tau X ^ k * dotd n p p)) by (apply Rmult_lt_0_compat; [lra|]; apply Rmult_lt_0_compat; lra). lra.
  - rewrite Dd. split; [fold m0; lra|]. intros _.
    set (t := t0 * lx_tau X ^ k) in *.
    assert (Hgt : 2 * (1 - lx_eta X) * (m0 - lmerit n X J p) < t * dotd n p (H p)).
    { apply Rnot_le_lt. intros Hle. apply A. apply (accept_small n X J H d CX HJ HH t); [lra|exact He1|exact Hle]. }
    assert (Hb : t * lx_tau X <= lx_eps X).
    { unfold t. cbn [pow] in B. fold p in B. fold t0 in B. rnum. lra. }
    assert (0 <= 2 * (1 - lx_eta X) * (m0 - lmerit n X J p)) by (apply Rmult_le_pos; [|lra]; lra).
    assert (Hh : 0 < dotd n p (H p)).
    { destruct (Rlt_le_dec 0 (dotd n p (H p))); auto. assert (0 <= t * - dotd n p (H p)) by (apply Rmult_le_pos; lra). lra. }
    assert (t * lx_tau X * dotd n p (H p) <= lx_eps X * dotd n p (H p)) by (apply Rmult_le_compat_r; lra).
    assert (lx_tau X * (2 * (1 - lx_eta X) * (m0 - lmerit n X J p)) <= lx_tau X * (t * dotd n p (H p))) by (apply Rmult_le_compat_l; lra).
    lra.
Qed.
Print Assumptions C65_descent.

(** Example: one variable, one constraint violated at the start, the full step is rejected. *)
Lemma shrinks_intro tau eps k : 0 < tau < 1 -> (k <= max_it)%nat -> tau ^ k <= eps -> shrinks tau eps.
Proof.
  intros Ht Hk He. split; [exact Ht|]. replace max_it with (k + (max_it - k))%nat by lia. rewrite pow_add.
  assert (0 < tau ^ k) by (apply pow_lt; lra).
  assert (tau ^ (max_it - k) <= 1) by (rewrite <- (pow1 (max_it - k)); apply pow_incr; lra).
  assert (tau ^ k * tau ^ (max_it - k) <= tau ^ k * 1) by (apply Rmult_le_compat_l; lra). lra.
Qed.
Lemma shrinks_half eps : / 1024 <= eps -> shrinks (/ 2) eps.
Proof. intros. apply (shrinks_intro _ _ 10); [lra|unfold max_it; lia|]. cbn [pow]. lra. Qed.

Definition rv (x : R) : rvec := mkvec 1 1 [(0%Z, x : @num RN)].
Lemma vok_rv x : vok 1 (rv x). Proof. split; [unfold wf; cbn; lia|reflexivity]. Qed.
Lemma dot1 (x y : Z -> R) : dotd 1 x y = x 0%Z * y 0%Z.
Proof. unfold dotd, sumd. change (Z.to_nat 1) with 1%nat. cbn [rsum]. change (Z.of_nat 0) with 0%Z. lra. Qed.
Lemma dense_rv x : dense (rv x) 0 = x. Proof. reflexivity. Qed.
Definition mulby (h : R) (p : Z -> R) : Z -> R := fun _ => h * p 0%Z.
Lemma mulby_linear m h : linear_map m (mulby h).
Proof. intros a x b y i Hi. unfold mulby, lc. ring. Qed.
Lemma mulby_adj h : self_adjoint 1 (mulby h).
Proof. intros x y. rewrite !dot1. unfold mulby. ring. Qed.
Definition rdir (g j h p : R) : @dirn RN := mkdirn (rv p) (g * p : @num RN) (rv (j * p)) (rv (h * p)).
(** Value [cval] of the constraint with upper bound 0 and lower bound -10. *)
Definition rctx (obj g cval pen radius eps eta tau cutoff : R) : @lctx RN :=
  mklctx 1 (rv (-10)) (rv 0) (rv (-1000)) (rv 1000) (rv 0) obj (rv g) (rv cval) pen radius eps (0 : @num RN) eta tau cutoff.
Lemma rctx_ok obj g cval pen radius eps eta tau cutoff : 0 <= pen -> ctx_ok 1 (rctx obj g cval pen radius eps eta tau cutoff).
Proof.
  intros Hp. constructor; cbn [rctx lx_nc lx_clb lx_cub lx_vlb lx_vub lx_x lx_grad lx_cons lx_pen lx_zero]; try apply vok_rv; auto; try lia.
  intros i Hi. assert (i = 0%Z) by lia. subst i. rewrite !dense_rv. lra.
Qed.
Lemma rdir_ok X g j h p : lx_nc X = 1%Z -> lx_grad X = rv g -> dir_ok 1 X (mulby j) (mulby h) (rdir g j h p).
Proof.
  intros E1 E2. constructor; cbn [rdir d_primal d_obj d_cons d_hess]; rewrite ?E1, ?E2; try apply vok_rv.
  - rewrite dot1, !dense_rv. reflexivity.
  - intros i Hi. assert (i = 0%Z) by lia. subst i. reflexivity.
  - intros i Hi. assert (i = 0%Z) by lia. subst i. reflexivity.
Qed.
Definition rcaches : @lsd RN := mklsd (rv 0) (rv 0) (rv 0) (rv 0) (rv 0) (rv 0) (rv 0) 0.
Lemma rcaches_ok : caches_ok 1 1 rcaches.
Proof. constructor; cbn; try lia. apply vok_rv. Qed.

Lemma rviol1 X p : lx_nc X = 1%Z -> lviol X (mulby (-1)) p
  = rviol (dense (lx_cons X) 0 + -1 * p 0%Z) (dense (lx_clb X) 0) (dense (lx_cub X) 0).
Proof.
  intros E. unfold lviol, total_viol. rewrite E. unfold sumd. change (Z.to_nat 1) with 1%nat. cbn [rsum].
  change (Z.of_nat 0) with 0%Z. unfold mulby. lra.
Qed.

Definition exX := rctx 0 1 1 3 4 (/ 1000) (/ 10) (/ 2) (/ 1000).
Definition exd := rdir 1 (-1) 12 1.
Example C65_example : ctx_ok 1 exX /\ caches_ok 1 (lx_nc exX) rcaches /\ linear_map (lx_nc exX) (mulby (-1)) /\ linear_map 1 (mulby 12)
  /\ dir_ok 1 exX (mulby (-1)) (mulby 12) exd /\ 0 < lx_radius exX
  /\ 0 < dotd 1 (dense (d_primal exd)) (dense (d_primal exd)) /\ shrinks (lx_tau exX) (lx_eps exX)
  /\ 0 < lx_tau exX <= 1 /\ 0 <= lx_eta exX <= 1
  /\ lmerit 1 exX (mulby (-1)) (dense (d_primal exd)) < qmerit 1 exX (mulby (-1)) (mulby 12) zerof
  /\ qmerit 1 exX (mulby (-1)) (mulby 12) zerof < qmerit 1 exX (mulby (-1)) (mulby 12) (dense (d_primal exd)).
Proof.
  split; [apply rctx_ok; lra|]. split; [apply rcaches_ok|]. split; [apply mulby_linear|]. split; [apply mulby_linear|].
  split; [apply rdir_ok; reflexivity|]. split; [cbn; lra|]. split; [rewrite dot1; cbn; unfold rn_lit; lra|].
  split; [apply shrinks_half; cbn; lra|]. split; [cbn; lra|]. split; [cbn; lra|].
  unfold qmerit, lmerit. rewrite !rviol1, !dot1 by reflexivity. unfold mulby, zerof. cbn [exX exd rctx rdir lx_obj lx_pen lx_cons lx_clb lx_cub lx_grad d_primal].
  rewrite !dense_rv. unfold rviol, Rmax. repeat destruct (Rle_dec _ _); lra.
Qed.

(** When the search gives up, the value that it returns is the one of the last step tested, not
    the one of the zero direction. *)
Definition dmerit (X : @lctx F64) (d : @dirn F64) : res f64 :=
  merit_quadratic (lx_nc X) (lx_obj X) (d_obj d) (lx_cons X) (d_cons d) (lx_clb X) (lx_cub X) (d_primal d) (d_hess d)
    (lx_zero X) (lx_pen X) (ve (lx_nc X) []).
(** Default settings, one penalty parameter, bounds of the variables far away *)
Definition fctx (nc n : Z) (clb cub grad cons : list (Z * Z)) (pen radius : Z) (eta : f64) : @lctx F64 :=
  mklctx nc (ve nc clb) (ve nc cub) (ve n (map (fun i => (i, -1000)%Z) (zrange n))) (ve n (map (fun i => (i, 1000)%Z) (zrange n)))
    (ve n []) (fz 0) (ve n grad) (ve nc cons) (fz pen) (fz radius)
    (@nlit F64 1 10000000000) (@nlit F64 1 100000000000000) eta (half 1) (@nlit F64 1 1000000).
Definition fcaches (nc n : Z) : @lsd F64 := mklsd (ve n []) (ve nc []) (ve nc []) (ve nc []) (ve nc []) (ve n []) (ve nc []) 0.
Definition fdir (nc n : Z) (p : list (Z * Z)) (obj : Z) (cons hess : list (Z * Z)) : @dirn F64 :=
  mkdirn (ve n p) (fz obj) (ve nc cons) (ve n hess).
Definition tenth : f64 := @nlit F64 1 10.

Theorem C65_value_refuted : exists (X : @lctx F64) (d : @dirn F64) (L : @lsd F64) d' full v L' m,
  cauchy_step X d L = Ok (d', full, v, L') /\ vent (d_primal d') = [] /\ dmerit X d' = Ok m
  /\ @nltb F64 (m + fz 60)%num v = true.
Proof.
  set (X := fctx 0 1 [] [] [] [] 10 1 tenth).
  set (d := fdir 0 1 [(0, 1)%Z] 0 [] [(0, 10000000000000000000000)%Z]).
  set (L := fcaches 0 1).
  assert (B : match cauchy_step X d L with
    | Ok (d', full, v, L') => match vent (d_primal d'), dmerit X d' with [], Ok m => @nltb F64 (m + fz 60)%num v | _, _ => false end
    | _ => false end = true) by (vm_compute; reflexivity).
  clearbody X d L. exists X, d, L. destruct (cauchy_step X d L) as [[[[d' full] v] L']|?|]; try discriminate.
  destruct (vent (d_primal d')) eqn:Ev; try discriminate. destruct (dmerit X d') as [m|?|] eqn:Em; try discriminate.
  exists d', full, v, L', m. auto.
Qed.
Print Assumptions C65_value_refuted.

(** The settings admit every factor; without shrinking the assertion on the number of tests
    fails. *)
Theorem C65_tests_refuted : exists n (X : @lctx RN) J H (d : @dirn RN) (L : @lsd RN),
  ctx_ok n X /\ caches_ok n (lx_nc X) L /\ linear_map (lx_nc X) J /\ linear_map n H /\ dir_ok n X J H d
  /\ 0 < lx_radius X /\ 0 < dotd n (dense (d_primal d)) (dense (d_primal d))
  /\ lmerit n X J (dense (d_primal d)) < qmerit n X J H zerof /\ lx_tau X = 1
  /\ cauchy_step X d L = Trap.
Proof.
  set (X := rctx 0 1 1 3 4 (/ 1000) (/ 10) 1 (/ 1000)).
  exists 1%Z, X, (mulby (-1)), (mulby 12), exd, rcaches.
  assert (CX : ctx_ok 1 X) by (apply rctx_ok; lra).
  assert (Hd : dir_ok 1 X (mulby (-1)) (mulby 12) exd) by (apply rdir_ok; reflexivity).
  assert (Hnz : dotd 1 (dense (d_primal exd)) (dense (d_primal exd)) = 1) by (rewrite dot1; cbn; unfold rn_lit; lra).
  assert (V : forall t, lviol X (mulby (-1)) (scaled t (dense (d_primal exd))) = rviol (1 - t) (-10) 0).
  { intros t. rewrite rviol1 by reflexivity. unfold scaled. cbn [X rctx exd rdir lx_cons lx_clb lx_cub d_primal]. rewrite !dense_rv. f_equal. lra. }
  assert (Q0 : qmerit 1 X (mulby (-1)) (mulby 12) (scaled 0 (dense (d_primal exd))) = 3).
  { unfold qmerit, lmerit. rewrite V, !dot1. unfold mulby, scaled. cbn [X rctx exd rdir lx_obj lx_pen lx_grad d_primal]. rewrite !dense_rv.
    unfold rviol, Rmax. repeat destruct (Rle_dec _ _); lra. }
  assert (L1 : lmerit 1 X (mulby (-1)) (scaled 1 (dense (d_primal exd))) = 1).
  { unfold lmerit. rewrite V, !dot1. unfold scaled. cbn [X rctx exd rdir lx_obj lx_pen lx_grad d_primal]. rewrite !dense_rv.
    unfold rviol, Rmax. repeat destruct (Rle_dec _ _); lra. }
  assert (Q1 : qmerit 1 X (mulby (-1)) (mulby 12) (scaled 1 (dense (d_primal exd))) = 7).
  { unfold qmerit. rewrite L1, !dot1. unfold mulby, scaled. cbn [exd rdir d_primal]. rewrite !dense_rv. lra. }
  assert (S1 : scaled 1 (dense (d_primal exd)) = dense (d_primal exd)).
  { apply functional_extensionality. intros i. unfold scaled. apply Rmult_1_l. }
  assert (Ht : first_length 1 (lx_radius X) (dense (d_primal exd)) = 1).
  { unfold first_length. rewrite Hnz, sqrt_1. cbn [X rctx lx_radius]. apply Rmin_left. lra. }
  split; [exact CX|]. split; [apply rcaches_ok|]. split; [apply mulby_linear|]. split; [apply mulby_linear|]. split; [exact Hd|].
  split; [cbn; lra|]. split; [rewrite Hnz; lra|]. split; [rewrite <- S1, L1, (zerof_scaled (dense (d_primal exd))), Q0; lra|].
  split; [reflexivity|].
  assert (NA : ~ accept 1 X (mulby (-1)) (mulby 12) exd 1).
  { unfold accept. rewrite Q0, Q1, L1. cbn [X rctx lx_eta]. lra. }
  destruct (cauchy_step_spec 1 X (mulby (-1)) (mulby 12) exd rcaches CX rcaches_ok (mulby_linear _ _) (mulby_linear _ _) Hd)
    as [(k & d' & L' & Hk & E & Vd & Dd & CL' & A & P)|[(k & d' & L' & Hk & E & Vd & Dd & CL' & A & B & P)|(E & P)]].
  - cbn. lra.
  - rewrite Hnz. lra.
  - cbn. lra.
  - exfalso. rewrite Ht in A. change (lx_tau X) with 1 in A. rewrite pow1, Rmult_1_l in A. now apply NA.
  - exfalso. rewrite Ht in B. change (lx_tau X) with 1 in B. rewrite pow1, Rmult_1_l in B. cbn [X rctx lx_eps] in B. lra.
  - exact E.
Qed.
Print Assumptions C65_tests_refuted.

(** A run that stops after several reductions. *)
Example C65_run : exists d' full v L',
  cauchy_step (fctx 1 2 [(0, -9)%Z] [] [(0, 3)%Z] [(0, 5)%Z] 10 1 tenth)
    (fdir 1 2 [(0, -1)%Z] (-3) [(0, -4)%Z] [(0, -200)%Z]) (fcaches 1 2) = Ok (d', full, v, L')
  /\ show (d_primal d') = [(0%Z, B2SF (@nlit F64 (-1) 4))] /\ full = false.
Proof.
  set (r := cauchy_step _ _ _).
  assert (B : match r with Ok (d', full, v, L') =>
     match show (d_primal d') with [(0%Z, x)] => match x, B2SF (@nlit F64 (-1) 4 : f64) with
        | SpecFloat.S754_finite s1 m1 e1, SpecFloat.S754_finite s2 m2 e2 => Bool.eqb s1 s2 && Pos.eqb m1 m2 && Z.eqb e1 e2 && negb full | _, _ => false end | _ => false end
   | _ => false end = true) by (vm_compute; reflexivity).
  destruct r as [[[[d' full] v] L']|?|]; try discriminate. exists d', full, v, L'. split; [reflexivity|].
  destruct (show (d_primal d')) as [|[[| |] x] [|]]; try discriminate.
  destruct x; try discriminate. destruct (B2SF _) eqn:E; try discriminate.
  apply andb_prop in B. destruct B as [B B4]. apply andb_prop in B. destruct B as [B B3]. apply andb_prop in B. destruct B as [B1 B2].
  apply Bool.eqb_prop in B1. apply Pos.eqb_eq in B2. apply Z.eqb_eq in B3. subst. split; [reflexivity|]. now destruct full.
Qed.

(** ** C66: the line search between the Cauchy and the Newton direction *)

Theorem C66_step : forall n (X : @lctx RN) J H (c nw r : @dirn RN) (L : @lsd RN) (merit : R),
  ctx_ok n X -> caches_ok n (lx_nc X) L -> linear_map (lx_nc X) J -> linear_map n H -> self_adjoint n H ->
  dir_ok n X J H c -> dir_ok n X J H nw -> dir_room n X r ->
  (forall i, (0 <= i < n)%Z -> dense (lx_vlb X) i <= dense (lx_x X) i + dense (d_primal c) i <= dense (lx_vub X) i) ->
  shrinks (lx_tau X) (lx_cutoff X) ->
  let p := dense (d_primal c) in
  let q := dense (d_primal nw) in
  let value a := qmerit n X J H (fun i => (1 - a) * p i + a * q i) in
  let bound a := merit + lx_eta X * (a * used_slope n X J H c nw) in
  exists t a v L' a0, trial_step X c (merit : @num RN) nw r L = Ok (t, a, v, L')
    /\ caches_ok n (lx_nc X) L' /\ dir_ok n X J H t
    /\ 0 <= a <= a0 /\ 0 < a0 <= 1 /\ (forall i, dense (d_primal t) i = (1 - a) * p i + a * q i)
    /\ (forall rad, 0 <= rad -> dotd n p p <= rad * rad -> dotd n q q <= rad * rad ->
          dotd n (dense (d_primal t)) (dense (d_primal t)) <= rad * rad)
    /\ (forall i, (0 <= i < n)%Z -> ~ blocked X c nw i ->
          dense (lx_vlb X) i <= dense (lx_x X) i + dense (d_primal t) i <= dense (lx_vub X) i)
    /\ (a0 = 1 \/ exists i, (0 <= i < n)%Z /\ p i <> q i
          /\ (dense (lx_x X) i + ((1 - a0) * p i + a0 * q i) = dense (lx_vub X) i
              \/ dense (lx_x X) i + ((1 - a0) * p i + a0 * q i) = dense (lx_vlb X) i))
    /\ ((a = 0 /\ v = merit)
        \/ (lx_cutoff X < a /\ (exists k, a = a0 * lx_tau X ^ k) /\ v = value a /\ v <= bound a))
    /\ (forall j, lx_cutoff X < a0 * lx_tau X ^ j -> a < a0 * lx_tau X ^ j ->
          bound (a0 * lx_tau X ^ j) < value (a0 * lx_tau X ^ j)).
Proof.
  intros n X J H c nw r L merit CX CL HJ HH HS Hc Hn Hr Hbox [[Ht0 Ht1] Hpow] p q value bound.
  destruct (trial_step_spec n X J H c nw CX HJ HH HS Hc Hn merit r L CL Hr Hbox) as (a0 & Ha0 & Hmax & Hin & Hout).
  assert (Hmax' : a0 = 1 \/ exists i, (0 <= i < n)%Z /\ p i <> q i
          /\ (dense (lx_x X) i + ((1 - a0) * p i + a0 * q i) = dense (lx_vub X) i
              \/ dense (lx_x X) i + ((1 - a0) * p i + a0 * q i) = dense (lx_vlb X) i)).
  { destruct Hmax as [E|(i & Hi & [[P1 P2]|[P1 P2]])]; [left; exact E| |]; right; exists i; split; auto; fold p q in P1; (split; [lra|]);
      [left|right]; exact P2. }
  clear Hmax.
  assert (Hdec : forall j k, (j <= k)%nat -> a0 * lx_tau X ^ k <= a0 * lx_tau X ^ j).
  { intros j k Hjk. apply Rmult_le_compat_l; [lra|]. replace k with (j + (k - j))%nat by lia. rewrite pow_add.
    assert (0 < lx_tau X ^ j) by now apply pow_lt.
    assert (lx_tau X ^ (k - j) <= 1) by (rewrite <- (pow1 (k - j)); apply pow_incr; lra).
    assert (lx_tau X ^ j * lx_tau X ^ (k - j) <= lx_tau X ^ j * 1) by (apply Rmult_le_compat_l; lra). lra. }
  assert (Hpos : forall k, 0 < a0 * lx_tau X ^ k) by (intros k; apply Rmult_lt_0_compat; [lra|]; now apply pow_lt).
  assert (Hbt : forall a, between c nw a = fun i => (1 - a) * p i + a * q i) by reflexivity.
  assert (Hacc : forall a, ~ accept2 n X J H c nw merit (used_slope n X J H c nw) a -> bound a < value a).
  { intros a Hna. unfold accept2 in Hna. rewrite Hbt in Hna. unfold bound, value. lra. }
  destruct Hout as [(k & t & L' & Hk & Hcut & E & Vt & Dt & CL' & A & P)|[(t & L' & E & Vt & Dt & CL' & P)|(E & P)]].
  - set (a := a0 * lx_tau X ^ k) in *. assert (Ha : 0 < a <= a0).
    { split; [apply Hpos|]. specialize (Hdec 0%nat k ltac:(lia)). rewrite pow_O, Rmult_1_r in Hdec. exact Hdec. }
    exists t, a, (value a), L', a0. split; [unfold value; rewrite <- Hbt; exact E|]. split; [exact CL'|]. split; [exact Vt|].
    split; [lra|]. split; [exact Ha0|]. split; [intros i; now rewrite Dt|]. split; [|split; [|split; [exact Hmax'|split]]].
    + intros rad R0 R1 R2. rewrite Dt. apply between_norm; auto. lra.
    + intros i Hi Hb. rewrite Dt. apply (Hin i a Hi Hb). lra.
    + right. split; [|split; [now exists k|split; [reflexivity|]]].
      * destruct k as [|k]; [unfold a; rewrite pow_O, Rmult_1_r; exact Hcut|]. apply (P k). lia.
      * unfold accept2 in A. rewrite Hbt in A. exact A.
    + intros j Hj1 Hj2. apply Hacc, P. destruct (le_lt_dec k j) as [Hle|]; auto. specialize (Hdec k j Hle). fold a in Hdec. lra.
  - exists t, 0, merit, L', a0. split; [exact E|]. split; [exact CL'|]. split; [exact Vt|]. split; [lra|]. split; [exact Ha0|].
    split. { intros i. rewrite Dt. now rewrite Rminus_0_r, Rmult_1_l, Rmult_0_l, Rplus_0_r. }
    split; [|split; [|split; [exact Hmax'|split]]].
    + intros rad R0 R1 R2. rewrite Dt. exact R1.
    + intros i Hi Hb. rewrite Dt. now apply Hbox.
    + left. auto.
    + intros j Hj1 Hj2. apply Hacc. destruct P as [P|(k & Hk & P1 & P2)].
      * specialize (Hdec 0%nat j ltac:(lia)). rewrite pow_O, Rmult_1_r in Hdec. lra.
      * apply P2. destruct (le_lt_dec j k) as [|Hlt]; auto. specialize (Hdec (S k) j ltac:(lia)). lra.
  - exfalso. destruct (P (pred max_it)) as [_ Hlt]; [unfold max_it; lia|].
    replace (S (pred max_it)) with max_it in Hlt by (unfold max_it; lia).
    assert (0 < lx_tau X ^ max_it) by now apply pow_lt. nra.
Qed.
Print Assumptions C66_step.

(** If the slope in use is not positive, the model does not grow.  Missing: this does not follow
    from the slope of the model itself, see below. *)
Theorem C66_descent_partial : forall n (X : @lctx RN) J H (c nw r : @dirn RN) (L : @lsd RN) t a v L',
  ctx_ok n X -> caches_ok n (lx_nc X) L -> linear_map (lx_nc X) J -> linear_map n H -> self_adjoint n H ->
  dir_ok n X J H c -> dir_ok n X J H nw -> dir_room n X r ->
  (forall i, (0 <= i < n)%Z -> dense (lx_vlb X) i <= dense (lx_x X) i + dense (d_primal c) i <= dense (lx_vub X) i) ->
  shrinks (lx_tau X) (lx_cutoff X) -> 0 <= lx_eta X -> used_slope n X J H c nw <= 0 ->
  let m := qmerit n X J H (dense (d_primal c)) in
  trial_step X c (m : @num RN) nw r L = Ok (t, a, v, L') ->
  v = qmerit n X J H (dense (d_primal t)) /\ v <= m.
Proof.
  intros n X J H c nw r L t a v L' CX CL HJ HH HS Hc Hn Hr Hbox Hs He Hsl m E.
  destruct (C66_step n X J H c nw r L m CX CL HJ HH HS Hc Hn Hr Hbox Hs)
    as (t1 & a1 & v1 & L1 & a0 & E1 & _ & Vt & Ha & _ & Dt & _ & _ & _ & Hv & _).
  rewrite E in E1. injection E1 as <- <- <- <-.
  assert (Ed : dense (d_primal t) = fun i => (1 - a) * dense (d_primal c) i + a * dense (d_primal nw) i)
    by (apply functional_extensionality; intros i; apply Dt).
  destruct Hv as [[-> ->]|(Hcut & _ & -> & Hle)].
  - split; [|lra]. unfold m. f_equal. rewrite Ed. apply functional_extensionality. intros i.
    now rewrite Rminus_0_r, Rmult_1_l, Rmult_0_l, Rplus_0_r.
  - split; [now rewrite Ed|].
    assert (0 <= lx_eta X * (a * - used_slope n X J H c nw)) by (apply Rmult_le_pos; [exact He|apply Rmult_le_pos; lra]). rnum. lra.
Qed.
Print Assumptions C66_descent_partial.

(** The derivative of the model along the way from the Cauchy to the Newton direction is
    negative, yet the point accepted is worse than the Cauchy point: the violation enters the
    slope without the penalty parameter. *)
Definition upX : @lctx RN := rctx 0 2 100 10 4 (/ 1000) (/ 10000) (/ 2) (/ 1000).
Definition upH : R := 160001 / 10000.
Lemma up_value (p : Z -> R) : 0 <= p 0%Z <= 1 -> qmerit 1 upX (mulby (-1)) (mulby upH) p = 1000 - 8 * p 0%Z + upH / 2 * (p 0%Z * p 0%Z).
Proof.
  intros Hp. unfold qmerit, lmerit. rewrite rviol1, !dot1 by reflexivity. unfold mulby.
  cbn [upX rctx lx_obj lx_pen lx_cons lx_clb lx_cub lx_grad]. rewrite !dense_rv.
  assert (E : rviol (100 + -1 * p 0%Z) (-10) 0 = 100 - p 0%Z) by (unfold rviol, Rmax; repeat destruct (Rle_dec _ _); lra).
  rewrite E. unfold upH. lra.
Qed.

Theorem C66_descent_refuted : exists n (X : @lctx RN) J H (c nw r : @dirn RN) (L : @lsd RN) t a v L',
  ctx_ok n X /\ caches_ok n (lx_nc X) L /\ linear_map (lx_nc X) J /\ linear_map n H /\ self_adjoint n H
  /\ dir_ok n X J H c /\ dir_ok n X J H nw /\ dir_room n X r
  /\ (forall i, (0 <= i < n)%Z -> dense (lx_vlb X) i <= dense (lx_x X) i + dense (d_primal c) i <= dense (lx_vub X) i)
  /\ shrinks (lx_tau X) (lx_cutoff X) /\ 0 <= lx_eta X <= / 10000
  /\ (forall i, ~ blocked X c nw i)
  /\ (forall s, 0 < s <= / 2 -> qmerit n X J H (between c nw s) <= qmerit n X J H (dense (d_primal c)) - 3 * s)
  /\ trial_step X c (qmerit n X J H (dense (d_primal c)) : @num RN) nw r L = Ok (t, a, v, L')
  /\ qmerit n X J H (dense (d_primal c)) < qmerit n X J H (dense (d_primal t)).
Proof.
  set (c := rdir 2 (-1) upH 0). set (nw := rdir 2 (-1) upH 1). set (r := rdir 0 0 0 0).
  assert (CX : ctx_ok 1 upX) by (apply rctx_ok; lra).
  assert (Hc : dir_ok 1 upX (mulby (-1)) (mulby upH) c) by (apply rdir_ok; reflexivity).
  assert (Hn : dir_ok 1 upX (mulby (-1)) (mulby upH) nw) by (apply rdir_ok; reflexivity).
  assert (Hr : dir_room 1 upX r) by (split; [|split]; apply vok_rv).
  assert (Hbox : forall i, (0 <= i < 1)%Z -> dense (lx_vlb upX) i <= dense (lx_x upX) i + dense (d_primal c) i <= dense (lx_vub upX) i).
  { intros i Hi. assert (i = 0%Z) by lia. subst i. cbn; lra. }
  assert (Hs : shrinks (lx_tau upX) (lx_cutoff upX)) by (apply shrinks_half; cbn; lra).
  assert (C0 : dense (d_primal c) 0 = 0) by reflexivity. assert (N0 : dense (d_primal nw) 0 = 1) by reflexivity.
  assert (Qc : qmerit 1 upX (mulby (-1)) (mulby upH) (dense (d_primal c)) = 1000).
  { rewrite up_value; rewrite C0; lra. }
  assert (Qb : forall s, 0 <= s <= 1 -> qmerit 1 upX (mulby (-1)) (mulby upH) (between c nw s) = 1000 - 8 * s + upH / 2 * (s * s)).
  { intros s Hs1. assert (Eb : between c nw s 0%Z = s) by (unfold between, lc; rewrite C0, N0; ring). rewrite up_value; rewrite Eb; lra. }
  assert (Sl : used_slope 1 upX (mulby (-1)) (mulby upH) c nw = 1).
  { unfold used_slope. rewrite !dot1. unfold mulby, sumd. change (lx_nc upX) with 1%Z. change (Z.to_nat 1) with 1%nat. cbn [rsum].
    change (Z.of_nat 0) with 0%Z. rewrite C0, N0. cbn [upX rctx lx_clb lx_cub lx_cons lx_grad]. rewrite !dense_rv.
    unfold viol_sign. destruct (Rlt_dec 0 (100 + -1 * 0)); lra. }
  assert (Nb : forall i, ~ blocked upX c nw i).
  { intros i [[E1 E2]|[E1 E2]].
    - destruct (Z.eq_dec i 0) as [->|Hne].
      + cbn in E1. lra.
      + unfold c, nw, rdir, rv, dense in E2. cbn in E2. destruct i; [congruence| |]; cbn in E2; unfold rn_lit in E2; lra.
    - destruct (Z.eq_dec i 0) as [->|Hne].
      + cbn in E1. lra.
      + unfold c, nw, rdir, rv, dense in E2. cbn in E2. destruct i; [congruence| |]; cbn in E2; unfold rn_lit in E2; lra. }
  destruct (C66_step 1 upX (mulby (-1)) (mulby upH) c nw r rcaches 1000 CX rcaches_ok (mulby_linear _ _) (mulby_linear _ _) (mulby_adj _) Hc Hn Hr Hbox Hs)
    as (t & a & v & L' & a0 & E & CL' & Vt & Ha & Ha0 & Dt & _ & _ & Hmax & Hv & Hrej).
  exists 1%Z, upX, (mulby (-1)), (mulby upH), c, nw, r, rcaches, t, a, v, L'.
  split; [exact CX|]. split; [apply rcaches_ok|]. split; [apply mulby_linear|]. split; [apply mulby_linear|]. split; [apply mulby_adj|].
  split; [exact Hc|]. split; [exact Hn|]. split; [exact Hr|]. split; [exact Hbox|]. split; [exact Hs|]. split; [cbn; lra|].
  split; [exact Nb|]. split.
  { intros s Hs1. rewrite Qb, Qc by lra. unfold upH. nra. }
  split; [rewrite Qc; exact E|].
  assert (A0 : a0 = 1).
  { destruct Hmax as [|(i & Hi & _ & [P|P])]; auto; exfalso; assert (i = 0%Z) by lia; subst i; rewrite C0, N0 in P; cbn in P; lra. }
  subst a0.
  assert (A1 : a = 1).
  { destruct (Rlt_le_dec a 1) as [Hlt|]; [|lra]. exfalso.
    specialize (Hrej 0%nat). rewrite pow_O, Rmult_1_r in Hrej. cbv zeta in Hrej. rewrite Sl in Hrej.
    change (fun i => (1 - 1) * dense (d_primal c) i + 1 * dense (d_primal nw) i) with (between c nw 1) in Hrej.
    rewrite Qb in Hrej by lra. cbn [upX rctx lx_cutoff lx_eta] in Hrej. unfold upH in Hrej. specialize (Hrej ltac:(lra) Hlt). lra. }
  assert (Et : dense (d_primal t) = between c nw 1).
  { apply functional_extensionality. intros i. rewrite Dt, A1. reflexivity. }
  rewrite Qc, Et, Qb by lra. unfold upH. lra.
Qed.
Print Assumptions C66_descent_refuted.

(** The data of [C66_descent_refuted] meet the hypotheses of [C66_step]; here the other sign. *)
Example C66_example :
  let X := rctx 0 (-2) 100 10 4 (/ 1000) (/ 10000) (/ 2) (/ 1000) in
  let c := rdir (-2) (-1) 1 0 in let nw := rdir (-2) (-1) 1 1 in
  ctx_ok 1 X /\ caches_ok 1 (lx_nc X) rcaches /\ linear_map (lx_nc X) (mulby (-1)) /\ linear_map 1 (mulby 1) /\ self_adjoint 1 (mulby 1)
  /\ dir_ok 1 X (mulby (-1)) (mulby 1) c /\ dir_ok 1 X (mulby (-1)) (mulby 1) nw /\ dir_room 1 X c
  /\ (forall i, (0 <= i < 1)%Z -> dense (lx_vlb X) i <= dense (lx_x X) i + dense (d_primal c) i <= dense (lx_vub X) i)
  /\ shrinks (lx_tau X) (lx_cutoff X) /\ 0 <= lx_eta X /\ used_slope 1 X (mulby (-1)) (mulby 1) c nw = -3.
Proof.
  intros X c nw. split; [apply rctx_ok; lra|]. split; [apply rcaches_ok|]. split; [apply mulby_linear|]. split; [apply mulby_linear|].
  split; [apply mulby_adj|]. split; [apply rdir_ok; reflexivity|]. split; [apply rdir_ok; reflexivity|].
  split; [split; [|split]; apply vok_rv|]. split. { intros i Hi. assert (i = 0%Z) by lia. subst i. cbn; lra. }
  split; [apply shrinks_half; cbn; lra|]. split; [cbn; lra|].
  unfold used_slope. rewrite !dot1. unfold mulby, sumd. change (lx_nc X) with 1%Z. change (Z.to_nat 1) with 1%nat. cbn [rsum].
  change (Z.of_nat 0) with 0%Z. cbn [X rctx c nw rdir d_primal lx_clb lx_cub lx_cons lx_grad]. rewrite !dense_rv.
  unfold viol_sign. destruct (Rlt_dec 0 (100 + -1 * 0)); lra.
Qed.

(** The trial point can leave the bounds of the variables: a variable at its bound does not
    limit the step length. *)
Theorem C66_bounds_refuted : exists (X : @lctx F64) (c nw r : @dirn F64) (L : @lsd F64) m t a v L',
  dmerit X c = Ok m /\ @nleb F64 (dense (d_primal c) 0) (dense (lx_vub X) 0) = true
  /\ vent (lx_x X) = [] /\ trial_step X c m nw r L = Ok (t, a, v, L')
  /\ @nltb F64 (dense (lx_vub X) 0) (dense (d_primal t) 0) = true.
Proof.
  set (X := fctx 0 1 [] [] [(0, -1)%Z] [] 10 5000 (@nlit F64 1 10000)).
  set (c := fdir 0 1 [(0, 1000)%Z] (-1000) [] []). set (nw := fdir 0 1 [(0, 2000)%Z] (-2000) [] []).
  set (r := fdir 0 1 [] 0 [] []). set (L := fcaches 0 1).
  assert (B : match dmerit X c with Ok m => @nleb F64 (dense (d_primal c) 0) (dense (lx_vub X) 0) &&
    match trial_step X c m nw r L with Ok (t, a, v, L') => @nltb F64 (dense (lx_vub X) 0) (dense (d_primal t) 0) | _ => false end
    | _ => false end = true) by (vm_compute; reflexivity).
  assert (Ex : vent (lx_x X) = []) by reflexivity. clearbody X c nw r L.
  exists X, c, nw, r, L. destruct (dmerit X c) as [m|?|]; try discriminate. apply andb_prop in B. destruct B as [B1 B2].
  destruct (trial_step X c m nw r L) as [[[[t a] v] L']|?|] eqn:E; try discriminate. exists m, t, a, v, L'. auto.
Qed.
Print Assumptions C66_bounds_refuted.

(** ** C67: the exact line search *)

(** Exact minimisation along the segment.  Missing: rows behind the last entry of the violation
    or of the change of the constraint values are ignored, so it is assumed that no such row
    counts; the value is wrong otherwise, see below. *)
Theorem C67_step_partial : forall sort n (X : @lctx RN) J H (c nw r : @dirn RN) (L : @lsd RN),
  sorts sort -> ctx_ok n X -> caches_ok n (lx_nc X) L -> linear_map (lx_nc X) J -> linear_map n H -> self_adjoint n H ->
  dir_ok n X J H c -> dir_ok n X J H nw -> dir_room n X r ->
  counted (lx_nc X) (over X J c) (change J c nw) ->
  counted (lx_nc X) (under X J c) (fun i => - change J c nw i) ->
  let p := dense (d_primal c) in
  let q := dense (d_primal nw) in
  let value a := qmerit n X J H (fun i => (1 - a) * p i + a * q i) in
  exists t a v L', exact_step sort X c nw r L = Ok (t, a, v, L')
    /\ caches_ok n (lx_nc X) L' /\ dir_ok n X J H t
    /\ 0 <= a <= 1 /\ (forall i, dense (d_primal t) i = (1 - a) * p i + a * q i)
    /\ v = value a /\ (forall a', 0 <= a' <= 1 -> v <= value a')
    /\ (forall rad, 0 <= rad -> dotd n p p <= rad * rad -> dotd n q q <= rad * rad ->
          dotd n (dense (d_primal t)) (dense (d_primal t)) <= rad * rad).
Proof.
  intros sort n X J H c nw r L Hso CX CL HJ HH HS Hc Hn Hr K1 K2 p q value.
  destruct (exact_step_spec n X J H c nw CX HJ HH HS Hc Hn sort r L Hso CL Hr K1 K2) as (t & a & L' & E & CL' & Ha & Vt & Dt & Hmin).
  exists t, a, (value a), L'. split; [exact E|]. split; [exact CL'|]. split; [exact Vt|]. split; [exact Ha|].
  split; [intros i; now rewrite Dt|]. split; [reflexivity|]. split; [exact Hmin|].
  intros rad R0 R1 R2. rewrite Dt. now apply between_norm.
Qed.
Print Assumptions C67_step_partial.

(** A sort that can stand for [qsort] *)
Fixpoint insert {N : Num} (b : bp) (l : list bp) : list bp :=
  match l with [] => [b] | b' :: l' => if nleb (b_point b) (b_point b') then b :: l else b' :: insert b l' end.
Fixpoint isort {N : Num} (l : list bp) : list bp := match l with [] => [] | b :: l' => insert b (isort l') end.
Lemma isort_sorts : sorts (@isort RN).
Proof.
  assert (I : forall (b : @bp RN) l, Permutation (insert b l) (b :: l)
    /\ (StronglySorted (fun a b => (b_point a : R) <= b_point b) l -> StronglySorted (fun a b => (b_point a : R) <= b_point b) (insert b l))).
  { intros b l. induction l as [|b' l [P S]]; cbn [insert].
    - split; [reflexivity|]. intros _. constructor; constructor.
    - destruct (@nleb RN (b_point b) (b_point b')) eqn:E.
      + apply rn_leb in E. split; [reflexivity|]. intros Hs. constructor; [exact Hs|]. inversion Hs as [|? ? Hs' Hf]; subst.
        constructor; [exact E|]. rewrite Forall_forall in *. intros x Hx. apply Rle_trans with (b_point b'); [exact E|now apply Hf].
      + apply rn_leb_false in E. split; [rewrite P; apply perm_swap|]. intros Hs. inversion Hs as [|? ? Hs' Hf]; subst.
        constructor; [now apply S|]. rewrite Forall_forall in *. intros x Hx. apply (Permutation_in _ P) in Hx.
        destruct Hx as [<-|Hx]; [rnum; lra|now apply Hf]. }
  intros l. induction l as [|b l [P S]]; cbn [isort].
  - split; [reflexivity|constructor].
  - destruct (I b (isort l)) as [P' S']. split; [rewrite P'; now constructor|now apply S'].
Qed.

(** Example: the violated constraint becomes feasible on the way; the constraint is decreasing. *)
Example C67_example :
  let X := rctx 0 (-2) 1 10 4 (/ 1000) (/ 10000) (/ 2) (/ 1000) in
  let c := rdir (-2) (-1) 1 0 in let nw := rdir (-2) (-1) 1 3 in
  sorts (@isort RN) /\ ctx_ok 1 X /\ caches_ok 1 (lx_nc X) rcaches /\ linear_map (lx_nc X) (mulby (-1)) /\ linear_map 1 (mulby 1)
  /\ self_adjoint 1 (mulby 1)
  /\ dir_ok 1 X (mulby (-1)) (mulby 1) c /\ dir_ok 1 X (mulby (-1)) (mulby 1) nw /\ dir_room 1 X c
  /\ counted (lx_nc X) (over X (mulby (-1)) c) (change (mulby (-1)) c nw)
  /\ counted (lx_nc X) (under X (mulby (-1)) c) (fun i => - change (mulby (-1)) c nw i)
  /\ over X (mulby (-1)) c 0 = 1 /\ change (mulby (-1)) c nw 0 = -3.
Proof.
  intros X c nw. split; [apply isort_sorts|]. split; [apply rctx_ok; lra|]. split; [apply rcaches_ok|]. split; [apply mulby_linear|].
  split; [apply mulby_linear|]. split; [apply mulby_adj|]. split; [apply rdir_ok; reflexivity|]. split; [apply rdir_ok; reflexivity|].
  split; [split; [|split]; apply vok_rv|].
  assert (Eo : over X (mulby (-1)) c 0 = 1) by (unfold over, mulby; cbn [X rctx c rdir lx_cons lx_cub d_primal]; rewrite !dense_rv; lra).
  assert (Eu : under X (mulby (-1)) c 0 = -11) by (unfold under, mulby; cbn [X rctx c rdir lx_cons lx_clb d_primal]; rewrite !dense_rv; lra).
  assert (Ec : change (mulby (-1)) c nw 0 = -3) by (unfold change, mulby; cbn [c nw rdir d_primal]; rewrite !dense_rv; lra).
  change (lx_nc X) with 1%Z.
  split; [|split; [|split; [exact Eo|exact Ec]]]; intros i Hi _; assert (i = 0%Z) by lia; subst i;
    (split; exists 0%Z; (split; [lia|]); rewrite ?Eo, ?Eu, ?Ec; lra).
Qed.

(** A violated constraint that does not change on the way is left out of the value that is
    returned. *)
Theorem C67_value_refuted : exists (X : @lctx F64) (c nw r : @dirn F64) (L : @lsd F64) t a v L' m,
  exact_step isort X c nw r L = Ok (t, a, v, L') /\ dmerit X t = Ok m /\ @nltb F64 (v + fz 40)%num m = true.
Proof.
  set (X := fctx 1 2 [(0, -9)%Z] [] [(0, -1)%Z] [(0, 5)%Z] 10 1 (@nlit F64 1 10000)).
  set (c := fdir 1 2 [] 0 [] []). set (nw := fdir 1 2 [(0, 1)%Z] (-1) [] []). set (r := fdir 1 2 [] 0 [] []). set (L := fcaches 1 2).
  assert (B : match exact_step isort X c nw r L with Ok (t, a, v, L') =>
    match dmerit X t with Ok m => @nltb F64 (v + fz 40)%num m | _ => false end | _ => false end = true) by (vm_compute; reflexivity).
  clearbody X c nw r L. exists X, c, nw, r, L. destruct (exact_step isort X c nw r L) as [[[[t a] v] L']|?|]; try discriminate.
  destruct (dmerit X t) as [m|?|] eqn:Em; try discriminate. exists t, a, v, L', m. auto.
Qed.
Print Assumptions C67_value_refuted.

(** A constraint at its bound that becomes violated on the way is left out as well: the model at
    the trial point is larger than at the Cauchy point. *)
Theorem C67_minimum_refuted : exists (X : @lctx F64) (c nw r : @dirn F64) (L : @lsd F64) t a v L' mt mc,
  exact_step isort X c nw r L = Ok (t, a, v, L') /\ dmerit X t = Ok mt /\ dmerit X c = Ok mc
  /\ @nltb F64 (mc + fz 8)%num mt = true.
Proof.
  set (X := fctx 1 1 [(0, -9)%Z] [] [(0, -1)%Z] [] 10 1 (@nlit F64 1 10000)).
  set (c := fdir 1 1 [] 0 [] []). set (nw := fdir 1 1 [(0, 1)%Z] (-1) [(0, 1)%Z] []). set (r := fdir 1 1 [] 0 [] []). set (L := fcaches 1 1).
  assert (B : match exact_step isort X c nw r L with Ok (t, a, v, L') =>
    match dmerit X t, dmerit X c with Ok mt, Ok mc => @nltb F64 (mc + fz 8)%num mt | _, _ => false end | _ => false end = true) by (vm_compute; reflexivity).
  clearbody X c nw r L. exists X, c, nw, r, L. destruct (exact_step isort X c nw r L) as [[[[t a] v] L']|?|]; try discriminate.
  destruct (dmerit X t) as [mt|?|] eqn:Et; try discriminate. destruct (dmerit X c) as [mc|?|] eqn:Ec; try discriminate.
  exists t, a, v, L', mt, mc. auto.
Qed.
Print Assumptions C67_minimum_refuted.

(** The bounds of the variables are not looked at. *)
Theorem C67_bounds_refuted : exists (X : @lctx F64) (c nw r : @dirn F64) (L : @lsd F64) t a v L',
  vent (d_primal c) = [] /\ vent (lx_x X) = [] /\ dense (lx_vub X) 0 = fz 1000
  /\ exact_step isort X c nw r L = Ok (t, a, v, L')
  /\ @nltb F64 (dense (lx_vub X) 0) (dense (d_primal t) 0) = true.
Proof.
  set (X := fctx 0 1 [] [] [(0, -1)%Z] [] 10 5000 (@nlit F64 1 10000)).
  set (c := fdir 0 1 [] 0 [] []). set (nw := fdir 0 1 [(0, 2000)%Z] (-2000) [] []). set (r := fdir 0 1 [] 0 [] []). set (L := fcaches 0 1).
  assert (B : match exact_step isort X c nw r L with Ok (t, a, v, L') => @nltb F64 (dense (lx_vub X) 0) (dense (d_primal t) 0) | _ => false end = true)
    by (vm_compute; reflexivity).
  assert (E1 : vent (d_primal c) = []) by reflexivity. assert (E2 : vent (lx_x X) = []) by reflexivity.
  assert (E3 : dense (lx_vub X) 0 = fz 1000) by reflexivity.
  clearbody X c nw r L. exists X, c, nw, r, L. destruct (exact_step isort X c nw r L) as [[[[t a] v] L']|?|]; try discriminate.
  exists t, a, v, L'. auto.
Qed.
Print Assumptions C67_bounds_refuted.
