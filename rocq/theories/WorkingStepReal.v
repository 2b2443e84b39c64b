(** The step to the working set, the Newton direction and the second-order correction in exact
    arithmetic. *)
From Coq Require Import Reals Lra FunctionalExtensionality.
From Verif Require Import Base Num Cmp Sparse Vec VecFacts Order VecFacts2 RSum VecReal Mat MatFacts MatFacts2 MatFacts4 Arr
  WorkingSet WorkingSetFacts Feas FeasFacts MeritFacts OrdArith QnReal Cauchy CauchyFacts DualEst DualEstFacts
  RestoreMain SteihaugFacts LineSearch LineSearchFacts WorkingStep WorkingStepFacts.
Local Open Scope R_scope.

(** ** Specification *)

(** The entries of [r] at the positions of the working set are the variables and constraint rows
    of [d]. *)
Definition fits (w : wset) (J : (Z -> R) -> Z -> R) (d r : Z -> R) : Prop :=
  (forall j k, (0 <= j < wnv w)%Z -> ws_var_index w j = Ok k -> k <> none -> d j = r k) /\
  (forall i k, (0 <= i < wnc w)%Z -> ws_cons_index w i = Ok k -> k <> none -> J d i = r k).
Definition in_null (w : wset) J (z : Z -> R) : Prop := fits w J z zerof.

(** The solution of smallest norm: it solves the system and is orthogonal to the nullspace. *)
Definition min_norm_ok (w : wset) J (f : rvec -> rvec -> res rvec) : Prop :=
  forall rhs sol, vok (ws_size w) rhs -> vok (wnv w) sol ->
    exists d, f rhs sol = Ok d /\ vok (wnv w) d /\ fits w J (dense d) (dense rhs)
      /\ forall z, in_null w J z -> dotd (wnv w) (dense d) z = 0.

(** The bound at which an item is active. *)
Definition bound_of (s : ast) (l u : R) : R := match s with ActUpper => u | _ => l end.
(** Items active at both bounds have equal bounds. *)
Definition both_equal (w : wset) (X : @lctx RN) : Prop :=
  (forall j, (0 <= j < wnv w)%Z -> ws_var_state w j = Ok ActBoth -> (dense (lx_vlb X) j : R) = dense (lx_vub X) j) /\
  (forall i, (0 <= i < wnc w)%Z -> ws_cons_state w i = Ok ActBoth -> (dense (lx_clb X) i : R) = dense (lx_cub X) i).

(** The distances of the working set items to their bounds are multiplied by [t]. *)
Definition shrinks (w : wset) (X : @lctx RN) (x c x' c' : Z -> R) (t : R) : Prop :=
  (forall j s, (0 <= j < wnv w)%Z -> ws_var_state w j = Ok s -> s <> Inactive ->
     let b := bound_of s (dense (lx_vlb X) j) (dense (lx_vub X) j) in b - x' j = t * (b - x j)) /\
  (forall i s, (0 <= i < wnc w)%Z -> ws_cons_state w i = Ok s -> s <> Inactive ->
     let b := bound_of s (dense (lx_clb X) i) (dense (lx_cub X) i) in b - c' i = t * (b - c i)).

(** The Jacobian is stored in [jac], its product is [J]. *)
Definition jac_is (n nc : Z) (jac : @mat RN) (J : (Z -> R) -> Z -> R) : Prop :=
  exists cs, stores jac cs /\ mnr jac = nc /\ mnc jac = n
    /\ forall p i, J p i = sumd n (fun j => mR cs i j * p j).

Record set_ok (w : wset) (X : @lctx RN) : Prop := {
  so_c : consistent w;
  so_o : in_order w;
  so_nc : wnc w = lx_nc X;
  so_len : Z.of_nat (length (wcst w)) = wnc w }.

(** Working memory of the right sizes *)
Record room_ok (n nc : Z) (T : @wstep RN) : Prop := {
  ro_rhs : wf (t_rhs T);
  ro_upper : (0 <= vcap (t_upper T))%Z;
  ro_lower : (0 <= vcap (t_lower T))%Z;
  ro_init : vok n (t_init T);
  ro_p : vok n (d_primal (t_dir T));
  ro_c : wf (d_cons (t_dir T));
  ro_h : vok n (d_hess (t_dir T));
  ro_cons : (0 <= vcap (t_cons T))%Z;
  ro_mult : vok nc (t_mult T) }.

Lemma neg1_rn : @neg1 RN = -1.
Proof. unfold neg1. cbn. unfold rn_lit. lra. Qed.
Lemma ratio_rn : @norm_ratio RN = 8 / 10.
Proof. reflexivity. Qed.
Lemma oval0 (o : option R) : o = None -> @oval RN o = 0.
Proof. intros ->. apply rn_n0. Qed.

Lemma diff_fun n (x b r : rvec) : vok n x -> vok n b -> (0 <= vcap r)%Z ->
  exists z, vec_add_scaled x b neg1 n1 (0 : @num RN) r = Ok z /\ vok n z /\ forall i, (dense z i : R) = dense b i - dense x i.
Proof.
  intros Hx Hb Hr. destruct (add_scaled_fun n x b r (-1) 1 Hx Hb Hr) as (z & E & V & D).
  exists z. rewrite neg1_rn, rn_n1. split; [exact E|]. split; [exact V|]. intros i. rewrite D. lra.
Qed.

Lemma vok_set_cap (v : rvec) n : vok n v -> (0 <= vcap v)%Z.
Proof. intros [W _]. now apply wf_cap. Qed.

(** ** The right hand side *)
Section Rhs.
Variables (w : wset) (X : @lctx RN).
Let n := wnv w.
Let nc := lx_nc X.
Hypothesis CX : ctx_ok n X.
Hypothesis SO : set_ok w X.

Let C := so_c _ _ SO.
Let I := so_o _ _ SO.

Lemma size_nonneg : (0 <= ws_size w)%Z.
Proof. unfold ws_size. destruct (cs_bound w C) as [[? _] [? _]]. lia. Qed.

Lemma var_query j : (0 <= j < n)%Z ->
  ws_var_index w j = Ok (vix w j) /\ ws_var_state w j = Ok (vstate w j) /\ (vstate w j = Inactive <-> vix w j = none).
Proof. apply (vix_ok w C). Qed.
Lemma cons_query i : (0 <= i < nc)%Z ->
  ws_cons_index w i = Ok (cix w i) /\ ws_cons_state w i = Ok (cstate w i) /\ (cstate w i = Inactive <-> cix w i = none).
Proof. unfold nc. rewrite <- (so_nc _ _ SO). apply (cix_ok w C). Qed.

(** What both loops compute. *)
Lemma pushes_real (Pv Pc : Z -> bool) (hv hc : Z -> R) iv ic (v : rvec) :
  wf v -> vdim v = ws_size w -> vent v = [] -> (ws_size w <= vcap v)%Z ->
  sorted_in 0 n iv -> sorted_in 0 nc ic ->
  (forall j, (0 <= j < n)%Z -> Pv j = true -> vix w j <> none) ->
  (forall i, (0 <= i < nc)%Z -> Pc i = true -> cix w i <> none) ->
  exists v1 r, @push_all RN v (moved Pv (vix w) (@pairs RN hv iv)) = Ok v1
    /\ @push_all RN v1 (moved Pc (cix w) (@pairs RN hc ic)) = Ok r
    /\ vok (ws_size w) r
    /\ (forall j, (0 <= j < n)%Z -> vix w j <> none -> dense r (vix w j) = if existsb (Z.eqb j) iv && Pv j then hv j else 0)
    /\ (forall i, (0 <= i < nc)%Z -> cix w i <> none -> dense r (cix w i) = if existsb (Z.eqb i) ic && Pc i then hc i else 0).
Proof.
  intros W D E K Sv Sc Hv Hc. unfold nc in *. rewrite <- (so_nc _ _ SO) in *.
  destruct (@build_spec RN w C I Pv Pc hv hc iv ic v W D E K Sv Sc Hv Hc) as (v1 & r & E1 & E2 & Wr & Dr & Gv & Gc).
  exists v1, r. split; [exact E1|]. split; [exact E2|]. split; [split; assumption|]. split.
  - intros j Hj Nj. unfold dense. rewrite (Gv j Hj Nj). rnum. destruct (existsb (Z.eqb j) iv && Pv j); [reflexivity|]. apply rn_n0.
  - intros i Hi Ni. unfold dense. rewrite (Gc i Hi Ni). rnum. destruct (existsb (Z.eqb i) ic && Pc i); [reflexivity|]. apply rn_n0.
Qed.

Lemma initial_rhs_real (T : @wstep RN) : room_ok n nc T ->
  exists rhs lower upper, initial_rhs X w T = Ok (rhs, lower, upper)
    /\ vok (ws_size w) rhs /\ vok nc lower /\ vok nc upper
    /\ (forall j, (0 <= j < n)%Z -> vix w j <> none ->
          dense rhs (vix w j) = bound_of (vstate w j) (dense (lx_vlb X) j) (dense (lx_vub X) j) - dense (lx_x X) j)
    /\ (forall i, (0 <= i < nc)%Z -> cix w i <> none ->
          dense rhs (cix w i) = bound_of (cstate w i) (dense (lx_clb X) i) (dense (lx_cub X) i) - dense (lx_cons X) i).
Proof.
  intros RO. destruct RO as [Wrhs Cup Clo _ _ _ _ _ _]. destruct CX as [Hn Vcl Vcu _ Vc Vvl Vvu Vx _ _ Hz].
  pose proof size_nonneg as Hs. unfold initial_rhs. rewrite Hz.
  destruct (vec_resize_spec (t_rhs T) (ws_size w) Wrhs Hs) as (r1 & E1 & W1 & D1 & _). rewrite E1. cbn [rbind].
  destruct (cleared_reserve r1 (ws_size w) W1 Hs) as (r2 & E2 & W2 & D2 & V2 & K2). rewrite E2. cbn [rbind].
  assert (E3 : exists r3, vec_resize r2 (ws_size w) = Ok r3 /\ wf r3 /\ vdim r3 = ws_size w /\ vent r3 = [] /\ (ws_size w <= vcap r3)%Z).
  { destruct (vec_resize_spec r2 (ws_size w) W2 Hs) as (r3 & E3 & W3 & D3 & _). exists r3. repeat (split; [assumption|]).
    unfold vec_resize in E3. destruct (0 <=? ws_size w)%Z; [|discriminate]. cbn [check rbind] in E3. injection E3 as <-. cbn [vent vcap].
    rewrite D2, D1, Z.ltb_irrefl. split; [exact V2|]. lia. }
  destruct E3 as (r3 & E3 & W3 & D3 & V3 & K3). rewrite E3. cbn [rbind].
  destruct (diff_fun n (lx_x X) (lx_vub X) (t_upper T) Vx Vvu Cup) as (up & Eu & Vu & Du). rewrite Eu. cbn [rbind].
  destruct (diff_fun n (lx_x X) (lx_vlb X) (t_lower T) Vx Vvl Clo) as (lo & El & Vl & Dl). rewrite El. cbn [rbind].
  destruct (@rhs_part_spec RN n (vix w) (vstate w) (ws_var_index w) (ws_var_state w) lo up var_query) as (iv & Siv & Ev & Hv);
    [apply Vl|apply Vl|apply Vu|apply Vu|].
  destruct (diff_fun nc (lx_cons X) (lx_cub X) up Vc Vcu (vok_set_cap _ _ Vu)) as (up' & Eu' & Vu' & Du').
  destruct (diff_fun nc (lx_cons X) (lx_clb X) lo Vc Vcl (vok_set_cap _ _ Vl)) as (lo' & El' & Vl' & Dl').
  destruct (@rhs_part_spec RN nc (cix w) (cstate w) (ws_cons_index w) (ws_cons_state w) lo' up' cons_query) as (ic & Sic & Ec & Hc);
    [apply Vl'|apply Vl'|apply Vu'|apply Vu'|].
  destruct (pushes_real (fun j => active (vstate w j)) (fun i => active (cstate w i))
    (fun j => rhs_val (vstate w j) (dense lo j) (dense up j)) (fun i => rhs_val (cstate w i) (dense lo' i) (dense up' i)) iv ic r3)
    as (v1 & r & P1 & P2 & Vr & Gv & Gc); auto.
  { intros j Hj Ha En. apply (var_query j Hj) in En. now rewrite En in Ha. }
  { intros i Hi Ha En. apply (cons_query i Hi) in En. now rewrite En in Ha. }
  rewrite Ev, P1. cbn [rbind]. rewrite Eu'. cbn [rbind]. rewrite El'. cbn [rbind]. rewrite Ec, P2. cbn [rbind].
  exists r, lo', up'. split; [reflexivity|]. split; [exact Vr|]. split; [exact Vl'|]. split; [exact Vu'|]. split.
  - intros j Hj Nj. rewrite (Gv j Hj Nj). destruct (var_query j Hj) as (_ & _ & Hq).
    assert (Ha : vstate w j <> Inactive) by tauto.
    destruct (existsb (Z.eqb j) iv) eqn:Ex.
    + specialize (Dl j). specialize (Du j). destruct (vstate w j); cbn; congruence.
    + destruct (Hv j Ex) as [Z1 Z2]. rnum. rewrite rn_n0 in Z1, Z2. rewrite Dl in Z1. rewrite Du in Z2. cbn [andb].
      destruct (vstate w j); cbn [bound_of]; lra.
  - intros j Hj Nj. rewrite (Gc j Hj Nj). destruct (cons_query j Hj) as (_ & _ & Hq).
    assert (Ha : cstate w j <> Inactive) by tauto.
    destruct (existsb (Z.eqb j) ic) eqn:Ex.
    + specialize (Dl' j). specialize (Du' j). destruct (cstate w j); cbn; congruence.
    + destruct (Hc j Ex) as [Z1 Z2]. rnum. rewrite rn_n0 in Z1, Z2. rewrite Dl' in Z1. rewrite Du' in Z2. cbn [andb].
      destruct (cstate w j); cbn [bound_of]; lra.
Qed.
End Rhs.

(** ** The step *)
Lemma jac_linear n nc jac J : jac_is n nc jac J -> linear_map nc J.
Proof.
  intros (cs & _ & _ & _ & HJ) a x b y i Hi. rewrite !HJ. rewrite <- !sumd_scal, <- sumd_plus. apply sumd_ext. intros j Hj.
  unfold lc. ring.
Qed.
Lemma jac_ext n nc jac J p q i : jac_is n nc jac J -> (forall j, (0 <= j < n)%Z -> p j = q j) -> J p i = J q i.
Proof. intros (cs & _ & _ & _ & HJ) E. rewrite !HJ. apply sumd_ext. intros j Hj. now rewrite E. Qed.

Lemma jac_product n nc jac J (p c : rvec) : (0 <= nc)%Z -> jac_is n nc jac J -> vok n p -> wf c ->
  exists a v, mat_mult_vec jac p = Ok a /\ vec_set_from_raw c (firstn (Z.to_nat nc) a) (0 : @num RN) = Ok v
    /\ vok nc v /\ forall i, (0 <= i < nc)%Z -> (dense v i : R) = J (dense p) i.
Proof.
  intros Hn (cs & Hs & Hr & Hc & HJ) [Wp Dp] Wc.
  destruct (mult_vec_real jac cs p Hs Wp ltac:(congruence)) as (a & E & L & Ha).
  exists a. rewrite firstn_all2 by (rewrite L, Hr; lia).
  destruct (set_from_raw_ok c a nc (J (dense p)) Wc) as (v & Ev & Wv & Dv & Hv); [|exact Hn|].
  - split; [etransitivity; [exact L|now rewrite Hr]|]. intros j Hj. rewrite (nth_error_nth' a 0) by lia. f_equal. rewrite HJ.
    rewrite Ha, Hc by lia. reflexivity.
  - exists v. repeat (split; [assumption|]). split; [split; assumption|]. exact Hv.
Qed.

Lemma fill_direction_real n (X : @lctx RN) jac J d : ctx_ok n X -> jac_is n (lx_nc X) jac J ->
  vok n (d_primal d) -> wf (d_cons d) ->
  exists c, fill_direction X jac d = Ok (mkdirn (d_primal d) (dotd n (dense (lx_grad X)) (dense (d_primal d))) c (d_hess d))
    /\ vok (lx_nc X) c /\ forall i, (0 <= i < lx_nc X)%Z -> (dense c i : R) = J (dense (d_primal d)) i.
Proof.
  intros CX HJ Vp Wc. unfold fill_direction. rewrite (dot_fun n _ _ Vp (cx_grad _ _ CX)). cbn [rbind].
  assert (Hnc : (0 <= lx_nc X)%Z). { destruct (cx_cons _ _ CX) as [[H0 _] E]. lia. }
  destruct (jac_product n (lx_nc X) jac J (d_primal d) (d_cons d) Hnc HJ Vp Wc) as (a & c & E1 & E2 & Vc & Hc).
  rewrite E1. cbn [rbind]. rewrite (cx_zero _ _ CX). rnum. rewrite E2. cbn [rbind]. exists c. split; [|auto].
  rewrite dotd_sym. reflexivity.
Qed.

Lemma is_eq_one (a eps : R) : 0 < a <= 1 -> @is_eq RN a 1 eps = true <-> 1 - eps <= a.
Proof.
  intros Ha. unfold is_eq, rel_diff. rewrite rn_leb, rn_n1, !rn_max, !rn_abs. cbn [nsub ndiv RN].
  rewrite Rabs_R1, (Rabs_right a) by lra. rewrite (Rmax_right a 1) by lra. rewrite Rmax_left by lra.
  unfold Rdiv. rewrite Rinv_1, Rmult_1_r. unfold Rabs. destruct (Rcase_abs (a - 1)); lra.
Qed.

Lemma initial_step_real n (X : @lctx RN) jac J (init : rvec) d : ctx_ok n X -> jac_is n (lx_nc X) jac J ->
  vok n init -> vok n (d_primal d) -> wf (d_cons d) -> 0 < lx_radius X -> 0 <= lx_eps X <= / 5 ->
  exists p a c reduced inw, initial_step X jac init d
      = Ok (mkdirn p (dotd n (dense (lx_grad X)) (dense p)) c (d_hess d), reduced, inw)
    /\ vok n p /\ dense p = scaled a (dense init) /\ 0 < a <= 1 /\ (inw = true <-> a = 1)
    /\ vok (lx_nc X) c /\ (forall i, (0 <= i < lx_nc X)%Z -> (dense c i : R) = J (dense p) i)
    /\ 0 <= reduced /\ dotd n (dense p) (dense p) + reduced * reduced = lx_radius X * lx_radius X
    /\ (inw = false -> dotd n (dense p) (dense p) = (8 / 10 * lx_radius X) * (8 / 10 * lx_radius X)).
Proof.
  intros CX HJ Vi Vp Wc Hr He. unfold initial_step.
  destruct (copy_fun n init (d_primal d) Vi Vp) as (p & E & V & _ & D). rewrite E. cbn [rbind].
  rewrite (norm_fun n init Vi), ratio_rn. set (S := dotd n (dense init) (dense init)).
  assert (HS : 0 <= S) by apply dotd_nonneg. pose proof (sqrt_pos S) as Hq. pose proof (sqrt_sqrt S HS) as Hqq.
  set (q := sqrt S) in *. set (rad := lx_radius X) in *.
  assert (S1 : scaled 1 (dense init) = dense init) by (apply functional_extensionality; intros; unfold scaled; ring).
  cbn [nmul nsub ndiv nsqrt RN]. rewrite rn_n0, rn_min.
  destruct (@neqb RN q 0) eqn:E0; cbn [negb].
  - apply rn_eqb in E0. cbn [rbind].
    destruct (fill_direction_real n X jac J (mkdirn p (d_obj d) (d_cons d) (d_hess d)) CX HJ V Wc) as (c & Ec & Vc & Hc).
    rewrite Ec. cbn [rbind]. cbn [d_primal d_hess] in *.
    exists p, 1, c, rad, true. split; [reflexivity|]. split; [exact V|]. split; [now rewrite S1|]. split; [lra|].
    split; [tauto|]. split; [exact Vc|]. split; [exact Hc|]. split; [lra|]. split; [|discriminate].
    rewrite D. fold S. rewrite <- Hqq, E0. ring.
  - apply rn_eqb_false in E0. assert (Hq0 : 0 < q) by lra. rewrite (proj2 (rn_ltb 0 q) Hq0). cbn [check rbind]. rewrite rn_n1.
    set (r := (8 / 10 * rad) / q). assert (Hrq : r * q = 8 / 10 * rad) by (unfold r; field; lra).
    assert (Hr0 : 0 < r) by (unfold r; apply Rdiv_lt_0_compat; lra).
    set (a := Rmin r 1). assert (Ha : 0 < a <= 1) by (unfold a, Rmin; destruct (Rle_dec r 1); lra).
    change (Rmin (8 / 10 * rad / q) 1) with a.
    destruct (@is_eq RN a 1 (lx_eps X)) eqn:Ee; cbn [rbind].
    + apply (is_eq_one a _ Ha) in Ee.
      destruct (fill_direction_real n X jac J (mkdirn p (d_obj d) (d_cons d) (d_hess d)) CX HJ V Wc) as (c & Ec & Vc & Hc).
      rewrite Ec. cbn [rbind]. cbn [d_primal d_hess] in *.
      assert (Har : a <= r) by (unfold a; apply Rmin_l).
      assert (Hqr : q <= rad).
      { assert (4 / 5 * q <= r * q) by (apply Rmult_le_compat_r; lra). lra. }
      assert (Hin : 0 <= rad * rad - q * q) by nra.
      exists p, 1, c, (sqrt (rad * rad - q * q)), true. split; [reflexivity|]. split; [exact V|]. split; [now rewrite S1|].
      split; [lra|]. split; [tauto|]. split; [exact Vc|]. split; [exact Hc|]. split; [apply sqrt_pos|]. split; [|discriminate].
      rewrite D. fold S. rewrite sqrt_sqrt by exact Hin. lra.
    + assert (Hna : ~ 1 - lx_eps X <= a) by (rewrite <- (is_eq_one a _ Ha), Ee; discriminate).
      assert (Har : a = r) by (unfold a, Rmin in *; destruct (Rle_dec r 1); [reflexivity|lra]).
      destruct (scale_fun n p a V) as [Vs Ds].
      destruct (fill_direction_real n X jac J (mkdirn (vec_scale p (a : @num RN)) (d_obj d) (d_cons d) (d_hess d)) CX HJ Vs Wc) as (c & Ec & Vc & Hc).
      rewrite Ec. cbn [rbind]. cbn [d_primal d_hess] in *.
      assert (Dn : dotd n (dense (vec_scale p (a : @num RN))) (dense (vec_scale p (a : @num RN))) = (8 / 10 * rad) * (8 / 10 * rad)).
      { rewrite Ds, D. change (dotd n (scaled a (dense init)) (scaled a (dense init)) = (8 / 10 * rad) * (8 / 10 * rad)).
        rewrite dot_scaled_r, dotd_sym, dot_scaled_r. fold S. rewrite <- Hqq, Har.
        replace (r * (r * (q * q))) with ((r * q) * (r * q)) by ring. now rewrite Hrq. }
      eexists _, a, c, _, false. split; [reflexivity|]. split; [exact Vs|]. split; [now rewrite Ds, D|]. split; [exact Ha|].
      split; [split; [discriminate|intros E1; exfalso; apply Hna; lra]|]. split; [exact Vc|]. split; [exact Hc|].
      assert (Hs : 0 <= 1 - 8 / 10 * (8 / 10)) by lra.
      split; [apply Rmult_le_pos; [lra|apply sqrt_pos]|]. split; [|intros _; exact Dn].
      rewrite Dn. pose proof (sqrt_sqrt _ Hs) as Hss.
      match goal with |- context [sqrt ?e] => set (t := sqrt e) end. change (t * t = 1 - 8 / 10 * (8 / 10)) in Hss.
      replace (rad * t * (rad * t)) with (rad * rad * (t * t)) by ring. rewrite Hss. field.
Qed.

(** Sign of the violation of a constraint *)
Definition viol_sign (c l u : R) : R := if Rlt_dec u c then 1 else if Rlt_dec c l then -1 else 0.

(** What the step consists of; [a] is the step length. *)
Record step_res (w : wset) (X : @lctx RN) (J : (Z -> R) -> Z -> R) (T : @wstep RN) (a : R) : Prop := {
  sr_p : vok (wnv w) (d_primal (t_dir T));
  sr_a : 0 < a <= 1;
  sr_in : t_in T = true <-> a = 1;
  sr_shrinks : let p := dense (d_primal (t_dir T)) in
    shrinks w X (dense (lx_x X)) (dense (lx_cons X)) (fun j => dense (lx_x X) j + p j) (fun i => dense (lx_cons X) i + J p i) (1 - a);
  sr_normal : forall z, in_null w J z -> dotd (wnv w) (dense (d_primal (t_dir T))) z = 0;
  sr_reduced : 0 <= t_reduced T;
  sr_radius : dotd (wnv w) (dense (d_primal (t_dir T))) (dense (d_primal (t_dir T))) + t_reduced T * t_reduced T
              = lx_radius X * lx_radius X;
  sr_cut : t_in T = false -> dotd (wnv w) (dense (d_primal (t_dir T))) (dense (d_primal (t_dir T)))
              = (8 / 10 * lx_radius X) * (8 / 10 * lx_radius X);
  sr_obj : d_obj (t_dir T) = dotd (wnv w) (dense (lx_grad X)) (dense (d_primal (t_dir T)));
  sr_jac : vok (lx_nc X) (d_cons (t_dir T));
  sr_jacv : forall i, (0 <= i < lx_nc X)%Z -> (dense (d_cons (t_dir T)) i : R) = J (dense (d_primal (t_dir T))) i;
  sr_hess : vok (wnv w) (d_hess (t_dir T));
  sr_cons : vok (lx_nc X) (t_cons T);
  sr_consv : forall i, (0 <= i < lx_nc X)%Z -> (dense (t_cons T) i : R) = dense (lx_cons X) i + J (dense (d_primal (t_dir T))) i;
  sr_mult : vok (lx_nc X) (t_mult T);
  sr_multv : forall i s, (0 <= i < lx_nc X)%Z -> ws_cons_state w i = Ok s ->
    (dense (t_mult T) i : R) = if active s then 0
      else viol_sign (dense (t_cons T) i) (dense (lx_clb X) i) (dense (lx_cub X) i) }.

Lemma skipped_state w X i : set_ok w X -> (0 <= i < lx_nc X)%Z -> skipped (Some w) i = active (cstate w i).
Proof.
  intros SO Hi. destruct (cons_query w X SO i Hi) as (_ & E & _). unfold skipped. f_equal.
  unfold ws_cons_state in E. destruct (i <? wnc w)%Z; [|discriminate]. cbn [check rbind] in E.
  unfold arr_get in E. destruct (0 <=? i)%Z; [|discriminate].
  destruct (nth_error (wcst w) (Z.to_nat i)) as [s|] eqn:En; [|discriminate]. injection E as E.
  rewrite (nth_error_nth _ _ _ En). exact E.
Qed.

Lemma fits_index w X J (d r : Z -> R) : set_ok w X -> fits w J d r ->
  (forall j, (0 <= j < wnv w)%Z -> vix w j <> none -> d j = r (vix w j)) /\
  (forall i, (0 <= i < lx_nc X)%Z -> cix w i <> none -> J d i = r (cix w i)).
Proof.
  intros SO [Fv Fc]. split.
  - intros j Hj Nj. apply Fv; auto. apply (var_query w X SO); auto.
  - intros i Hi Ni. apply Fc; auto; [rewrite (so_nc _ _ SO); exact Hi|]. apply (cons_query w X SO); auto.
Qed.

Theorem working_step_real (w : wset) (X : @lctx RN) jac J min_norm (T : @wstep RN) :
  ctx_ok (wnv w) X -> set_ok w X -> jac_is (wnv w) (lx_nc X) jac J -> min_norm_ok w J min_norm ->
  room_ok (wnv w) (lx_nc X) T -> 0 < lx_radius X -> 0 <= lx_eps X <= / 5 ->
  exists T' a, working_step X jac w min_norm T = Ok T' /\ step_res w X J T' a.
Proof.
  intros CX SO HJ HM RO Hr He. unfold working_step.
  destruct (initial_rhs_real w X CX SO T RO) as (rhs & lower & upper & E & Vr & Vl & Vu & Gv & Gc). rewrite E. cbn [rbind].
  destruct RO as [_ _ _ Vi Vp Wc Vh Kc Vm].
  destruct (HM rhs (t_init T) Vr Vi) as (d0 & E0 & V0 & F0 & O0). rewrite E0. cbn [rbind].
  destruct (initial_step_real (wnv w) X jac J d0 (t_dir T) CX HJ V0 Vp Wc Hr He)
    as (p & a & c & reduced & inw & E1 & V1 & D1 & Ha & Hin & V2 & H2 & H3 & H4 & H5).
  rewrite E1. cbn [rbind]. cbn [d_cons].
  unfold vec_add. rewrite (cx_zero _ _ CX), rn_n1.
  destruct (add_scaled_fun (lx_nc X) (lx_cons X) c (t_cons T) 1 1 (cx_cons _ _ CX) V2 Kc) as (cv & E3 & V3 & D3).
  rewrite E3. cbn [rbind].
  assert (Wcl := proj1 (cx_clb _ _ CX)). assert (Wcu := proj1 (cx_cub _ _ CX)).
  destruct (@violated_multipliers_spec RN RN_Ord RN_OrdArith (lx_nc X) cv (lx_clb X) (lx_cub X)) with (r := t_mult T) (w := Some w)
    as (m & E4 & Wm & Dm & Hm); try apply rno_nan; try apply V3; try apply (cx_clb _ _ CX); try apply (cx_cub _ _ CX); try apply Vm.
  { split; [apply (so_nc _ _ SO)|]. rewrite (so_len _ _ SO). apply (so_nc _ _ SO). }
  rewrite E4. cbn [rbind].
  destruct (fits_index w X J _ _ SO F0) as [Fv Fc]. pose proof (jac_linear _ _ _ _ HJ) as HL.
  exists (mkwstep lower upper rhs d0 (mkdirn p (dotd (wnv w) (dense (lx_grad X)) (dense p)) c (d_hess (t_dir T))) cv m reduced inw), a.
  split; [reflexivity|]. constructor; cbn [t_dir t_in t_reduced t_cons t_mult d_primal d_obj d_cons d_hess]; auto.
  - split.
    + intros j s Hj Es Ns. cbv zeta. destruct (var_query w X SO j Hj) as (_ & E5 & H6). rewrite Es in E5. injection E5 as E5.
      assert (Nj : vix w j <> none) by (intros En; apply H6 in En; congruence). specialize (Gv j Hj Nj).
      rewrite D1. unfold scaled. rewrite (Fv j Hj Nj), Gv, <- E5. rnum. ring.
    + intros i s Hi Es Ns. cbv zeta. rewrite (so_nc _ _ SO) in Hi. destruct (cons_query w X SO i Hi) as (_ & E5 & H6). rewrite Es in E5. injection E5 as E5.
      assert (Ni : cix w i <> none) by (intros En; apply H6 in En; congruence).
      rewrite D1, (linear_scaled (lx_nc X) J) by auto. rewrite (Fc i Hi Ni), (Gc i Hi Ni), <- E5. rnum. ring.
  - intros z Hz. rewrite D1, dotd_sym, dot_scaled_r, dotd_sym, (O0 z Hz). ring.
  - intros i Hi. rewrite D3. cbv beta. rewrite (H2 i Hi). lra.
  - split; auto.
  - intros i s Hi Es. rewrite (Hm i Hi), (skipped_state w X i SO Hi). destruct (cons_query w X SO i Hi) as (_ & E5 & _).
    rewrite Es in E5. injection E5 as E5. rewrite <- E5. destruct (active s); [apply rn_n0|]. unfold viol_sign.
    destruct (@nltb RN (dense (lx_cub X) i) (dense cv i)) eqn:L1.
    + apply rn_ltb in L1. destruct (Rlt_dec (dense (lx_cub X) i) (dense cv i)); [apply rn_n1|contradiction].
    + apply rn_ltb_false in L1. destruct (Rlt_dec (dense (lx_cub X) i) (dense cv i)); [lra|].
      destruct (@nltb RN (dense cv i) (dense (lx_clb X) i)) eqn:L2.
      * apply rn_ltb in L2. destruct (Rlt_dec (dense cv i) (dense (lx_clb X) i)); [apply minus1_rn|contradiction].
      * apply rn_ltb_false in L2. destruct (Rlt_dec (dense cv i) (dense (lx_clb X) i)); [lra|apply rn_n0].
Qed.
