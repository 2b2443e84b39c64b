(** The Newton direction in exact arithmetic. *)
From Coq Require Import Reals Lra FunctionalExtensionality.
From Verif Require Import Base Num Cmp Sparse Vec VecFacts Order VecFacts2 RSum VecReal Mat MatFacts MatFacts2 MatFacts4 Arr
  WorkingSet WorkingSetFacts Feas FeasFacts MeritFacts OrdArith QnReal Cauchy CauchyFacts DualEst DualEstFacts
  RestoreMain SteihaugFacts LineSearch LineSearchFacts WorkingStep WorkingStepFacts WorkingStepReal.
Local Open Scope R_scope.

(** The trust region solver: a step in the nullspace, within the radius, that does not increase
    the quadratic model. *)
Definition tr_ok (w : wset) (J H : (Z -> R) -> Z -> R) (solve : rvec -> rvec -> @num RN -> res (rvec * @num RN * @num RN)) : Prop :=
  forall g step (rad : R), vok (wnv w) g -> vok (wnv w) step -> 0 < rad ->
    exists z lo hi, solve g step rad = Ok (z, lo, hi) /\ vok (wnv w) z /\ in_null w J (dense z)
      /\ dotd (wnv w) (dense z) (dense z) <= rad * rad /\ qmodel (wnv w) (dense g) H (dense z) <= 0 /\ (lo : R) <= hi.

Section Newton.
Variables (w : wset) (X : @lctx RN) (jac : @mat RN) (J H : (Z -> R) -> Z -> R).
Let n := wnv w.
Let nc := lx_nc X.
Hypothesis CX : ctx_ok n X.
Hypothesis SO : set_ok w X.
Hypothesis HJ : jac_is n nc jac J.
Hypothesis HL : linear_map n H.
Hypothesis HS : self_adjoint n H.

(** The model of the merit function at the step [p] with signs [v]. *)
Definition newton_model (p v z : Z -> R) : R :=
  dotd n (H p) z + dotd n (dense (lx_grad X)) z + lx_pen X * sumd nc (fun i => v i * J z i) + / 2 * dotd n z (H z).

(** Constraints outside of the working set stay on the side of their bounds on which they are. *)
Definition side_kept (p z : Z -> R) : Prop := forall i, (0 <= i < nc)%Z -> ws_cons_state w i = Ok Inactive ->
  let c := dense (lx_cons X) i + J p i in let c' := c + J z i in
  let l := dense (lx_clb X) i in let u := dense (lx_cub X) i in
  (u < c -> u <= c') /\ (c < l -> c' <= l) /\ (l <= c <= u -> l <= c' <= u).

(** The signs are those of the violated constraints outside of the working set. *)
Definition signs (p v : Z -> R) : Prop := forall i s, (0 <= i < nc)%Z -> ws_cons_state w i = Ok s ->
  v i = if active s then 0 else viol_sign (dense (lx_cons X) i + J p i) (dense (lx_clb X) i) (dense (lx_cub X) i).

Lemma rviol_sub c c' l u : l <= u -> rviol c l u + viol_sign c l u * (c' - c) <= rviol c' l u.
Proof.
  intros Hlu. unfold viol_sign, rviol. destruct (Rlt_dec u c), (Rlt_dec c l);
    unfold Rmax; repeat destruct (Rle_dec _ _); lra.
Qed.
Lemma rviol_same c c' l u : l <= u -> (u < c -> u <= c') -> (c < l -> c' <= l) -> (l <= c <= u -> l <= c' <= u) ->
  rviol c' l u = rviol c l u + viol_sign c l u * (c' - c).
Proof.
  intros Hlu H1 H2 H3. unfold viol_sign, rviol. destruct (Rlt_dec u c), (Rlt_dec c l).
  - lra.
  - assert (u <= c') by auto. unfold Rmax; repeat destruct (Rle_dec _ _); lra.
  - assert (c' <= l) by auto. unfold Rmax; repeat destruct (Rle_dec _ _); lra.
  - assert (l <= c' <= u) by (apply H3; lra). unfold Rmax; repeat destruct (Rle_dec _ _); lra.
Qed.

Lemma quad_shift p z : / 2 * dotd n (lc 1 p 1 z) (H (lc 1 p 1 z)) = / 2 * dotd n p (H p) + dotd n (H p) z + / 2 * dotd n z (H z).
Proof.
  rewrite (dotd_eq n _ (H (lc 1 p 1 z)) (lc 1 (H p) 1 (H z))) by (intros i Hi; rewrite HL by exact Hi; reflexivity).
  rewrite dot_lc_l, !dot_lc_r. rewrite (dotd_sym n z (H p)). rewrite <- (HS p z). field.
Qed.

Lemma null_row z i s : in_null w J z -> (0 <= i < nc)%Z -> ws_cons_state w i = Ok s -> s <> Inactive -> J z i = 0.
Proof.
  intros Hz Hi Es Ns. destruct (fits_index w X J _ _ SO Hz) as [_ Hc]. destruct (cons_query w X SO i Hi) as (_ & E & Hq).
  rewrite Es in E. injection E as E. apply (Hc i Hi). intros En. apply Hq in En. congruence.
Qed.

Lemma merit_shift p z : qmerit n X J H (lc 1 p 1 z) = qmerit n X J H p + dotd n (H p) z + dotd n (dense (lx_grad X)) z + / 2 * dotd n z (H z)
  + lx_pen X * sumd nc (fun i => rviol (dense (lx_cons X) i + J p i + J z i) (dense (lx_clb X) i) (dense (lx_cub X) i)
      - rviol (dense (lx_cons X) i + J p i) (dense (lx_clb X) i) (dense (lx_cub X) i)).
Proof.
  unfold qmerit, lmerit. rewrite quad_shift, dot_lc_r.
  assert (E : lviol X J (lc 1 p 1 z) = lviol X J p + sumd nc (fun i => rviol (dense (lx_cons X) i + J p i + J z i) (dense (lx_clb X) i) (dense (lx_cub X) i)
      - rviol (dense (lx_cons X) i + J p i) (dense (lx_clb X) i) (dense (lx_cub X) i))).
  { unfold lviol, total_viol. fold nc. rewrite <- sumd_plus. apply sumd_ext. intros i Hi.
    rewrite (jac_linear n nc jac J HJ) by exact Hi. rewrite !Rmult_1_l, <- Rplus_assoc. ring. }
  rewrite E. ring.
Qed.

Lemma model_below p v z : in_null w J z -> signs p v ->
  qmerit n X J H p + newton_model p v z <= qmerit n X J H (lc 1 p 1 z).
Proof.
  intros Hz Hv. rewrite merit_shift. unfold newton_model.
  assert (E : sumd nc (fun i => v i * J z i) <= sumd nc (fun i => rviol (dense (lx_cons X) i + J p i + J z i) (dense (lx_clb X) i) (dense (lx_cub X) i)
      - rviol (dense (lx_cons X) i + J p i) (dense (lx_clb X) i) (dense (lx_cub X) i))).
  { apply sumd_le. intros i Hi. destruct (cons_query w X SO i Hi) as (_ & Es & _). rewrite (Hv i _ Hi Es).
    destruct (active (cstate w i)) eqn:Ea.
    - rewrite (null_row z i _ Hz Hi Es). 2: { intros En. rewrite En in Ea. discriminate. } rewrite Rplus_0_r. lra.
    - pose proof (rviol_sub (dense (lx_cons X) i + J p i) (dense (lx_cons X) i + J p i + J z i) (dense (lx_clb X) i) (dense (lx_cub X) i)
        (cx_cle _ _ CX i Hi)). set (s := viol_sign _ _ _) in *. lra. }
  apply (Rmult_le_compat_l (lx_pen X)) in E; [|apply (cx_pen _ _ CX)]. lra.
Qed.

Lemma model_exact p v z : in_null w J z -> signs p v -> side_kept p z ->
  qmerit n X J H (lc 1 p 1 z) = qmerit n X J H p + newton_model p v z.
Proof.
  intros Hz Hv Hk. rewrite merit_shift. unfold newton_model.
  assert (E : sumd nc (fun i => v i * J z i) = sumd nc (fun i => rviol (dense (lx_cons X) i + J p i + J z i) (dense (lx_clb X) i) (dense (lx_cub X) i)
      - rviol (dense (lx_cons X) i + J p i) (dense (lx_clb X) i) (dense (lx_cub X) i))).
  { apply sumd_ext. intros i Hi. destruct (cons_query w X SO i Hi) as (_ & Es & _). rewrite (Hv i _ Hi Es).
    destruct (active (cstate w i)) eqn:Ea.
    - rewrite (null_row z i _ Hz Hi Es). 2: { intros En. rewrite En in Ea. discriminate. } rewrite Rplus_0_r. lra.
    - assert (En : cstate w i = Inactive) by (destruct (cstate w i); [reflexivity|discriminate..]). rewrite En in Es.
      destruct (Hk i Hi Es) as (H1 & H2 & H3). cbv zeta in H1, H2, H3.
      rewrite (rviol_same (dense (lx_cons X) i + J p i) (dense (lx_cons X) i + J p i + J z i)); auto; [|apply (cx_cle _ _ CX i Hi)].
      set (s := viol_sign _ _ _) in *. lra. }
  rewrite E. lra.
Qed.

(** The gradient that is passed to the solver *)
Lemma gradient_real (T : @wstep RN) cache product gradient : vok n (d_hess (t_dir T)) -> vok nc (t_mult T) ->
  (0 <= vcap cache)%Z -> vok n product -> (0 <= vcap gradient)%Z ->
  exists g, newton_gradient X jac T cache product gradient = Ok g /\ vok n g
    /\ forall z, dotd n (dense g) z = dotd n (dense (d_hess (t_dir T))) z + dotd n (dense (lx_grad X)) z
         + lx_pen X * sumd nc (fun i => dense (t_mult T) i * J z i).
Proof.
  intros Vh Vm Kc Vp Kg. unfold newton_gradient, vec_add. rewrite (cx_zero _ _ CX), rn_n1.
  destruct (add_scaled_fun n _ _ cache 1 1 Vh (cx_grad _ _ CX) Kc) as (s & E1 & V1 & D1). rewrite E1. cbn [rbind].
  destruct HJ as (cs & Hs & Hr & Hc & HJ').
  destruct (mult_vec_trans_real jac cs (t_mult T) product Hs (proj1 Vm)) as (q & E2 & W2 & D2 & H2);
    [rewrite Hr; apply Vm|apply Vp|rewrite Hc; apply Vp|].
  rewrite E2. cbn [rbind].
  assert (Vq : vok n q) by (split; [exact W2|congruence]).
  destruct (add_scaled_fun n s q gradient 1 (lx_pen X) V1 Vq Kg) as (g & E3 & V3 & D3). rewrite E3.
  exists g. split; [reflexivity|]. split; [exact V3|]. intros z. rewrite D3, D1.
  change (dotd n (lc 1 (lc 1 (dense (d_hess (t_dir T))) 1 (dense (lx_grad X))) (lx_pen X) (dense q)) z = dotd n (dense (d_hess (t_dir T))) z + dotd n (dense (lx_grad X)) z
         + lx_pen X * sumd nc (fun i => dense (t_mult T) i * J z i)).
  rewrite !dot_lc_l.
  assert (E : dotd n (dense q) z = sumd nc (fun i => dense (t_mult T) i * J z i)).
  { unfold dotd. rewrite (sumd_ext n _ (fun j => sumd nc (fun i => mR cs i j * dense (t_mult T) i * z j))).
    - rewrite sumd_swap. apply sumd_ext. intros i Hi. rewrite HJ', <- sumd_scal. apply sumd_ext. intros j Hj. rnum. ring.
    - intros j Hj. rewrite H2 by (rewrite Hc; exact Hj). rewrite Hr, Rmult_comm, <- sumd_scal. apply sumd_ext. intros i Hi. ring. }
  rewrite E. ring.
Qed.

Lemma reset_real hess d : computes n H hess -> dir_room n X d ->
  exists d', dir_reset X jac hess d = Ok d' /\ dir_ok n X J H d' /\ d_primal d' = d_primal d.
Proof.
  intros Hh (Vp & Vc & Vh). unfold dir_reset.
  assert (E : exists c, (if (0 <? lx_nc X)%Z then fill_direction X jac d
        else o <- vec_dot (d_primal d) (lx_grad X) ;;
             Ok (mkdirn (d_primal d) o (vec_clear (d_cons d)) (d_hess d)))
      = Ok (mkdirn (d_primal d) (dotd n (dense (lx_grad X)) (dense (d_primal d))) c (d_hess d))
      /\ vok nc c /\ forall i, (0 <= i < nc)%Z -> (dense c i : R) = J (dense (d_primal d)) i).
  { destruct (Z.ltb_spec 0 (lx_nc X)) as [Hc|Hc].
    - apply (fill_direction_real n X jac J d CX HJ Vp (proj1 Vc)).
    - rewrite (dot_fun n _ _ Vp (cx_grad _ _ CX)). cbn [rbind]. rewrite dotd_sym. eexists. split; [reflexivity|]. split.
      + split; [apply wf_clear, Vc|apply Vc].
      + intros i Hi. unfold nc in Hi. lia. }
  destruct E as (c & E & Vc' & Hc). rewrite E. cbn [rbind d_primal d_obj d_cons d_hess].
  destruct (Hh (d_primal d) (d_hess d) Vp Vh) as (h & Eh & Vh' & Dh). rewrite Eh. cbn [rbind].
  eexists. split; [reflexivity|]. split; [|reflexivity]. constructor; cbn [d_primal d_obj d_cons d_hess]; auto.
Qed.

(** The value computed by compute_newton_objective *)
Definition newton_value (T : @wstep RN) (p : Z -> R) : R :=
  lx_obj X + lx_pen X * total_viol nc (lx_clb X) (lx_cub X) (dense (t_cons T)) + dotd n (dense (lx_grad X)) p + / 2 * dotd n p (H p).

Lemma finite_rn (x : R) : Rabs x < 5 * 10 ^ 99 -> @is_finite RN x = true.
Proof.
  intros Hx. unfold is_finite, is_infinite. cbn [nisnan RN]. rewrite rn_abs.
  match goal with |- negb ?b = true => destruct b eqn:E; [exfalso|reflexivity] end.
  apply rn_leb in E. unfold sleqp_infinity in E. rewrite rn_lit1, (rn_lit1 2) in E. cbn [ndiv RN] in E.
  assert (Hp : IZR (10 ^ 100) / 2 = 5 * 10 ^ 99).
  { rewrite <- (Z2Nat.id 100) by lia. rewrite <- pow_IZR. change (Z.to_nat 100) with (S 99). cbn [pow]. lra. }
  rewrite Hp in E. lra.
Qed.

Lemma objective_real (T : @wstep RN) d : vok nc (t_cons T) -> dir_ok n X J H d ->
  newton_objective X T d = (if @is_finite RN (newton_value T (dense (d_primal d))) then Ok (newton_value T (dense (d_primal d))) else Trap).
Proof.
  intros Vc Hd. unfold newton_objective, newton_offset. rewrite (viol_real n X CX (t_cons T) Vc). cbn [rbind].
  rewrite (dot_fun n _ _ (do_p _ _ _ _ _ Hd) (do_h _ _ _ _ _ Hd)). cbn [rbind]. rewrite (do_obj _ _ _ _ _ Hd).
  rewrite (dotd_eq n _ (dense (d_hess d)) (H (dense (d_primal d)))) by apply (do_hess _ _ _ _ _ Hd).
  match goal with |- check (is_finite ?a) ;;; _ = _ => assert (E : a = newton_value T (dense (d_primal d))) end.
  { unfold newton_value. rewrite rn_n0. fold nc. change (@nlit RN 1 2) with (1 / 2). cbn [nadd nmul RN]. req. lra. }
  rewrite E. destruct (is_finite _); reflexivity.
Qed.

Record newton_res (T : @wstep RN) (d : @dirn RN) (z : Z -> R) : Prop := {
  nr_dir : dir_ok n X J H d;
  nr_step : forall j, (0 <= j < n)%Z -> (dense (d_primal d) j : R) = dense (d_primal (t_dir T)) j + z j;
  nr_null : in_null w J z;
  nr_radius : dotd n (dense (d_primal d)) (dense (d_primal d)) <= lx_radius X * lx_radius X;
  nr_model : newton_model (dense (d_primal (t_dir T))) (dense (t_mult T)) z <= 0 }.

Theorem newton_real hess solve (T : @wstep RN) a cache product gradient tr_step d :
  computes n H hess -> tr_ok w J H solve -> step_res w X J T a ->
  (0 <= vcap cache)%Z -> vok n product -> (0 <= vcap gradient)%Z -> vok n tr_step -> dir_room n X d ->
  (exists d' z, newton_res T d' z /\ (t_reduced T = 0 -> forall j, z j = 0) /\
     (newton_direction X jac hess solve T cache product gradient tr_step d = Ok d' \/
      newton_direction X jac hess solve T cache product gradient tr_step d = Trap) /\
     ((forall p, dotd n p p <= lx_radius X * lx_radius X -> Rabs (newton_value T p) < 5 * 10 ^ 99) ->
      newton_direction X jac hess solve T cache product gradient tr_step d = Ok d')).
Proof.
  intros Hh Ht SR Kc Vpr Kg Vt Dr. unfold newton_direction, set_multipliers.
  destruct (Hh _ _ (sr_p _ _ _ _ _ SR) (sr_hess _ _ _ _ _ SR)) as (h & Eh & Vh & Dh). rewrite Eh. cbn [rbind].
  set (d0 := mkdirn (d_primal (t_dir T)) (d_obj (t_dir T)) (d_cons (t_dir T)) h).
  set (T1 := mkwstep _ _ _ _ _ _ _ _ _).
  change (t_dir T1) with d0. change (t_reduced T1) with (t_reduced T).
  assert (D0 : dir_ok n X J H d0).
  { constructor; cbn [d0 d_primal d_obj d_cons d_hess]; try apply SR; auto. }
  assert (Vc : vok nc (t_cons T1)) by apply SR.
  rewrite (objective_real T1 d0 Vc D0). change (dense (d_primal d0)) with (dense (d_primal (t_dir T))).
  change (newton_value T1) with (newton_value T).
  assert (Hrad := sr_radius _ _ _ _ _ SR). fold n in Hrad.
  assert (Hsq : 0 <= t_reduced T * t_reduced T) by apply Rle_0_sqr.
  assert (Hp0 : dotd n (dense (d_primal (t_dir T))) (dense (d_primal (t_dir T))) <= lx_radius X * lx_radius X) by lra.
  set (f0 := is_finite (newton_value T (dense (d_primal (t_dir T))))).
  destruct (@is_zero RN (t_reduced T) (lx_zero X)) eqn:Ez.
  - rewrite (cx_zero _ _ CX) in Ez. apply rn_is_zero0 in Ez.
    destruct (dir_copy_spec n X J H d0 D0 d Dr) as (d' & Ed & Dd & Ep). 
    exists d', zerof. split; [|split; [|split]].
    + constructor; auto.
      * intros j Hj. rewrite Ep. unfold zerof, d0. cbn [d_primal]. lra.
      * split; [reflexivity|]. intros i k Hi _ _. unfold zerof. destruct HJ as (cs & _ & _ & _ & HJ'). rewrite HJ'.
        apply sumd_zero. intros. ring.
      * rewrite Ep. exact Hp0.
      * unfold newton_model. rewrite !(dotd_sym n _ zerof). unfold zerof. rewrite !dot_zero_l.
        rewrite (sumd_zero nc). { lra. } intros i Hi. destruct HJ as (cs & _ & _ & _ & HJ'). rewrite HJ', sumd_zero; intros; ring.
    + reflexivity.
    + rewrite Ed. destruct f0; cbn [rbind]; auto.
    + intros Hb. rewrite Ed. unfold f0. rewrite finite_rn by auto. reflexivity.
  - assert (Hr0 : 0 < t_reduced T).
    { pose proof (sr_reduced _ _ _ _ _ SR) as H0. destruct (Rle_lt_or_eq_dec _ _ H0) as [|E0]; [assumption|].
      exfalso. rewrite (cx_zero _ _ CX) in Ez. rewrite (proj2 (rn_is_zero0 _)) in Ez; [discriminate|]. now symmetry. }
    destruct (gradient_real T1 cache product gradient Vh (sr_mult _ _ _ _ _ SR) Kc Vpr Kg) as (g & Eg & Vg & Dg). 
    destruct (Ht g tr_step (t_reduced T) Vg Vt Hr0) as (z & lo & hi & Es & Vz & Hz & Nz & Mz & Hl).
    destruct Dr as (Vdp & Vdc & Vdh).
    destruct (add_scaled_fun n z (d_primal d0) (d_primal d) 1 1 Vz (do_p _ _ _ _ _ D0) (vok_set_cap _ _ Vdp)) as (p & Ep & Vp & Dp).
    destruct (reset_real hess (mkdirn p (d_obj d) (d_cons d) (d_hess d)) Hh) as (d' & Ed & Dd & Pd).
    { split; [exact Vp|]. split; [exact Vdc|exact Vdh]. }
    cbn [d_primal] in Pd.
    assert (Np : dotd n (dense (d_primal d')) (dense (d_primal d')) <= lx_radius X * lx_radius X).
    { rewrite Pd, Dp. change (dotd n (lc 1 (dense z) 1 (dense (d_primal d0))) (lc 1 (dense z) 1 (dense (d_primal d0))) <= lx_radius X * lx_radius X).
      rewrite dot_lc_l, !dot_lc_r. rewrite (dotd_sym n (dense z) (dense (d_primal d0))).
      change (dense (d_primal d0)) with (dense (d_primal (t_dir T))).
      pose proof (sr_normal _ _ _ _ _ SR _ Hz) as Hn0. fold n in Hn0. rewrite Hn0. fold n in Nz. lra. }
    exists d', (dense z). split; [|split; [|split]].
    + constructor; auto.
      * intros j Hj. rewrite Pd, Dp. cbv beta. change (d_primal d0) with (d_primal (t_dir T)). lra.
      * unfold newton_model. unfold qmodel in Mz. fold n in Mz. rewrite Dg in Mz.
        rewrite <- (dotd_ext n (dense h) (H (dense (d_primal (t_dir T)))) (dense z) (dense z)); auto.
    + intros E0. exfalso. lra.
    + destruct f0; [|now right]. cbn [rbind]. rewrite Eg. cbn [rbind]. rewrite Es. cbn [rbind].
      rewrite (proj2 (rn_leb lo hi) Hl). cbn [check rbind]. unfold vec_add. rewrite (cx_zero _ _ CX), rn_n1. rewrite Ep. cbn [rbind].
      rewrite Ed. cbn [rbind]. rewrite (objective_real T1 d' Vc Dd). destruct (is_finite _); cbn [rbind]; auto.
    + intros Hb. unfold f0. rewrite finite_rn by auto. cbn [rbind]. rewrite Eg. cbn [rbind]. rewrite Es. cbn [rbind].
      rewrite (proj2 (rn_leb lo hi) Hl). cbn [check rbind]. unfold vec_add. rewrite (cx_zero _ _ CX), rn_n1. rewrite Ep. cbn [rbind].
      rewrite Ed. cbn [rbind]. rewrite (objective_real T1 d' Vc Dd). change (newton_value T1) with (newton_value T).
      rewrite finite_rn by auto. reflexivity.
Qed.
End Newton.
