(** The second-order correction in exact arithmetic. *)
From Coq Require Import Reals Lra FunctionalExtensionality.
From Verif Require Import Base Num Cmp Sparse Vec VecFacts Order VecFacts2 RSum VecReal Mat MatFacts MatFacts2 MatFacts4 Arr
  WorkingSet WorkingSetFacts Feas FeasFacts MeritFacts OrdArith QnReal Cauchy CauchyFacts DualEst DualEstFacts
  RestoreMain SteihaugFacts LineSearch LineSearchFacts WorkingStep WorkingStepFacts WorkingStepReal.
Local Open Scope R_scope.

(** [d] cancels the distance [g] of an item to its bound, except that distances up to [eps] count
    as zero unless the item is active at both bounds. *)
Definition cancels (eps : R) (s : ast) (d g : R) : Prop :=
  (s = ActBoth \/ eps < Rabs g -> d = g) /\ (s <> ActBoth -> Rabs g <= eps -> d = 0).

Definition corrects (w : wset) (X : @lctx RN) (J : (Z -> R) -> Z -> R) (tx tc d : Z -> R) : Prop :=
  (forall j s, (0 <= j < wnv w)%Z -> ws_var_state w j = Ok s -> s <> Inactive ->
     cancels (lx_eps X) s (d j) (bound_of s (dense (lx_vlb X) j) (dense (lx_vub X) j) - tx j)) /\
  (forall i s, (0 <= i < wnc w)%Z -> ws_cons_state w i = Ok s -> s <> Inactive ->
     cancels (lx_eps X) s (J d i) (bound_of s (dense (lx_clb X) i) (dense (lx_cub X) i) - tc i)).

Record soc_room (n : Z) (S : @soc RN) : Prop := {
  sm_rhs : wf (o_rhs S);
  sm_lower : wf (o_lower S);
  sm_upper : wf (o_upper S);
  sm_dir : vok n (o_dir S);
  sm_corr : (0 <= vcap (o_corr S))%Z }.

Lemma soc_diff_real n (f b d : rvec) : (0 <= n)%Z -> vok n f -> vok n b -> wf d ->
  exists z, soc_diff (0 : @num RN) n f b d = Ok z /\ vok n z /\ forall i, (dense z i : R) = dense b i - dense f i.
Proof.
  intros Hn Vf Vb Wd. unfold soc_diff.
  destruct (vec_resize_spec (vec_clear d) n (wf_clear d Wd) Hn) as (z & E & W & D & _). rewrite E. cbn [rbind].
  apply diff_fun; auto. now apply wf_cap.
Qed.

Lemma soc_val_real (eps : R) (s : ast) (l u x lo up : R) : s <> Inactive -> lo = l - x -> up = u - x -> (s = ActBoth -> l = u) ->
  cancels eps s (if @soc_keep RN eps s lo up then @soc_val RN eps s lo up else 0) (bound_of s l u - x).
Proof.
  intros Ns -> -> Hb. unfold cancels. destruct s; cbn [soc_keep soc_val bound_of]; [congruence| | |].
  - destruct (@is_zero RN (l - x) eps) eqn:E; cbn [negb].
    + apply rn_is_zero in E. split; [intros [|]; [discriminate|lra]|auto].
    + split; [auto|]. intros _ Hg. apply (proj2 (rn_is_zero _ _)) in Hg. rewrite Hg in E. discriminate.
  - destruct (@is_zero RN (u - x) eps) eqn:E; cbn [negb].
    + apply rn_is_zero in E. split; [intros [|]; [discriminate|lra]|auto].
    + split; [auto|]. intros _ Hg. apply (proj2 (rn_is_zero _ _)) in Hg. rewrite Hg in E. discriminate.
  - rewrite (Hb eq_refl). split; [auto|]. intros H. now destruct H.
Qed.

Section Soc.
Variables (w : wset) (X : @lctx RN) (J : (Z -> R) -> Z -> R) (min_norm : rvec -> rvec -> res rvec).
Let n := wnv w.
Let nc := lx_nc X.
Hypothesis CX : ctx_ok n X.
Hypothesis SO : set_ok w X.
Hypothesis HM : min_norm_ok w J min_norm.
Hypothesis HB : both_equal w X.
Variables (tx tc : rvec).
Hypothesis Vtx : vok n tx.
Hypothesis Vtc : vok nc tc.

Lemma soc_correction_real (S : @soc RN) : soc_room n S ->
  exists S', soc_correction X n w min_norm tx tc S = Ok S' /\ vok n (o_dir S') /\ o_corr S' = o_corr S
    /\ corrects w X J (dense tx) (dense tc) (dense (o_dir S'))
    /\ forall z, in_null w J z -> dotd n (dense (o_dir S')) z = 0.
Proof.
  intros RO. destruct RO as [Wrhs Wlo Wup Vd Kc]. destruct CX as [Hn Vcl Vcu _ Vc Vvl Vvu Vx _ _ Hz].
  assert (Hnc : (0 <= nc)%Z) by (destruct Vtc as [[H0 _] E]; lia).
  assert (Hs : (0 <= ws_size w)%Z) by apply (size_nonneg w X SO).
  unfold soc_correction. rewrite Hz.
  destruct (prepare_result (o_rhs S) (ws_size w) (ws_size w) Wrhs Hs Hs) as (r1 & E1 & r2 & E2 & D2 & V2 & K2).
  rewrite E1. cbn [rbind]. rewrite E2. cbn [rbind].
  assert (W2 : wf r2). { split; [lia|]. rewrite V2. split; [exact I|]. cbn. lia. }
  destruct (soc_diff_real n tx (lx_vlb X) (o_lower S) Hn Vtx Vvl Wlo) as (lo & El & Vl & Dl). rewrite El. cbn [rbind].
  destruct (soc_diff_real n tx (lx_vub X) (o_upper S) Hn Vtx Vvu Wup) as (up & Eu & Vu & Du). rewrite Eu. cbn [rbind].
  destruct (soc_diff_real nc tc (lx_clb X) lo Hnc Vtc Vcl (proj1 Vl)) as (lo' & El' & Vl' & Dl').
  destruct (soc_diff_real nc tc (lx_cub X) up Hnc Vtc Vcu (proj1 Vu)) as (up' & Eu' & Vu' & Du').
  rewrite (@soc_part_spec RN (lx_eps X) n (vix w) (vstate w) (ws_var_index w) (ws_var_state w) lo up r2 (var_query w X SO) Hn);
    try apply Vl; try apply Vu.
  destruct (pushes_real w X SO
    (fun j => soc_keep (lx_eps X) (vstate w j) (dense lo j) (dense up j))
    (fun i => soc_keep (lx_eps X) (cstate w i) (dense lo' i) (dense up' i))
    (fun j => soc_val (lx_eps X) (vstate w j) (dense lo j) (dense up j))
    (fun i => soc_val (lx_eps X) (cstate w i) (dense lo' i) (dense up' i)) (zrange n) (zrange nc) r2)
    as (v1 & r & P1 & P2 & Vr & Gv & Gc); auto; try apply zrange_sorted.
  { intros j Hj Ha En. apply (var_query w X SO j Hj) in En. now rewrite En in Ha. }
  { intros i Hi Ha En. apply (cons_query w X SO i Hi) in En. now rewrite En in Ha. }
  rewrite P1. cbn [rbind]. unfold nc in El', Eu'. rewrite El'. cbn [rbind]. rewrite Eu'. cbn [rbind].
  unfold nc; rewrite (@soc_part_spec RN (lx_eps X) (lx_nc X) (cix w) (cstate w) (ws_cons_index w) (ws_cons_state w) lo' up' v1 (cons_query w X SO) Hnc);
    try apply Vl'; try apply Vu'.
  unfold nc in P2; rewrite P2. cbn [rbind].
  destruct (HM r (o_dir S) Vr Vd) as (d & Ed & Vd' & Fd & Od). rewrite Ed. cbn [rbind].
  eexists. split; [reflexivity|]. cbn [o_dir o_corr]. split; [exact Vd'|]. split; [reflexivity|]. split; [|exact Od].
  destruct (fits_index w X J _ _ SO Fd) as [Fv Fc]. split.
  - intros j s Hj Es Ns. destruct (var_query w X SO j Hj) as (_ & E5 & H6). rewrite Es in E5. injection E5 as E5.
    assert (Nj : vix w j <> none) by (intros En; apply H6 in En; congruence). specialize (Gv j Hj Nj).
    rewrite existsb_zrange in Gv. destruct (Z.leb_spec 0 j), (Z.ltb_spec j n); try (unfold n in *; lia). cbn [andb] in Gv.
    rewrite (Fv j Hj Nj), Gv, <- E5. apply soc_val_real; auto.
    intros ->. apply (proj1 HB); auto.
  - intros i s Hi Es Ns. rewrite (so_nc _ _ SO) in Hi. destruct (cons_query w X SO i Hi) as (_ & E5 & H6). rewrite Es in E5. injection E5 as E5.
    assert (Ni : cix w i <> none) by (intros En; apply H6 in En; congruence). specialize (Gc i Hi Ni).
    rewrite existsb_zrange in Gc. destruct (Z.leb_spec 0 i), (Z.ltb_spec i nc); try (unfold nc in *; lia). cbn [andb] in Gc.
    rewrite (Fc i Hi Ni), Gc, <- E5. apply soc_val_real; auto.
    intros ->. apply (proj2 HB); auto. rewrite (so_nc _ _ SO). exact Hi.
Qed.

Hypothesis Hbox : forall j, (0 <= j < n)%Z -> (dense (lx_vlb X) j : R) <= dense tx j <= dense (lx_vub X) j.

(** Length of the correction *)
Definition length_ok (d : Z -> R) (a : R) : Prop :=
  0 < a <= 1
  /\ (forall j, (0 <= j < n)%Z -> ~ ((dense tx j : R) = dense (lx_vub X) j /\ 0 < d j) -> ~ ((dense tx j : R) = dense (lx_vlb X) j /\ d j < 0) ->
        (dense (lx_vlb X) j : R) <= dense tx j + a * d j <= dense (lx_vub X) j)
  /\ (a = 1 \/ exists j, (0 <= j < n)%Z /\ ((0 < d j /\ dense tx j + a * d j = dense (lx_vub X) j) \/ (d j < 0 /\ dense tx j + a * d j = dense (lx_vlb X) j))).

Lemma soc_step_real (step : rvec) (S : @soc RN) (r : rvec) : soc_room n S -> vok n step -> (0 <= vcap r)%Z ->
  exists r' S' a, soc_step X n w min_norm step tx tc S r = Ok (r', S') /\ vok n r' /\ o_corr S' = o_corr S
    /\ corrects w X J (dense tx) (dense tc) (dense (o_dir S'))
    /\ (forall z, in_null w J z -> dotd n (dense (o_dir S')) z = 0)
    /\ length_ok (dense (o_dir S')) a
    /\ dense r' = lc 1 (dense step) a (dense (o_dir S')).
Proof.
  intros RO Vs Kr. unfold soc_step.
  destruct (soc_correction_real S RO) as (S' & E & Vd & Ec & Hc & Ho). rewrite E. cbn [rbind].
  destruct (max_step_real tx (o_dir S') (lx_vlb X) (lx_vub X) 1) as (a & Ea & Ha & Hin & Hhit);
    try apply Vtx; try apply Vd; try apply (cx_vlb _ _ CX); try apply (cx_vub _ _ CX).
  { rewrite (proj2 Vtx). apply Vd. } { rewrite (proj2 Vtx). apply (cx_vlb _ _ CX). } { rewrite (proj2 Vtx). apply (cx_vub _ _ CX). }
  { intros j Hj. apply Hbox. rewrite (proj2 Vtx) in Hj. exact Hj. } { lra. }
  rewrite rn_n1. rewrite Ea. cbn [rbind]. rewrite (cx_zero _ _ CX).
  destruct (dense_lc n step (o_dir S') r 1 a Vs Vd Kr) as (r' & Er & Vr' & Dr'). rewrite Er. cbn [rbind].
  exists r', S', a. split; [reflexivity|]. split; [exact Vr'|]. split; [exact Ec|]. split; [exact Hc|]. split; [exact Ho|].
  split; [|exact Dr']. rewrite (proj2 Vtx) in Hin, Hhit. split; [exact Ha|]. split; [exact Hin|exact Hhit].
Qed.

Lemma soc_trial_real (step : rvec) (S : @soc RN) (r : rvec) : soc_room n S -> vok n step -> (0 <= vcap r)%Z ->
  exists r' nrm S' a d, soc_trial_point X n w min_norm step tx tc S r = Ok (r', nrm, S') /\ vok n r'
    /\ corrects w X J (dense tx) (dense tc) d /\ (forall z, in_null w J z -> dotd n d z = 0) /\ length_ok d a
    /\ dense r' = lc 1 (dense (lx_x X)) 1 (lc 1 (dense step) a d)
    /\ nrm = sqrt (dotd n (lc 1 (dense step) a d) (lc 1 (dense step) a d)).
Proof.
  intros RO Vs Kr. unfold soc_trial_point.
  destruct (soc_step_real step S (o_corr S) RO Vs (sm_corr _ _ RO)) as (c & S' & a & E & Vc & _ & Hc & Ho & Hl & Dc).
  rewrite E. cbn [rbind]. rewrite (cx_zero _ _ CX), rn_n1.
  destruct (dense_lc n (lx_x X) c r 1 1 (cx_x _ _ CX) Vc Kr) as (r' & Er & Vr & Dr). rewrite Er. cbn [rbind].
  eexists r', _, _, a, (dense (o_dir S')). split; [reflexivity|]. split; [exact Vr|]. split; [exact Hc|]. split; [exact Ho|].
  split; [exact Hl|]. split; [now rewrite Dr, Dc|]. rewrite (norm_fun n c Vc), Dc. reflexivity.
Qed.

Lemma clip_rn (x l u : R) : l <= u -> @clip_val RN x l u = Rmax (Rmin x u) l.
Proof. intros H. unfold clip_val. now rewrite rn_max, rn_min. Qed.

Lemma trial_iterate_real (step cache primal : rvec) : vok n step -> (0 <= vcap cache)%Z -> vok n primal ->
  (forall j, (0 <= j < n)%Z -> (dense (lx_vlb X) j : R) <= dense (lx_vub X) j) ->
  exists p, trial_iterate X step cache primal = Ok p /\ vok n p
    /\ forall j, (0 <= j < n)%Z -> (dense p j : R) = Rmax (Rmin (dense (lx_x X) j + dense step j) (dense (lx_vub X) j)) (dense (lx_vlb X) j).
Proof.
  intros Vs Kc Vp Hle. unfold trial_iterate, vec_add. rewrite (cx_zero _ _ CX), rn_n1.
  destruct (dense_lc n (lx_x X) step cache 1 1 (cx_x _ _ CX) Vs Kc) as (y & Ey & Vy & Dy). rewrite Ey. cbn [rbind].
  destruct (@vec_clip_spec RN RN_Ord y (lx_vlb X) (lx_vub X) (0 : @num RN) primal) as (p & Ep & Wp & Dp & _ & Hp);
    try apply Vy; try apply (cx_vlb _ _ CX); try apply (cx_vub _ _ CX); try (rewrite (proj2 Vy)).
  - apply (cx_vlb _ _ CX).
  - apply (cx_vub _ _ CX).
  - apply Vp.
  - now apply vok_set_cap with n.
  - intros j Hj. split; [exact I|]. split; [exact I|]. split; [exact I|]. apply Hle. exact Hj.
  - exact I.
  - cbn. lra.
  - intros j Hj Ez. apply rn_is_zero0 in Ez. rewrite clip_rn in Ez by auto. cbn. specialize (Hle j Hj).
    revert Ez. unfold Rmax, Rmin. repeat destruct (Rle_dec _ _); lra.
  - exists p. split; [exact Ep|]. split; [split; [exact Wp|rewrite Dp; apply Vy]|]. intros j Hj.
    assert (Ey' : (dense y j : R) = dense (lx_x X) j + dense step j) by (rewrite Dy; unfold lc; lra).
    rewrite <- Ey', <- clip_rn by auto. specialize (Hp j). rewrite (proj2 Vy) in Hp. destruct (Hp Hj) as [E|[Ez E]]; [exact E|].
    apply rn_is_zero0 in Ez. rewrite E, Ez. apply rn_n0.
Qed.
End Soc.
