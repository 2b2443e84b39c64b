(** C73: the reduced system (reduced_aug_jac.c).

    Specification vocabulary: as in PropsAugJac.v; [row_dot w cs k l] (AugJacRed2.v) = inner product of
    the rows [k] and [l] of the working set; [gram] = the matrix A A^T of these products or its lower
    part; [rj_reach] (AugJacRed3.v) = the states after any sequence of successful calls;
    [rj_current n nc F w cs j] = rows, matrix and factorization are those of [w] and [cs]. *)
From Coq Require Import Reals Lra.
From Flocq Require Import BinarySingleNaN.
From Verif Require Import Base Num Cmp Sparse Vec VecFacts Order VecFacts2 RSum VecReal QnReal Mat MatFacts MatFacts2 MatFacts3 MatFacts4 Arr
  WorkingSet WorkingSetFacts DualEst DualEstFacts Steihaug SteihaugFacts LineSearch LineSearchFacts WorkingStep WorkingStepFacts WorkingStepReal NewtonReal
  Gauss AugJac AugJacFacts AugJacUpper AugJacMain AugJacReal AugJacRed AugJacRed2 AugJacRed3 AugJacRedReal
  PropsVec PropsMat PropsDualEst PropsSteihaug PropsWorkingStep PropsAugJac.
Local Open Scope R_scope.

Lemma Rminus_eq_compat_l_ : forall a b c : R, b = c -> a - b = a - c.
Proof. intros a b c ->. reflexivity. Qed.

(** ** The matrix *)

(** A call that does not reuse the factorization hands over exactly the matrix of the inner products
    of the rows of the working set. *)
Theorem C73_matrix : forall (N : Num) n nc (F : @fact N) j w jac cs,
  rj_ok n nc j -> call_data n nc w jac cs ->
  (forall u, rj_ws j = Some u -> ws_eq w u = Ok false \/ rj_has j = false) ->
  exists m, gram w cs (f_lower F) m /\
    (f_set F m = Ok tt -> exists j', rj_set_iterate F j w jac = Ok (j', Ok tt) /\ rj_held j' = Some m /\ rj_current n nc F w cs j') /\
    (forall c, f_set F m = Err c -> exists j', rj_set_iterate F j w jac = Ok (j', Err c) /\ rj_held j' = None).
Proof.
  intros N n nc F j w jac cs HJ HD Hm. destruct (rj_set_miss n nc F j w jac cs HJ HD Hm) as (m & rhs & st & sy & HG & Hw & Wr & Dr & Hrow & E). cbv zeta in E.
  exists m. split; [exact HG|]. split.
  - intros Hs. rewrite Hs in E. eexists. split; [exact E|]. split; [reflexivity|]. destruct HJ as (O1 & O2 & O3 & O4 & O5 & O6), HD as [C O Hv Hn _ _ _].
    unfold rj_current, rj_ok. cbn [rj_n rj_m rj_rhs rj_dir rj_rows rj_ws rj_counts rj_sys rj_held].
    split; [|split; [reflexivity|split; [exact Hrow|exists m; auto]]].
    split; [reflexivity|]. split; [exact Hw|]. split; [exact Wr|]. split; [exact O4|]. split; [left; congruence|]. destruct (rj_ws j); auto.
  - intros c Hs. rewrite Hs in E. eexists. split; [exact E|]. reflexivity.
Qed.
Print Assumptions C73_matrix.

(** After any sequence of successful calls, in any order, rows and factorization are those of the
    last working set and Jacobian set, also if some calls reused the factorization. *)
Theorem C73_current : forall (N : Num) n nc (F : @fact N) fixed cs0 w cs j,
  (0 <= n)%Z -> (0 <= nc)%Z -> rj_reach n nc F fixed cs0 (Some (w, cs)) j -> rj_current n nc F w cs j.
Proof.
  intros N n nc F fixed cs0 w cs j Hn Hc H. destruct (rj_reach_inv n nc F fixed cs0 _ j Hn Hc H) as (_ & _ & _ & _ & I5). now destruct (I5 w cs eq_refl).
Qed.
Print Assumptions C73_current.

(** The matrix is regular exactly if the rows of the working set are linearly independent. *)
Theorem C73_regular : forall w cs lower m ms, consistent w -> @gram RN w cs lower m -> stores m ms ->
  (regular (ws_size w) (sysmat lower ms) <-> rows_independent w cs).
Proof. intros w cs lower m ms C HG HS. exact (gram_regular w cs C lower m ms HG HS). Qed.
Print Assumptions C73_regular.

(** Creation succeeds, and from every reachable state the call for a working set with linearly
    independent rows succeeds with every factorization that accepts all regular matrices. *)
Theorem C73_run : forall n nc F fixed cs0, (0 <= n)%Z -> (0 <= nc)%Z -> factorizes F ->
  (exists j, rj_create n nc fixed = Ok j /\ @rj_reach RN n nc F fixed cs0 None j) /\
  forall o j w jac cs, rj_reach n nc F fixed cs0 o j -> @call_data RN n nc w jac cs -> rows_independent w cs -> (fixed = true -> cs = cs0) ->
  exists j', rj_set_iterate F j w jac = Ok (j', Ok tt) /\ rj_reach n nc F fixed cs0 (Some (w, cs)) j'.
Proof.
  intros n nc F fixed cs0 Hn Hc HF. split.
  - destruct (@rj_create_ok RN n nc fixed Hn Hc) as (j & E & _). exists j. split; [exact E|]. now apply reach_create.
  - intros o j w jac cs HR HD HI Hf. destruct (rj_reach_next n nc F fixed cs0 o j w jac cs Hn Hc HR HD) as (j' & E).
    + intros m Hm HG. pose proof HG as (R1 & R2 & ms & HS & _). apply (HF m ms HS ltac:(congruence)). rewrite R2.
      apply (gram_regular w cs (cd_c _ _ _ _ _ HD) (f_lower F) m ms HG HS). exact HI.
    + exists j'. split; [exact E|]. eapply reach_set; eassumption.
Qed.
Print Assumptions C73_run.

(** ** The three solves *)

(** The shortest solution of the working set's equations; this is what C68-C71 demand. *)
Theorem C73_min_norm : forall F w nc cs j jac J, factorizes F -> consistent w -> rows_independent w cs ->
  rj_current (wnv w) nc F w cs j -> stores jac cs -> (forall p i, J p i = sumd (wnv w) (fun j => mR cs i j * p j)) ->
  min_norm_ok w J (fun rhs sol => r <- rj_min_norm F j (0 : @num RN) rhs sol ;; Ok (snd r)).
Proof.
  intros F w nc cs j jac J HF C HI HJ HS HJac rhs sol Vr [Ws _].
  destruct (rj_min_norm_real F w nc cs j HF C HI HJ 0 rhs sol Vr Ws) as (j' & x & y & y0 & E & _ & Vx & G & Gy & U).
  exists x. rewrite E. cbn [rbind snd]. split; [reflexivity|]. split; [exact Vx|].
  assert (Hy : forall i, Atapp w cs y i = Atapp w cs y0 i). { intros i. unfold Atapp. apply sumd_ext. intros k Hk. now rewrite (rounded0 _ _ (Gy k Hk)). }
  assert (Hxu : forall i, (0 <= i < wnv w)%Z -> dense x i = Atapp w cs y0 i) by (intros i Hi; rewrite <- Hy; apply rounded0, (G i Hi)). split.
  - apply (fits_rows w jac J cs (dense x) (dense rhs) C HS HJac). intros k Hk. rewrite <- U by exact Hk. unfold Aapp. apply sumd_ext. intros i Hi. now rewrite Hxu.
  - intros z Hz. rewrite (dotd_ext (wnv w) (dense x) (Atapp w cs y0) z z) by auto. apply orth.
    exact (proj1 (fits_rows w jac J cs z zerof C HS HJac) Hz).
Qed.
Print Assumptions C73_min_norm.

(** The multipliers of the least squares problem min |A^T y - b|. *)
Theorem C73_lsq : forall F w nc cs j, factorizes F -> consistent w -> rows_independent w cs ->
  rj_current (wnv w) nc F w cs j -> forall b sol, vok (wnv w) b -> wf sol ->
  exists j' y, rj_lsq F j (0 : @num RN) b sol = Ok (j', y) /\ vok (ws_size w) y
    /\ (forall y', dist (wnv w) (Atapp w cs (dense y)) (dense b) <= dist (wnv w) (Atapp w cs y') (dense b))
    /\ (forall k, (0 <= k < ws_size w)%Z -> Aapp w cs (fun i => dense b i - Atapp w cs (dense y) i) k = 0).
Proof.
  intros F w nc cs j HF C HI HJ b sol Vb Ws.
  destruct (rj_lsq_real F w nc cs j HF C HI HJ 0 b sol Vb Ws) as (j' & v & y & E & _ & Vv & G & U).
  exists j', v. split; [exact E|]. split; [exact Vv|].
  assert (Hvy : forall i, Atapp w cs (dense v) i = Atapp w cs y i).
  { intros i. unfold Atapp. apply sumd_ext. intros k Hk. rewrite (rounded0 _ _ (G k Hk)). reflexivity. }
  assert (H0 : forall k, (0 <= k < ws_size w)%Z -> Aapp w cs (fun i => dense b i - Atapp w cs (dense v) i) k = 0).
  { intros k Hk. rewrite <- Aapp_minus, <- (U k Hk). replace (Aapp w cs (Atapp w cs (dense v)) k) with (Aapp w cs (Atapp w cs y) k); [ring|].
    unfold Aapp. apply sumd_ext. intros i _. now rewrite Hvy. }
  split; [|exact H0]. apply (lsq_best w cs (fun i => dense b i - Atapp w cs (dense v) i)); [intros; ring|exact H0].
Qed.
Print Assumptions C73_lsq.

(** The orthogonal projection onto the null space of the rows, the same one for all states. *)
Theorem C73_project : forall F w nc cs, factorizes F -> consistent w -> rows_independent w cs ->
  exists P, projector (wnv w) P
    /\ (forall j, rj_current (wnv w) nc F w cs j -> computes (wnv w) P (fun rhs sol => r <- rj_project F j (0 : @num RN) rhs sol ;; Ok (snd r)))
    /\ (forall x, in_range (wnv w) P x <-> forall k, (0 <= k < ws_size w)%Z -> Aapp w cs x k = 0)
    /\ (forall b k, (0 <= k < ws_size w)%Z -> Aapp w cs (P b) k = 0)
    /\ forall b z, (forall k, (0 <= k < ws_size w)%Z -> Aapp w cs z k = 0) -> dist (wnv w) (P b) b <= dist (wnv w) z b.
Proof.
  intros F w nc cs HF C HI. exists (nullproj w cs). split; [exact (nullproj_projector w cs C HI)|]. split.
  - intros j HJ b sol Vb [Ws _]. assert (Ks : (0 <= vcap sol)%Z) by (destruct Ws as (_ & _ & ?); lia).
    destruct (rj_project_real F w nc cs j HF C HI HJ 0 b sol Vb Ks) as (j' & x & g & y & y0 & E & _ & Vx & Gx & Gg & Gy & U).
    exists x. rewrite E. split; [reflexivity|]. split; [exact Vx|]. 
    assert (Hx : forall i, (0 <= i < wnv w)%Z -> dense x i = dense b i - Atapp w cs y0 i).
    { intros i Hi. rewrite (rounded0 _ _ (Gx i Hi)), (rounded0 _ _ (Gg i Hi)). apply Rminus_eq_compat_l_. unfold Atapp. apply sumd_ext. intros k Hk. now rewrite (rounded0 _ _ (Gy k Hk)). }
    apply (nullproj_unique w cs C HI (dense x) y0 (dense b)).
    + intros i Hi. rewrite Hx by exact Hi. ring.
    + intros k Hk. transitivity (Aapp w cs (fun i => dense b i - Atapp w cs y0 i) k); [unfold Aapp; apply sumd_ext; intros i Hi; now rewrite Hx|].
      rewrite <- Aapp_minus, (U k Hk). ring.
  - split; [exact (nullproj_range w cs C HI)|]. split.
    + intros b. destruct (nullproj_split w cs C HI b) as (y & _ & H). exact H.
    + intros b z Hz. destruct (nullproj_split w cs C HI b) as (y & H1 & H2). exact (proj_best w cs (nullproj w cs b) y b H1 H2 z Hz).
Qed.
Print Assumptions C73_project.

(** The conjugate gradient solver with this projection is the trust region solver that C69 asks for. *)
Theorem C73_trust : forall F w nc cs j jac J H hess stat_tol max_iter clock (s : @cg RN) fuel,
  factorizes F -> consistent w -> rows_independent w cs ->
  rj_current (wnv w) nc F w cs j -> stores jac cs -> (forall p i, J p i = sumd (wnv w) (fun j => mR cs i j * p j)) ->
  (wnv w < Z.of_nat fuel)%Z -> computes (wnv w) H hess -> self_adjoint (wnv w) H -> 0 < stat_tol ->
  vok (wnv w) (cd s) -> vok (wnv w) (cbd s) -> vok (wnv w) (cgr s) -> vok (wnv w) (cr s) -> vok (wnv w) (cz s) -> vok (wnv w) (ccache s) ->
  tr_ok w J H (fun g step rad =>
    r <- steihaug fuel hess (fun rhs sol => r <- rj_project F j (0 : @num RN) rhs sol ;; Ok (snd r))
           g step (0 : @num RN) rad (stat_tol : @num RN) max_iter (nlit (-1) 1 : @num RN) clock s ;;
    let '(p, _, s') := r in Ok (p, cmin s', cmax s')).
Proof.
  intros F w nc cs j jac J H hess tol max_iter clock s fuel HF C HI HJ HS HJac Hf Hh HA Ht V1 V2 V3 V4 V5 V6 g step rad Vg Vs Hr.
  destruct (C73_project F w nc cs HF C HI) as (P & P1 & P2 & P3 & _). specialize (P2 j HJ). pose proof (nv0 w C) as (Hn & _).
  set (proj := fun rhs sol => r <- rj_project F j (0 : @num RN) rhs sol ;; Ok (snd r)) in *.
  assert (CO : call_ok (wnv w) g H P hess proj rad tol step s) by (constructor; auto).
  destruct (C64_outcome _ _ _ _ _ _ _ _ _ _ CO max_iter (@nlit RN (-1) 1) clock fuel Hf) as [[_ [Hne _]]|(p & du & s' & E & Wp & Dp & Hin & Hnm & Hm)].
  { exfalso. apply Hne. cbn. unfold rn_lit. lra. }
  cbv zeta in E. destruct (C64_rayleigh _ _ _ _ _ _ _ _ _ _ CO max_iter (@nlit RN (-1) 1) clock fuel p du s' Hf E) as [[R1 R2] _].
  exists p, (cmin s'), (cmax s'). rewrite E. cbn [rbind]. split; [reflexivity|]. split; [split; auto|]. split.
  - apply (fits_rows w jac J cs (dense p) zerof C HS HJac). exact (proj1 (P3 (dense p)) Hin).
  - split; [exact Hnm|]. split; [exact Hm|]. rnum. lra.
Qed.
Print Assumptions C73_trust.

(** The reduced and the standard system give the same results. *)
Theorem C73_standard : forall F F' w nc nc' cs j i, factorizes F -> factorizes F' -> consistent w -> rows_independent w cs ->
  rj_current (wnv w) nc F w cs j -> sj_current (wnv w) nc' F' w cs i ->
  (forall r sol sol', vok (ws_size w) r -> vok (wnv w) sol -> vok (wnv w) sol' -> exists j' x x',
     rj_min_norm F j (0 : @num RN) r sol = Ok (j', x) /\ sj_min_norm F' i (0 : @num RN) r sol' = Ok (r, x')
     /\ forall l, (0 <= l < wnv w)%Z -> dense x l = dense x' l) /\
  (forall b sol sol', vok (wnv w) b -> vok (ws_size w) sol -> vok (ws_size w) sol' -> exists j' y y',
     rj_lsq F j (0 : @num RN) b sol = Ok (j', y) /\ sj_lsq F' i (0 : @num RN) b sol' = Ok (b, y')
     /\ forall k, (0 <= k < ws_size w)%Z -> dense y k = dense y' k) /\
  (forall b sol sol', vok (wnv w) b -> vok (wnv w) sol -> vok (wnv w) sol' -> exists j' p p',
     rj_project F j (0 : @num RN) b sol = Ok (j', p) /\ sj_project F' i (0 : @num RN) b sol' = Ok (b, p')
     /\ forall l, (0 <= l < wnv w)%Z -> dense p l = dense p' l).
Proof.
  intros F F' w nc nc' cs j i HF HF' C HI HJ HJ'. split; [|split].
  - intros r sol sol' Vr Vs Vs'. destruct (rj_min_norm_real F w nc cs j HF C HI HJ 0 r sol Vr (proj1 Vs)) as (j' & x & y & y0 & E & _ & _ & G & Gy & U).
    destruct (sj_min_norm_real F' w nc' cs i HF' C HI HJ' 0 r sol' Vr Vs') as (x' & u' & a & E' & _ & G' & A & B).
    exists j', x, x'. split; [exact E|]. split; [exact E'|].
    assert (Hxu : forall l, (0 <= l < wnv w)%Z -> dense x l = Atapp w cs y0 l).
    { intros l Hl. rewrite (rounded0 _ _ (G l Hl)). unfold Atapp. apply sumd_ext. intros k Hk. now rewrite (rounded0 _ _ (Gy k Hk)). }
    assert (Hd : dotd (wnv w) (fun l => Atapp w cs y0 l - u' l) (fun l => Atapp w cs y0 l - u' l) = 0).
    { apply (min_norm_orth w cs (fun l => Atapp w cs y0 l - u' l) (fun k => - a k - y0 k)).
      - intros l Hl. rewrite <- (Atapp_minus w cs y0 (fun k => - a k)). specialize (A l Hl).
        assert (Hneg : Atapp w cs (fun k => - a k) l = - Atapp w cs a l). { unfold Atapp. rewrite <- (Rmult_1_l (sumd _ (fun k => wrow w cs k l * a k))), Ropp_mult_distr_l. rewrite <- sumd_scal. apply sumd_ext. intros; ring. }
        rewrite Hneg. lra.
      - intros k Hk. rewrite <- Aapp_minus, U, B by auto. ring. }
    intros l Hl. rewrite Hxu, (rounded0 _ _ (G' l Hl)) by exact Hl. pose proof (proj1 (dotd_zero (wnv w) _) Hd l Hl) as H. cbn in H. lra.
  - intros b sol sol' Vb Vs Vs'. destruct (rj_lsq_real F w nc cs j HF C HI HJ 0 b sol Vb (proj1 Vs)) as (j' & v & y0 & E & _ & _ & G & U).
    destruct (sj_lsq_real F' w nc' cs i HF' C HI HJ' 0 b sol' Vb Vs') as (v' & u' & a & E' & _ & G' & A & B).
    exists j', v, v'. split; [exact E|]. split; [exact E'|]. intros k Hk. rewrite (rounded0 _ _ (G k Hk)), (rounded0 _ _ (G' k Hk)).
    assert (H : y0 k - a k = 0); [|lra]. apply (HI (fun k => y0 k - a k)); [|exact Hk]. intros l Hl. fold (Atapp w cs (fun k => y0 k - a k) l).
    apply (AAt_zero w cs (fun k => y0 k - a k)); [|exact Hl]. intros q Hq.
    transitivity (Aapp w cs (fun l => Atapp w cs y0 l - Atapp w cs a l) q). { unfold Aapp. apply sumd_ext. intros m _. now rewrite Atapp_minus. }
    rewrite <- Aapp_minus, U by exact Hq. rewrite Aapp_minus. rewrite <- (B q Hq). unfold Aapp. apply sumd_ext. intros m Hm. rewrite <- (A m Hm). ring.
  - intros b sol sol' Vb Vs Vs'. destruct (C73_project F w nc cs HF C HI) as (_ & _ & _).
    assert (Ks : (0 <= vcap sol)%Z) by (destruct Vs as [(_ & _ & ?) _]; lia).
    destruct (rj_project_real F w nc cs j HF C HI HJ 0 b sol Vb Ks) as (j' & x & g & y & y0 & E & _ & Vx & Gx & Gg & Gy & U).
    destruct (sj_project_real F' w nc' cs i HF' C HI HJ' 0 b sol' Vb Vs') as (v' & u' & a & E' & _ & G' & A & B).
    exists j', x, v'. split; [exact E|]. split; [exact E'|].
    assert (Hx : forall l, (0 <= l < wnv w)%Z -> dense x l = dense b l - Atapp w cs y0 l).
    { intros l Hl. rewrite (rounded0 _ _ (Gx l Hl)), (rounded0 _ _ (Gg l Hl)). apply Rminus_eq_compat_l_. unfold Atapp. apply sumd_ext. intros k Hk. now rewrite (rounded0 _ _ (Gy k Hk)). }
    intros l Hl. rewrite (rounded0 _ _ (G' l Hl)).
    apply (split_unique w cs (dense x) y0 u' a (dense b)); auto.
    + intros m Hm. rewrite Hx by exact Hm. ring.
    + intros k Hk. transitivity (Aapp w cs (fun m => dense b m - Atapp w cs y0 m) k); [unfold Aapp; apply sumd_ext; intros m Hm; now rewrite Hx|].
      rewrite <- Aapp_minus, (U k Hk). ring.
Qed.
Print Assumptions C73_standard.

(** With a positive zero tolerance: the multipliers are rounded first, then the products. *)
Theorem C73_rounding : forall F w nc cs j, factorizes F -> consistent w -> rows_independent w cs ->
  rj_current (wnv w) nc F w cs j -> forall (zeps : R) b r sol sol', vok (wnv w) b -> vok (ws_size w) r -> vok (wnv w) sol -> wf sol' ->
  (exists j' x y y0, rj_min_norm F j (zeps : @num RN) r sol = Ok (j', x) /\ rj_current (wnv w) nc F w cs j' /\ vok (wnv w) x
    /\ (forall i, (0 <= i < wnv w)%Z -> rounded zeps (dense x i) (Atapp w cs y i))
    /\ (forall k, (0 <= k < ws_size w)%Z -> rounded zeps (y k) (y0 k) /\ Aapp w cs (Atapp w cs y0) k = dense r k)) /\
  (exists j' y y0, rj_lsq F j (zeps : @num RN) b sol' = Ok (j', y) /\ rj_current (wnv w) nc F w cs j' /\ vok (ws_size w) y
    /\ (forall k, (0 <= k < ws_size w)%Z -> rounded zeps (dense y k) (y0 k) /\ Aapp w cs (Atapp w cs y0) k = Aapp w cs (dense b) k)) /\
  (exists j' p g y y0, rj_project F j (zeps : @num RN) b sol = Ok (j', p) /\ rj_current (wnv w) nc F w cs j' /\ vok (wnv w) p
    /\ (forall i, (0 <= i < wnv w)%Z -> rounded zeps (dense p i) (dense b i - g i) /\ rounded zeps (g i) (Atapp w cs y i))
    /\ (forall k, (0 <= k < ws_size w)%Z -> rounded zeps (y k) (y0 k) /\ Aapp w cs (Atapp w cs y0) k = Aapp w cs (dense b) k)).
Proof.
  intros F w nc cs j HF C HI HJ zeps b r sol sol' Vb Vr Vs Ws'. split; [|split].
  - destruct (rj_min_norm_real F w nc cs j HF C HI HJ zeps r sol Vr (proj1 Vs)) as (j' & x & y & y0 & E & J & V & G & Gy & U).
    exists j', x, y, y0. repeat (split; [assumption|]). intros k Hk. auto.
  - destruct (rj_lsq_real F w nc cs j HF C HI HJ zeps b sol' Vb Ws') as (j' & v & y0 & E & J & V & G & U).
    exists j', v, y0. repeat (split; [assumption|]). intros k Hk. auto.
  - assert (Ks : (0 <= vcap sol)%Z) by (destruct Vs as [(_ & _ & ?) _]; lia).
    destruct (rj_project_real F w nc cs j HF C HI HJ zeps b sol Vb Ks) as (j' & x & g & y & y0 & E & J & Vx & Gx & Gg & Gy & U).
    exists j', x, g, y, y0. repeat (split; [assumption|]). split; intros k Hk; auto.
Qed.
Print Assumptions C73_rounding.

(** ** What does not hold *)

(** As for the standard system a failed factorization is reported once only. *)
Definition picky1 : @fact F64 :=
  mkfact false (fun m => if (mnc m =? 1)%Z then Err EInternal else Ok tt) (fun m rhs => Ok (repeat (fz 0) (Z.to_nat (mnc m)))).
Theorem C73_failure_refuted : exists j0 j1 j2 c,
  rj_create 2 1 true = Ok j0
  /\ rj_set_iterate picky1 j0 (ws_create 2 1) (@cjac F64) = Ok (j1, Ok tt)
  /\ rj_set_iterate picky1 j1 cw (@cjac F64) = Ok (j2, Err c)
  /\ rj_set_iterate picky1 j2 cw (@cjac F64) = Ok (j2, Ok tt)
  /\ rj_held j2 = None
  /\ forall r sol, exists e, rj_min_norm picky1 j2 (fz 0) r sol = Err e.
Proof.
  assert (H : match @rj_create F64 2 1 true with
    | Ok j0 => match rj_set_iterate picky1 j0 (ws_create 2 1) (@cjac F64) with
      | Ok (j1, Ok tt) => match rj_set_iterate picky1 j1 cw (@cjac F64) with
        | Ok (j2, Err _) => match rj_ws j2 with
          | Some u => match ws_eq cw u with
            | Ok b => b && rj_has j2 && match rj_held j2 with None => true | _ => false end | _ => false end
          | None => false end
        | _ => false end
      | _ => false end
    | _ => false end = true) by (vm_compute; reflexivity).
  destruct (rj_create 2 1 true) as [j0| |]; [|discriminate..].
  destruct (rj_set_iterate picky1 j0 (ws_create 2 1) (@cjac F64)) as [[j1 [[]| |]]| |] eqn:E1; [|discriminate..].
  destruct (rj_set_iterate picky1 j1 cw (@cjac F64)) as [[j2 [|c|]]| |] eqn:E2; try discriminate.
  destruct (rj_ws j2) as [u|] eqn:Eu; [|discriminate]. destruct (ws_eq cw u) as [b| |] eqn:Eq; [|discriminate..].
  apply andb_true_iff in H as [H H1]. apply andb_true_iff in H as [-> H2]. destruct (rj_held j2) eqn:Eh; [discriminate|].
  exists j0, j1, j2, c. split; [reflexivity|]. split; [exact E1|]. split; [exact E2|]. split; [|split; [exact Eh|]].
  - unfold rj_set_iterate. rewrite Eu. cbn [rbind]. rewrite Eq. cbn [rbind]. rewrite H2. reflexivity.
  - intros r sol. unfold rj_min_norm. rewrite Eh. cbn. eexists. reflexivity.
Qed.
Print Assumptions C73_failure_refuted.

(** One variable, one active constraint with the coefficient [a] *)
Definition c1w : wset := match ws_add_cons (ws_create 1 1) 0 ActUpper with Ok w => w | _ => ws_create 0 0 end.
Definition c1s (a : R) : list (list (Z * R)) := [[(0%Z, a)]].
Lemma c1_call a : exists jac, @call_data RN 1 1 c1w jac (c1s a).
Proof.
  destruct (@C11_build RN 1 1 (c1s a)) as (m & E & S); [lia|cbn; lia|repeat constructor; cbn; lia|]. exists m.
  assert (H0 : holds (ws_create 1 1) [] []) by (apply create_holds; lia).
  destruct (add_cons_holds _ _ _ 0 ActUpper H0) as (w1 & E1 & H1 & _); [cbn; lia|cbn; tauto|discriminate|].
  assert (Ew : c1w = w1) by (unfold c1w; now rewrite E1).
  cbn in E. constructor; try reflexivity; try exact S.
  - rewrite Ew. eapply holds_consistent; eassumption.
  - intros k l x y Hk Hl. change (ws_size c1w) with 1%Z in Hl. lia.
  - injection E as <-. reflexivity.
  - injection E as <-. reflexivity.
Qed.
Lemma c1_row a : wrow c1w (c1s a) 0 0 = a.
Proof. reflexivity. Qed.
Lemma c1_sum f : sumd 1 f = f 0%Z.
Proof. unfold sumd. change (Z.to_nat 1) with 1%nat. cbn [rsum]. change (Z.of_nat 0) with 0%Z. ring. Qed.
Lemma c1_at a y : Atapp c1w (c1s a) y 0 = a * y 0%Z.
Proof. unfold Atapp. change (ws_size c1w) with 1%Z. now rewrite c1_sum, c1_row. Qed.
Lemma c1_a a x : Aapp c1w (c1s a) x 0 = a * x 0%Z.
Proof. unfold Aapp. change (wnv c1w) with 1%Z. now rewrite c1_sum, c1_row. Qed.
Lemma c1_independent a : a <> 0 -> rows_independent c1w (c1s a).
Proof.
  intros Ha y Hy k Hk. change (ws_size c1w) with 1%Z in *. change (wnv c1w) with 1%Z in *. assert (k = 0%Z) by lia. subst k.
  specialize (Hy 0%Z ltac:(lia)). rewrite c1_sum, c1_row in Hy. apply Rmult_integral in Hy as [Hy|Hy]; [contradiction|exact Hy].
Qed.

(** The tolerance is no bound on the error: the standard system drops only components of the solution
    that are at most the tolerance (C72_rounding); here a solution of any size is replaced by 0, since the
    multipliers are small if the rows are large. *)
Theorem C73_tolerance_refuted : forall F (zeps B : R), factorizes F -> 0 < zeps -> 0 < B -> exists w nc cs j r sol j1 x1 j2 x2,
  consistent w /\ rows_independent w cs /\ rj_current (wnv w) nc F w cs j /\ vok (ws_size w) r /\ vok (wnv w) sol
  /\ rj_min_norm F j (0 : @num RN) r sol = Ok (j1, x1) /\ dense x1 0 = B
  /\ rj_min_norm F j (zeps : @num RN) r sol = Ok (j2, x2) /\ dense x2 0 = 0.
Proof.
  intros F zeps B HF Hz HB. set (a := B / zeps). assert (Ha : 0 < a) by (apply Rdiv_lt_0_compat; lra). assert (Haz : a * zeps = B) by (unfold a; field; lra).
  destruct (c1_call a) as (jac & D). destruct (C73_run 1 1 F false (c1s a)) as ((j0 & E0 & R0) & Hrun); [lia|lia|exact HF|].
  assert (HI : rows_independent c1w (c1s a)) by (apply c1_independent; lra).
  destruct (Hrun None j0 c1w jac (c1s a) R0 D HI ltac:(discriminate)) as (j & E & R).
  pose proof (C73_current RN 1 1 F false (c1s a) c1w (c1s a) j ltac:(lia) ltac:(lia) R) as HJ. pose proof (cd_c _ _ _ _ _ D) as C.
  destruct (rj_min_norm_real F c1w 1 (c1s a) j HF C HI HJ 0 (cv (a * B)) ce1 (vok_cv _) (proj1 vok_ce1)) as (j1 & x1 & y1 & z1 & E1 & _ & _ & G1 & Gy1 & U1).
  destruct (rj_min_norm_real F c1w 1 (c1s a) j HF C HI HJ zeps (cv (a * B)) ce1 (vok_cv _) (proj1 vok_ce1)) as (j2 & x2 & y2 & z2 & E2 & _ & _ & G2 & Gy2 & U2).
  exists c1w, 1%Z, (c1s a), j, (cv (a * B)), ce1, j1, x1, j2, x2. split; [exact C|]. split; [exact HI|]. split; [exact HJ|]. split; [apply vok_cv|]. split; [apply vok_ce1|].
  change (wnv c1w) with 1%Z in *. change (ws_size c1w) with 1%Z in *.
  specialize (G1 0%Z ltac:(lia)). specialize (G2 0%Z ltac:(lia)). specialize (Gy1 0%Z ltac:(lia)). specialize (Gy2 0%Z ltac:(lia)).
  specialize (U1 0%Z ltac:(lia)). specialize (U2 0%Z ltac:(lia)). rewrite c1_a, c1_at in U1, U2. rewrite c1_at in G1, G2. change (dense (cv (a * B)) 0) with (a * B) in U1, U2.
  assert (Z1 : a * z1 0%Z = B) by (apply Rmult_eq_reg_l with a; lra). assert (Z2 : z2 0%Z = zeps) by (apply Rmult_eq_reg_l with a; [rewrite Haz; apply Rmult_eq_reg_l with a; lra|lra]).
  split; [exact E1|]. split; [apply rounded0 in G1, Gy1; rewrite G1, Gy1; exact Z1|]. split; [exact E2|].
  destruct Gy2 as [Hy2 _]. rewrite Z2, Rabs_pos_eq in Hy2 by lra. rewrite Hy2 in G2 by lra. destruct G2 as [G2 _]. apply G2. rewrite Rmult_0_r, Rabs_R0. lra.
Qed.
Print Assumptions C73_tolerance_refuted.

(** Non-vacuity: the first set is empty, the second has x0 + x1 as its row; the shortest solution of
    x0 + x1 = 2 is (1, 1). *)
Example C73_example : forall lower, exists j0 j1 j j' x,
  rj_create 2 1 true = Ok j0 /\ rj_set_iterate (exact_fact lower) j0 (ws_create 2 1) cjac = Ok (j1, Ok tt)
  /\ rj_set_iterate (exact_fact lower) j1 cw cjac = Ok (j, Ok tt) /\ rj_current 2 1 (exact_fact lower) cw ccs j
  /\ rj_min_norm (exact_fact lower) j (0 : @num RN) (cv 2) ce = Ok (j', x) /\ dense x 0 = 1 /\ dense x 1 = 1.
Proof.
  intros lower. pose proof cw_call as D. set (F := exact_fact lower). assert (HF : factorizes F) by apply exact_factorizes.
  assert (D0 : @call_data RN 2 1 (ws_create 2 1) cjac ccs).
  { destruct D as [_ _ _ _ S1 S2 S3]. constructor; auto; try reflexivity.
    - eapply holds_consistent. apply create_holds; lia.
    - intros k l a b Hk Hl. change (ws_size (ws_create 2 1)) with 0%Z in Hl. lia. }
  destruct (C73_run 2 1 F true ccs) as ((j0 & E0 & R0) & Hrun); [lia|lia|exact HF|].
  destruct (Hrun None j0 (ws_create 2 1) cjac ccs R0 D0) as (j1 & E1 & R1); auto.
  { intros y _ k Hk. change (ws_size (ws_create 2 1)) with 0%Z in Hk. lia. }
  destruct (Hrun _ j1 cw cjac ccs R1 D cw_independent ltac:(auto)) as (j & E & R).
  pose proof (C73_current RN 2 1 F true ccs cw ccs j ltac:(lia) ltac:(lia) R) as HJ. destruct D as [C O _ _ S1 _ _].
  destruct (C73_min_norm F cw 1 ccs j cjac cJ HF C cw_independent HJ S1 ltac:(reflexivity) (cv 2) ce (vok_cv 2) vok_ce) as (x & Ex & Vx & Fx & Ox).
  destruct (rj_min_norm F j (0 : @num RN) (cv 2) ce) as [[j' x']| |] eqn:E'; cbn [rbind snd] in Ex; try discriminate. injection Ex as ->.
  exists j0, j1, j, j', x. split; [exact E0|]. split; [exact E1|]. split; [exact E|]. split; [exact HJ|]. split; [exact E'|].
  apply cw_in in Fx. assert (Hz : in_null cw cJ (fun j => if (j =? 0)%Z then 1 else -1)) by (apply cw_in; unfold zerof; cbn; lra).
  specialize (Ox _ Hz). change (wnv cw) with 2%Z in Ox. rewrite dot2 in Ox. change (dense (cv 2) 0) with 2 in Fx. cbn [Z.eqb] in Ox. change (1 =? 0)%Z with false in Ox. cbv iota in Ox. rnum. lra.
Qed.
