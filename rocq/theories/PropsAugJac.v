(** C72: the standard augmented system (standard_aug_jac.c).

    Specification vocabulary: [row_entry w cs k j] (AugJacMain.v) = entry [j] of row [k] of the
    working set [w], a unit row for a variable and a row of the Jacobian with the columns [cs] for
    a constraint; [augmented] = the matrix [[I A^T] [A 0]] of these rows or its lower part;
    [Aapp], [Atapp] (AugJacReal.v) = the products with A and its transpose; [rows_independent];
    [dist] = squared distance; [rounded eps c u] = [c] is 0 if [|u|] is at most [eps] and [u] otherwise;
    [factorizes F] = the factorization accepts and solves all regular systems;
    [sj_current n nc F w cs j] = the factorization held is that of the system of [w] and [cs]. *)
From Coq Require Import Reals Lra.
From Flocq Require Import BinarySingleNaN.
From Verif Require Import Base Num Cmp Sparse Vec VecFacts Order VecFacts2 RSum VecReal QnReal Mat MatFacts MatFacts2 MatFacts3 MatFacts4 Arr
  WorkingSet WorkingSetFacts DualEst DualEstFacts Steihaug SteihaugFacts LineSearch LineSearchFacts WorkingStep WorkingStepFacts WorkingStepReal NewtonReal
  Gauss AugJac AugJacFacts AugJacUpper AugJacMain AugJacReal PropsVec PropsMat PropsDualEst PropsSteihaug PropsWorkingStep.
Local Open Scope R_scope.

(** ** The matrix *)

(** A call that does not reuse the factorization hands over exactly the augmented matrix of the
    working set, and the call succeeds if the factorization accepts it. *)
Theorem C72_matrix : forall (N : Num) n nc (F : @fact N) j w jac cs,
  sj_ok n nc j -> call_data n nc w jac cs ->
  (forall u, sj_ws j = Some u -> ws_eq w u = Ok false \/ sj_has j = false) ->
  exists m, augmented w cs (f_lower F) m /\
    (f_set F m = Ok tt -> exists j', sj_set_iterate F j w jac = Ok (j', Ok tt) /\ sj_held j' = Some m /\ sj_current n nc F w cs j') /\
    (forall c, f_set F m = Err c -> exists j', sj_set_iterate F j w jac = Ok (j', Err c) /\ sj_held j' = None).
Proof.
  intros N n nc F j w jac cs HJ HD Hm. destruct (set_iterate_miss n nc F j w jac cs HJ HD Hm) as (m & ci & HA & Hw & Hci & E). cbv zeta in E.
  exists m. split; [exact HA|]. split.
  - intros Hs. rewrite Hs in E. eexists. split; [exact E|]. split; [reflexivity|]. split; [|split; [reflexivity|exists m; auto]].
    destruct HJ as (O1 & O2 & O3 & O4), HD as [C O Hv Hn _ _ _]. split; [reflexivity|]. split; [exact Hw|]. split; [exact Hci|]. cbn [sj_ws]. destruct (sj_ws j); auto.
  - intros c Hs. rewrite Hs in E. eexists. split; [exact E|]. reflexivity.
Qed.
Print Assumptions C72_matrix.

(** After any sequence of calls the factorization is that of the last working set and the last
    Jacobian, also if some calls reuse the one before.  For problems with nonlinear constraints
    ([fixed = false]) the Jacobians are arbitrary, otherwise they are all the same. *)
Theorem C72_current : forall (N : Num) n nc (F : @fact N) fixed junk cs0 l w jac cs,
  (0 <= n)%Z -> (0 <= nc)%Z ->
  Forall (fun p => exists cs, call_data n nc (fst p) (snd p) cs /\ (fixed = true -> cs = cs0)
    /\ forall m, mwf m -> augmented (fst p) cs (f_lower F) m -> f_set F m = Ok tt) (l ++ [(w, jac)]) ->
  call_data n nc w jac cs ->
  exists j0 j, sj_create n nc fixed junk = Ok j0 /\ sj_calls F j0 (l ++ [(w, jac)]) = Ok j /\ sj_current n nc F w cs j.
Proof. intros N n nc F fixed junk cs0 l w jac cs. exact (calls_current n nc F fixed junk cs0 l w jac cs). Qed.
Print Assumptions C72_current.

(** The matrix is regular exactly if the rows of the working set are linearly independent. *)
Theorem C72_regular : forall w cs lower m ms, consistent w -> @augmented RN w cs lower m -> stores m ms ->
  (regular (wnv w + ws_size w) (sysmat lower ms) <-> rows_independent w cs).
Proof. intros w cs lower m ms C HA HS. exact (sys_regular w cs lower m C HA ms HS). Qed.
Print Assumptions C72_regular.

(** Hence a run over working sets with linearly independent rows succeeds with every factorization
    that accepts all regular matrices. *)
Theorem C72_run : forall n nc F fixed junk cs0 l w jac cs,
  (0 <= n)%Z -> (0 <= nc)%Z -> factorizes F ->
  Forall (fun p => exists cs, @call_data RN n nc (fst p) (snd p) cs /\ rows_independent (fst p) cs /\ (fixed = true -> cs = cs0)) (l ++ [(w, jac)]) ->
  @call_data RN n nc w jac cs ->
  exists j0 j, sj_create n nc fixed junk = Ok j0 /\ sj_calls F j0 (l ++ [(w, jac)]) = Ok j /\ sj_current n nc F w cs j.
Proof.
  intros n nc F fixed junk cs0 l w jac cs Hn Hc HF Hall HD. apply (C72_current RN n nc F fixed junk cs0); auto.
  eapply Forall_impl; [|exact Hall]. intros [v ja] (c & D & HI & Hf). exists c. split; [exact D|]. split; [exact Hf|].
  intros m Hm HA. cbn [fst] in *. pose proof HA as (R1 & R2 & ms & HS & _). apply (HF m ms HS ltac:(congruence)). rewrite R2.
  apply (sys_regular v c (f_lower F) m (cd_c _ _ _ _ _ D) HA ms HS). exact HI.
Qed.
Print Assumptions C72_run.

(** ** The three solves *)

(** The shortest solution of the working set's equations; this is what C68-C71 demand. *)
Theorem C72_min_norm : forall F w nc cs j jac J, factorizes F -> consistent w -> rows_independent w cs ->
  sj_current (wnv w) nc F w cs j -> stores jac cs -> (forall p i, J p i = sumd (wnv w) (fun j => mR cs i j * p j)) ->
  min_norm_ok w J (fun rhs sol => r <- sj_min_norm F j (0 : @num RN) rhs sol ;; Ok (snd r)).
Proof.
  intros F w nc cs j jac J HF C HI HJ HS HJac rhs sol Vr Vs.
  destruct (sj_min_norm_real F w nc cs j HF C HI HJ 0 rhs sol Vr Vs) as (x & u & y & E & Vx & G & U1 & U2).
  exists x. rewrite E. cbn [rbind snd]. split; [reflexivity|]. split; [exact Vx|].
  assert (Hxu : forall i, (0 <= i < wnv w)%Z -> dense x i = u i) by (intros i Hi; apply rounded0, (G i Hi)). split.
  - apply (fits_rows w jac J cs (dense x) (dense rhs) C HS HJac). intros k Hk. rewrite <- U2 by exact Hk. unfold Aapp. apply sumd_ext. intros i Hi. now rewrite Hxu.
  - intros z Hz. rewrite (dotd_ext (wnv w) (dense x) u z z) by auto. apply (min_norm_orth w cs u y z U1).
    exact (proj1 (fits_rows w jac J cs z zerof C HS HJac) Hz).
Qed.
Print Assumptions C72_min_norm.

(** The multipliers of the least squares problem min |A^T y - b|. *)
Theorem C72_lsq : forall F w nc cs j, factorizes F -> consistent w -> rows_independent w cs ->
  sj_current (wnv w) nc F w cs j -> forall b sol, vok (wnv w) b -> vok (ws_size w) sol ->
  exists y, sj_lsq F j (0 : @num RN) b sol = Ok (b, y) /\ vok (ws_size w) y
    /\ (forall y', dist (wnv w) (Atapp w cs (dense y)) (dense b) <= dist (wnv w) (Atapp w cs y') (dense b))
    /\ (forall k, (0 <= k < ws_size w)%Z -> Aapp w cs (fun i => dense b i - Atapp w cs (dense y) i) k = 0).
Proof.
  intros F w nc cs j HF C HI HJ b sol Vb Vs.
  destruct (sj_lsq_real F w nc cs j HF C HI HJ 0 b sol Vb Vs) as (v & u & y & E & Vv & G & U1 & U2).
  exists v. split; [exact E|]. split; [exact Vv|].
  assert (Hvy : forall i, Atapp w cs (dense v) i = Atapp w cs y i).
  { intros i. unfold Atapp. apply sumd_ext. intros k Hk. rewrite (rounded0 _ _ (G k Hk)). reflexivity. }
  split.
  - intros y'. unfold dist at 1. rewrite (dotd_ext (wnv w) _ (fun i => Atapp w cs y i - dense b i) _ (fun i => Atapp w cs y i - dense b i)) by (intros; now rewrite Hvy).
    exact (lsq_best w cs u y (dense b) U1 U2 y').
  - intros k Hk. rewrite <- (U2 k Hk). unfold Aapp. apply sumd_ext. intros i Hi. rewrite Hvy, <- (U1 i Hi). ring.
Qed.
Print Assumptions C72_lsq.

(** The orthogonal projection onto the null space of the rows. *)
Theorem C72_project : forall F w nc cs j, factorizes F -> consistent w -> rows_independent w cs ->
  sj_current (wnv w) nc F w cs j ->
  exists P, projector (wnv w) P
    /\ computes (wnv w) P (fun rhs sol => r <- sj_project F j (0 : @num RN) rhs sol ;; Ok (snd r))
    /\ (forall x, in_range (wnv w) P x <-> forall k, (0 <= k < ws_size w)%Z -> Aapp w cs x k = 0)
    /\ (forall b k, (0 <= k < ws_size w)%Z -> Aapp w cs (P b) k = 0)
    /\ forall b z, (forall k, (0 <= k < ws_size w)%Z -> Aapp w cs z k = 0) -> dist (wnv w) (P b) b <= dist (wnv w) z b.
Proof.
  intros F w nc cs j HF C HI HJ. exists (nullproj w cs). split; [exact (nullproj_projector w cs C HI)|]. split.
  - intros b sol Vb Vs. destruct (sj_project_real F w nc cs j HF C HI HJ 0 b sol Vb Vs) as (v & u & y & E & Vv & G & U1 & U2).
    exists v. rewrite E. split; [reflexivity|]. split; [exact Vv|]. intros i Hi. rewrite (rounded0 _ _ (G i Hi)).
    exact (nullproj_unique w cs C HI u y (dense b) U1 U2 i Hi).
  - split; [exact (nullproj_range w cs C HI)|]. split.
    + intros b. destruct (nullproj_split w cs C HI b) as (y & _ & H). exact H.
    + intros b z Hz. destruct (nullproj_split w cs C HI b) as (y & H1 & H2). exact (proj_best w cs (nullproj w cs b) y b H1 H2 z Hz).
Qed.
Print Assumptions C72_project.

(** With a positive zero tolerance each component is the exact one, or 0 where the exact one is at
    most the tolerance.  The right hand side, changed during the solve, is given back unchanged. *)
Theorem C72_rounding : forall F w nc cs j, factorizes F -> consistent w -> rows_independent w cs ->
  sj_current (wnv w) nc F w cs j -> forall (zeps : R) b r sol sol', vok (wnv w) b -> vok (ws_size w) r -> vok (wnv w) sol -> vok (ws_size w) sol' ->
  exists x0 x y0 y p0 p,
    sj_min_norm F j (0 : @num RN) r sol = Ok (r, x0) /\ sj_min_norm F j (zeps : @num RN) r sol = Ok (r, x)
    /\ sj_lsq F j (0 : @num RN) b sol' = Ok (b, y0) /\ sj_lsq F j (zeps : @num RN) b sol' = Ok (b, y)
    /\ sj_project F j (0 : @num RN) b sol = Ok (b, p0) /\ sj_project F j (zeps : @num RN) b sol = Ok (b, p)
    /\ (forall i, (0 <= i < wnv w)%Z -> rounded zeps (dense x i) (dense x0 i) /\ rounded zeps (dense p i) (dense p0 i))
    /\ (forall k, (0 <= k < ws_size w)%Z -> rounded zeps (dense y k) (dense y0 k)).
Proof.
  intros F w nc cs j HF C HI HJ zeps b r sol sol' Vb Vr Vs Vs'.
  destruct (sj_min_norm_real F w nc cs j HF C HI HJ 0 r sol Vr Vs) as (x0 & u0 & a0 & E1 & _ & G1 & A1 & B1).
  destruct (sj_min_norm_real F w nc cs j HF C HI HJ zeps r sol Vr Vs) as (x & u & a & E2 & _ & G2 & A2 & B2).
  destruct (sj_lsq_real F w nc cs j HF C HI HJ 0 b sol' Vb Vs') as (y0 & v0 & c0 & E3 & _ & G3 & A3 & B3).
  destruct (sj_lsq_real F w nc cs j HF C HI HJ zeps b sol' Vb Vs') as (y & v & c & E4 & _ & G4 & A4 & B4).
  destruct (sj_project_real F w nc cs j HF C HI HJ 0 b sol Vb Vs) as (p0 & q0 & d0 & E5 & _ & G5 & A5 & B5).
  destruct (sj_project_real F w nc cs j HF C HI HJ zeps b sol Vb Vs) as (p & q & d & E6 & _ & G6 & A6 & B6).
  exists x0, x, y0, y, p0, p. repeat (split; [assumption|]).
  split.
  - intros i Hi. rewrite (rounded0 _ _ (G1 i Hi)), (rounded0 _ _ (G5 i Hi)). split.
    + replace (u0 i) with (u i); [exact (G2 i Hi)|].
      assert (Hd : dotd (wnv w) (fun i => u i - u0 i) (fun i => u i - u0 i) = 0).
      { apply (min_norm_orth w cs (fun i => u i - u0 i) (fun k => a k - a0 k)).
        - intros l Hl. rewrite <- Atapp_minus. specialize (A1 l Hl). specialize (A2 l Hl). lra.
        - intros k Hk. rewrite <- Aapp_minus, B1, B2 by auto. ring. }
      pose proof (proj1 (dotd_zero (wnv w) _) Hd i Hi) as H. cbn in H. lra.
    + rewrite (split_unique w cs q0 d0 q d (dense b) A5 B5 A6 B6 i Hi). exact (G6 i Hi).
  - intros k Hk. rewrite (rounded0 _ _ (G3 k Hk)). replace (c0 k) with (c k); [exact (G4 k Hk)|].
    assert (H : c k - c0 k = 0); [|lra].
    apply (HI (fun k => c k - c0 k)); [|exact Hk]. intros i Hi.
    pose proof (split_unique w cs v0 c0 v c (dense b) A3 B3 A4 B4 i Hi) as Hv. fold (Atapp w cs (fun k => c k - c0 k) i). rewrite <- Atapp_minus.
    specialize (A3 i Hi). specialize (A4 i Hi). lra.
Qed.
Print Assumptions C72_rounding.

(** The conjugate gradient solver with this projection is the trust region solver that C69 asks
    for, now with constraints. *)
Theorem C72_trust : forall F w nc cs j jac J H hess stat_tol max_iter clock (s : @cg RN) fuel,
  factorizes F -> consistent w -> rows_independent w cs ->
  sj_current (wnv w) nc F w cs j -> stores jac cs -> (forall p i, J p i = sumd (wnv w) (fun j => mR cs i j * p j)) ->
  (wnv w < Z.of_nat fuel)%Z -> computes (wnv w) H hess -> self_adjoint (wnv w) H -> 0 < stat_tol ->
  vok (wnv w) (cd s) -> vok (wnv w) (cbd s) -> vok (wnv w) (cgr s) -> vok (wnv w) (cr s) -> vok (wnv w) (cz s) -> vok (wnv w) (ccache s) ->
  tr_ok w J H (fun g step rad =>
    r <- steihaug fuel hess (fun rhs sol => r <- sj_project F j (0 : @num RN) rhs sol ;; Ok (snd r))
           g step (0 : @num RN) rad (stat_tol : @num RN) max_iter (nlit (-1) 1 : @num RN) clock s ;;
    let '(p, _, s') := r in Ok (p, cmin s', cmax s')).
Proof.
  intros F w nc cs j jac J H hess tol max_iter clock s fuel HF C HI HJ HS HJac Hf Hh HA Ht V1 V2 V3 V4 V5 V6 g step rad Vg Vs Hr.
  destruct (C72_project F w nc cs j HF C HI HJ) as (P & P1 & P2 & P3 & _). pose proof (nv0 w C) as (Hn & _).
  set (proj := fun rhs sol => r <- sj_project F j (0 : @num RN) rhs sol ;; Ok (snd r)) in *.
  assert (CO : call_ok (wnv w) g H P hess proj rad tol step s) by (constructor; auto).
  destruct (C64_outcome _ _ _ _ _ _ _ _ _ _ CO max_iter (@nlit RN (-1) 1) clock fuel Hf) as [[_ [Hne _]]|(p & du & s' & E & Wp & Dp & Hin & Hnm & Hm)].
  { exfalso. apply Hne. cbn. unfold rn_lit. lra. }
  cbv zeta in E. destruct (C64_rayleigh _ _ _ _ _ _ _ _ _ _ CO max_iter (@nlit RN (-1) 1) clock fuel p du s' Hf E) as [[R1 R2] _].
  exists p, (cmin s'), (cmax s'). rewrite E. cbn [rbind]. split; [reflexivity|]. split; [split; auto|]. split.
  - apply (fits_rows w jac J cs (dense p) zerof C HS HJac). exact (proj1 (P3 (dense p)) Hin).
  - split; [exact Hnm|]. split; [exact Hm|]. rnum. lra.
Qed.
Print Assumptions C72_trust.

(** ** What does not hold *)

(** A failed factorization is reported once: the working set has been stored before, and the flag
    of an earlier success is still set, so the next call with the same working set reports
    success without a factorization, and the solves fail. *)
Definition picky : @fact F64 :=
  mkfact false (fun m => if (mnc m =? 3)%Z then Err EInternal else Ok tt) (fun m rhs => Ok (repeat (fz 0) (Z.to_nat (mnc m)))).
Theorem C72_failure_refuted : exists j0 j1 j2 c,
  sj_create 2 1 true (fun _ => 0%Z) = Ok j0
  /\ sj_set_iterate picky j0 (ws_create 2 1) (@cjac F64) = Ok (j1, Ok tt)
  /\ sj_set_iterate picky j1 cw (@cjac F64) = Ok (j2, Err c)
  /\ sj_set_iterate picky j2 cw (@cjac F64) = Ok (j2, Ok tt)
  /\ sj_held j2 = None
  /\ forall b sol, vdim b = 2%Z -> exists e, sj_lsq picky j2 (fz 0) b sol = Err e.
Proof.
  assert (H : match @sj_create F64 2 1 true (fun _ => 0%Z) with
    | Ok j0 => match sj_set_iterate picky j0 (ws_create 2 1) (@cjac F64) with
      | Ok (j1, Ok tt) => match sj_set_iterate picky j1 cw (@cjac F64) with
        | Ok (j2, Err _) => match sj_ws j2 with
          | Some u => match ws_eq cw u with
            | Ok b => b && sj_has j2 && match sj_held j2 with None => true | _ => false end && (sj_n j2 =? 2)%Z && (sj_size j2 =? 1)%Z | _ => false end
          | None => false end
        | _ => false end
      | _ => false end
    | _ => false end = true) by (vm_compute; reflexivity).
  destruct (sj_create 2 1 true (fun _ => 0%Z)) as [j0| |]; [|discriminate..].
  destruct (sj_set_iterate picky j0 (ws_create 2 1) (@cjac F64)) as [[j1 [[]| |]]| |] eqn:E1; [|discriminate..].
  destruct (sj_set_iterate picky j1 cw (@cjac F64)) as [[j2 [|c|]]| |] eqn:E2; try discriminate.
  destruct (sj_ws j2) as [u|] eqn:Eu; [|discriminate]. destruct (ws_eq cw u) as [b| |] eqn:Eq; [|discriminate..].
  repeat (apply andb_true_iff in H as [H ?]). subst b. destruct (sj_held j2) eqn:Eh; [discriminate|].
  apply Z.eqb_eq in H0, H1. exists j0, j1, j2, c. split; [reflexivity|]. split; [exact E1|]. split; [exact E2|]. split; [|split; [exact Eh|]].
  - unfold sj_set_iterate. rewrite Eu. cbn [rbind]. rewrite Eq. cbn [rbind]. rewrite H3. reflexivity.
  - intros b sol Hb. unfold sj_lsq. rewrite Hb, H0, H1, Eh. cbn [Z.eqb check rbind]. unfold vec_resize. rewrite Hb. cbn. eexists. reflexivity.
Qed.
Print Assumptions C72_failure_refuted.

(** The assumption on the order is needed: with two constraints in the opposite order the column
    is not sorted and the final assertion fails. *)
Definition back_w : wset :=
  match ws_add_cons (ws_create 1 2) 1 ActUpper with
  | Ok w => match ws_add_cons w 0 ActUpper with Ok w => w | _ => ws_create 0 0 end
  | _ => ws_create 0 0 end.
Definition back_jac : @mat F64 := mkmat 2 1 2 2 [0%Z; 2%Z] [(0%Z, n1); (1%Z, n1)].
Theorem C72_order_refuted : exists j0, sj_create 1 2 false (fun _ => 0%Z) = Ok j0
  /\ consistent back_w
  /\ sj_set_iterate picky j0 back_w back_jac = Trap.
Proof.
  assert (H : match @sj_create F64 1 2 false (fun _ => 0%Z) with
    | Ok j0 => match sj_set_iterate picky j0 back_w back_jac with Trap => true | _ => false end | _ => false end = true) by (vm_compute; reflexivity).
  destruct (sj_create 1 2 false (fun _ => 0%Z)) as [j0| |]; [|discriminate..]. exists j0. split; [reflexivity|].
  destruct (sj_set_iterate picky j0 back_w back_jac) as [| |]; [discriminate..|]. split; [|reflexivity].
  assert (H0 : holds (ws_create 1 2) [] []) by (apply create_holds; lia).
  destruct (add_cons_holds _ _ _ 1 ActUpper H0) as (w1 & E1 & H1 & _); [cbn; lia|cbn; tauto|discriminate|].
  destruct (add_cons_holds _ _ _ 0 ActUpper H1) as (w2 & E2 & H2 & _); [vm_compute in E1; injection E1 as <-; cbn; lia|cbn; lia|discriminate|].
  assert (E : back_w = w2) by (unfold back_w; now rewrite E1, E2). rewrite E. eapply holds_consistent; eassumption.
Qed.
Print Assumptions C72_order_refuted.

(** ** Example: two variables, the constraint with the row (1 1), an exact factorization *)
Definition ccs : list (list (Z * R)) := [[(0%Z, @n1 RN)]; [(0%Z, @n1 RN)]].
Lemma cw_call : @call_data RN 2 1 cw cjac ccs.
Proof.
  destruct (cw_ok (cX 1 1 0 0 0) eq_refl) as [C O _ _]. destruct cjac_is as (cs & HS & _).
  constructor; auto; try reflexivity.
  destruct (@C11_build RN 1 2 ccs) as (m & E & S); [lia|cbn; lia|repeat constructor; cbn; lia|].
  assert (Em : m = cjac) by (cbn in E; now injection E as <-). now rewrite <- Em.
Qed.
Lemma cw_row j : (0 <= j < 2)%Z -> wrow cw ccs 0 j = 1.
Proof. intros Hj. assert (j = 0 \/ j = 1)%Z as [-> | ->] by lia; unfold wrow, row_entry; cbn; apply rn_n1. Qed.
Lemma cw_independent : rows_independent cw ccs.
Proof.
  intros y Hy k Hk. change (ws_size cw) with 1%Z in *. change (wnv cw) with 2%Z in *. assert (k = 0%Z) by lia. subst k.
  specialize (Hy 0%Z ltac:(lia)). unfold sumd in Hy. change (Z.to_nat 1) with 1%nat in Hy. cbn [rsum] in Hy. change (Z.of_nat 0) with 0%Z in Hy.
  rewrite cw_row in Hy by lia. lra.
Qed.
Example C72_example : forall lower, exists j0 j x,
  sj_create 2 1 false (fun _ => 0%Z) = Ok j0 /\ sj_calls (exact_fact lower) j0 [(ws_create 2 1, cjac); (cw, cjac)] = Ok j
  /\ sj_current 2 1 (exact_fact lower) cw ccs j
  /\ sj_min_norm (exact_fact lower) j (0 : @num RN) (cv 2) ce = Ok (cv 2, x) /\ dense x 0 = 1 /\ dense x 1 = 1.
Proof.
  intros lower. pose proof cw_call as D.
  assert (D0 : @call_data RN 2 1 (ws_create 2 1) cjac ccs).
  { destruct D as [_ _ _ _ S1 S2 S3]. constructor; auto; try reflexivity.
    - eapply holds_consistent. apply create_holds; lia.
    - intros k l a b Hk Hl. change (ws_size (ws_create 2 1)) with 0%Z in Hl. lia. }
  destruct (C72_run 2 1 (exact_fact lower) false (fun _ => 0%Z) ccs [(ws_create 2 1, cjac)] cw cjac ccs) as (j0 & j & E0 & E & HJ); auto; try lia.
  - apply exact_factorizes.
  - repeat constructor; exists ccs; (split; [assumption|]); (split; [|auto]); [|exact cw_independent].
    intros y _ k Hk. cbn [fst] in Hk. change (ws_size (ws_create 2 1)) with 0%Z in Hk. lia.
  - exists j0, j. destruct D as [C O _ _ S1 _ _].
    pose proof (C72_min_norm (exact_fact lower) cw 1 ccs j cjac cJ (exact_factorizes lower) C cw_independent HJ S1 ltac:(reflexivity) (cv 2) ce (vok_cv 2) vok_ce) as (x & Ex & Vx & Fx & Ox).
    destruct (sj_min_norm_real (exact_fact lower) cw 1 ccs j (exact_factorizes lower) C cw_independent HJ 0 (cv 2) ce (vok_cv 2) vok_ce) as (x' & u & y & E' & _).
    rewrite E' in Ex. cbn in Ex. injection Ex as ->. exists x. split; [exact E0|]. split; [exact E|]. split; [exact HJ|]. split; [exact E'|].
    apply cw_in in Fx. assert (Hz : in_null cw cJ (fun j => if (j =? 0)%Z then 1 else -1)) by (apply cw_in; unfold zerof; cbn; lra).
    specialize (Ox _ Hz). change (wnv cw) with 2%Z in Ox. rewrite dot2 in Ox. change (dense (cv 2) 0) with 2 in Fx. cbn [Z.eqb] in Ox. change (1 =? 0)%Z with false in Ox. cbv iota in Ox. rnum. lra.
Qed.
