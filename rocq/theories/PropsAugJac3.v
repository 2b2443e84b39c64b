(** C74: the direct system (direct_aug_jac.c), which keeps a QR factorization of A^T.

    Specification vocabulary: as in PropsAugJac.v; [left_of_vars w j] (AugJacQRFacts.v) = neither the
    variable [j] nor any with a smaller index is in the working set; [handed w cs m] = the entries of the
    matrix handed to the factorization; [row_transpose w cs m] = [m] is the transpose of the matrix with the
    rows of the working set; [qr_of F E m] (AugJacQRReal.v) = the callbacks compute exactly with a QR
    factorization of the matrix with the columns E 0, E 1, ... of [m]; [dj_current F w cs j] = matrix
    and factorization are those of [w] and [cs]. *)
From Coq Require Import Reals Lra.
From Verif Require Import Base Num Cmp Sparse Vec VecFacts Order VecFacts2 RSum VecReal QnReal Mat MatFacts MatFacts2 MatFacts3 MatFacts4 Arr
  WorkingSet WorkingSetFacts DualEst DualEstFacts Steihaug SteihaugFacts LineSearch LineSearchFacts WorkingStep WorkingStepFacts WorkingStepReal NewtonReal
  Gauss AugJac AugJacFacts AugJacUpper AugJacMain AugJacReal AugJacRed AugJacRedReal AugJacDir AugJacQR AugJacQRFacts AugJacQRReal
  PropsVec PropsMat PropsDualEst PropsSteihaug PropsWorkingStep PropsAugJac.
Local Open Scope R_scope.

(** ** The matrix *)

(** Creation succeeds; from every state a call with at most as many rows as there are constraints and
    variables computes its matrix: in the columns of the Jacobian left of all active variables the rows
    keep the numbers they have among the constraints, in the others they have those of the working set. *)
Theorem C74_matrix : forall (N : Num) n nc (F : @qr N), (0 <= n)%Z ->
  (exists j, dj_create = Ok j /\ dj_ok n j) /\
  forall j w jac cs, dj_ok n j -> call_data n nc w jac cs -> (ws_size w <= nc)%Z -> (ws_size w <= n)%Z ->
  exists m, handed w cs m
    /\ (q_set F m = Ok tt -> exists j', dj_set_iterate F j w jac = Ok (j', Ok tt) /\ dj_ok n j' /\ dj_mat j' = m /\ dj_held j' = Some m)
    /\ (forall c, q_set F m = Err c -> exists j', dj_set_iterate F j w jac = Ok (j', Err c) /\ dj_ok n j' /\ dj_held j' = None).
Proof.
  intros N n nc F Hn. split; [now apply dj_create_ok|]. intros j w jac cs HJ HD H1 H2.
  exact (proj2 (proj2 (dj_set_ok n nc F j w jac cs HJ HD)) H1 H2).
Qed.
Print Assumptions C74_matrix.

(** The matrix is the right one if no variable is active or if every entry of an active constraint lies
    at or right of an active variable. *)
Theorem C74_current : forall (N : Num) n nc (F : @qr N) j w jac cs, dj_ok n j -> call_data n nc w jac cs ->
  (ws_size w <= nc)%Z -> (ws_size w <= n)%Z -> (forall m, row_transpose w cs m -> q_set F m = Ok tt) ->
  ((forall i, (0 <= i < n)%Z -> ws_var_state w i = Ok Inactive) \/
   (forall i l, (0 <= i < nc)%Z -> (0 <= l < n)%Z -> ws_cons_state w i <> Ok Inactive -> mget cs i l <> None -> ~ left_of_vars w l)) ->
  exists j', dj_set_iterate F j w jac = Ok (j', Ok tt) /\ dj_current F w cs j'.
Proof.
  intros N n nc F j w jac cs HJ HD H1 H2 HF Hg. destruct (proj2 (proj2 (dj_set_ok n nc F j w jac cs HJ HD)) H1 H2) as (m & HH & Hok & _).
  destruct HD as [C O Hv Hc S1 S2 S3]. subst n nc.
  assert (HT : row_transpose w cs m).
  { apply handed_transposed; [exact C|exact HH|]. destruct Hg as [Hg|Hg]; [left|right; exact Hg].
    pose proof (nv0 w C) as (N1 & _ & N3 & N4). destruct (Z.eq_dec (wnav w) 0) as [E|E]; [exact E|]. exfalso.
    pose proof (vcnt w C) as Hcnt. assert (Ha : filter (vact w) (zrange (wnv w)) <> []) by (intros Hn; rewrite Hn in Hcnt; cbn in Hcnt; lia).
    destruct (filter (vact w) (zrange (wnv w))) as [|z l] eqn:Ef; [congruence|]. assert (Hz : In z (z :: l)) by now left. rewrite <- Ef in Hz. apply filter_In in Hz as [Hz Hza]. apply zrange_In in Hz.
    destruct (vix_ok w C z Hz) as (_ & Es & Hiff). rewrite (Hg z Hz) in Es. injection Es as Es. symmetry in Es. apply Hiff in Es. unfold vact in Hza. rewrite Es in Hza. discriminate. }
  destruct (Hok (HF m HT)) as (j' & E & J1 & J2 & J3). exists j'. split; [exact E|]. unfold dj_current. rewrite J2, J3. split; [exact J1|]. split; [reflexivity|]. split; [exact HT|]. split; [now apply HF|exact H2].
Qed.
Print Assumptions C74_current.

(** A working set with more rows than the problem has constraints makes the call leave its arrays: the
    array of the row counts has one entry for each constraint, but is indexed with the rows of the working
    set. *)
Theorem C74_memory_refuted : forall (N : Num) n nc (F : @qr N) j w jac cs, dj_ok n j -> call_data n nc w jac cs ->
  (nc < ws_size w)%Z -> dj_set_iterate F j w jac = Trap.
Proof. intros N n nc F j w jac cs HJ HD H. exact (proj1 (dj_set_ok n nc F j w jac cs HJ HD) H). Qed.
Print Assumptions C74_memory_refuted.

(** A problem with one variable and no constraints *)
Definition v1w : wset := match ws_add_var (ws_create 1 0) 0 ActUpper with Ok w => w | _ => ws_create 0 0 end.
Example C74_memory_example : exists j jac, dj_create = Ok j /\ dj_ok 1 j /\ @call_data RN 1 0 v1w jac [[]] /\ (0 < ws_size v1w)%Z
  /\ forall F, dj_set_iterate F j v1w jac = Trap.
Proof.
  destruct (@dj_create_ok RN 1 ltac:(lia)) as (j & E & HJ). destruct (@C11_build RN 0 1 [[]]) as (jac & Em & S); [lia|cbn; lia|repeat constructor; cbn; lia|].
  assert (D : @call_data RN 1 0 v1w jac [[]]).
  { assert (H0 : holds (ws_create 1 0) [] []) by (apply create_holds; lia).
    destruct (add_var_holds _ _ _ 0 ActUpper H0) as (w1 & E1 & H1 & _); [cbn; lia|reflexivity|cbn; tauto|discriminate|].
    assert (Ew : v1w = w1) by (unfold v1w; now rewrite E1). cbn in Em. constructor; try reflexivity; try exact S.
    - rewrite Ew. eapply holds_consistent; eassumption.
    - intros k l x y Hk Hl. change (ws_size v1w) with 1%Z in Hl. lia.
    - injection Em as <-. reflexivity.
    - injection Em as <-. reflexivity. }
  exists j, jac. split; [exact E|]. split; [exact HJ|]. split; [exact D|]. split; [reflexivity|]. intros F. apply (C74_memory_refuted RN 1 0 F j v1w jac [[]] HJ D). reflexivity.
Qed.

(** ** The three solves *)
Definition natural : Z -> Z := fun k => k.
Lemma natural_bijective d : bijective d natural natural.
Proof. intros k Hk. unfold natural. auto. Qed.

(** The shortest solution of the working set's equations; this is what C68-C71 demand. *)
Theorem C74_min_norm : forall F w cs j jac J, consistent w -> rows_independent w cs ->
  dj_current F w cs j -> qr_of F natural (dj_mat j) -> stores jac cs -> (forall p i, J p i = sumd (wnv w) (fun j => mR cs i j * p j)) ->
  min_norm_ok w J (fun rhs sol => r <- dj_min_norm F j rhs sol ;; Ok (snd r)).
Proof.
  intros F w cs j jac J C HI HJ HF HS HJac rhs sol Vr Vs.
  destruct (rows_min_norm F natural natural w cs j C HI HJ (natural_bijective _) HF rhs sol Vr Vs) as (j' & x & y & E & _ & Vx & Hx & U).
  exists x. rewrite E. cbn [rbind snd]. split; [reflexivity|]. split; [exact Vx|]. split.
  - apply (fits_rows w jac J cs (dense x) (dense rhs) C HS HJac). exact U.
  - intros z Hz. rewrite (dotd_ext (wnv w) (dense x) (Atapp w cs y) z z) by auto. apply orth.
    exact (proj1 (fits_rows w jac J cs z zerof C HS HJac) Hz).
Qed.
Print Assumptions C74_min_norm.

(** The multipliers of the least squares problem min |A^T y - b|. *)
Theorem C74_lsq : forall F w cs j, consistent w -> rows_independent w cs ->
  dj_current F w cs j -> qr_of F natural (dj_mat j) -> forall b sol, vok (wnv w) b -> vok (ws_size w) sol ->
  exists j' y, dj_lsq F j b sol = Ok (j', y) /\ dj_current F w cs j' /\ vok (ws_size w) y
    /\ (forall y', dist (wnv w) (Atapp w cs (dense y)) (dense b) <= dist (wnv w) (Atapp w cs y') (dense b))
    /\ (forall k, (0 <= k < ws_size w)%Z -> Aapp w cs (fun i => dense b i - Atapp w cs (dense y) i) k = 0).
Proof.
  intros F w cs j C HI HJ HF b sol Vb Vs.
  destruct (rows_lsq F natural natural w cs j C HI HJ (natural_bijective _) HF b sol Vb Vs) as (j' & y & E & J' & Vy & U).
  exists j', y. split; [exact E|]. split; [exact J'|]. split; [exact Vy|]. split; [|exact U].
  apply (lsq_best w cs (fun i => dense b i - Atapp w cs (dense y) i)); [intros; ring|exact U].
Qed.
Print Assumptions C74_lsq.

(** The orthogonal projection onto the null space of the rows, the same one for all states and also if
    the factorization permutes the columns. *)
Theorem C74_project : forall w cs, consistent w -> rows_independent w cs ->
  exists P, projector (wnv w) P
    /\ (forall F E E' j, bijective (ws_size w) E E' -> dj_current F w cs j -> qr_of F E (dj_mat j) ->
          computes (wnv w) P (fun rhs sol => r <- dj_project F j rhs sol ;; Ok (snd r))
          /\ forall b sol j' x, vok (wnv w) b -> vok (wnv w) sol -> dj_project F j b sol = Ok (j', x) -> dj_current F w cs j')
    /\ (forall x, in_range (wnv w) P x <-> forall k, (0 <= k < ws_size w)%Z -> Aapp w cs x k = 0)
    /\ (forall b k, (0 <= k < ws_size w)%Z -> Aapp w cs (P b) k = 0)
    /\ forall b z, (forall k, (0 <= k < ws_size w)%Z -> Aapp w cs z k = 0) -> dist (wnv w) (P b) b <= dist (wnv w) z b.
Proof.
  intros w cs C HI. exists (nullproj w cs). split; [exact (nullproj_projector w cs C HI)|]. split.
  - intros F E E' j HB HJ HF. split.
    + intros b sol Vb Vs. destruct (rows_project F E E' w cs j C HI HJ HB HF b sol Vb Vs) as (j' & x & E1 & _ & Vx & Hx).
      exists x. rewrite E1. split; [reflexivity|]. split; [exact Vx|exact Hx].
    + intros b sol j1 x1 Vb Vs E1. destruct (rows_project F E E' w cs j C HI HJ HB HF b sol Vb Vs) as (j' & x & E2 & J' & _). rewrite E1 in E2. now injection E2 as <- _.
  - split; [exact (nullproj_range w cs C HI)|]. split.
    + intros b. destruct (nullproj_split w cs C HI b) as (y & _ & H). exact H.
    + intros b z Hz. destruct (nullproj_split w cs C HI b) as (y & H1 & H2). exact (proj_best w cs (nullproj w cs b) y b H1 H2 z Hz).
Qed.
Print Assumptions C74_project.

(** The conjugate gradient solver with this projection is the trust region solver that C69 asks for. *)
Theorem C74_trust : forall F w cs j jac J H hess stat_tol max_iter clock (s : @cg RN) fuel,
  consistent w -> rows_independent w cs -> dj_current F w cs j -> qr_of F natural (dj_mat j) ->
  stores jac cs -> (forall p i, J p i = sumd (wnv w) (fun j => mR cs i j * p j)) ->
  (wnv w < Z.of_nat fuel)%Z -> computes (wnv w) H hess -> self_adjoint (wnv w) H -> 0 < stat_tol ->
  vok (wnv w) (cd s) -> vok (wnv w) (cbd s) -> vok (wnv w) (cgr s) -> vok (wnv w) (cr s) -> vok (wnv w) (cz s) -> vok (wnv w) (ccache s) ->
  tr_ok w J H (fun g step rad =>
    r <- steihaug fuel hess (fun rhs sol => r <- dj_project F j rhs sol ;; Ok (snd r))
           g step (0 : @num RN) rad (stat_tol : @num RN) max_iter (nlit (-1) 1 : @num RN) clock s ;;
    let '(p, _, s') := r in Ok (p, cmin s', cmax s')).
Proof.
  intros F w cs j jac J H hess tol max_iter clock s fuel C HI HJ HF HS HJac Hf Hh HA Ht V1 V2 V3 V4 V5 V6 g step rad Vg Vs Hr.
  destruct (C74_project w cs C HI) as (P & P1 & P2 & P3 & _). destruct (P2 F natural natural j (natural_bijective _) HJ HF) as [P4 _]. pose proof (nv0 w C) as (Hn & _).
  set (proj := fun rhs sol => r <- dj_project F j rhs sol ;; Ok (snd r)) in *.
  assert (CO : call_ok (wnv w) g H P hess proj rad tol step s) by (constructor; auto).
  destruct (C64_outcome _ _ _ _ _ _ _ _ _ _ CO max_iter (@nlit RN (-1) 1) clock fuel Hf) as [[_ [Hne _]]|(p & du & s' & E & Wp & Dp & Hin & Hnm & Hm)].
  { exfalso. apply Hne. cbn. unfold rn_lit. lra. }
  cbv zeta in E. destruct (C64_rayleigh _ _ _ _ _ _ _ _ _ _ CO max_iter (@nlit RN (-1) 1) clock fuel p du s' Hf E) as [[R1 R2] _].
  exists p, (cmin s'), (cmax s'). rewrite E. cbn [rbind]. split; [reflexivity|]. split; [split; auto|]. split.
  - apply (fits_rows w jac J cs (dense p) zerof C HS HJac). exact (proj1 (P3 (dense p)) Hin).
  - split; [exact Hnm|]. split; [exact Hm|]. rnum. lra.
Qed.
Print Assumptions C74_trust.

(** With permuted columns the right hand sides and the multipliers are permuted: equation [E k] gets the
    right hand side [k], and the component [k] is the multiplier of row [E k]. *)
Theorem C74_ordering : forall F E E' w cs j, consistent w -> rows_independent w cs -> bijective (ws_size w) E E' ->
  dj_current F w cs j -> qr_of F E (dj_mat j) ->
  (forall rhs sol, vok (ws_size w) rhs -> vok (wnv w) sol -> exists j' x, dj_min_norm F j rhs sol = Ok (j', x) /\ dj_current F w cs j' /\ vok (wnv w) x
     /\ (forall k, (0 <= k < ws_size w)%Z -> Aapp w cs (dense x) (E k) = dense rhs k)
     /\ forall z, (forall k, (0 <= k < ws_size w)%Z -> Aapp w cs z k = 0) -> dotd (wnv w) (dense x) z = 0) /\
  (forall b sol, vok (wnv w) b -> vok (ws_size w) sol -> exists j' y, dj_lsq F j b sol = Ok (j', y) /\ dj_current F w cs j' /\ vok (ws_size w) y
     /\ forall y', dist (wnv w) (Atapp w cs (fun k => dense y (E' k))) (dense b) <= dist (wnv w) (Atapp w cs y') (dense b)).
Proof.
  intros F E E' w cs j C HI HB HJ HF. split.
  - intros rhs sol Vr Vs. destruct (rows_min_norm F E E' w cs j C HI HJ HB HF rhs sol Vr Vs) as (j' & x & y & E1 & J' & Vx & Hx & U).
    exists j', x. repeat (split; [assumption|]). intros z Hz. rewrite (dotd_ext (wnv w) (dense x) (Atapp w cs y) z z) by auto. now apply orth.
  - intros b sol Vb Vs. destruct (rows_lsq F E E' w cs j C HI HJ HB HF b sol Vb Vs) as (j' & y & E1 & J' & Vy & U).
    exists j', y. repeat (split; [assumption|]). apply (lsq_best w cs (fun i => dense b i - Atapp w cs (fun k => dense y (E' k)) i)); [intros; ring|exact U].
Qed.
Print Assumptions C74_ordering.

(** ** Examples and what does not hold *)
Lemma sum2 f : sumd 2 f = f 0%Z + f 1%Z.
Proof. unfold sumd. change (Z.to_nat 2) with 2%nat. cbn [rsum]. change (Z.of_nat 0) with 0%Z. change (Z.of_nat 1) with 1%Z. ring. Qed.
Lemma sum1 f : sumd 1 f = f 0%Z.
Proof. unfold sumd. change (Z.to_nat 1) with 1%nat. cbn [rsum]. change (Z.of_nat 0) with 0%Z. ring. Qed.
Lemma two (P : Z -> Prop) : P 0%Z -> P 1%Z -> forall i, (0 <= i < 2)%Z -> P i.
Proof. intros H0 H1 i Hi. assert (Hc : (i = 0 \/ i = 1)%Z) by lia. destruct Hc as [-> | ->]; auto. Qed.
Definition mat2 (a b c d : R) (i k : Z) : R := if (i =? 0)%Z then (if (k =? 0)%Z then a else b) else (if (k =? 0)%Z then c else d).
Lemma mat2_orth a b c d : a * a + c * c = 1 -> a * b + c * d = 0 -> b * b + d * d = 1 -> a * a + b * b = 1 -> a * c + b * d = 0 -> c * c + d * d = 1 -> orthogonal 2 (mat2 a b c d).
Proof.
  intros. split; intros l l' Hl Hl'; rewrite sum2;
  assert (Hc : (l = 0 \/ l = 1)%Z) by lia; assert (Hc' : (l' = 0 \/ l' = 1)%Z) by lia; destruct Hc as [-> | ->], Hc' as [-> | ->]; unfold mat2; cbn; lra.
Qed.

(** The rows (3, 4) of the only constraint *)
Definition r34 : list (list (Z * R)) := [[(0%Z, 3)]; [(0%Z, 4)]].
Definition q34 : Z -> Z -> R := mat2 (3/5) (-4/5) (4/5) (3/5).
Definition qr34 : @qr RN := exact_qr 2 1 q34 (fun l k => if (k <? l)%Z then 0 else 5).

Lemma r34_call : exists jac, @call_data RN 2 1 cw jac r34.
Proof.
  destruct (@C11_build RN 1 2 r34) as (m & E & S); [lia|cbn; lia|repeat constructor; cbn; lia|]. exists m. pose proof cw_call as [C O Hv Hc _ _ _].
  cbn in E. constructor; auto; injection E as <-; reflexivity.
Qed.
Lemma r34_row : wrow cw r34 0 0 = 3 /\ wrow cw r34 0 1 = 4.
Proof. split; reflexivity. Qed.
Lemma r34_independent : rows_independent cw r34.
Proof.
  intros y Hy k Hk. change (ws_size cw) with 1%Z in *. change (wnv cw) with 2%Z in *. assert (k = 0%Z) by lia. subst k.
  specialize (Hy 0%Z ltac:(lia)). rewrite sum1, (proj1 r34_row) in Hy. lra.
Qed.

(** Non-vacuity of the theorems above: the shortest solution of 3 x0 + 4 x1 = 5 *)
Example C74_example : exists j0 j jac j' x, dj_create = Ok j0 /\ @call_data RN 2 1 cw jac r34 /\ dj_set_iterate qr34 j0 cw jac = Ok (j, Ok tt)
  /\ dj_current qr34 cw r34 j /\ qr_of qr34 natural (dj_mat j) /\ rows_independent cw r34
  /\ dj_min_norm qr34 j (cv 5) ce = Ok (j', x) /\ dense x 0 = 3 / 5 /\ dense x 1 = 4 / 5.
Proof.
  destruct r34_call as (jac & D). destruct (@dj_create_ok RN 2 ltac:(lia)) as (j0 & E0 & J0). pose proof D as [C O _ _ S1 _ _].
  destruct (C74_current RN 2 1 qr34 j0 cw jac r34 J0 D) as (j & E & HJ); [vm_compute; discriminate|vm_compute; discriminate|reflexivity|left; apply two; reflexivity|].
  assert (HF : qr_of qr34 natural (dj_mat j)).
  { destruct HJ as (_ & _ & (R1 & R2 & ms & S & G) & _). exists ms, q34, (fun l k => if (k <? l)%Z then 0 else 5). rewrite R1, R2. split; [exact S|].
    change (wnv cw) with 2%Z in *. change (ws_size cw) with 1%Z in *. split; [apply mat2_orth; lra|]. split; [|split].
    - intros i k Hi Hk. assert (k = 0%Z) by lia. subst k. unfold natural. rewrite mR_get, G, sum1 by lia. fold (wrow cw r34 0 i). revert i Hi. apply two; [rewrite (proj1 r34_row)|rewrite (proj2 r34_row)]; unfold q34, mat2; cbn; lra.
    - intros l k Hlk Hl. lia.
    - apply exact_qr_ok; [lia|lia|]. intros y Hy k Hk. assert (k = 0%Z) by lia. subst k. specialize (Hy 0%Z ltac:(lia)). rewrite sum1 in Hy. cbn in Hy. lra. }
  destruct (C74_ordering qr34 natural natural cw r34 j C r34_independent (natural_bijective _) HJ HF) as [H1 _].
  destruct (H1 (cv 5) ce (vok_cv 5) vok_ce) as (j' & x & E1 & _ & Vx & Hx & Ho).
  exists j0, j, jac, j', x. split; [exact E0|]. split; [exact D|]. split; [exact E|]. split; [exact HJ|]. split; [exact HF|]. split; [exact r34_independent|]. split; [exact E1|].
  specialize (Hx 0%Z ltac:(change (ws_size cw) with 1%Z; lia)). unfold natural, Aapp in Hx. change (wnv cw) with 2%Z in *. rewrite sum2, (proj1 r34_row), (proj2 r34_row) in Hx. change (dense (cv 5) 0) with 5 in Hx.
  specialize (Ho (fun i => if (i =? 0)%Z then 4 else -3)). rewrite dot2 in Ho. cbn [Z.eqb] in Ho. change (1 =? 0)%Z with false in Ho. cbv iota in Ho.
  assert (Hz : forall k, (0 <= k < ws_size cw)%Z -> Aapp cw r34 (fun i => if (i =? 0)%Z then 4 else -3) k = 0).
  { intros k Hk. change (ws_size cw) with 1%Z in Hk. assert (k = 0%Z) by lia. subst k. unfold Aapp. change (wnv cw) with 2%Z. rewrite sum2, (proj1 r34_row), (proj2 r34_row). cbn. lra. }
  specialize (Ho Hz). rnum. lra.
Qed.

(** Two variables, two constraints; the second variable and the first constraint are active. *)
Definition s35 : list (list (Z * R)) := [[(0%Z, 3/4)]; [(0%Z, 5)]].
Definition sw : wset := match ws_add_var (ws_create 2 2) 1 ActUpper with
  | Ok w => match ws_add_cons w 0 ActUpper with Ok w => w | _ => ws_create 0 0 end | _ => ws_create 0 0 end.
Lemma sw_call : exists jac, @call_data RN 2 2 sw jac s35.
Proof.
  destruct (@C11_build RN 2 2 s35) as (m & E & S); [lia|cbn; lia|repeat constructor; cbn; lia|]. exists m.
  assert (H0 : holds (ws_create 2 2) [] []) by (apply create_holds; lia).
  destruct (add_var_holds _ _ _ 1 ActUpper H0) as (w1 & E1 & H1 & V1 & V2); [cbn; lia|reflexivity|cbn; tauto|discriminate|].
  destruct (add_cons_holds _ _ _ 0 ActUpper H1) as (w2 & E2 & H2 & _); [rewrite V2; cbn; lia|cbn; tauto|discriminate|].
  assert (Ew : sw = w2) by (unfold sw; now rewrite E1, E2).
  cbn in E. constructor; try reflexivity; try exact S.
  - rewrite Ew. eapply holds_consistent; eassumption.
  - intros k l a b Hk Hl. change (ws_size sw) with 2%Z in Hl. assert (k = 0 /\ l = 1)%Z as [-> ->] by lia. intros Ea Eb. vm_compute in Ea, Eb. injection Ea as <-. injection Eb as <-. lia.
  - injection E as <-. reflexivity.
  - injection E as <-. reflexivity.
Qed.
Definition qrs : @qr RN := exact_qr 2 2 q34 (mat2 (5/4) 4 0 3).

(** With exact arithmetic, an exact factorization and linearly independent rows the result can be wrong:
    the rows of active constraints in columns left of the active variables are not moved behind those of the
    variables, since the loop ends once the leftmost active variable has its place. Here the rows are
    x1 and 3/4 x0 + 5 x1 with the right hand sides 0 and 3; the solution is (4, 0), the result (-4/5, 3/5). *)
Theorem C74_shift_refuted : exists n nc w jac cs j0 j rhs sol j' x, @call_data RN n nc w jac cs /\ rows_independent w cs
  /\ (ws_size w <= nc)%Z /\ (ws_size w <= n)%Z
  /\ dj_create = Ok j0 /\ dj_set_iterate qrs j0 w jac = Ok (j, Ok tt) /\ dj_held j = Some (dj_mat j) /\ qr_of qrs natural (dj_mat j)
  /\ vok (ws_size w) rhs /\ vok n sol /\ dj_min_norm qrs j rhs sol = Ok (j', x)
  /\ dense x 0 = -4/5 /\ dense x 1 = 3/5 /\ Aapp w cs (dense x) 0 <> dense rhs 0 /\ Aapp w cs (dense x) 1 <> dense rhs 1.
Proof.
  destruct sw_call as (jac & D). destruct (@dj_create_ok RN 2 ltac:(lia)) as (j0 & E0 & J0). pose proof D as [C O _ _ S1 _ _].
  destruct (proj2 (C74_matrix RN 2 2 qrs ltac:(lia)) j0 sw jac s35 J0 D) as (m & HH & Hok & _); [vm_compute; discriminate|vm_compute; discriminate|].
  destruct (Hok eq_refl) as (j & E & J1 & J2 & J3).
  assert (Hrow : wrow sw s35 0 0 = 0 /\ wrow sw s35 0 1 = 1 /\ wrow sw s35 1 0 = 3/4 /\ wrow sw s35 1 1 = 5).
  { split; [reflexivity|]. split; [apply rn_n1|]. split; reflexivity. }
  destruct Hrow as (W00 & W01 & W10 & W11). destruct HH as (R1 & R2 & ms & S & G).
  assert (HL : left_of_vars sw 0). { intros i Hi. assert (i = 0%Z) by lia. subst i. reflexivity. }
  assert (HNL : ~ left_of_vars sw 1). { intros H. specialize (H 1%Z ltac:(lia)). discriminate H. }
  change (wnv sw) with 2%Z in *. change (ws_size sw) with 2%Z in *. change (wnav sw) with 1%Z in *.
  assert (M00 : mR ms 0 0 = 3/4). { rewrite mR_get. refine (eq_trans (f_equal oR (proj1 (G 0%Z 0%Z ltac:(lia) ltac:(lia)) HL)) _). exact W10. }
  assert (M01 : mR ms 0 1 = 0). { rewrite mR_get. refine (eq_trans (f_equal oR (proj1 (G 1%Z 0%Z ltac:(lia) ltac:(lia)) HL)) _). reflexivity. }
  assert (M10 : mR ms 1 0 = 1). { rewrite mR_get. refine (eq_trans (f_equal oR (proj2 (G 0%Z 1%Z ltac:(lia) ltac:(lia)) HNL)) _). exact W01. }
  assert (M11 : mR ms 1 1 = 5). { rewrite mR_get. refine (eq_trans (f_equal oR (proj2 (G 1%Z 1%Z ltac:(lia) ltac:(lia)) HNL)) _). exact W11. }
  assert (HX : qr_exact qrs (dj_mat j) 2 2 q34 (mat2 (5/4) 4 0 3)).
  { apply exact_qr_ok; [lia|lia|]. intros y Hy. pose proof (Hy 0%Z ltac:(lia)) as Y0. pose proof (Hy 1%Z ltac:(lia)) as Y1. rewrite sum2 in Y0, Y1. unfold mat2 in Y0, Y1. cbn in Y0, Y1. apply two; lra. }
  assert (HQ : orthogonal 2 q34) by (apply mat2_orth; lra).
  assert (HA : factors 2 2 (mR ms) natural q34 (mat2 (5/4) 4 0 3)).
  { intros i k Hi Hk. unfold natural. rewrite sum2. assert (Hc : (i = 0 \/ i = 1)%Z) by lia. assert (Hc' : (k = 0 \/ k = 1)%Z) by lia. destruct Hc as [-> | ->], Hc' as [-> | ->]; rewrite ?M00, ?M01, ?M10, ?M11; unfold q34, mat2; cbn; lra. }
  assert (HF : qr_of qrs natural (dj_mat j)).
  { exists ms, q34, (mat2 (5/4) 4 0 3). rewrite J2, R1, R2. rewrite J2 in HX. split; [exact S|]. split; [exact HQ|]. split; [exact HA|]. split; [|exact HX].
    intros l k Hlk Hl. assert (k = 0 /\ l = 1)%Z as [-> ->] by lia. reflexivity. }
  destruct (dj_min_norm_real qrs j 2 2 q34 (mat2 (5/4) 4 0 3) ltac:(lia) J1 ltac:(now rewrite J2) ltac:(now rewrite J2) ltac:(congruence) HX (c2 0 3) ce (vok_c2 0 3) vok_ce)
    as (j' & x & p & E1 & _ & Vx & Hp & Hx).
  exists 2%Z, 2%Z, sw, jac, s35, j0, j, (c2 0 3), ce, j', x. split; [exact D|]. split.
  { intros y Hy. change (wnv sw) with 2%Z in *. change (ws_size sw) with 2%Z in *. pose proof (Hy 0%Z ltac:(lia)) as Y0. pose proof (Hy 1%Z ltac:(lia)) as Y1.
    rewrite sum2, W00, W10 in Y0. rewrite sum2, W01, W11 in Y1. apply two; lra. }
  split; [vm_compute; discriminate|]. split; [vm_compute; discriminate|]. split; [exact E0|]. split; [exact E|]. split; [congruence|]. split; [exact HF|]. split; [apply vok_c2|]. split; [apply vok_ce|]. split; [exact E1|].
  pose proof (Hp 0%Z ltac:(lia)) as P0. pose proof (Hp 1%Z ltac:(lia)) as P1. rewrite sum2 in P0, P1. unfold mat2 in P0, P1. cbn in P0, P1.
  pose proof (Hx 0%Z ltac:(lia)) as X0. pose proof (Hx 1%Z ltac:(lia)) as X1. unfold qm in X0, X1. rewrite sum2 in X0, X1. unfold q34, mat2 in X0, X1. cbn in X0, X1.
  assert (D0 : dense x 0 = -4/5) by (unfold dense in *; rnum; lra). assert (D1 : dense x 1 = 3/5) by (unfold dense in *; rnum; lra).
  split; [exact D0|]. split; [exact D1|]. unfold Aapp. change (wnv sw) with 2%Z. rewrite !sum2, W00, W01, W10, W11, D0, D1. change (dense (c2 0 3) 0) with 0. change (dense (c2 0 3) 1) with 3. split; lra.
Qed.
Print Assumptions C74_shift_refuted.

(** Two constraints x0 and x1, both active *)
Definition id2 : list (list (Z * R)) := [[(0%Z, 1)]; [(1%Z, 1)]].
Definition ow : wset := match ws_add_cons (ws_create 2 2) 0 ActUpper with
  | Ok w => match ws_add_cons w 1 ActUpper with Ok w => w | _ => ws_create 0 0 end | _ => ws_create 0 0 end.
Lemma ow_call : exists jac, @call_data RN 2 2 ow jac id2.
Proof.
  destruct (@C11_build RN 2 2 id2) as (m & E & S); [lia|cbn; lia|repeat constructor; cbn; lia|]. exists m.
  assert (H0 : holds (ws_create 2 2) [] []) by (apply create_holds; lia).
  destruct (add_cons_holds _ _ _ 0 ActUpper H0) as (w1 & E1 & H1 & V1 & V2); [cbn; lia|cbn; tauto|discriminate|].
  destruct (add_cons_holds _ _ _ 1 ActUpper H1) as (w2 & E2 & H2 & _); [rewrite V2; cbn; lia|cbn; intros [|[]]; lia|discriminate|].
  assert (Ew : ow = w2) by (unfold ow; now rewrite E1, E2).
  cbn in E. constructor; try reflexivity; try exact S.
  - rewrite Ew. eapply holds_consistent; eassumption.
  - intros k l a b Hk Hl. change (ws_size ow) with 2%Z in Hl. assert (k = 0 /\ l = 1)%Z as [-> ->] by lia. intros Ea Eb. vm_compute in Ea, Eb. injection Ea as <-. injection Eb as <-. lia.
  - injection E as <-. reflexivity.
  - injection E as <-. reflexivity.
Qed.
Definition flip (k : Z) : Z := (1 - k)%Z.
Definition qro : @qr RN := exact_qr 2 2 (mat2 0 1 1 0) (mat2 1 0 0 1).

(** The order of the columns matters: with a factorization that permutes them, as fact_spqr.c requests
    (SPQR_ORDERING_DEFAULT, lines 136-139) without undoing it in the triangular solves (lines 231-235, 256-260,
    unlike lines 208-210), the result does not solve the equations and the multipliers are exchanged. *)
Theorem C74_ordering_refuted : exists n nc w jac cs j0 j j1 x j2 y, @call_data RN n nc w jac cs /\ rows_independent w cs
  /\ dj_create = Ok j0 /\ dj_set_iterate qro j0 w jac = Ok (j, Ok tt) /\ dj_current qro w cs j
  /\ bijective (ws_size w) flip flip /\ qr_of qro flip (dj_mat j)
  /\ dj_min_norm qro j (c2 1 0) ce = Ok (j1, x) /\ Aapp w cs (dense x) 0 = 0 /\ Aapp w cs (dense x) 1 = 1
  /\ dj_lsq qro j (c2 1 0) ce = Ok (j2, y) /\ dense y 0 = 0 /\ dense y 1 = 1
  /\ dist n (Atapp w cs (dense y)) (dense (c2 1 0)) = 2 /\ dist n (Atapp w cs (dense (c2 1 0))) (dense (c2 1 0)) = 0.
Proof.
  destruct ow_call as (jac & D). destruct (@dj_create_ok RN 2 ltac:(lia)) as (j0 & E0 & J0). pose proof D as [C O _ _ S1 _ _].
  destruct (C74_current RN 2 2 qro j0 ow jac id2 J0 D) as (j & E & HJ); [vm_compute; discriminate|vm_compute; discriminate|reflexivity|left; apply two; reflexivity|].
  assert (HW : wrow ow id2 0 0 = 1 /\ wrow ow id2 0 1 = 0 /\ wrow ow id2 1 0 = 0 /\ wrow ow id2 1 1 = 1) by (repeat split; reflexivity).
  destruct HW as (W00 & W01 & W10 & W11).
  assert (HI : rows_independent ow id2).
  { intros v Hv. change (wnv ow) with 2%Z in *. change (ws_size ow) with 2%Z in *. pose proof (Hv 0%Z ltac:(lia)) as Y0. pose proof (Hv 1%Z ltac:(lia)) as Y1.
    rewrite sum2, W00, W10 in Y0. rewrite sum2, W01, W11 in Y1. apply two; lra. }
  assert (HB : bijective 2 flip flip) by (intros k Hk; unfold flip; lia).
  assert (HF : qr_of qro flip (dj_mat j)).
  { destruct HJ as (_ & _ & (R1 & R2 & ms & S & G) & _). exists ms, (mat2 0 1 1 0), (mat2 1 0 0 1). rewrite R1, R2. split; [exact S|].
    change (wnv ow) with 2%Z in *. change (ws_size ow) with 2%Z in *. split; [apply mat2_orth; lra|]. split; [|split].
    - intros i k Hi Hk. rewrite sum2, mR_get. refine (eq_trans (f_equal oR (G (flip k) i ltac:(unfold flip; lia) Hi)) _). fold (wrow ow id2 (flip k) i).
      assert (Hc : (i = 0 \/ i = 1)%Z) by lia. assert (Hc' : (k = 0 \/ k = 1)%Z) by lia.
      destruct Hc as [-> | ->], Hc' as [-> | ->]; unfold flip; cbn [Z.sub Z.add Z.opp Z.pos_sub]; rewrite ?W00, ?W01, ?W10, ?W11; unfold mat2; cbn; lra.
    - intros l k Hlk Hl. assert (k = 0 /\ l = 1)%Z as [-> ->] by lia. reflexivity.
    - apply exact_qr_ok; [lia|lia|]. intros v Hv. pose proof (Hv 0%Z ltac:(lia)) as Y0. pose proof (Hv 1%Z ltac:(lia)) as Y1. rewrite sum2 in Y0, Y1. unfold mat2 in Y0, Y1. cbn in Y0, Y1. apply two; lra. }
  destruct (C74_ordering qro flip flip ow id2 j C HI HB HJ HF) as [H1 _].
  destruct (H1 (c2 1 0) ce (vok_c2 1 0) vok_ce) as (j1 & x & E1 & _ & Vx & Hx & _).
  destruct (rows_lsq qro flip flip ow id2 j C HI HJ HB HF (c2 1 0) ce (vok_c2 1 0) vok_ce) as (j2 & y & E2 & _ & Vy & Hy).
  change (ws_size ow) with 2%Z in *. pose proof (Hx 0%Z ltac:(lia)) as X0. pose proof (Hx 1%Z ltac:(lia)) as X1. unfold flip in X0, X1. cbn [Z.sub Z.add Z.opp Z.pos_sub] in X0, X1.
  pose proof (Hy 0%Z ltac:(lia)) as Y0. pose proof (Hy 1%Z ltac:(lia)) as Y1. unfold Aapp, Atapp in Y0, Y1. change (wnv ow) with 2%Z in *. change (ws_size ow) with 2%Z in *.
  rewrite !sum2, W00, W01, W10, W11 in Y0, Y1. unfold flip in Y0, Y1. cbn [Z.sub Z.add Z.opp Z.pos_sub] in Y0, Y1.
  change (dense (c2 1 0) 0) with 1 in *. change (dense (c2 1 0) 1) with 0 in *.
  change (1 - 0)%Z with 1%Z in *. change (1 - 1)%Z with 0%Z in *.
  assert (D0 : dense y 0 = 0) by (unfold dense in *; rnum; lra). assert (D1 : dense y 1 = 1) by (unfold dense in *; rnum; lra).
  exists 2%Z, 2%Z, ow, jac, id2, j0, j, j1, x, j2, y. split; [exact D|]. split; [exact HI|]. split; [exact E0|]. split; [exact E|]. split; [exact HJ|]. split; [exact HB|]. split; [exact HF|].
  split; [exact E1|]. split; [exact X1|]. split; [exact X0|]. split; [exact E2|]. split; [exact D0|]. split; [exact D1|].
  unfold dist. rewrite !dot2. unfold Atapp. change (ws_size ow) with 2%Z. rewrite !sum2, W00, W01, W10, W11, D0, D1. change (dense (c2 1 0) 0) with 1. change (dense (c2 1 0) 1) with 0. split; lra.
Qed.
Print Assumptions C74_ordering_refuted.
