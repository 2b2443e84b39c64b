(** C82: the Gauss-Newton direction. *)
From Coq Require Import Reals Lra FunctionalExtensionality.
From Flocq Require Import BinarySingleNaN.
From Verif Require Import Base Num Cmp Sparse Vec VecFacts Order VecFacts2 RSum VecReal Mat MatFacts MatFacts2 MatFacts3 MatFacts4 Arr
  WorkingSet WorkingSetFacts Feas FeasFacts MeritFacts OrdArith PreprocReal QnReal Cauchy
  SteihaugFacts Steihaug LineSearch LineSearchFacts WorkingStep WorkingStepFacts WorkingStepReal NewtonReal Lsqr LsqrFacts PropsVec PropsLsqr PropsSteihaug PropsWorkingStep PropsMat GaussNewton GaussNewtonFacts GaussNewtonReal.
From Verif Require PropsFixed AugJacReal.
Local Open Scope R_scope.

Section Props.
Variables (m : Z) (r : Z -> R) (Mr P : Z -> Z -> R) (w : wset) (X : @lctx RN) (jac : @mat RN) (cs : list (list (Z * R))) (H : (Z -> R) -> Z -> R).
Variables (residuals : rvec -> res rvec) (fwd adj proj hess min_norm : rvec -> rvec -> res rvec) (hyp : R -> R -> R).
Variables (stat_tol time_limit : R) (clock : Z -> R).
Notation n := (wnv w).
Notation nc := (lx_nc X).
Notation J := (mat_of n (mR cs)).
Notation direction := (gn_direction (hyp : @num RN -> @num RN -> @num RN) X n m jac proj fwd adj hess (stat_tol : @num RN) (time_limit : @num RN) clock).

(** The problem, the iterate and the functions that the code calls *)
Record problem_ok : Prop := {
  po_m : (0 <= m)%Z;
  po_ctx : ctx_ok n X; po_set : set_ok w X; po_radius : 0 < lx_radius X; po_eps : lx_eps X = 0;
  po_jac : stores jac cs; po_nr : mnr jac = nc; po_nc : mnc jac = n;
  po_norm : min_norm_ok w J min_norm;
  po_res : forall t, vok m t -> exists z, residuals t = Ok z /\ vok m z /\ forall i, (0 <= i < m)%Z -> (dense z i : R) = r i;
  po_fwd : applies n m (mprod n m Mr) fwd;
  po_adj : applies m n (mprod m n (fun i j => Mr j i)) adj;
  po_proj : proj_ok n w J P proj;
  po_hess : computes n H hess;
  po_hyp : forall a b, hyp a b = sqrt (a * a + b * b);
  po_tol : 0 <= stat_tol }.

(** The least squares problem at the step [p0] *)
Definition ls_of (p0 : Z -> R) : (Z -> R) -> R :=
  lsobj n m nc r Mr (mR cs) w (dense (lx_cons X)) (dense (lx_clb X)) (dense (lx_cub X)) (fun i => dense (lx_cons X) i + J p0 i) (lx_pen X).
Definition lg_of (p0 : Z -> R) : (Z -> R) -> Z -> R :=
  lsgrad n m nc r Mr (mR cs) w (dense (lx_cons X)) (dense (lx_clb X)) (dense (lx_cub X)) (fun i => dense (lx_cons X) i + J p0 i) (lx_pen X).

Lemma mat_of_ext k Q x y : (forall j, (0 <= j < n)%Z -> x j = y j) -> mat_of n Q x k = mat_of n Q y k.
Proof. intros E. unfold mat_of. apply sumd_ext. intros j Hj. now rewrite E. Qed.
Lemma ls_ext p0 x y : (forall j, (0 <= j < n)%Z -> x j = y j) -> ls_of p0 x = ls_of p0 y.
Proof.
  intros E. unfold ls_of, lsobj. f_equal. f_equal; apply sumd_ext; intros k _; now rewrite (mat_of_ext k _ x y E).
Qed.
Lemma lg_ext p0 x y j : (forall j, (0 <= j < n)%Z -> x j = y j) -> lg_of p0 x j = lg_of p0 y j.
Proof.
  intros E. unfold lg_of, lsgrad. f_equal; apply sumd_ext; intros k _; now rewrite (mat_of_ext k _ x y E).
Qed.
Lemma null_ext x y : (forall j, (0 <= j < n)%Z -> x j = y j) -> in_null w J x -> in_null w J y.
Proof.
  intros E [F1 F2]. split.
  - intros j k Hj Hk Nk. rewrite <- (F1 j k Hj Hk Nk). symmetry. now apply E.
  - intros i k Hi Hk Nk. rewrite <- (F2 i k Hi Hk Nk). symmetry. now apply mat_of_ext.
Qed.
Lemma null_lc a x b y : in_null w J x -> in_null w J y -> in_null w J (lc a x b y).
Proof.
  intros [F1 F2] [G1 G2]. split.
  - intros j k Hj Hk Nk. unfold lc. rewrite (F1 j k Hj Hk Nk), (G1 j k Hj Hk Nk). unfold zerof. ring.
  - intros i k Hi Hk Nk. assert (E : J (lc a x b y) i = a * J x i + b * J y i).
    { unfold mat_of, lc. rewrite <- !sumd_scal, <- sumd_plus. apply sumd_ext. intros. ring. }
    rewrite E, (F2 i k Hi Hk Nk), (G2 i k Hi Hk Nk). unfold zerof. ring.
Qed.

(** The direction satisfies the conditions of the working set as the initial step does, it lies in
    the trust region, it solves the least squares problem at least as well as all steps along the
    projected gradient that fit into the radius, and in the interior its projected gradient is
    within the tolerance, which bounds the distance to the least value. *)
Theorem C82_step : problem_ok -> forall T0 T G d, room_ok n nc T0 -> working_step X jac w min_norm T0 = Ok T -> gn_room n m G -> dir_room n X d ->
  let p0 := dense (d_primal (t_dir T)) in
  exists G', gn_set_iterate X n m jac w residuals fwd T G = Ok G'
  /\ ((exists j, direction T G' d = Err EAbortTime /\ @time_hit RN time_limit clock j = true)
      \/ exists inner d', direction T G' d = Ok (inner, d')
         /\ dir_ok n X J H d' /\ let p := dense (d_primal d') in
            in_null w J (fun j => p j - p0 j)
         /\ dotd n p p <= lx_radius X * lx_radius X
         /\ (forall t, let g := mprod n n P (lg_of p0 p0) in t * t * dotd n g g <= t_reduced T * t_reduced T ->
               ls_of p0 p <= ls_of p0 (fun j => p0 j - t * g j))
         /\ if inner then let g := mprod n n P (lg_of p0 p) in sqrt (dotd n g g) <= stat_tol / 100
                /\ forall p', in_null w J (fun j => p' j - p0 j) ->
                     ls_of p0 p <= ls_of p0 p' + stat_tol / 100 * sqrt (dotd n (fun j => p' j - p j) (fun j => p' j - p j))
            else dotd n p p = lx_radius X * lx_radius X).
Proof.
  intros PO T0 T G d RO ET RG RD p0. pose proof (po_ctx PO) as CX. pose proof (po_set PO) as SO.
  assert (HJ : jac_is n nc jac J) by (exact (jac_stored w X jac cs (po_jac PO) (po_nr PO) (po_nc PO))).
  destruct (working_step_real w X jac J min_norm T0 CX SO HJ (po_norm PO) RO (po_radius PO)) as (T1 & a & ET1 & HT). { rewrite (po_eps PO). lra. }
  rewrite ET in ET1. injection ET1 as <-.
  assert (Hred : 0 < t_reduced T). { apply (reduced_pos w X jac min_norm T0 T (po_radius PO)); [rewrite (po_eps PO); lra|exact ET]. }
  pose proof (step_nonzero w X jac min_norm T0 T ET) as NZ.
  destruct (po_proj PO) as (Hp1 & Hp2 & Hp3 & Hp4).
  destruct (set_iterate_real m r Mr w X jac cs T a residuals fwd (po_m PO) CX SO (po_jac PO) (po_nr PO) (po_nc PO) HT NZ (po_res PO) (po_fwd PO) G RG) as (G' & cs' & EG & RY).
  exists G'. split; [exact EG|]. set (nv := (nc - Z.of_nat (length (RestoreLoops.dropped (stored (t_mult T)) nc)))%Z) in *.
  assert (Hnv : (0 <= nv)%Z) by (exact (nv_pos w X T CX)).
  pose proof (forward_ok n m nv Mr P cs' proj fwd G' Hnv (po_fwd PO) Hp1 (ry_jac _ _ _ _ _ _ _ _ _ RY) (ry_nr _ _ _ _ _ _ _ _ _ RY) (ry_nc _ _ _ _ _ _ _ _ _ RY)
    (ry_proj _ _ _ _ _ _ _ _ _ RY) (ry_cons _ _ _ _ _ _ _ _ _ RY) (ry_lsq _ _ _ _ _ _ _ _ _ RY)) as HF.
  pose proof (adjoint_ok n m nv Mr P cs' proj adj G' (po_m PO) Hnv (po_adj PO) Hp1 Hp2 (ry_jac _ _ _ _ _ _ _ _ _ RY) (ry_nr _ _ _ _ _ _ _ _ _ RY) (ry_nc _ _ _ _ _ _ _ _ _ RY)
    (ry_ldir _ _ _ _ _ _ _ _ _ RY) (ry_cdir _ _ _ _ _ _ _ _ _ RY) (ry_lprod _ _ _ _ _ _ _ _ _ RY) (ry_cprod _ _ _ _ _ _ _ _ _ RY) (ry_prod _ _ _ _ _ _ _ _ _ RY)) as HA.
  set (tol := stat_tol / 100). assert (Htol : 0 <= tol) by (unfold tol; pose proof (po_tol PO); lra).
  assert (Etol : @nmul RN stat_tol (@tolerance_factor RN) = tol) by (unfold tolerance_factor, tol; cbn; unfold rn_lit; lra).
  pose proof (ry_rhs _ _ _ _ _ _ _ _ _ RY) as Vb. pose proof (ry_lsqr _ _ _ _ _ _ _ _ _ RY) as Vl. pose proof (ry_sol _ _ _ _ _ _ _ _ _ RY) as Vs.
  unfold gn_direction. rewrite (cx_zero _ _ CX), (po_eps PO), Etol. rewrite (proj2 (ry_cons _ _ _ _ _ _ _ _ _ RY)). fold nv.
  destruct (C81_solve n (m + nv) _ _ _ (gn_rhs G') hyp tol (t_reduced T) time_limit clock (cx_n _ _ CX) Vb HF HA (po_hyp PO) Htol (fun _ => Hred) (gn_lsqr G') (gn_sol G') Vl Vs)
    as [(j & E & Ht)|(inner & x & s' & E & Hres)]; cbn zeta in E.
  { left. exists j. rewrite E. split; [reflexivity|exact Ht]. }
  right. assert (Hx : vok n x /\ in_null w J (dense x)).
  { apply (sub_solve n (m + nv) _ _ _ hyp (in_null w J) HF HA) in E; auto.
    - split; intros; [reflexivity|]. unfold mat_of. unfold zerof. apply sumd_zero. intros. ring.
    - intros. now apply null_lc.
    - intros v. rewrite (adj_range m Mr w X T P cs' Hp2). apply Hp3. }
  destruct Hx as [Vx Nx]. rewrite E. cbn [rbind]. unfold vec_add. rewrite rn_n1.
  pose proof (sr_p _ _ _ _ _ HT) as Vp. destruct RD as (Rp & Rc & Rh).
  destruct (dense_lc n _ x (d_primal d) 1 1 Vp Vx (vok_cap _ _ Rp)) as (p & Ep & Vpp & Dp). rewrite Ep. cbn [rbind].
  destruct (reset_real w X jac J H CX HJ hess (mkdirn p (d_obj d) (d_cons d) (d_hess d)) (po_hess PO)) as (d' & Ed & Od & Dd).
  { split; [exact Vpp|]. split; [exact Rc|exact Rh]. }
  rewrite Ed. cbn [rbind]. exists inner, d'. split; [reflexivity|]. split; [exact Od|]. cbn [d_primal] in Dd. rewrite Dd. cbv zeta.
  assert (Epp : forall j, dense p j = p0 j + dense x j).
  { intros j. rewrite Dp. unfold lc. fold p0. assert (G0 : forall y z : R, 1 * y + 1 * z = y + z) by (intros; ring). apply G0. }
  assert (EP : forall j, (0 <= j < n)%Z -> mprod n n P (dense x) j = dense x j) by (intros j Hj; exact (Hp4 _ Nx j Hj)).
  assert (EQ : forall j, (0 <= j < n)%Z -> plus p0 (mprod n n P (dense x)) j = dense p j) by (intros j Hj; unfold plus; rewrite (EP j Hj); symmetry; apply Epp).
  pose proof (obj_ls m r Mr w X cs T a (po_m PO) CX SO HT NZ P G' cs' RY) as OL. fold p0 in OL.
  pose proof (grad_ls m r Mr w X cs T a (po_m PO) CX SO HT NZ P G' cs' RY Hp2) as GL. fold p0 in GL.
  pose proof (at_rhs m r Mr w X cs T a (po_m PO) CX SO HT NZ P G' cs' RY Hp2) as AR. fold p0 in AR.
  fold nv in OL, GL, AR. fold (ls_of p0) in OL. fold (lg_of p0) in GL, AR.
  destruct Hres as (_ & _ & Hdesc & Hin).
  assert (Dot : dotd n (dense p) (dense p) = dotd n p0 p0 + dotd n (dense x) (dense x)).
  { rewrite Dp. rewrite !dot_lc_l, !dot_lc_r. fold p0. pose proof (sr_normal _ _ _ _ _ HT (dense x) Nx) as O. fold p0 in O.
    rewrite (dotd_sym n (dense x) p0), O. ring. }
  pose proof (sr_radius _ _ _ _ _ HT) as Rad. fold p0 in Rad.
  assert (Hn1 : t_reduced T <> -1) by lra.
  assert (OLx : LsqrFacts.obj (m + nv) (mprod n (m + nv) (stack n m Mr P cs')) (dense (gn_rhs G')) (dense x) = ls_of p0 (dense p)).
  { rewrite OL. apply ls_ext. exact EQ. }
  split; [|split; [|split]].
  - apply (null_ext (dense x)); [|exact Nx]. intros j _. rewrite Epp. lra.
  - rewrite Dot. destruct inner; [destruct Hin as (_ & Hi & _); specialize (Hi Hn1); lra|destruct Hin as [_ Hi]; lra].
  - intros t Ht. specialize (Hdesc t). rewrite OLx, OL, AR in Hdesc.
    set (g := mprod n n P (lg_of p0 p0)) in *.
    assert (E1 : forall j, (0 <= j < n)%Z -> plus p0 (mprod n n P (scal t (scal (-1) g))) j = p0 j - t * g j).
    { intros j Hj. unfold plus.
      assert (E2 : mprod n n P (scal t (scal (-1) g)) j = scal t (scal (-1) g) j).
      { apply Hp4; [|exact Hj]. apply (null_ext (lc (- t) g 0 g)); [intros; unfold lc, scal; ring|]. apply null_lc; apply Hp3. }
      rewrite E2. unfold scal. ring. }
    rewrite (ls_ext p0 _ _ E1) in Hdesc. apply Hdesc. intros _. rewrite dot_scal_l, dot_scal_r. lra.
  - destruct inner.
    + destruct Hin as (Hg & _ & _). rewrite GL in Hg. specialize (GL (dense x)).
      assert (Eg : mprod n n P (lg_of p0 (plus p0 (mprod n n P (dense x)))) = mprod n n P (lg_of p0 (dense p))).
      { f_equal. apply functional_extensionality; intros j. now apply lg_ext. }
      rewrite Eg in Hg, GL. set (g := mprod n n P (lg_of p0 (dense p))) in *.
      replace (dotd n (scal (-1) g) (scal (-1) g)) with (dotd n g g) in Hg by (rewrite dot_scal_l, dot_scal_r; ring).
      split; [exact Hg|]. intros p' Np.
      set (y := fun j => p' j - p0 j) in *.
      assert (Ey : LsqrFacts.obj (m + nv) (mprod n (m + nv) (stack n m Mr P cs')) (dense (gn_rhs G')) y = ls_of p0 p').
      { rewrite OL. apply ls_ext. intros j Hj. unfold plus. rewrite (Hp4 _ Np j Hj). unfold y. ring. }
      rewrite <- OLx, <- Ey. unfold LsqrFacts.obj.
      set (A := mprod n (m + nv) (stack n m Mr P cs')) in *. set (bb := dense (gn_rhs G')) in *.
      set (dl := lc 1 y (-1) (dense x)).
      assert (Er : res_of A bb y = lc 1 (res_of A bb (dense x)) (-1) (A dl)).
      { unfold dl, res_of, A. rewrite mprod_lin. apply functional_extensionality; intros i. unfold lc. ring. }
      rewrite Er, !dot_lc_l, !dot_lc_r, (dotd_sym _ (res_of A bb (dense x)) (A dl)).
      assert (Ea : dotd (m + nv) (A dl) (res_of A bb (dense x)) = - dotd n dl g).
      { unfold A at 1. rewrite mprod_adj. fold A. rewrite GL, dot_scal_r. ring. }
      rewrite Ea. pose proof (dotd_nonneg (m + nv) (A dl)) as Hpos.
      assert (Edl : dotd n (fun j => p' j - dense p j) (fun j => p' j - dense p j) = dotd n dl dl).
      { unfold dotd. apply sumd_ext. intros j _. rewrite !Epp. unfold dl, lc, y. ring. }
      rewrite Edl.
      assert (CS : dotd n dl g * dotd n dl g <= dotd n dl dl * dotd n g g) by apply sumd_cauchy.
      assert (Hb : - (tol * sqrt (dotd n dl dl)) <= dotd n dl g).
      { pose proof (dotd_nonneg n dl) as D1. pose proof (dotd_nonneg n g) as D2. pose proof (sqrt_pos (dotd n dl dl)). pose proof (sqrt_pos (dotd n g g)).
        assert (Hq : dotd n dl g * dotd n dl g <= (sqrt (dotd n dl dl) * sqrt (dotd n g g)) * (sqrt (dotd n dl dl) * sqrt (dotd n g g))).
        { replace ((sqrt (dotd n dl dl) * sqrt (dotd n g g)) * (sqrt (dotd n dl dl) * sqrt (dotd n g g)))
            with ((sqrt (dotd n dl dl) * sqrt (dotd n dl dl)) * (sqrt (dotd n g g) * sqrt (dotd n g g))) by ring. rewrite !sqrt_sqrt by assumption. exact CS. }
        assert (Hle : sqrt (dotd n dl dl) * sqrt (dotd n g g) <= tol * sqrt (dotd n dl dl)) by (rewrite Rmult_comm; apply Rmult_le_compat_r; assumption).
        assert (Hz : 0 <= sqrt (dotd n dl dl) * sqrt (dotd n g g)) by (apply Rmult_le_pos; assumption).
        nra. }
      lra.
    + destruct Hin as [_ Hi]. rewrite Dot, Hi. exact Rad.
Qed.
End Props.
Print Assumptions C82_step.

(** A new solver has the vectors that the theorem asks for. *)
Theorem C82_create : forall n nc m, (0 <= n)%Z -> (0 <= nc)%Z -> (0 <= m)%Z -> exists G, gn_create (N := RN) n nc m = Ok G /\ gn_room n m G.
Proof.
  intros n nc m Hn Hc Hm.
  assert (Ev : forall d, (0 <= d)%Z -> vec_create_empty (N := RN) d = Ok (mkvec d 0 [])).
  { intros d Hd. unfold vec_create_empty, vec_create, check. now replace (0 <=? d)%Z with true by lia. }
  assert (Wv : forall d, (0 <= d)%Z -> vok d (mkvec (N := RN) d 0 [])).
  { intros d Hd. split; [split; [exact Hd|]; split; [exact I|cbn; lia]|reflexivity]. }
  assert (Em : exists M : @mat RN, mat_create 0 n 0 = Ok M /\ mwf M).
  { destruct (mat_create_spec (N := RN) 0 n 0) as (M & E & _); [lia|exact Hn|lia|]. exists M. split; [exact E|].
    destruct (PropsFixed.mwf_empty (N := RN) 0 n 0 M) as [W _]; auto; lia. }
  destruct Em as (M & EM & WM). unfold gn_create, lsqr_create. rewrite !Ev by lia. rewrite EM. cbn [rbind]. eexists. split; [reflexivity|].
  constructor; cbn; try (apply Wv; lia); try lia; try exact WM; apply (Wv _); lia.
Qed.
Print Assumptions C82_create.

(** With an empty working set the solution of smallest norm is zero and the projection is a copy. *)
Theorem C82_empty : forall n nc J, (0 <= n)%Z -> (0 <= nc)%Z ->
  min_norm_ok (ws_create n nc) J (fun _ sol => Ok (vec_clear sol)) /\ proj_ok n (ws_create n nc) J (fun i j => if (i =? j)%Z then 1 else 0) (fun v t => vec_copy v t).
Proof.
  intros n nc J Hn Hc. set (w := ws_create n nc).
  assert (Hv : forall j k, (0 <= j < n)%Z -> ws_var_index w j = Ok k -> k = none).
  { intros j k Hj E. unfold ws_var_index in E. cbn [w ws_create ws_reset wnv wvix] in E. replace (j <? n)%Z with true in E by lia. cbn [check rbind] in E.
    unfold arr_get in E. destruct (0 <=? j)%Z; [|discriminate]. rewrite nth_error_repeat in E by lia. now injection E as <-. }
  assert (Hk : forall j k, (0 <= j < nc)%Z -> ws_cons_index w j = Ok k -> k = none).
  { intros j k Hj E. unfold ws_cons_index in E. cbn [w ws_create ws_reset wnc wcix] in E. replace (j <? nc)%Z with true in E by lia. cbn [check rbind] in E.
    unfold arr_get in E. destruct (0 <=? j)%Z; [|discriminate]. rewrite nth_error_repeat in E by lia. now injection E as <-. }
  assert (Hf : forall d r, fits w J d r).
  { intros d r. split; intros j k Hj E Nk; [now apply Hv in E|now apply Hk in E]. }
  split.
  - intros rhs sol _ [Ws Ds]. exists (vec_clear sol). split; [reflexivity|]. split; [split; [now apply wf_clear|exact Ds]|]. split; [apply Hf|].
    intros z _. unfold dotd. apply sumd_zero. intros i _. unfold dense. cbn [vec_clear vent get oval]. rewrite rn_n0. ring.
  - assert (HI : forall y i, (0 <= i < n)%Z -> mprod n n (fun i j => if (i =? j)%Z then 1 else 0) y i = y i).
    { intros y i Hi. rewrite mprod_in by exact Hi. now apply AugJacReal.sumd_delta. }
    split; [|split; [|split]].
    + intros v t Vv Vt. destruct (copy_fun n v t Vv Vt) as (z & E & Vz & _ & Dz). exists z. split; [exact E|]. split; [exact Vz|].
      intros i Hi. rewrite HI by exact Hi. now rewrite Dz.
    + intros i j _ _. now rewrite Z.eqb_sym.
    + intros y. apply Hf.
    + intros z _ i Hi. now apply HI.
Qed.
Print Assumptions C82_empty.

(** Example: one variable, the residual d - 1 and the constraint d + 1/1000 <= 0, which is violated. *)
Definition gX : @lctx RN := mklctx 1 (cv (-9)) (cv 0) (cv (-9)) (cv 9) (cv 0) (1 / 2) (cv (-1)) (cv (1 / 1000)) 1 5 0 0 0 0 0.
Definition gjac : @mat RN := mkmat 1 1 1 1 [0%Z; 1%Z] [(0%Z, 1)].
Definition gcs : list (list (Z * R)) := [[(0%Z, 1)]].
Definition gcopy (v t : rvec) : res rvec := vec_copy v t.
Lemma sum_one (f : Z -> R) : sumd 1 f = f 0%Z.
Proof. unfold sumd. change (Z.to_nat 1) with 1%nat. cbn [rsum]. change (Z.of_nat 0) with 0%Z. ring. Qed.
Example C82_example : problem_ok 1 (fun _ => -1) (fun _ _ => 1) (fun i j => if (i =? j)%Z then 1 else 0) (ws_create 1 1) gX gjac gcs (fun x => x)
  (fun _ => Ok (cv (-1))) gcopy gcopy gcopy gcopy (fun _ sol => Ok (vec_clear sol)) (fun a b => sqrt (a * a + b * b)) 0
  /\ viol_row (ws_create 1 1) (dense (lx_clb gX)) (dense (lx_cub gX)) (dense (lx_cons gX)) 0 = true.
Proof.
  assert (HC : forall i, (0 <= i < 1)%Z -> i = 0%Z) by (intros; lia).
  assert (HA : forall M : Z -> Z -> R, (forall i j, M i j = 1) -> applies 1 1 (mprod 1 1 M) gcopy).
  { intros M HM v t Vv Vt. destruct (copy_fun 1 v t Vv Vt) as (z & E & Vz & _ & Dz). exists z. split; [exact E|]. split; [exact Vz|].
    intros i Hi. rewrite mprod_in by exact Hi. rewrite sum_one, HM, (HC i Hi), Dz. assert (G0 : forall y : R, y = 1 * y) by (intros; ring). apply G0. }
  split.
  - constructor; cbn [wnv ws_create ws_reset lx_nc gX]; try (cbn; lra); try lia; try reflexivity.
    + constructor; try apply vok_cv; try lia; try reflexivity; cbn; try lra.
      intros i Hi. rewrite (HC i Hi). cbn. lra.
    + assert (H0 : holds (ws_create 1 1) [] []) by (apply create_holds; lia). constructor; try reflexivity.
      * eapply holds_consistent; eassumption.
      * intros k l a b Hk Hl. change (ws_size (ws_create 1 1)) with 0%Z in Hl. lia.
    + destruct (@C11_build RN 1 1 gcs) as (m & E & S); [lia|cbn; lia|repeat constructor; cbn; lia|].
      assert (Em : m = gjac) by (cbn in E; now injection E as <-). now rewrite <- Em.
    + apply (C82_empty 1 1); lia.
    + intros t Vt. exists (cv (-1)). split; [reflexivity|]. split; [apply vok_cv|]. intros i Hi. rewrite (HC i Hi). reflexivity.
    + apply HA. reflexivity.
    + apply HA. reflexivity.
    + apply (C82_empty 1 1); lia.
    + intros v t Vv Vt. destruct (copy_fun 1 v t Vv Vt) as (z & E & Vz & _ & Dz). exists z. split; [exact E|]. split; [exact Vz|]. intros; now rewrite Dz.
  - unfold viol_row. change (ws_cons_state (ws_create 1 1) 0) with (Ok Inactive). cbn iota.
    change (dense (lx_cub gX) 0) with 0. change (dense (lx_cons gX) 0) with (1 / 1000). destruct (Rlt_dec 0 (1 / 1000)); [reflexivity|lra].
Qed.

(** The same problem in doubles: the violation enters the least squares problem squared, the merit
    function has its absolute value.  The direction is about 1/2 and the model of the merit function
    is larger there than at zero. *)
Definition hX : @lctx F64 :=
  mklctx 1 (ve 1 [(0%Z, (-9)%Z)]) (mkvec 1 1 []) (ve 1 [(0%Z, (-9)%Z)]) (ve 1 [(0%Z, 9%Z)]) (ve 1 []) (F 1 2) (ve 1 [(0%Z, (-1)%Z)])
    (mkvec 1 1 [(0%Z, F 1 1000)]) (fz 1) (fz 5) (nlit 1 10000000000) (fz 0) (fz 0) (fz 0) (fz 0).
Definition hcopy (v t : @vec F64) : res (@vec F64) := vec_copy v t.
Definition hmerit (d : @dirn F64) : res f64 :=
  merit_quadratic (lx_nc hX) (lx_obj hX) (d_obj d) (lx_cons hX) (d_cons d) (lx_clb hX) (lx_cub hX) (d_primal d) (d_hess d) (lx_zero hX) (lx_pen hX) fe1.
Definition hrun : res (@wstep F64 * bool * @dirn F64) :=
  T <- working_step hX njac (ws_create 1 1) (fun _ sol => Ok (vec_clear sol)) nT ;;
  G <- gn_create 1 1 1 ;; G <- gn_set_iterate hX 1 1 njac (ws_create 1 1) (fun t => Ok (ve 1 [(0%Z, (-1)%Z)])) hcopy T G ;;
  r <- gn_direction hyp64 hX 1 1 njac hcopy hcopy hcopy hcopy e8 (F (-1) 1) (fun _ => F 0 1) T G (mkdirn fe1 (fz 0) fe1 fe1) ;;
  Ok (T, fst r, snd r).
Theorem C82_merit_refuted : exists T d (m m' : f64), hrun = Ok (T, true, d) /\ hmerit (t_dir T) = Ok m /\ hmerit d = Ok m'
  /\ @nltb F64 (@nabs F64 (@nsub F64 (dense (d_primal d) 0) (F 1 2))) (F 1 1000) = true /\ @nltb F64 (@nadd F64 m (F 1 10)) m' = true.
Proof.
  assert (H : match hrun with
    | Ok (T, i, d) => match hmerit (t_dir T), hmerit d with
        | Ok m, Ok m' => i && @nltb F64 (@nabs F64 (@nsub F64 (dense (d_primal d) 0) (F 1 2))) (F 1 1000) && @nltb F64 (@nadd F64 m (F 1 10)) m'
        | _, _ => false end
    | _ => false end = true) by (vm_compute; reflexivity).
  destruct hrun as [[[T i] d]| |]; [|discriminate..].
  destruct (hmerit (t_dir T)) as [m| |] eqn:E1; [|discriminate..]. destruct (hmerit d) as [m'| |] eqn:E2; [|discriminate..].
  apply andb_prop in H as [H H2]. apply andb_prop in H as [H0 H1]. subst i. exists T, d, m, m'. auto.
Qed.
Print Assumptions C82_merit_refuted.
