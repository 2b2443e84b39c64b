(** C63, C64: the point on the boundary of the trust region and the conjugate gradient solver. *)
From Coq Require Import Reals Lra.
From Flocq Require Import BinarySingleNaN.
From Verif Require Import Base Num Cmp Sparse Vec VecFacts Order VecFacts2 RSum VecReal Mat MatFacts
  WorkingSet WorkingSetFacts QnReal DualEst DualEstFacts Steihaug SteihaugFacts PropsVec PropsCauchy PropsDualEst.
Local Open Scope R_scope.

(** ** C63 *)

(** The last point of a ray that lies in the ball. *)
Theorem C63_boundary : forall n (z d res : rvec) (rad : R), vok n z -> vok n d -> (0 <= vcap res)%Z ->
  0 < dotd n (dense d) (dense d) -> dotd n (dense z) (dense z) <= rad * rad ->
  exists x t, bdry_sol z d (0 : @num RN) (rad : @num RN) res = Ok x /\ wf x /\ vdim x = n
    /\ 0 <= t /\ (forall i, dense x i = dense z i + t * dense d i)
    /\ dotd n (dense x) (dense x) = rad * rad
    /\ forall u, 0 <= u -> dotd n (fun i => dense z i + u * dense d i) (fun i => dense z i + u * dense d i) <= rad * rad -> u <= t.
Proof.
  intros n z d res rad Hz Hd Hr Hdd Hin.
  destruct (bdry_sol_spec n z d res rad Hz Hd Hr Hdd Hin) as (x & E & [W D] & Dx).
  set (t := tmax _ _ _ _) in Dx. exists x, t. split; [exact E|]. split; [exact W|]. split; [exact D|].
  split; [now apply tmax_nonneg|]. split; [intros i; rewrite Dx; unfold lc; lra|].
  split; [rewrite Dx, norm_line; now apply qn_tmax|].
  intros u Hu Hb. apply (qn_in _ _ _ rad Hdd Hin); [exact Hu|]. unfold qn. rewrite <- norm_line.
  erewrite dotd_ext; [exact Hb| |]; intros i _; unfold lc; lra.
Qed.
Print Assumptions C63_boundary.

Definition ex_z : rvec := mkvec 2 1 [(0%Z, 3)].
Definition ex_d : rvec := mkvec 2 1 [(1%Z, 2)].
Lemma vok_ex_z : vok 2 ex_z. Proof. split; [unfold wf; cbn; lia|reflexivity]. Qed.
Lemma vok_ex_d : vok 2 ex_d. Proof. split; [unfold wf; cbn; lia|reflexivity]. Qed.
Lemma dot2 (x y : Z -> R) : dotd 2 x y = x 0%Z * y 0%Z + x 1%Z * y 1%Z.
Proof. unfold dotd, sumd. change (Z.to_nat 2) with 2%nat. cbn [rsum]. change (Z.of_nat 0) with 0%Z. change (Z.of_nat 1) with 1%Z. lra. Qed.
Example C63_example : vok 2 ex_z /\ vok 2 ex_d /\ 0 < dotd 2 (dense ex_d) (dense ex_d)
  /\ dotd 2 (dense ex_z) (dense ex_z) <= 5 * 5
  /\ exists x, bdry_sol ex_z ex_d (0 : @num RN) (5 : @num RN) (mkvec 2 0 []) = Ok x /\ dense x 0 = 3 /\ dense x 1 = 4.
Proof.
  split; [apply vok_ex_z|]. split; [apply vok_ex_d|].
  assert (E1 : dotd 2 (dense ex_d) (dense ex_d) = 4) by (rewrite dot2; cbn; unfold rn_lit; lra).
  assert (E2 : dotd 2 (dense ex_z) (dense ex_z) = 9) by (rewrite dot2; cbn; unfold rn_lit; lra).
  split; [lra|]. split; [lra|].
  destruct (C63_boundary 2 ex_z ex_d (mkvec 2 0 []) 5 vok_ex_z vok_ex_d) as (x & t & E & _ & _ & Ht & Hx & Hn & _); [cbn; lia|lra|lra|].
  exists x. split; [exact E|].
  assert (X0 : dense x 0 = 3) by (rewrite Hx; cbn; unfold rn_lit; lra).
  assert (X1 : dense x 1 = 2 * t) by (rewrite Hx; cbn; unfold rn_lit; lra).
  split; [exact X0|]. assert (E3 : dotd 2 (dense x) (dense x) = dense x 0 * dense x 0 + dense x 1 * dense x 1)
    by apply dot2.
  rewrite E3, X0, X1 in Hn. rewrite X1. assert (t * t = 4) by lra. nra.
Qed.

(** The test at the start admits points that are outside by the tolerance; they fail the
    assertion on the discriminant. *)
Theorem C63_tolerance_refuted : exists (z d : @vec F64), wf z /\ vdim z = 2%Z /\ wf d /\ vdim d = 2%Z
  /\ is_leq (vec_norm z) (fz 1) (nlit 1 10000000000 : @num F64) = true
  /\ bdry_sol z d (nlit 1 100000000000000) (fz 1) (mkvec 2 2 []) = Trap.
Proof.
  exists (mkvec 2 1 [(0%Z, @nlit F64 1000000000001 1000000000000)]), (ve 2 [(1%Z, 1%Z)]).
  split; [unfold wf; cbn; lia|]. split; [reflexivity|]. split; [unfold wf; cbn; lia|]. split; [reflexivity|].
  assert (T : forall r : res (@vec F64), match r with Trap => true | _ => false end = true -> r = Trap) by (intros []; congruence || reflexivity).
  split; [vm_compute; reflexivity|]. apply T. vm_compute. reflexivity.
Qed.
Print Assumptions C63_tolerance_refuted.

(** ** C64 *)

(** The call: a symmetric Hessian, an orthogonal projection, vectors of the right length. *)
Record call_ok (n : Z) (gv : rvec) (B P : (Z -> R) -> Z -> R) (hess proj : rvec -> rvec -> res rvec)
    (rad stat_tol : R) (step : rvec) (s : @cg RN) : Prop := {
  co_n : (0 <= n)%Z;
  co_gv : vok n gv;
  co_B : self_adjoint n B;
  co_P : projector n P;
  co_hess : computes n B hess;
  co_proj : computes n P proj;
  co_rad : 0 < rad;
  co_tol : 0 < stat_tol;
  co_step : vok n step;
  co_d : vok n (cd s); co_bd : vok n (cbd s); co_g : vok n (cgr s);
  co_r : vok n (cr s); co_z : vok n (cz s); co_c : vok n (ccache s)
}.

Definition tol2 (stat_tol : R) : R := (stat_tol * (1 / 100)) * (stat_tol * (1 / 100)).
Definition in_range (n : Z) (P : (Z -> R) -> Z -> R) (p : Z -> R) : Prop := forall i, (0 <= i < n)%Z -> P p i = p i.

Section C64.
Variables (n : Z) (gv : rvec) (B P : (Z -> R) -> Z -> R) (hess proj : rvec -> rvec -> res rvec).
Variables (rad stat_tol : R) (step : rvec) (s : @cg RN).
Hypothesis C : call_ok n gv B P hess proj rad stat_tol step s.
Variables (max_iter : Z) (time_limit : R) (clock : Z -> R) (fuel : nat).
Hypothesis Hf : (n < Z.of_nat fuel)%Z.
Let run := steihaug fuel hess proj gv step (0 : @num RN) (rad : @num RN) (stat_tol : @num RN) max_iter (time_limit : @num RN) clock s.
Let m := qmodel n (dense gv) B.
Notation "x ∙ y" := (dotd n x y) (at level 40).

Lemma fixd_range p : fixd n P p -> in_range n P p.
Proof.
  intros H. assert (E : forall w, P p ∙ w = p ∙ w).
  { intros w. rewrite <- (p_sym n P (co_P _ _ _ _ _ _ _ _ _ _ C)). apply H. }
  intros i Hi. now apply (dot_determines n (P p) p E).
Qed.

Lemma steihaug_spec : 
  (run = Err EAbortTime /\ exists k, (0 <= k <= n)%Z /\ time_hit (time_limit : @num RN) clock k = true) \/
  exists p du s', run = Ok (p, du, s') /\ ray_ok n B P (cmin s') (cmax s') /\ vok n p /\ fixd n P (dense p)
    /\ dense p ∙ dense p <= rad * rad /\ m (dense p) <= 0 /\
    ((dense p = zerof /\ du = -1 /\ (P (dense gv) ∙ P (dense gv) < tol2 stat_tol)) \/
     (dense p = zerof /\ du = -1 /\ exists k, (0 <= k <= n)%Z /\ iter_limit max_iter k = true) \/
     (exit_ok n gv B P rad (tol2 stat_tol) (dense p) du
      /\ forall t, 0 <= t -> t * t * (P (dense gv) ∙ P (dense gv)) <= rad * rad -> m (dense p) <= m (fun i => - t * P (dense gv) i))).
Proof.
  destruct C as [Hn Hgv HB HP Hh Hp Hrad Htol Hst Vd Vbd Vg Vr Vz Vc]. unfold run, steihaug.
  assert (Dz : forall v : rvec, dense (vec_clear v) = zerof).
  { intros v. apply FunctionalExtensionality.functional_extensionality. intros i. unfold dense, zerof. cbn. unfold rn_lit. lra. }
  assert (Vcl : forall v : rvec, vok n v -> vok n (vec_clear v)) by (intros v [W D]; split; [now apply wf_clear|auto]).
  destruct (copy_fun n _ _ Hgv Vr) as (r & Er & Vr' & _ & Dr). rewrite Er. cbn [rbind].
  destruct (Hp r (cgr s) Vr' Vg) as (g & Eg & Vg' & Dg). rewrite Eg. cbn [rbind].
  destruct (copy_fun n _ _ Vg' Vd) as (d0 & Ed & Vd0 & _ & Dd0). rewrite Ed. cbn [rbind].
  assert (Em1 : @nlit RN (-1) 1 = -1) by (cbn; unfold rn_lit; lra).
  destruct (scale_fun n d0 (-1) Vd0) as [Vd' Dd']. rewrite Em1. rewrite Dd0 in Dd'.
  set (d := vec_scale d0 (-1 : @num RN)) in *.
  assert (Etol : (nmul (nmul (stat_tol : @num RN) (nlit 1 100)) (nmul (stat_tol : @num RN) (nlit 1 100))) = tol2 stat_tol).
  { unfold tol2. cbn. unfold rn_lit. lra. }
  rewrite Etol. rewrite (norm_sq_fun n d Vd'). rewrite rn_n0, rn_n1.
  assert (Htol2 : 0 < tol2 stat_tol) by (unfold tol2; nra).
  assert (Hdd : dense d ∙ dense d = P (dense gv) ∙ P (dense gv)).
  { rewrite Dd'. unfold dotd. apply sumd_ext. intros i Hi. rewrite (Dg i Hi), Dr. rnum. lra. }
  assert (Hz0 : m zerof = 0) by apply (m_zero n gv B).
  assert (Hzf : fixd n P zerof) by (intros w; unfold zerof; now rewrite !dot_zero_l).
  assert (Hzn : zerof ∙ zerof <= rad * rad) by (unfold zerof; rewrite dot_zero_l; nra).
  destruct (@nltb RN _ _) eqn:Et.
  { apply rn_ltb in Et. right. destruct (copy_fun n _ _ (Vcl _ Vz) (Vcl _ Hst)) as (p & Ep & Vp & _ & Dp). rewrite Ep. cbn [rbind].
    eexists p, (-1), _. split; [reflexivity|]. cbn [cmin cmax]. rewrite Dz in Dp. rewrite Dp.
    split; [split; [lra|intros a b H _; lra]|]. split; [exact Vp|]. split; [exact Hzf|]. split; [exact Hzn|]. split; [rewrite Hz0; lra|].
    left. split; [reflexivity|]. split; [reflexivity|]. rewrite <- Hdd. exact Et. }
  apply rn_ltb_false in Et. rewrite (dot_fun n _ _ Vr' Vg'). cbn [rbind].
  pose proof (cinv_init n gv B P rad HP Hrad clock s r g d (dense r ∙ dense g) Vbd Vc Vz Vr' Dr Vg' Dg Vd' Dd' eq_refl) as I.
  cbn [cbd ccache].
  match goal with |- context [cg_loop _ _ _ _ _ _ _ _ _ _ _ _ ?s0] => set (s1 := s0) in * end.
  pose proof (loop_spec n gv B P hess proj rad (tol2 stat_tol) Hn Hgv HB HP Hh Hp Hrad Htol2 max_iter time_limit clock fuel [] s1 (vec_clear step) I (Vcl _ Hst)) as L.
  cbn [length Z.of_nat Z.add] in L. specialize (L Hf). destruct L as [[E (k & Hk & Tk)]|(p & du & s' & E & R2 & Hc)].
  - left. split; [exact E|]. exists k. split; [lia|exact Tk].
  - right. exists p, du, s'. split; [exact E|]. split; [exact R2|].
    destruct Hc as [(E1 & E2 & k & Hk & Lk)|(V & F & Nn & X & Mp & Hc)].
    + subst p. rewrite Dz. split; [now apply Vcl|]. split; [exact Hzf|]. split; [exact Hzn|]. split; [rewrite Hz0; lra|].
      right; left. split; [reflexivity|]. split; [exact E2|]. exists k. split; [lia|exact Lk].
    + split; [exact V|]. split; [exact F|]. split; [exact Nn|]. unfold s1 in Mp. cbn [cz] in Mp. rewrite Dz in Mp.
      fold m in Mp. split; [rewrite <- Hz0; exact Mp|]. right; right. split; [exact X|].
      destruct Hc as [Hlt|Hr].
      { exfalso. unfold s1 in Hlt. cbn [crg] in Hlt.
        assert (Hg : forall w, dense g ∙ w = dense r ∙ P w).
        { intros w. rewrite (p_sym n P HP). apply dotd_ext; auto. }
        rewrite <- (g_norm n P HP (dense r) (dense g) Hg) in Hlt.
        assert (E3 : dense d ∙ dense d = dense g ∙ dense g).
        { rewrite Dd'. unfold dotd. apply sumd_ext. intros. rnum. lra. }
        rnum. lra. }
      intros t Ht Hb. unfold ray_min, s1 in Hr. cbn [cz cd] in Hr. rewrite Dz in Hr.
      assert (El : forall i, (0 <= i < n)%Z -> lc 1 zerof t (dense d) i = - t * P (dense gv) i).
      { intros i Hi. unfold lc, zerof. rewrite Dd', (Dg i Hi), Dr. rnum. lra. }
      specialize (Hr t Ht). fold m in Hr.
      assert (Eq : m (fun i => - t * P (dense gv) i) = m (lc 1 zerof t (dense d))).
      { assert (Eb : forall x y, (forall i, (0 <= i < n)%Z -> x i = y i) -> m x = m y).
        { intros x y Hxy. unfold m, qmodel. f_equal; [apply dotd_ext; auto|]. f_equal.
          transitivity (y ∙ B x); [apply dotd_ext; auto|]. rewrite <- (HB y x), <- (HB y y). apply dotd_ext; auto. }
        apply Eb. intros i Hi. symmetry. now apply El. }
      rewrite Eq. apply Hr. rewrite norm_line. unfold zerof. rewrite !dot_zero_l.
      rewrite Hdd. lra.
Qed.
End C64.

(** The solver stops after at most [n + 1] iterations, never fails an assertion, and its step
    lies in the nullspace and in the trust region and does not increase the model. *)
Theorem C64_outcome : forall n gv B P hess proj rad stat_tol step s,
  call_ok n gv B P hess proj rad stat_tol step s ->
  forall max_iter (time_limit : R) (clock : Z -> R) fuel, (n < Z.of_nat fuel)%Z ->
  let run := steihaug fuel hess proj gv step (0 : @num RN) (rad : @num RN) (stat_tol : @num RN) max_iter (time_limit : @num RN) clock s in
  (run = Err EAbortTime /\ time_limit <> -1 /\ exists k, (0 <= k <= n)%Z /\ time_limit <= clock k) \/
  exists p du s', run = Ok (p, du, s') /\ wf p /\ vdim p = n
    /\ in_range n P (dense p) /\ dotd n (dense p) (dense p) <= rad * rad
    /\ qmodel n (dense gv) B (dense p) <= 0.
Proof.
  intros n gv B P hess proj rad stat_tol step s C max_iter time_limit clock fuel Hf run.
  destruct (steihaug_spec n gv B P hess proj rad stat_tol step s C max_iter time_limit clock fuel Hf)
    as [[E (k & Hk & T)]|(p & du & s' & E & _ & [W D] & F & Nn & Mp & _)].
  - left. split; [exact E|]. unfold time_hit in T. apply andb_true_iff in T as [T1 T2]. apply negb_true_iff in T1.
    apply rn_eqb_false in T1. apply rn_leb in T2. rewrite rn_lit1 in T1. split; [exact T1|]. exists k. split; [exact Hk|exact T2].
  - right. exists p, du, s'. split; [exact E|]. split; [exact W|]. split; [exact D|]. split; [eapply fixd_range; eauto|].
    split; [exact Nn|exact Mp].
Qed.

(** Without limits that strike: the step is at least as good as every point of the projected
    steepest descent ray in the trust region, and it is stationary in the nullspace up to the
    tolerance or lies on the boundary. *)
Theorem C64_solution : forall n gv B P hess proj rad stat_tol step s,
  call_ok n gv B P hess proj rad stat_tol step s ->
  forall max_iter clock fuel, (max_iter = -1 \/ n < max_iter)%Z -> (n < Z.of_nat fuel)%Z ->
  exists p du s', steihaug fuel hess proj gv step (0 : @num RN) (rad : @num RN) (stat_tol : @num RN) max_iter (nlit (-1) 1 : @num RN) clock s = Ok (p, du, s')
    /\ (dotd n (P (lc 1 (dense gv) 1 (B (dense p)))) (P (lc 1 (dense gv) 1 (B (dense p)))) < tol2 stat_tol
        \/ dotd n (dense p) (dense p) = rad * rad)
    /\ (tol2 stat_tol <= dotd n (P (dense gv)) (P (dense gv)) ->
        forall t, 0 <= t -> t * t * dotd n (P (dense gv)) (P (dense gv)) <= rad * rad ->
          qmodel n (dense gv) B (dense p) <= qmodel n (dense gv) B (fun i => - t * P (dense gv) i)).
Proof.
  intros n gv B P hess proj rad stat_tol step s C max_iter clock fuel Hm Hf.
  destruct (steihaug_spec n gv B P hess proj rad stat_tol step s C max_iter (nlit (-1) 1 : @num RN) clock fuel Hf)
    as [[E (k & Hk & T)]|(p & du & s' & E & _ & [W D] & F & Nn & Mp & Hc)].
  - exfalso. unfold time_hit in T. apply andb_true_iff in T as [T1 _]. apply negb_true_iff in T1.
    apply rn_eqb_false in T1. now apply T1.
  - exists p, du, s'. split; [exact E|].
    assert (Z0 : dense p = zerof -> forall w, dotd n (P (lc 1 (dense gv) 1 (B (dense p)))) w = dotd n (P (dense gv)) w).
    { intros -> w. pose proof (co_P _ _ _ _ _ _ _ _ _ _ C) as HP. pose proof (co_B _ _ _ _ _ _ _ _ _ _ C) as HB.
      rewrite (proj1 HP), dot_lc_l, (HB zerof (P w)). unfold zerof at 1. rewrite dot_zero_l, (proj1 HP (dense gv) w). lra. }
    destruct Hc as [(E0 & _ & Hlt)|[(_ & _ & k & Hk & L)|[X Hr]]].
    + split; [left; rewrite (Z0 E0), dotd_sym, (Z0 E0); exact Hlt|]. intros H. lra.
    + exfalso. unfold iter_limit, none in L. apply andb_true_iff in L as [L1 L2]. apply negb_true_iff in L1.
      apply Z.eqb_neq in L1. apply Z.leb_le in L2. lia.
    + split; [destruct X; auto|]. intros _. exact Hr.
Qed.

(** The dual: either none (-1), which happens inside and at points of nonpositive curvature, or
    the nonnegative value that makes the derivative of the Lagrangian along the step vanish. *)
Theorem C64_dual : forall n gv B P hess proj rad stat_tol step s,
  call_ok n gv B P hess proj rad stat_tol step s ->
  forall max_iter (time_limit : R) clock fuel p du s', (n < Z.of_nat fuel)%Z ->
  steihaug fuel hess proj gv step (0 : @num RN) (rad : @num RN) (stat_tol : @num RN) max_iter (time_limit : @num RN) clock s = Ok (p, du, s') ->
  (du = -1 /\ (dotd n (dense p) (dense p) < rad * rad \/
     dotd n (P (lc 1 (dense gv) 1 (B (dense p)))) (P (lc 1 (dense gv) 1 (B (dense p)))) < tol2 stat_tol \/
     exists d, in_range n P d /\ 0 < dotd n d d /\ dotd n d (B d) <= 0)) \/
  (0 <= du /\ dotd n (dense p) (dense p) = rad * rad
     /\ dotd n (dense p) (B (dense p)) + dotd n (dense gv) (dense p) + du * dotd n (dense p) (dense p) = 0).
Proof.
  intros n gv B P hess proj rad stat_tol step s C max_iter time_limit clock fuel p du s' Hf E.
  pose proof (co_rad _ _ _ _ _ _ _ _ _ _ C) as Hrad.
  destruct (steihaug_spec n gv B P hess proj rad stat_tol step s C max_iter time_limit clock fuel Hf)
    as [[E' _]|(p' & du' & s2 & E' & _ & _ & F & Nn & _ & Hc)]; rewrite E in E'; [discriminate|].
  injection E' as <- <- <-.
  assert (Hz : dense p = zerof -> dotd n (dense p) (dense p) < rad * rad).
  { intros ->. unfold zerof. rewrite dot_zero_l. nra. }
  destruct Hc as [(E0 & Ed & _)|[(E0 & Ed & _)|[X _]]]; [left; auto|left; auto|].
  destruct X as [X1 X2|d X1 X2 X3 X4 X5|X1 X2 X3].
  - left. auto.
  - left. split; [exact X2|]. right; right. exists d. split; [eapply fixd_range; eauto|auto].
  - right. split; [exact X3|]. split; [exact X1|]. rewrite X1. lra.
Qed.

(** The Rayleigh quotients: the two values enclose 1 and lie within all bounds of the
    curvature in the nullspace that enclose 1. *)
Theorem C64_rayleigh : forall n gv B P hess proj rad stat_tol step s,
  call_ok n gv B P hess proj rad stat_tol step s ->
  forall max_iter (time_limit : R) clock fuel p du s', (n < Z.of_nat fuel)%Z ->
  steihaug fuel hess proj gv step (0 : @num RN) (rad : @num RN) (stat_tol : @num RN) max_iter (time_limit : @num RN) clock s = Ok (p, du, s') ->
  cmin s' <= 1 <= cmax s' /\ forall a b, a <= 1 <= b ->
    (forall x, in_range n P x -> a * dotd n x x <= dotd n x (B x) <= b * dotd n x x) -> a <= cmin s' /\ cmax s' <= b.
Proof.
  intros n gv B P hess proj rad stat_tol step s C max_iter time_limit clock fuel p du s' Hf E.
  destruct (steihaug_spec n gv B P hess proj rad stat_tol step s C max_iter time_limit clock fuel Hf)
    as [[E' _]|(p' & du' & s2 & E' & [R1 R2] & _)]; rewrite E in E'; [discriminate|].
  injection E' as <- <- <-. split; [exact R1|]. intros a b Hab H. apply (R2 a b Hab).
  intros x Hx. apply H. eapply fixd_range; eauto.
Qed.

(** With bounds only the projection of the working set is an orthogonal projection, so the
    step keeps the active variables. *)
Definition free (w : wset) (x : Z -> R) (j : Z) : R :=
  match ws_var_index w j with Ok k => if (k =? none)%Z then x j else 0 | _ => 0 end.

Theorem C64_box : forall w, consistent w ->
  projector (wnv w) (free w) /\ computes (wnv w) (free w) (box_project (wnv w) w)
  /\ forall p j k, in_range (wnv w) (free w) p -> (0 <= j < wnv w)%Z -> ws_var_index w j = Ok k -> k <> none -> p j = 0.
Proof.
  intros w C. split; [split|split].
  - intros x y. unfold dotd. apply sumd_ext. intros i Hi. unfold free.
    destruct (ws_var_index w i) as [k| |]; [destruct (k =? none)%Z|..]; lra.
  - intros x i Hi. unfold free. destruct (ws_var_index w i) as [k| |]; [destruct (k =? none)%Z|..]; reflexivity.
  - intros v t [Wv Dv] [Wt Dt].
    destruct (box_project_spec w v t C Wv Dv Wt Dt) as (x & E & W & D & G).
    exists x. split; [exact E|]. split; [split; auto|]. intros i Hi. unfold free. rewrite (proj1 (vix_ok w C i Hi)).
    unfold dense. rewrite (G i Hi). destruct (vix w i =? none)%Z; [reflexivity|apply rn_n0].
  - intros p j k Hp Hj Ek Hk. rewrite <- (Hp j Hj). unfold free. rewrite Ek. destruct (Z.eqb_spec k none); [contradiction|reflexivity].
Qed.
Print Assumptions C64_outcome.
Print Assumptions C64_solution.
Print Assumptions C64_dual.
Print Assumptions C64_rayleigh.
Print Assumptions C64_box.

(** Example: three variables, the first and the last active, twice the identity as Hessian. *)
Definition ex_hess {N : Num} (c : num) (v t : vec) : res vec := t <- vec_copy v t ;; Ok (vec_scale t c).
Lemma ex_hess_ok n (c : R) : computes n (fun x i => c * x i) (@ex_hess RN c).
Proof.
  intros v t Hv Ht. unfold ex_hess. destruct (copy_fun n v t Hv Ht) as (z & E & Vz & _ & Dz). rewrite E. cbn [rbind].
  destruct (scale_fun n z c Vz) as [Vs Ds]. eexists. split; [reflexivity|]. split; [exact Vs|]. intros i _. rewrite Ds, Dz. reflexivity.
Qed.
Lemma scal_adjoint n (c : R) : self_adjoint n (fun x i => c * x i).
Proof. intros x y. unfold dotd. apply sumd_ext. intros. lra. Qed.
Definition ex_cg (n : Z) : @cg RN := let e : rvec := mkvec n 0 [] in mkcg e e e e e e 0 0 0 0.
Definition ex_gv : rvec := mkvec 3 3 [(0%Z, 1); (1%Z, -4); (2%Z, 1)].
Lemma ex_call : call_ok 3 ex_gv (fun x i => 2 * x i) (free ex_w) (ex_hess (2 : @num RN)) (box_project 3 ex_w) 10 (1 / 100) (mkvec 3 0 []) (ex_cg 3).
Proof.
  destruct ex_w_ok as (C & _ & _ & Nv & _). destruct (C64_box ex_w C) as (H1 & H2 & _). rewrite Nv in H1, H2.
  assert (Ve : vok 3 (mkvec 3 0 [] : rvec)) by (split; [unfold wf; cbn; lia|reflexivity]).
  constructor; auto; try lia; try lra.
  - split; [unfold wf; cbn; lia|reflexivity].
  - apply scal_adjoint.
  - apply ex_hess_ok.
Qed.
Example C64_example : exists p du s',
  steihaug 4 (ex_hess (2 : @num RN)) (box_project 3 ex_w) ex_gv (mkvec 3 0 []) (0 : @num RN) (10 : @num RN) (1 / 100 : @num RN) 100 (nlit (-1) 1 : @num RN) (fun _ => 0) (ex_cg 3) = Ok (p, du, s')
  /\ dense p 0 = 0 /\ dense p 2 = 0 /\ qmodel 3 (dense ex_gv) (fun x i => 2 * x i) (dense p) <= -4.
Proof.
  destruct (C64_solution _ _ _ _ _ _ _ _ _ _ ex_call 100 (fun _ => 0) 4) as (p & du & s' & E & _ & Hr); [lia|lia|].
  exists p, du, s'. split; [exact E|].
  destruct (C64_outcome _ _ _ _ _ _ _ _ _ _ ex_call 100 (@nlit RN (-1) 1) (fun _ => 0) 4) as [[E' _]|(p2 & du2 & s2 & E' & _ & _ & Hp & _)];
    [lia| |]; cbv zeta in E'; rewrite E in E'; [discriminate|]. injection E' as <- <- <-.
  destruct ex_w_ok as (C & _ & _ & Nv & _). destruct (C64_box ex_w C) as (_ & _ & H3). rewrite Nv in H3.
  split; [apply (H3 (dense p) 0%Z 0%Z); [exact Hp|lia|vm_compute; reflexivity|discriminate]|].
  split; [apply (H3 (dense p) 2%Z 1%Z); [exact Hp|lia|vm_compute; reflexivity|discriminate]|].
  assert (F0 : forall x, free ex_w x 0%Z = 0) by (intros; reflexivity).
  assert (F1 : forall x, free ex_w x 1%Z = x 1%Z) by (intros; reflexivity).
  assert (F2 : forall x, free ex_w x 2%Z = 0) by (intros; reflexivity).
  assert (D3 : forall x y, dotd 3 x y = x 0%Z * y 0%Z + x 1%Z * y 1%Z + x 2%Z * y 2%Z).
  { intros x y. unfold dotd, sumd. change (Z.to_nat 3) with 3%nat. cbn [rsum].
    change (Z.of_nat 0) with 0%Z. change (Z.of_nat 1) with 1%Z. change (Z.of_nat 2) with 2%Z. lra. }
  assert (G1 : dense ex_gv 1 = -4) by reflexivity.
  eapply Rle_trans; [apply (Hr) with (t := 1 / 2)|].
  - rewrite D3, F0, F1, F2, G1. unfold tol2. lra.
  - lra.
  - rewrite D3, F0, F1, F2, G1. lra.
  - unfold qmodel. rewrite !D3, F0, F1, F2, G1. lra.
Qed.

(** The limit on the number of iterations loses the iterate: the first iteration reaches the
    minimiser, and the solver returns success with the zero step. *)
Definition fcg (n : Z) : @cg F64 := let e : @vec F64 := mkvec n 0 [] in mkcg e e e e e e (fz 0) (fz 0) (fz 0) (fz 0).
Definition frun (c : f64) (max_iter : Z) : res (@vec F64 * f64 * @cg F64) :=
  steihaug 5 (@ex_hess F64 c) (fun v t => vec_copy v t) (ve 1 [(0%Z, (-3)%Z)]) (mkvec 1 0 []) (nlit 1 1000000000000) (fz 10) (nlit 1 1000000)
    max_iter (fz (-1)) (fun _ => fz 0) (fcg 1).
Lemma run_val (r : res (@vec F64 * f64 * @cg F64)) : match r with Ok _ => true | _ => false end = true ->
  exists p du s', r = Ok (p, du, s').
Proof. destruct r as [[[p du] s']| |]; try discriminate. eauto. Qed.
Theorem C64_iteration_limit_refuted : exists c p1 p2 du1 du2 s1 s2,
  frun c 1 = Ok (p1, du1, s1) /\ frun c 2 = Ok (p2, du2, s2)
  /\ show p1 = [] /\ show (cz s1) = show (ve 1 [(0%Z, 3%Z)]) /\ show p2 = show (ve 1 [(0%Z, 3%Z)]).
Proof.
  exists (fz 1). destruct (run_val (frun (fz 1) 1)) as (p1 & du1 & s1 & E1); [vm_compute; reflexivity|].
  destruct (run_val (frun (fz 1) 2)) as (p2 & du2 & s2 & E2); [vm_compute; reflexivity|].
  exists p1, p2, du1, du2, s1, s2. split; [exact E1|]. split; [exact E2|].
  assert (T1 : match frun (fz 1) 1 with Ok (p, _, s) => (show p, show (cz s)) | _ => ([], []) end = ([], show (ve 1 [(0%Z, 3%Z)]))) by (vm_compute; reflexivity).
  assert (T2 : match frun (fz 1) 2 with Ok (p, _, s) => show p | _ => [] end = show (ve 1 [(0%Z, 3%Z)])) by (vm_compute; reflexivity).
  rewrite E1 in T1. rewrite E2 in T2. injection T1 as A1 A2. auto.
Qed.
Print Assumptions C64_iteration_limit_refuted.

(** On the boundary the dual may be -1: nonpositive curvature returns without a dual. *)
Theorem C64_dual_refuted : exists c p du s, frun c 100 = Ok (p, du, s)
  /\ show p = show (ve 1 [(0%Z, 10%Z)]) /\ B2SF du = B2SF (fz (-1)).
Proof.
  exists (fz (-2)). destruct (run_val (frun (fz (-2)) 100)) as (p & du & s & E); [vm_compute; reflexivity|].
  exists p, du, s. split; [exact E|].
  assert (T1 : match frun (fz (-2)) 100 with Ok (p, d, s) => (show p, B2SF d) | _ => ([], B2SF (fz 0)) end = (show (ve 1 [(0%Z, 10%Z)]), B2SF (fz (-1)))) by (vm_compute; reflexivity).
  rewrite E in T1. injection T1 as A1 A2. auto.
Qed.
Print Assumptions C64_dual_refuted.
