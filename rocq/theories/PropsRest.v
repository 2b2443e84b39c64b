(** Properties of the feasibility restoration problem and its least-squares function. *)
From Coq Require Import Reals Lra.
From Flocq Require Import Core BinarySingleNaN.
From Verif Require Import Base Num Cmp Sparse Vec VecFacts Order VecFacts2 VecFacts3 F64Facts RSum VecReal Mat MatFacts MatFacts2 MatFacts4
  Restoration RestorationFacts RestorationReal PropsVec PropsMat.
From Coq Require Import List.
Import ListNotations.
Local Open Scope list_scope.
Local Open Scope Z_scope.

(** ** C57 *)

Lemma get_ext {N : Num} (l1 : list (Z * num)) : forall l2 lo hi, sorted_in lo hi (keys l1) -> sorted_in lo hi (keys l2) ->
  (forall i, get l1 i = get l2 i) -> l1 = l2.
Proof.
  induction l1 as [|[i x] l1 IH]; intros l2 lo hi S1 S2 G.
  - destruct l2 as [|[j y] l2]; [reflexivity|]. specialize (G j). cbn [get] in G. rewrite Z.eqb_refl in G. discriminate.
  - destruct l2 as [|[j y] l2]. { specialize (G i). cbn [get] in G. rewrite Z.eqb_refl in G. discriminate. }
    cbn [keys map fst sorted_in] in S1, S2. destruct S1 as [B1 S1], S2 as [B2 S2].
    assert (i = j).
    { pose proof (G i) as Gi. pose proof (G j) as Gj. cbn [get] in Gi, Gj. rewrite Z.eqb_refl in Gi, Gj.
      destruct (Z.eqb_spec j i) as [|Hji]; [auto|]. destruct (Z.eqb_spec i j) as [|Hij]; [congruence|].
      symmetry in Gi. apply get_Some_In, In_keys in Gi. apply get_Some_In, In_keys in Gj.
      pose proof (sorted_in_In _ _ _ _ S2 Gi). pose proof (sorted_in_In _ _ _ _ S1 Gj). lia. }
    subst j. pose proof (G i) as Gi. cbn [get] in Gi. rewrite Z.eqb_refl in Gi. injection Gi as ->. f_equal.
    apply (IH l2 (i + 1) hi); auto. intros k. destruct (Z.eq_dec i k) as [Ek|Hne].
    2:{ specialize (G k). cbn [get] in G. rewrite (proj2 (Z.eqb_neq _ _) Hne) in G. exact G. }
    subst k.
    transitivity (@None num); [|symmetry]; apply get_None; intros Hi; eapply sorted_in_In in Hi; eauto; lia.
Qed.

(** Passing to the restoration problem and back returns the point, for any arithmetic. *)
Theorem C57_roundtrip : forall (N : Num) nv nc (p c lb ub r r' : vec),
  wf p -> wf c -> wf lb -> wf ub -> wf r -> wf r' ->
  vdim p = nv -> vdim c = nc -> vdim lb = nc -> vdim ub = nc -> vdim r = nv + nc -> vdim r' = nv ->
  exists t q, restoration_transform nv nc p c lb ub r = Ok t /\ wf t /\ vdim t = nv + nc
    /\ restoration_restore nv nc t r' = Ok q /\ wf q /\ vdim q = nv /\ vent q = vent p.
Proof.
  intros N nv nc p c lb ub r r' Wp Wc Wl Wu Wr Wr' Dp Dc Dl Du Dr Dr'.
  destruct (transform_spec nv nc p c lb ub r) as (t & Et & Wt & Dt & Gt & _); auto.
  destruct (restore_spec nv nc t r') as (q & Eq & Wq & Dq & Gq); auto; [destruct Wc; lia|].
  exists t, q. repeat (split; [assumption|]).
  destruct Wq as (_ & Sq & _), Wp as (_ & Sp & _). rewrite Dq in Sq. rewrite Dp in Sp.
  assert (G : forall i, get (vent q) i = get (vent p) i).
  { intros i. destruct (Z_lt_dec i nv); [rewrite Gq, Gt by lia; reflexivity|].
    transitivity (@None num); [|symmetry]; apply get_None; intros Hi; eapply sorted_in_In in Hi; eauto; lia. }
  eapply get_ext; eauto.
Qed.
Print Assumptions C57_roundtrip.
Example C57_roundtrip_example :
  (t <- restoration_transform 2 3 (ve 2 [(1, 7)]) (ve 3 [(0, 5); (2, -4)]) (ve 3 [(1, 1)]) (ve 3 [(0, 2); (1, 3); (2, 3)]) (mkvec 5 0 []) ;;
   q <- restoration_restore 2 3 t (mkvec 2 0 []) ;; Ok (show t, show q))
  = Ok (show (ve 5 [(1, 7); (2, 2); (3, 1)]), show (ve 2 [(1, 7)])).
Proof. vm_compute. reflexivity. Qed.

(** The slacks chosen are the constraint values moved into their bounds; the new point thus
    satisfies the bounds of the restoration problem (those of variables and constraints), for
    every arithmetic with an order, in particular binary64. *)
Theorem C57_slacks_in_bounds : forall (N : Num) (O : Ord N) nv nc (p c lb ub r : vec),
  wf p -> wf c -> wf lb -> wf ub -> wf r ->
  vdim p = nv -> vdim c = nc -> vdim lb = nc -> vdim ub = nc -> vdim r = nv + nc ->
  (forall i, 0 <= i < nc -> nn (dense c i) /\ nn (dense lb i) /\ nn (dense ub i) /\ (val (dense lb i) <= val (dense ub i))%R) ->
  exists t, restoration_transform nv nc p c lb ub r = Ok t /\ wf t /\ vdim t = nv + nc
    /\ (forall i, 0 <= i < nv -> dense t i = dense p i)
    /\ (forall i, 0 <= i < nc -> nn (dense t (nv + i))
          /\ (val (dense lb i) <= val (dense t (nv + i)%Z) <= val (dense ub i))%R
          /\ ((val (dense lb i) <= val (dense c i) <= val (dense ub i))%R -> val (dense t (nv + i)%Z) = val (dense c i))
          /\ ((val (dense c i) < val (dense lb i))%R -> val (dense t (nv + i)%Z) = val (dense lb i))
          /\ ((val (dense ub i) < val (dense c i))%R -> val (dense t (nv + i)%Z) = val (dense ub i))).
Proof.
  intros N O nv nc p c lb ub r Wp Wc Wl Wu Wr Dp Dc Dl Du Dr H.
  destruct (transform_spec nv nc p c lb ub r) as (t & Et & Wt & Dt & Gt & Gs); auto.
  exists t. repeat (split; [assumption|]). split.
  - intros i Hi. unfold dense. now rewrite Gt by lia.
  - intros i Hi. destruct (H i Hi) as (H1 & H2 & H3 & H4).
    destruct (clip_val_spec (dense c i) (dense lb i) (dense ub i) H1 H2 H3 H4) as (C1 & C2 & C3).
    assert (E : nn (dense t (nv + i)) /\ val (dense t (nv + i)) = val (slack_at c lb ub i)).
    { unfold dense at 1 2. rewrite Gs by auto. fold (slack_at c lb ub i) in *.
      assert (Hz : neqb (slack_at c lb ub i) n0 = true -> val (slack_at c lb ub i) = 0%R).
      { intros E. rewrite (eqb_val _ _ C1 nn_0) in E. rewrite val_0 in E. destruct (Req_bool_spec (val (slack_at c lb ub i)) 0%R); congruence. }
      assert (Hn : get (vent c) i = None -> get (vent lb) i = None -> get (vent ub) i = None -> val (slack_at c lb ub i) = 0%R).
      { intros E1 E2 E3. rewrite C3. unfold dense. rewrite E1, E2, E3. cbn [oval]. rewrite val_0.
        unfold Rmax, Rmin. repeat destruct Rle_dec; lra. }
      destruct (neqb (slack_at c lb ub i) n0) eqn:Ez;
      destruct (get (vent c) i), (get (vent lb) i), (get (vent ub) i); cbn [oval]; rewrite ?val_0; split; auto using nn_0; symmetry; auto. }
    destruct E as [E1 E2]. rewrite E2. fold (slack_at c lb ub i) in *. split; [exact E1|]. split; [exact C2|]. rewrite C3.
    unfold Rmax, Rmin. repeat split; intros; repeat destruct Rle_dec; lra.
Qed.
Print Assumptions C57_slacks_in_bounds.
Example C57_slacks_in_bounds_example :
  (t <- restoration_transform 1 3 (ve 1 []) (ve 3 [(0, 5); (1, -5)]) (ve 3 [(0, -1); (1, -2); (2, -3)]) (ve 3 [(0, 4)]) (mkvec 4 0 []) ;; Ok (show t))
  = Ok (show (ve 4 [(1, 4); (2, -2)])).
Proof. vm_compute. reflexivity. Qed.

(** From its creation and first [set], and whatever is asked of it afterwards by way of the
    least-squares interface, the restoration function returns half the squared distance between
    constraint values and slacks at the point it was last set to, its gradient [J^T r, -r], and the
    products with the Gauss-Newton Hessian [(J, -I)^T (J, -I)]. *)
Theorem C57_values : forall b cv jm v0 ops d, evaluates b cv jm ->
  wf v0 -> vdim v0 = b_nv b + b_nc b -> Forall (regular b) ops -> wf d -> vdim d = b_nv b + b_nc b ->
  exists f x s o f1 g f2 h f3,
    rfold (rstep b) (rf_create b) (OSet v0 :: ops) = Ok f
    /\ joins b (last_set v0 ops) x s
    /\ rf_obj b f = Ok (o, f1) /\ rf_grad b f = Ok (g, f2) /\ rf_hess b f d = Ok (h, f3)
    /\ let r i := (cv x i - dense s i)%R in
       let Jd i := (sumd (b_nv b) (fun j => jm x i j * dense d j) - dense d (b_nv b + i)%Z)%R in
       o = (/ 2 * sumd (b_nc b) (fun i => r i * r i))%R
    /\ wf g /\ vdim g = b_nv b + b_nc b
    /\ (forall j, 0 <= j < b_nv b -> dense g j = sumd (b_nc b) (fun i => (jm x i j * r i)%R))
    /\ (forall i, 0 <= i < b_nc b -> dense g (b_nv b + i) = (- r i)%R)
    /\ wf h /\ vdim h = b_nv b + b_nc b
    /\ (forall j, 0 <= j < b_nv b -> dense h j = sumd (b_nc b) (fun i => (jm x i j * Jd i)%R))
    /\ (forall i, 0 <= i < b_nc b -> dense h (b_nv b + i) = (- Jd i)%R).
Proof.
  intros b cv jm v0 ops d EV Wv Dv Ho Wd Dd.
  destruct (set_current b cv jm (rf_create b) v0 (shaped_create b cv jm EV) Wv Dv) as (f0 & E0 & C0 & J0).
  destruct (rrun_current b cv jm EV ops f0 v0 C0 J0 Ho) as (f & E & C & J).
  destruct (obj_current b cv jm EV f C) as (o & f1 & E1 & _ & _ & _ & H1).
  destruct (grad_current b cv jm EV f C) as (g & f2 & E2 & _ & _ & _ & H2).
  destruct (hess_current b cv jm EV f d C Wd Dd) as (h & f3 & E3 & _ & _ & _ & H3 & H3' & H3'').
  exists f, (rf_x f), (rf_s f), o, f1, g, f2, h, f3.
  split. { cbn [rfold rstep]. rewrite E0. exact E. }
  split; [exact J|]. split; [exact E1|]. split; [exact E2|]. split; [exact E3|].
  cbv zeta in *. split; [exact H1|]. destruct H2 as (? & ? & ? & ?). destruct H3''. repeat (split; [assumption|]). assumption.
Qed.
Print Assumptions C57_values.

(** A problem with one variable and the constraint x^2. *)
Definition sq_base : @base RN := mkbase 1 1
  (fun x => Ok (mkvec 1 1 [(0, (dense x 0 * dense x 0)%R)]))
  (fun x => Ok (mkmat 1 1 1 1 [0; 1] [(0, (2 * dense x 0)%R)])) 0%R.
Lemma stores_sq {N : Num} (x : num) : stores (mkmat 1 1 1 1 [0; 1] [(0, x)]) [[(0, x)]].
Proof.
  destruct (build_spec 1 1 1 [[(0, x)]]) as (m & E & S & _).
  { lia. } { reflexivity. } { cbn. lia. } { repeat constructor; cbn; lia. }
  cbn in E. injection E as <-. exact S.
Qed.
Definition sq_cv (x : rvec) (i : Z) : R := (dense x 0 * dense x 0)%R.
Definition sq_jm (x : rvec) (i j : Z) : R := (2 * dense x 0)%R.
Lemma sq_evaluates : evaluates sq_base sq_cv sq_jm.
Proof.
  constructor; cbn [sq_base b_nv b_nc b_eps b_cons b_jac]; try lia; try reflexivity; intros x _ _.
  - eexists. split; [reflexivity|]. split; [unfold wf; cbn; lia|]. split; [reflexivity|]. intros i Hi. assert (i = 0) as -> by lia. reflexivity.
  - eexists _, [[(0, (2 * dense x 0)%R)]]. split; [reflexivity|]. split.
    + apply stores_sq.
    + split; [reflexivity|]. split; [reflexivity|]. intros i j Hi Hj. assert (i = 0) as -> by lia. assert (j = 0) as -> by lia. reflexivity.
Qed.
Definition sq_ops : list (@rop RN) := [OObj; OSet (mkvec 2 2 [(0, 3%R); (1, 4%R)]); OGrad; OObj; OCons].
Example C57_values_example : Forall (regular sq_base) sq_ops /\ last_set (mkvec 2 0 []) sq_ops = mkvec 2 2 [(0, 3%R); (1, 4%R)] /\
  exists f o f1, rfold (rstep sq_base) (rf_create sq_base) (OSet (mkvec 2 0 []) :: sq_ops) = Ok f /\ rf_obj sq_base f = Ok (o, f1) /\ o = (25 / 2)%R.
Proof.
  assert (Hr : Forall (regular sq_base) sq_ops).
  { repeat constructor; cbn; unfold wf; cbn; repeat split; try lia. }
  split; [exact Hr|]. split; [reflexivity|].
  destruct (C57_values sq_base _ _ (mkvec 2 0 []) sq_ops (mkvec 2 0 []) sq_evaluates) as (f & x & s & o & f1 & g & f2 & h & f3 & E & J & E1 & _ & _ & H); auto;
    try (unfold wf; cbn; lia).
  exists f, o, f1. split; [exact E|]. split; [exact E1|]. destruct H as (Ho & _). rewrite Ho.
  destruct J as [J1 J2]. cbn [sq_base b_nv b_nc] in *.
  assert (Hx : dense x 0 = 3%R) by (rewrite <- J1 by lia; reflexivity). assert (Hs : dense s 0 = 4%R) by (rewrite <- J2 by lia; reflexivity).
  match goal with |- context [sumd 1 ?f] => change (sumd 1 f) with (0 + f 0%Z)%R end. cbv beta. unfold sq_cv. rnum. rewrite Hx, Hs. lra.
Qed.

(** The gradient is the derivative of the objective along every direction, whenever the Jacobian
    is that of the constraints. *)
Theorem C57_gradient : forall b cv jm v0 ops (x s g : rvec) (path : R -> rvec) (ds : Z -> R) (dx : Z -> R) f f',
  evaluates b cv jm -> wf v0 -> vdim v0 = b_nv b + b_nc b -> Forall (regular b) ops ->
  rfold (rstep b) (rf_create b) (OSet v0 :: ops) = Ok f -> x = rf_x f -> s = rf_s f ->
  rf_grad b f = Ok (g, f') -> path 0%R = x ->
  (forall i, 0 <= i < b_nc b -> derivable_pt_lim (fun t => cv (path t) i) 0 (sumd (b_nv b) (fun j => jm x i j * dx j)%R)) ->
  derivable_pt_lim (fun t => / 2 * sumd (b_nc b) (fun i => (cv (path t) i - (dense s i + t * ds i)) * (cv (path t) i - (dense s i + t * ds i))))%R 0
    (sumd (b_nv b) (fun j => dense g j * dx j) + sumd (b_nc b) (fun i => dense g (b_nv b + i)%Z * ds i))%R.
Proof.
  intros b cv jm v0 ops x s g path ds dx f f' EV Wv Dv Ho Er -> -> Eg Hp0 Hd.
  destruct (set_current b cv jm (rf_create b) v0 (shaped_create b cv jm EV) Wv Dv) as (f0 & E0 & C0 & J0).
  cbn [rfold rstep] in Er. rewrite E0 in Er. cbn [rbind] in Er.
  destruct (rrun_current b cv jm EV ops f0 v0 C0 J0 Ho) as (f'' & E & C & J). assert (f'' = f) by congruence. subst f''.
  destruct (grad_current b cv jm EV f C) as (g' & f2 & E2 & _ & _ & _ & Wg & Dg & G1 & G2). rewrite Eg in E2. injection E2 as <- <-.
  set (r := fun i => (cv (rf_x f) i - dense (rf_s f) i)%R).
  assert (Hi : forall i, 0 <= i < b_nc b ->
    derivable_pt_lim (fun t => (cv (path t) i - (dense (rf_s f) i + t * ds i)) * (cv (path t) i - (dense (rf_s f) i + t * ds i)))%R 0
      (2 * (r i * (sumd (b_nv b) (fun j => jm (rf_x f) i j * dx j) - ds i)))%R).
  { intros i Hi. set (u := fun t => (cv (path t) i - (dense (rf_s f) i + t * ds i))%R).
    assert (Hu : derivable_pt_lim u 0 (sumd (b_nv b) (fun j => jm (rf_x f) i j * dx j) - ds i)%R).
    { unfold u. apply (derivable_pt_lim_minus (fun t => cv (path t) i) (fun t => (dense (rf_s f) i + t * ds i)%R)); [auto|].
      pose proof (derivable_pt_lim_plus (fun _ => dense (rf_s f) i) (fun t => (t * ds i)%R) 0 0 _ (derivable_pt_lim_const _ _)
        (derivable_pt_lim_mult (fun t => t) (fun _ => ds i) 0 1 0 (derivable_pt_lim_id _) (derivable_pt_lim_const _ _))) as H. cbv beta in H.
      replace (0 + (1 * ds i + 0 * 0))%R with (ds i) in H by lra. exact H. }
    assert (Hu0 : u 0%R = r i) by (unfold u, r; rewrite Hp0; lra).
    pose proof (derivable_pt_lim_mult u u 0 _ _ Hu Hu) as Hm. rewrite Hu0 in Hm.
    replace (2 * (r i * (sumd (b_nv b) (fun j => jm (rf_x f) i j * dx j) - ds i)))%R
      with ((sumd (b_nv b) (fun j => jm (rf_x f) i j * dx j) - ds i) * r i + r i * (sumd (b_nv b) (fun j => jm (rf_x f) i j * dx j) - ds i))%R by lra.
    exact Hm. }
  assert (Hsum : derivable_pt_lim (fun t => sumd (b_nc b) (fun i => (cv (path t) i - (dense (rf_s f) i + t * ds i)) * (cv (path t) i - (dense (rf_s f) i + t * ds i))))%R 0
     (sumd (b_nc b) (fun i => 2 * (r i * (sumd (b_nv b) (fun j => jm (rf_x f) i j * dx j) - ds i)))%R)).
  { unfold sumd at 1 2. assert (Hn : Z.of_nat (Z.to_nat (b_nc b)) <= b_nc b) by (destruct EV; lia). revert Hn.
    induction (Z.to_nat (b_nc b)) as [|n IH]; intros Hn; cbn [rsum].
    - apply derivable_pt_lim_const.
    - apply (derivable_pt_lim_plus _ (fun t => (cv (path t) (Z.of_nat n) - (dense (rf_s f) (Z.of_nat n) + t * ds (Z.of_nat n))) * (cv (path t) (Z.of_nat n) - (dense (rf_s f) (Z.of_nat n) + t * ds (Z.of_nat n))))%R); [apply IH; lia|apply Hi; lia]. }
  pose proof (derivable_pt_lim_scal _ (/ 2)%R 0%R _ Hsum) as Hs. rewrite sumd_scal in Hs.
  replace (sumd (b_nv b) (fun j => dense g j * dx j) + sumd (b_nc b) (fun i => dense g (b_nv b + i)%Z * ds i))%R
    with (/ 2 * (2 * sumd (b_nc b) (fun i => r i * (sumd (b_nv b) (fun j => jm (rf_x f) i j * dx j) - ds i))))%R; [exact Hs|].
  rewrite <- Rmult_assoc, Rinv_l, Rmult_1_l by lra.
  rewrite (sumd_ext (b_nv b) _ (fun j => sumd (b_nc b) (fun i => dx j * (jm (rf_x f) i j * r i)))%R).
  2:{ intros j Hj. rewrite G1 by auto. rewrite Rmult_comm. now rewrite <- sumd_scal. }
  rewrite sumd_swap, <- sumd_plus. apply sumd_ext. intros i Hi'. rewrite G2 by auto. fold (r i).
  rewrite (sumd_ext (b_nv b) (fun j => dx j * (jm (rf_x f) i j * r i))%R (fun j => r i * (jm (rf_x f) i j * dx j))%R) by (intros; lra).
  rewrite sumd_scal. lra.
Qed.
Print Assumptions C57_gradient.
Example C57_gradient_example : let v0 : rvec := mkvec 2 2 [(0, 3%R); (1, 4%R)] in let path t : rvec := mkvec 1 1 [(0, (3 + t)%R)] in
  exists f g f', rfold (rstep sq_base) (rf_create sq_base) [OSet v0] = Ok f /\ rf_grad sq_base f = Ok (g, f') /\ path 0%R = rf_x f /\
  derivable_pt_lim (fun t => dense (path t) 0 * dense (path t) 0)%R 0 (sumd 1 (fun j => 2 * dense (rf_x f) 0 * 1)%R) /\ dense g 0 = 30%R /\ dense g 1 = (-5)%R.
Proof.
  cbv zeta. eexists. 
  destruct (set_current sq_base sq_cv sq_jm (rf_create sq_base) (mkvec 2 2 [(0, 3%R); (1, 4%R)]) (shaped_create _ _ _ sq_evaluates)) as (f & E & C & J);
    try (unfold wf; cbn; lia).
  destruct (grad_current sq_base sq_cv sq_jm sq_evaluates f C) as (g & f' & Eg & _ & _ & _ & _ & _ & G1 & G2).
  assert (f = mkrf (Some (mkvec 1 1 [(0, 3%R)])) (mkvec 1 1 [(0, 3%R)]) (mkvec 1 1 [(0, 4%R)]) None None None) by (cbn in E; congruence). subst f.
  exists g, f'. split. { cbn [rfold rstep]. rewrite E. reflexivity. } split; [exact Eg|]. cbn [rf_x] in *.
  split. { do 3 f_equal. lra. } split.
  - change (derivable_pt_lim (fun t : R => ((3 + t) * (3 + t))%R) 0 (0 + 2 * 3 * 1)%R).
    replace (0 + 2 * 3 * 1)%R with ((0 + 1) * (3 + 0) + (3 + 0) * (0 + 1))%R by lra.
    assert (H : derivable_pt_lim (fun t => 3 + t)%R 0 (0 + 1)%R).
    { apply (derivable_pt_lim_plus (fun _ => 3%R) (fun t => t)); [apply derivable_pt_lim_const|apply derivable_pt_lim_id]. }
    exact (derivable_pt_lim_mult _ _ _ _ _ H H).
  - cbn [sq_base b_nv b_nc] in *. specialize (G1 0 ltac:(lia)). specialize (G2 0 ltac:(lia)). rewrite G1. change (1 + 0) with 1 in G2. rewrite G2.
    unfold sumd, sq_cv, sq_jm. cbn [Z.to_nat Pos.to_nat Pos.iter_op Init.Nat.add rsum Z.of_nat rf_x rf_s].
    change (dense (mkvec 1 1 [(0, 3%R)] : rvec) 0) with 3%R. change (dense (mkvec 1 1 [(0, 4%R)] : rvec) 0) with 4%R. rnum. change (Pos.to_nat 1) with 1%nat. cbn [rsum Z.of_nat].
    change (dense (mkvec 1 1 [(0, 4%R)] : rvec) 0) with 4%R. rnum. split; lra.
Qed.

(** The objective at the point passed to the restoration problem measures infeasibility: it is half
    the squared distance of the constraint values to their bounds, zero exactly at feasible points. *)
Theorem C57_measures_infeasibility : forall b cv jm (p c lb ub r : rvec) f t, evaluates b cv jm ->
  wf p -> wf c -> wf lb -> wf ub -> wf r -> vdim p = b_nv b -> vdim lb = b_nc b -> vdim ub = b_nc b -> vdim r = b_nv b + b_nc b ->
  b_cons b p = Ok c -> (forall x y, vent x = vent y -> vdim x = vdim y -> cv x = cv y) ->
  (forall i, 0 <= i < b_nc b -> (dense lb i <= dense ub i)%R) ->
  restoration_transform (b_nv b) (b_nc b) p c lb ub r = Ok t -> rf_set b (rf_create b) t = Ok f ->
  exists o f', rf_obj b f = Ok (o, f') /\
    o = (/ 2 * sumd (b_nc b) (fun i => Rmax (Rmax (cv p i - dense ub i) (dense lb i - cv p i)) 0 * Rmax (Rmax (cv p i - dense ub i) (dense lb i - cv p i)) 0))%R /\
    (o = 0%R <-> forall i, 0 <= i < b_nc b -> (dense lb i <= cv p i <= dense ub i)%R).
Proof.
  intros b cv jm p c lb ub r f t EV Wp Wc Wl Wu Wr Dp Dl Du Dr Ec Hext Hb Et Ef.
  destruct (ev_cons _ _ _ EV p Wp Dp) as (c' & Ec' & _ & Dc & Gc). assert (c' = c) by congruence. subst c'.
  destruct (C57_slacks_in_bounds RN RN_Ord (b_nv b) (b_nc b) p c lb ub r) as (t' & Et' & Wt & Dt & Gx & Gs); auto.
  { intros i Hi. repeat split; auto. now apply Hb. }
  assert (t' = t) by congruence. subst t'.
  destruct (set_current b cv jm (rf_create b) t (shaped_create b cv jm EV) Wt Dt) as (f0 & E0 & C0 & J1 & J2). assert (f0 = f) by congruence. subst f0.
  destruct (obj_current b cv jm EV f C0) as (o & f' & Eo & _ & _ & _ & Ho). exists o, f'. split; [exact Eo|].
  assert (Hx : cv (rf_x f) = cv p).
  { destruct C0 as ((Wx & Dx & _) & _). apply Hext; [|congruence]. destruct Wx as (_ & Sx & _). pose proof Wp as (_ & Sp & _). rewrite Dx in Sx. rewrite Dp in Sp.
    eapply get_ext; eauto. intros i. destruct (Z_lt_dec i (b_nv b)) as [Hi|Hi].
    - unfold rf_set in Ef. destruct (split_primal_spec t (@fresh RN (b_nv b)) (@fresh RN (b_nc b))) as (x & s & Es & _ & _ & _ & _ & Gx' & _); auto;
        try (destruct EV; apply wf_fresh; assumption).
      cbn [rf_create rf_x rf_s] in Ef. rewrite Es in Ef. cbn [rbind fst snd] in Ef. assert (x = rf_x f) as <- by (injection Ef as <-; reflexivity).
      cbn [fresh vdim] in Gx'. rewrite Gx' by auto. destruct (transform_spec (b_nv b) (b_nc b) p c lb ub r) as (t2 & Et2 & _ & _ & Gt & _); auto.
      assert (t2 = t) by congruence. subst t2. now rewrite Gt.
    - transitivity (@None R); [|symmetry]; apply get_None; intros Hi'; eapply sorted_in_In in Hi'; eauto; lia. }
  assert (Hr : forall i, 0 <= i < b_nc b -> ((cv (rf_x f) i - dense (rf_s f) i) * (cv (rf_x f) i - dense (rf_s f) i))%R =
     (Rmax (Rmax (cv p i - dense ub i) (dense lb i - cv p i)) 0 * Rmax (Rmax (cv p i - dense ub i) (dense lb i - cv p i)) 0)%R).
  { intros i Hi. rewrite Hx, <- J2 by auto. specialize (Hb i Hi). destruct (Gs i Hi) as (_ & _ & G1 & G2 & G3). cbn [val RN_Ord] in G1, G2, G3.
    rewrite Gc in * by auto. unfold Rmax.
    destruct (Rlt_le_dec (cv p i) (dense lb i)) as [L|L]; [rewrite G2 by auto|destruct (Rlt_le_dec (dense ub i) (cv p i)) as [U|U]; [rewrite G3 by auto|rewrite G1 by auto]];
      repeat destruct Rle_dec; try lra. }
  assert (Ho' : o = (/ 2 * sumd (b_nc b) (fun i => Rmax (Rmax (cv p i - dense ub i) (dense lb i - cv p i)) 0 * Rmax (Rmax (cv p i - dense ub i) (dense lb i - cv p i)) 0))%R).
  { rewrite Ho. unfold violation_sq. f_equal. apply sumd_ext. exact Hr. }
  split; [exact Ho'|]. rewrite Ho'. split.
  - intros H0 i Hi. assert (Hz : sumd (b_nc b) (fun i => Rmax (Rmax (cv p i - dense ub i) (dense lb i - cv p i)) 0 * Rmax (Rmax (cv p i - dense ub i) (dense lb i - cv p i)) 0)%R = 0%R) by lra.
    pose proof (sumd_nonneg_zero _ _ (fun i _ => Rle_0_sqr _) Hz i Hi) as Hq. cbv beta in Hq. apply Rsqr_0_uniq in Hq.
    unfold Rmax in Hq. repeat destruct Rle_dec; lra.
  - intros H. rewrite sumd_zero; [lra|]. intros i Hi. specialize (H i Hi). unfold Rmax. repeat destruct Rle_dec; nra.
Qed.
Print Assumptions C57_measures_infeasibility.
Example C57_measures_infeasibility_example :
  (* x = 3, x^2 <= 4: half of 5^2 *)
  exists t f o f', restoration_transform 1 1 (mkvec 1 1 [(0, 3%R)] : rvec) (mkvec 1 1 [(0, (3 * 3)%R)]) (mkvec 1 0 []) (mkvec 1 1 [(0, 4%R)]) (mkvec 2 0 []) = Ok t /\
    rf_set sq_base (rf_create sq_base) t = Ok f /\ rf_obj sq_base f = Ok (o, f') /\ o = (25 / 2)%R.
Proof.
  assert (W : forall (d : Z) (x : R), 0 < d -> wf (mkvec d 1 [(0, x)] : rvec)) by (intros; unfold wf; cbn; lia).
  destruct (C57_slacks_in_bounds RN RN_Ord 1 1 (mkvec 1 1 [(0, 3%R)]) (mkvec 1 1 [(0, (3 * 3)%R)]) (mkvec 1 0 []) (mkvec 1 1 [(0, 4%R)]) (mkvec 2 0 [])) as (t & Et & Wt & Dt & _); auto;
    try (apply W; lia); try (unfold wf; cbn; lia).
  { intros i Hi. assert (i = 0) as -> by lia. cbn. unfold rn_lit. repeat split; auto. lra. }
  destruct (set_current sq_base sq_cv sq_jm (rf_create sq_base) t (shaped_create _ _ _ sq_evaluates) Wt Dt) as (f & Ef & _).
  destruct (C57_measures_infeasibility sq_base _ _ (mkvec 1 1 [(0, 3%R)]) (mkvec 1 1 [(0, (3 * 3)%R)]) (mkvec 1 0 []) (mkvec 1 1 [(0, 4%R)]) (mkvec 2 0 []) f t sq_evaluates) as (o & f' & Eo & Ho & _); auto;
    try (apply W; lia); try (unfold wf; cbn; lia).
  { intros x y E _. unfold sq_cv, dense. now rewrite E. }
  { intros i Hi. cbn in Hi. assert (i = 0) as -> by lia. cbn. unfold rn_lit. lra. }
  exists t, f, o, f'. repeat (split; [assumption|]). rewrite Ho.
  match goal with |- context [sumd ?d ?f] => change (sumd d f) with (0 + f 0%Z)%R end. cbv beta. unfold sq_cv.
  change (dense (mkvec 1 1 [(0, 3%R)] : rvec) 0) with 3%R. change (dense (mkvec 1 1 [(0, 4%R)] : rvec) 0) with 4%R.
  change (dense (mkvec 1 0 [] : rvec) 0) with (@n0 RN). rewrite rn_n0. rnum. unfold Rmax. repeat destruct Rle_dec; lra.
Qed.

(** Starting a restoration phase on a function that has not been evaluated yet agrees with setting
    it to the same point... *)
Theorem C57_first_phase_partial : forall b cv jm v (c : rvec) (m : rmat) f1 f2, evaluates b cv jm ->
  wf v -> vdim v = b_nv b + b_nc b -> rf_set b (rf_create b) v = Ok f2 ->
  b_cons b (rf_x f2) = Ok c -> b_jac b (rf_x f2) = Ok m -> rf_init (rf_create b) v c m = Ok f1 ->
  exists o1 o2 f1' f2', rf_obj b f1 = Ok (o1, f1') /\ rf_obj b f2 = Ok (o2, f2') /\ o1 = o2.
Proof.
  intros b cv jm v c m f1 f2 EV Wv Dv E2 Ec Em E1.
  destruct (set_current b cv jm (rf_create b) v (shaped_create b cv jm EV) Wv Dv) as (f0 & E0 & C0 & J0). assert (f0 = f2) by congruence. subst f0.
  assert (Hs : exists x s, split_primal v (@fresh RN (b_nv b)) (@fresh RN (b_nc b)) = Ok (x, s) /\ x = rf_x f2 /\ s = rf_s f2).
  { unfold rf_set in E2. cbn [rf_create rf_x rf_s] in E2. destruct (split_primal v (@fresh RN (b_nv b)) (@fresh RN (b_nc b))) as [[x s]| |]; try discriminate.
    exists x, s. cbn [rbind fst snd] in E2. injection E2 as <-. auto. }
  destruct Hs as (x & s & Es & -> & ->).
  destruct C0 as ((Wx & Dx & Ws & Ds) & Hrest) eqn:HC0.
  destruct (init_current b cv jm (rf_create b) v c m (shaped_create b cv jm EV) Wv Dv eq_refl) as (f0 & E3 & C1 & J1).
  { intros x s E. cbn [rf_create rf_x rf_s] in E. assert (x = rf_x f2) as -> by congruence. split.
    - destruct (ev_cons _ _ _ EV (rf_x f2) Wx Dx) as (c' & Ec' & H). assert (c' = c) by congruence. subst c'. exact H.
    - destruct (ev_jac _ _ _ EV (rf_x f2) Wx Dx) as (m' & cs & Em' & H). assert (m' = m) by congruence. subst m'. exists cs. exact H. }
  assert (f0 = f1) by congruence. subst f0.
  destruct (obj_current b cv jm EV f1 C1) as (o1 & f1' & Eo1 & _ & _ & _ & H1).
  destruct (obj_current b cv jm EV f2 C0) as (o2 & f2' & Eo2 & _ & _ & _ & H2).
  exists o1, o2, f1', f2'. split; [exact Eo1|]. split; [exact Eo2|]. rewrite H1, H2.
  unfold rf_init in E1. cbn [rf_create rf_x rf_s] in E1. rewrite Es in E1. cbn [rbind fst snd] in E1. injection E1 as <-. reflexivity.
Qed.
Print Assumptions C57_first_phase_partial.
Example C57_first_phase_partial_example : exists f1 f2 : @rfunc RN, let v : rvec := mkvec 2 2 [(0, 3%R); (1, 4%R)] in
  rf_set sq_base (rf_create sq_base) v = Ok f2 /\
  (c <- b_cons sq_base (rf_x f2) ;; m <- b_jac sq_base (rf_x f2) ;; rf_init (rf_create sq_base) v c m) = Ok f1.
Proof. do 2 eexists. split; reflexivity. Qed.

(** ... but a later phase keeps the residuals of the phase before: the cached residuals are not
    dropped.  One variable, constraint x = 0.  The first phase starts at x = 2 and ends at x = 0;
    the second starts at x = 5, where the objective is 25/2, but the value returned is 0. *)
Definition id_base : @base F64 := mkbase 1 1 (fun x => Ok x) (fun _ => Ok (mkmat 1 1 1 1 [0; 1] [(0, fz 1)])) (fz 0).
Definition id_jac : @mat F64 := mkmat 1 1 1 1 [0; 1] [(0, fz 1)].
Theorem C57_reentry_refuted : exists (b : @base F64) (ops : list rop) (x lb ub : vec),
  (f <- rfold (rstep b) (rf_create b) (ops ++ [OBase x]) ;;          (* a first phase; then the original problem is set to x *)
   c <- b_cons b x ;; j <- b_jac b x ;;
   v <- restoration_transform (b_nv b) (b_nc b) x c lb ub (fresh (b_nv b + b_nc b)) ;;
   f1 <- rf_init f v c j ;; o1 <- rf_obj b f1 ;;                     (* the second phase *)
   f2 <- rf_init (rf_create b) v c j ;; o2 <- rf_obj b f2 ;;         (* the same phase as the first one *)
   f3 <- rf_set b f v ;; o3 <- rf_obj b f3 ;;                        (* the function set to the point *)
   Ok (neqb (fst o1) n0 && neqb (fst o2) (nlit 25 2) && neqb (fst o3) (nlit 25 2))) = Ok true.
Proof.
  exists id_base, [OBase (ve 1 [(0, 2)]); OInit (ve 2 [(0, 2)]) (ve 1 [(0, 2)]) id_jac; OObj; OGrad; OSet (ve 2 []); OObj],
    (ve 1 [(0, 5)]), (ve 1 []), (ve 1 []).
  vm_compute. reflexivity.
Qed.
Print Assumptions C57_reentry_refuted.
