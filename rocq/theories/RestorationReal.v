(** The restoration function over the reals. *)
From Coq Require Import Reals Lra.
From Verif Require Import Base Num Cmp Sparse Vec VecFacts Order VecFacts2 VecFacts3 RSum VecReal Mat MatFacts MatFacts2 MatFacts4 Restoration RestorationFacts.
Local Open Scope Z_scope.

(** Requests made to the restoration function.  [OBase x]: the optimisation phase sets the function
    of the original problem to [x]; [OInit]: start of a restoration phase, phase.c via
    restoration.c:412-437. *)
Inductive rop {N : Num} :=
  | OSet (v : vec) | OObj | OGrad | OHess (d : vec) | OCons | OJac
  | OBase (x : vec) | OInit (v c : vec) (j : mat).

Definition rstep {N : Num} (b : base) (f : rfunc) (o : rop) : res rfunc :=
  match o with
  | OSet v => rf_set b f v
  | OObj => r <- rf_obj b f ;; Ok (snd r)
  | OGrad => r <- rf_grad b f ;; Ok (snd r)
  | OHess d => r <- rf_hess b f d ;; Ok (snd r)
  | OCons => r <- compute_cons_val b f ;; Ok (snd r)
  | OJac => r <- compute_cons_jac b f ;; Ok (snd r)
  | OBase x => Ok (mkrf (Some x) (rf_x f) (rf_s f) (rf_cv f) (rf_cj f) (rf_res f))
  | OInit v c j => rf_init f v c j
  end.

Notation rbase := (@base RN).
Implicit Types (b : rbase) (f : @rfunc RN) (v d x : rvec).

(** The constraint functions of the original problem: [cv x i] and [jm x i j] are the value of
    constraint [i] and its partial derivative by variable [j] at [x]. *)
Record evaluates b (cv : rvec -> Z -> R) (jm : rvec -> Z -> Z -> R) : Prop := {
  ev_nv : 0 <= b_nv b; ev_nc : 0 <= b_nc b; ev_eps : b_eps b = 0%R;
  ev_cons : forall x, wf x -> vdim x = b_nv b ->
    exists c, b_cons b x = Ok c /\ wf c /\ vdim c = b_nc b /\ forall i, 0 <= i < b_nc b -> dense c i = cv x i;
  ev_jac : forall x, wf x -> vdim x = b_nv b ->
    exists m cs, b_jac b x = Ok m /\ stores m cs /\ mnr m = b_nc b /\ mnc m = b_nv b
      /\ forall i j, 0 <= i < b_nc b -> 0 <= j < b_nv b -> mR cs i j = jm x i j }.

(** [v] is the vector of the variables [x] followed by the slacks [s] *)
Definition joins b v (x s : rvec) : Prop :=
  (forall i, 0 <= i < b_nv b -> dense v i = dense x i) /\ (forall i, 0 <= i < b_nc b -> dense v (b_nv b + i) = dense s i).

Section Real.
Context (b : rbase) (cv : rvec -> Z -> R) (jm : rvec -> Z -> Z -> R) (EV : evaluates b cv jm).
Local Notation nv := (b_nv b).
Local Notation nc := (b_nc b).

Definition is_cons x c := wf c /\ vdim c = nc /\ forall i, 0 <= i < nc -> dense c i = cv x i.
Definition is_jac x m := exists cs, stores m cs /\ mnr m = nc /\ mnc m = nv
  /\ forall i j, 0 <= i < nc -> 0 <= j < nv -> mR cs i j = jm x i j.
Definition is_res x (s r : rvec) := wf r /\ vdim r = nc /\ forall i, 0 <= i < nc -> dense r i = (cv x i - dense s i)%R.

Definition shaped f : Prop := wf (rf_x f) /\ vdim (rf_x f) = nv /\ wf (rf_s f) /\ vdim (rf_s f) = nc.
Definition okcv x (o : option rvec) := match o with Some c => is_cons x c | None => True end.
Definition okcj x (o : option rmat) := match o with Some m => is_jac x m | None => True end.
Definition okres x s (o : option rvec) := match o with Some r => is_res x s r | None => True end.
(** What is cached belongs to the current point, and what is not can be computed. *)
Definition current f : Prop := shaped f
  /\ okcv (rf_x f) (rf_cv f) /\ okcj (rf_x f) (rf_cj f) /\ okres (rf_x f) (rf_s f) (rf_res f)
  /\ (rf_point f = Some (rf_x f) \/ (rf_cv f <> None /\ rf_cj f <> None)).

Lemma shaped_create : shaped (rf_create b).
Proof.
  destruct EV. unfold shaped, rf_create, fresh, wf; cbn; intuition lia.
Qed.

Lemma set_current f v : shaped f -> wf v -> vdim v = nv + nc ->
  exists f', rf_set b f v = Ok f' /\ current f' /\ joins b v (rf_x f') (rf_s f').
Proof.
  intros (W1 & D1 & W2 & D2) Wv Dv. unfold rf_set.
  destruct (split_primal_spec v (rf_x f) (rf_s f)) as (x & s & E & Wx & Ws & Dx & Ds & Gx & Gs); auto; [congruence|].
  rewrite E. cbn [rbind fst snd]. eexists. split; [reflexivity|]. split.
  - unfold current, shaped. cbn. repeat split; auto; try (now rewrite ?Dx, ?Ds); try apply Wx; try apply Ws.
  - unfold joins. cbn. rewrite D1 in *. split; intros i Hi; unfold dense.
    + rewrite Gx by lia. reflexivity.
    + rewrite Gs by lia. reflexivity.
Qed.

Lemma cons_current f : current f ->
  exists c f', compute_cons_val b f = Ok (c, f') /\ current f' /\ is_cons (rf_x f) c
    /\ rf_x f' = rf_x f /\ rf_s f' = rf_s f /\ rf_cv f' = Some c /\ rf_res f' = rf_res f.
Proof.
  intros ((W1 & D1 & W2 & D2) & Hc & Hj & Hr & Hp). unfold compute_cons_val. destruct (rf_cv f) as [c|] eqn:Ec.
  - exists c, f. repeat split; auto; try apply W1; try apply W2; try apply Hc. now rewrite Ec. now rewrite Ec.
  - destruct Hp as [Hp|[Hp _]]; [|congruence]. unfold at_point. rewrite Hp.
    destruct (ev_cons _ _ _ EV (rf_x f) W1 D1) as (c & E & Wc & Dc & Gc). rewrite E. cbn [rbind].
    do 2 eexists. split; [reflexivity|]. unfold current, shaped; cbn. repeat split; auto; try apply W1; try apply W2; try apply Wc.
Qed.

Lemma jac_current f : current f ->
  exists m f', compute_cons_jac b f = Ok (m, f') /\ current f' /\ is_jac (rf_x f) m
    /\ rf_x f' = rf_x f /\ rf_s f' = rf_s f.
Proof.
  intros ((W1 & D1 & W2 & D2) & Hc & Hj & Hr & Hp). unfold compute_cons_jac. destruct (rf_cj f) as [c|] eqn:Ec.
  - exists c, f. split; [reflexivity|]. split; [|auto]. unfold current, shaped. rewrite Ec. auto.
  - destruct Hp as [Hp|[_ Hp]]; [|congruence]. unfold at_point. rewrite Hp.
    destruct (ev_jac _ _ _ EV (rf_x f) W1 D1) as (m & cs & E & Sm & R1 & R2 & G). rewrite E. cbn [rbind].
    assert (is_jac (rf_x f) m) by (exists cs; auto).
    do 2 eexists. split; [reflexivity|]. unfold current, shaped; cbn. repeat split; auto; try apply W1; try apply W2.
Qed.

Lemma wf_fresh n : 0 <= n -> wf (@fresh RN n).
Proof. unfold wf, fresh; cbn. intuition lia. Qed.

Lemma res_current f : current f ->
  exists r f', compute_residual b f = Ok (r, f') /\ current f' /\ is_res (rf_x f) (rf_s f) r
    /\ rf_x f' = rf_x f /\ rf_s f' = rf_s f.
Proof.
  intros H. pose proof H as ((W1 & D1 & W2 & D2) & Hc & Hj & Hr & Hp). unfold compute_residual. destruct (rf_res f) as [r|] eqn:Er.
  - exists r, f. auto.
  - destruct (cons_current f H) as (c & f' & E & C' & (Wc & Dc & Gc) & X & S & Cv & Rs). rewrite E. cbn [rbind fst snd].
    rewrite (ev_eps _ _ _ EV), S.
    destruct (add_scaled_real c (rf_s f) (fresh nc) (@n1 RN) (@nlit RN (-1) 1)) as (r & Er' & Wr & Dr & Gr); auto; try congruence; [cbn; lia|].
    match goal with |- context [vec_add_scaled ?a1 ?a2 ?a3 ?a4 ?a5 ?a6] => change (vec_add_scaled a1 a2 a3 a4 a5 a6) with (@vec_add_scaled RN c (rf_s f) (@n1 RN) (@nlit RN (-1) 1) 0%R (fresh nc)) end.
    rewrite Er'. cbn [rbind].
    assert (Hres : is_res (rf_x f) (rf_s f) r).
    { repeat split; try apply Wr; try congruence. intros i Hi. rewrite Gr, Gc, rn_n1, rn_lit1 by auto. lra. }
    do 2 eexists. split; [reflexivity|]. destruct C' as ((V1 & V2 & V3 & V4) & Hc' & Hj' & Hr' & Hp'). rewrite X, S in *.
    unfold current, shaped; cbn. repeat split; auto; try apply W1; try apply W2; try apply Hres.
Qed.

(** Gradient-like products: [(J^T d, -d)] *)
Lemma adjoint_current f d : current f -> wf d -> vdim d = nc ->
  exists g f', jac_adjoint b f d = Ok (g, f') /\ current f' /\ rf_x f' = rf_x f /\ rf_s f' = rf_s f
    /\ wf g /\ vdim g = nv + nc
    /\ (forall j, 0 <= j < nv -> dense g j = sumd nc (fun i => (jm (rf_x f) i j * dense d i)%R))
    /\ (forall i, 0 <= i < nc -> dense g (nv + i) = (- dense d i)%R).
Proof.
  intros H Wd Dd. unfold jac_adjoint. rewrite (proj2 (Z.eqb_eq _ _) Dd). cbn [check rbind].
  destruct (jac_current f H) as (m & f' & E & C' & (cs & Sm & R1 & R2 & G) & X & S). rewrite E. cbn [rbind fst snd].
  rewrite (ev_eps _ _ _ EV). pose proof (ev_nv _ _ _ EV). pose proof (ev_nc _ _ _ EV).
  destruct (mult_vec_trans_real m cs d (fresh nv) Sm Wd) as (p & Ep & Wp & Dp & Gp); try congruence; [now apply wf_fresh|now rewrite R2|].
  match goal with |- context [mat_mult_vec_trans ?a1 ?a2 ?a3 ?a4] => change (mat_mult_vec_trans a1 a2 a3 a4) with (@mat_mult_vec_trans RN m d (0%R : @num RN) (fresh nv)) end.
  rewrite Ep. cbn [rbind]. unfold concat_adjoint.
  destruct (vec_reserve_spec (vec_clear (@fresh RN (nv + nc))) (Z.min (vnnz p + vnnz d) (nv + nc))) as (v1 & E1 & W1 & D1 & N1 & C1);
    [apply wf_clear, wf_fresh; lia|unfold vnnz; lia|].
  cbn [vec_clear fresh vdim vent] in *. cbn [fresh vdim]. rewrite E1. cbn [rbind].
  destruct Wp as (Wp0 & Wp1 & Wp2). destruct Wd as (Wd0 & Wd1 & Wd2). rewrite Dp, R2 in *. rewrite Dd in *.
  pose proof (sorted_in_length _ _ _ Wp1) as L1. pose proof (sorted_in_length _ _ _ Wd1) as L2.
  unfold keys in L1, L2. rewrite map_length in L1, L2.
  rewrite push_all_ok; rewrite ?N1; cbn [app].
  2:{ rewrite D1. eapply sorted_in_weaken; [| |exact Wp1]; lia. } 2:{ unfold vnnz in *. rewrite N1. cbn [length]. lia. }
  cbn [rbind].
  assert (Sd : sorted_in nv (nv + nc) (keys (map (fun e : Z * R => (fst e + nv, @nmul RN (@nlit RN (-1) 1) (snd e))) (vent d)))).
  { apply (sorted_shift nv) in Wd1. unfold keys in *. rewrite map_map in *. replace (0 + nv) with nv in Wd1 by lia. replace (nv + nc) with (nc + nv) by lia. exact Wd1. }
  assert (Sa : sorted_in 0 (nv + nc) (keys (vent p ++ map (fun e : Z * R => (fst e + nv, @nmul RN (@nlit RN (-1) 1) (snd e))) (vent d)))).
  { unfold keys. rewrite map_app. apply (sorted_in_cat 0 nv (nv + nc)); auto; lia. }
  rewrite push_all_ok; cbn [vdim vent vcap].
  2:{ rewrite D1. exact Sa. } 2:{ unfold vnnz in *. cbn [vent]. rewrite map_length. lia. }
  cbn [rbind]. do 2 eexists. split; [reflexivity|]. split; [exact C'|]. split; [exact X|]. split; [exact S|].
  unfold wf; cbn [vdim vent vcap]. rewrite D1. split; [|split; [reflexivity|split]].
  - split; [lia|]. split; [exact Sa|]. rewrite app_length, map_length. unfold vnnz in *. lia.
  - intros j Hj. transitivity (dense p j).
    + unfold dense. cbn [vent]. rewrite get_app'. replace (get (map _ (vent d)) j) with (@None R); [destruct (get (vent p) j); reflexivity|].
      symmetry. apply get_None. intros Hi. eapply sorted_in_In in Hi; [|exact Sd]. lia.
    + rewrite Gp, R1 by lia. apply sumd_ext. intros i Hi. rewrite G; auto.
  - intros i Hi. unfold dense. cbn [vent]. rewrite get_app'. replace (get (vent p) (nv + i)) with (@None R).
    2:{ symmetry. apply get_None. intros Hi'. eapply sorted_in_In in Hi'; [|exact Wp1]. lia. }
    rewrite (get_shift (fun x : R => @nmul RN (@nlit RN (-1) 1) x)). replace (nv + i - nv) with i by lia. rewrite !oval_rn.
    rnum. destruct (@get R (vent d) i); cbn [option_map]; [|lra]. change (@nmul RN) with Rmult. rewrite rn_lit1. lra.
Qed.

(** [J d_x - d_s] *)
Lemma forward_current f d : current f -> wf d -> vdim d = nv + nc ->
  exists p f', jac_forward b f d = Ok (p, f') /\ current f' /\ rf_x f' = rf_x f /\ rf_s f' = rf_s f
    /\ wf p /\ vdim p = nc
    /\ forall i, 0 <= i < nc -> dense p i = (sumd nv (fun j => jm (rf_x f) i j * dense d j) - dense d (nv + i)%Z)%R.
Proof.
  intros H Wd Dd. unfold jac_forward. rewrite (proj2 (Z.eqb_eq _ _) Dd). cbn [check rbind].
  destruct (jac_current f H) as (m & f' & E & C' & (cs & Sm & R1 & R2 & G) & X & S). rewrite E. cbn [rbind fst snd].
  pose proof (ev_nv _ _ _ EV). pose proof (ev_nc _ _ _ EV).
  destruct (split_primal_spec d (fresh nv) (fresh nc)) as (dx & ds & Es & Wx & Ws & Dx & Ds & Gx & Gs); auto using wf_fresh.
  rewrite Es. cbn [rbind fst snd]. cbn [fresh vdim] in *.
  destruct (mult_vec_real m cs dx Sm Wx) as (a & Ea & La & Ga); [congruence|]. rewrite Ea. cbn [rbind].
  rewrite (ev_eps _ _ _ EV).
  destruct (vec_set_from_raw_spec (@fresh RN nc) a (0%R : @num RN)) as (v & Ev & Wv & Dv & Gv); [now apply wf_fresh|].
  match goal with |- context [vec_set_from_raw ?a1 ?a2 ?a3] => change (vec_set_from_raw a1 a2 a3) with (@vec_set_from_raw RN (fresh nc) a (0%R : @num RN)) end.
  rewrite Ev. cbn [rbind]. rewrite La, R1, Z2Nat.id in Dv by lia.
  destruct (add_scaled_real v ds (fresh nc) (@n1 RN) (@nlit RN (-1) 1)) as (r & Er' & Wr & Dr & Gr); auto; try congruence; [cbn; lia|].
  match goal with |- context [vec_add_scaled ?a1 ?a2 ?a3 ?a4 ?a5 ?a6] => change (vec_add_scaled a1 a2 a3 a4 a5 a6) with (@vec_add_scaled RN v ds (@n1 RN) (@nlit RN (-1) 1) 0%R (fresh nc)) end.
  rewrite Er'. cbn [rbind]. do 2 eexists. split; [reflexivity|]. split; [exact C'|]. split; [exact X|]. split; [exact S|].
  split; [exact Wr|]. split; [congruence|]. intros i Hi. rewrite Gr, rn_n1, rn_lit1.
  assert (Hv : dense v i = nth (Z.to_nat i) a 0%R).
  { unfold dense. rewrite Gv by lia. rewrite oval_rn. rnum. destruct (nth_error a (Z.to_nat i)) as [y|] eqn:En.
    - rewrite (nth_error_nth _ _ 0%R En). destruct (@is_zero RN y 0%R) eqn:Ez; [|reflexivity]. apply rn_is_zero0 in Ez. auto.
    - rewrite nth_overflow; [reflexivity|]. now apply nth_error_None. }
  rewrite Hv, Ga by lia.
  replace (dense ds i) with (dense d (nv + i)) by (unfold dense; rewrite Gs by lia; reflexivity).
  rewrite R2. replace (sumd nv (fun j => (mR cs i j * dense dx j)%R)) with (sumd nv (fun j => (jm (rf_x f) i j * dense d j)%R)); [lra|].
  apply sumd_ext. intros j Hj. rewrite G by lia. f_equal. unfold dense. rewrite Gx by lia. reflexivity.
Qed.

(** The objective of the restoration problem, its gradient and Hessian, written down directly. *)
Definition violation_sq x (s : Z -> R) : R := (/ 2 * sumd nc (fun i => (cv x i - s i) * (cv x i - s i)))%R.

Lemma obj_current f : current f ->
  exists o f', rf_obj b f = Ok (o, f') /\ current f' /\ rf_x f' = rf_x f /\ rf_s f' = rf_s f
    /\ o = violation_sq (rf_x f) (dense (rf_s f)).
Proof.
  intros H. unfold rf_obj. destruct (res_current f H) as (r & f' & E & C' & (Wr & Dr & Gr) & X & S). rewrite E. cbn [rbind fst snd].
  do 2 eexists. split; [reflexivity|]. split; [exact C'|]. split; [exact X|]. split; [exact S|].
  rewrite vec_norm_sq_real by auto. change (@nmul RN) with Rmult. rewrite rn_lit_eq, Dr. unfold violation_sq, dotd.
  replace (1 / 2)%R with (/ 2)%R by lra. f_equal. apply sumd_ext. intros i Hi. now rewrite Gr.
Qed.

Lemma grad_current f : current f ->
  exists g f', rf_grad b f = Ok (g, f') /\ current f' /\ rf_x f' = rf_x f /\ rf_s f' = rf_s f /\ wf g /\ vdim g = nv + nc
    /\ (forall j, 0 <= j < nv -> dense g j = sumd nc (fun i => (jm (rf_x f) i j * (cv (rf_x f) i - dense (rf_s f) i))%R))
    /\ (forall i, 0 <= i < nc -> dense g (nv + i) = (- (cv (rf_x f) i - dense (rf_s f) i))%R).
Proof.
  intros H. unfold rf_grad. destruct (res_current f H) as (r & f' & E & C' & (Wr & Dr & Gr) & X & S). rewrite E. cbn [rbind fst snd].
  destruct (adjoint_current f' r C' Wr Dr) as (g & f2 & E2 & C2 & X2 & S2 & Wg & Dg & G1 & G2). exists g, f2.
  rewrite X, S in *. split; [exact E2|]. split; [exact C2|]. split; [exact X2|]. split; [exact S2|]. split; [exact Wg|]. split; [exact Dg|]. split.
  - intros j Hj. rewrite G1 by auto. apply sumd_ext. intros i Hi. now rewrite Gr.
  - intros i Hi. rewrite G2, Gr by auto. reflexivity.
Qed.

Lemma hess_current f d : current f -> wf d -> vdim d = nv + nc ->
  exists h f', rf_hess b f d = Ok (h, f') /\ current f' /\ rf_x f' = rf_x f /\ rf_s f' = rf_s f /\ wf h /\ vdim h = nv + nc
    /\ let Jd i := (sumd nv (fun j => jm (rf_x f) i j * dense d j) - dense d (nv + i)%Z)%R in
       (forall j, 0 <= j < nv -> dense h j = sumd nc (fun i => (jm (rf_x f) i j * Jd i)%R))
    /\ (forall i, 0 <= i < nc -> dense h (nv + i) = (- Jd i)%R).
Proof.
  intros H Wd Dd. unfold rf_hess. destruct (forward_current f d H Wd Dd) as (p & f' & E & C' & X & S & Wp & Dp & Gp). rewrite E. cbn [rbind fst snd].
  destruct (adjoint_current f' p C' Wp Dp) as (g & f2 & E2 & C2 & X2 & S2 & Wg & Dg & G1 & G2). exists g, f2.
  rewrite X, S in *. split; [exact E2|]. split; [exact C2|]. split; [exact X2|]. split; [exact S2|]. split; [exact Wg|]. split; [exact Dg|]. split.
  - intros j Hj. rewrite G1 by auto. apply sumd_ext. intros i Hi. now rewrite Gp.
  - intros i Hi. rewrite G2, Gp by auto. reflexivity.
Qed.

Lemma init_current f v c m : shaped f -> wf v -> vdim v = nv + nc -> rf_res f = None ->
  (forall x s, split_primal v (rf_x f) (rf_s f) = Ok (x, s) -> is_cons x c /\ is_jac x m) ->
  exists f', rf_init f v c m = Ok f' /\ current f' /\ joins b v (rf_x f') (rf_s f').
Proof.
  intros (W1 & D1 & W2 & D2) Wv Dv Hr Hcj. unfold rf_init.
  destruct (split_primal_spec v (rf_x f) (rf_s f)) as (x & s & E & Wx & Ws & Dx & Ds & Gx & Gs); auto; [congruence|].
  rewrite E. cbn [rbind fst snd]. destruct (Hcj x s E) as [Hc Hj]. eexists. split; [reflexivity|]. split.
  - unfold current, shaped. cbn. rewrite Hr. repeat split; auto; try apply Wx; try apply Ws; try congruence; try apply Hc. right; split; discriminate.
  - unfold joins. cbn. rewrite D1 in *. split; intros i Hi; unfold dense.
    + rewrite Gx by lia. reflexivity.
    + rewrite Gs by lia. reflexivity.
Qed.

(** Requests other than those that bypass the least-squares function, with arguments of the right size *)
Definition regular (o : @rop RN) : Prop :=
  match o with OSet v => wf v /\ vdim v = nv + nc | OHess d => wf d /\ vdim d = nv + nc | OBase _ | OInit _ _ _ => False | _ => True end.

(** The point of the last [OSet]. *)
Fixpoint last_set (v : rvec) (ops : list (@rop RN)) : rvec :=
  match ops with [] => v | OSet v' :: ops' => last_set v' ops' | _ :: ops' => last_set v ops' end.

Lemma rstep_current f v o : current f -> joins b v (rf_x f) (rf_s f) -> regular o ->
  exists f', rstep b f o = Ok f' /\ current f' /\ joins b (last_set v [o]) (rf_x f') (rf_s f').
Proof.
  intros H Hj Ho. destruct o as [u| | |d| | |x|u c j]; cbn [rstep regular last_set] in *; try contradiction.
  - destruct Ho. apply set_current; auto. apply H.
  - destruct (obj_current f H) as (o & f' & E & C & X & S & _). rewrite E. cbn [rbind snd]. exists f'. rewrite X, S. auto.
  - destruct (grad_current f H) as (o & f' & E & C & X & S & _). rewrite E. cbn [rbind snd]. exists f'. rewrite X, S. auto.
  - destruct Ho. destruct (hess_current f d H) as (o & f' & E & C & X & S & _); auto. rewrite E. cbn [rbind snd]. exists f'. rewrite X, S. auto.
  - destruct (cons_current f H) as (o & f' & E & C & _ & X & S & _). rewrite E. cbn [rbind snd]. exists f'. rewrite X, S. auto.
  - destruct (jac_current f H) as (o & f' & E & C & _ & X & S). rewrite E. cbn [rbind snd]. exists f'. rewrite X, S. auto.
Qed.

Lemma rrun_current ops : forall f v, current f -> joins b v (rf_x f) (rf_s f) -> Forall regular ops ->
  exists f', rfold (rstep b) f ops = Ok f' /\ current f' /\ joins b (last_set v ops) (rf_x f') (rf_s f').
Proof.
  induction ops as [|o ops IH]; intros f v H Hj Ho; cbn [rfold]; [exists f; auto|]. inversion Ho as [|? ? Ho1 Ho2]; subst.
  destruct (rstep_current f v o H Hj Ho1) as (f1 & E & C & J1). rewrite E. cbn [rbind].
  destruct (IH f1 _ C J1 Ho2) as (f' & E' & C' & J'). exists f'. split; auto. split; auto. destruct o; exact J'.
Qed.
End Real.
