(** The Gauss-Newton direction: the subproblem that the code builds. *)
From Coq Require Import Reals Lra FunctionalExtensionality.
From Verif Require Import Base Num Cmp Sparse Vec VecFacts Order VecFacts2 RSum VecReal Mat MatFacts MatFacts2 MatFacts3 MatFacts4 Arr
  WorkingSet WorkingSetFacts Feas FeasFacts MeritFacts OrdArith PreprocReal Restore RestoreMain QnReal QnBlocks Cauchy CauchyFacts DualEst DualEstFacts AugJacFacts
  SteihaugFacts Steihaug LineSearch LineSearchFacts WorkingStep WorkingStepFacts WorkingStepReal NewtonReal PropsMat Lsqr LsqrFacts PropsLsqr GaussNewton GaussNewtonFacts RestoreLoops RestoreReal VecFacts2.
Local Open Scope R_scope.

(** ** Specification *)

(** The rows outside of the working set that are violated by the values [c] *)
Definition viol_row (w : wset) (l u c : Z -> R) (i : Z) : bool :=
  match ws_cons_state w i with Ok Inactive => if Rlt_dec (u i) (c i) then true else if Rlt_dec (c i) (l i) then true else false | _ => false end.
(** The bound that is violated *)
Definition goal (l u c : Z -> R) (i : Z) : R := if Rlt_dec (u i) (c i) then u i else l i.

Definition plus (x y : Z -> R) : Z -> R := fun i => x i + y i.
Definition mat_of (n : Z) (Jc : Z -> Z -> R) (p : Z -> R) (i : Z) : R := sumd n (fun j => Jc i j * p j).

(** The least squares problem: the linearized residuals and the linearized violations of the rows
    violated by the values [c0], the latter times the penalty parameter. *)
Section Problem.
Variables (n m nc : Z) (r : Z -> R) (Mr Jc : Z -> Z -> R) (w : wset) (c l u c0 : Z -> R) (pen : R).
Definition lsobj (p : Z -> R) : R :=
  / 2 * (sumd m (fun k => (r k + mat_of n Mr p k) * (r k + mat_of n Mr p k))
  + sumd nc (fun i => if viol_row w l u c0 i then (pen * (c i + mat_of n Jc p i - goal l u c0 i)) * (pen * (c i + mat_of n Jc p i - goal l u c0 i)) else 0)).
Definition lsgrad (p : Z -> R) (j : Z) : R :=
  sumd m (fun k => (r k + mat_of n Mr p k) * Mr k j)
  + sumd nc (fun i => if viol_row w l u c0 i then (pen * (c i + mat_of n Jc p i - goal l u c0 i)) * (pen * Jc i j) else 0).
End Problem.

(** Orthogonal projection onto the nullspace *)
Definition proj_ok (n : Z) (w : wset) J (P : Z -> Z -> R) (proj : rvec -> rvec -> res rvec) : Prop :=
  applies n n (mprod n n P) proj /\ (forall i j, (0 <= i < n)%Z -> (0 <= j < n)%Z -> P i j = P j i)
  /\ (forall y, in_null w J (mprod n n P y))
  /\ (forall z, in_null w J z -> forall i, (0 <= i < n)%Z -> mprod n n P z i = z i).

(** Working memory of the right sizes *)
Record gn_room (n m : Z) (G : @gnewton RN) : Prop := {
  gr_res : vok m (gn_res G); gr_lrhs : (0 <= vcap (gn_lrhs G))%Z; gr_rhs : wf (gn_rhs G); gr_val : (0 <= vcap (gn_val G))%Z;
  gr_viol : wf (gn_viol G); gr_cres : wf (gn_cres G); gr_jac : mwf (gn_jac G); gr_sol : vok n (gn_sol G); gr_cache : wf (gn_cache G);
  gr_u : wf (ls_u (gn_lsqr G)); gr_v : wf (ls_v (gn_lsqr G)); gr_w : wf (ls_w (gn_lsqr G)); gr_p : wf (ls_p (gn_lsqr G));
  gr_q : wf (ls_q (gn_lsqr G)); gr_d : wf (ls_d (gn_lsqr G)); gr_t : (0 <= vcap (ls_t (gn_lsqr G)))%Z;
  gr_proj : vok n (gp_proj G); gr_cons : wf (gp_cons G); gr_lsq : vok m (gp_lsq G);
  gr_ldir : vok m (ga_ldir G); gr_cdir : wf (ga_cdir G); gr_lprod : vok n (ga_lprod G); gr_cprod : vok n (ga_cprod G); gr_prod : vok n (ga_prod G) }.

(** ** Only nonzero signs are stored *)
Definition nonzeros (v : rvec) : Prop := forall e, In e (vent v) -> (snd e : R) <> 0.

Lemma push_entries_of (v z : rvec) i (x : R) : vec_push v i (x : @num RN) = Ok z -> vent z = vent v ++ [(i, x)].
Proof.
  unfold vec_push. intros E. do 4 apply rbind_ok in E as (? & _ & E).
  injection E as <-. reflexivity.
Qed.

Lemma multipliers_nonzero nc (c l u m z : rvec) wo : violated_multipliers nc c l u m wo = Ok z -> nonzeros z.
Proof.
  unfold violated_multipliers. intros E. apply rbind_ok in E as (r & Er & E).
  assert (N0 : nonzeros r).
  { intros e He. unfold vec_reserve in Er. apply rbind_ok in Er as (? & _ & Er).
    assert (Ev : vent r = []) by (destruct (nc <=? vcap (vec_clear m))%Z; injection Er as Er; rewrite <- Er; reflexivity). rewrite Ev in He. destruct He. }
  apply rbind_ok in E as (? & _ & E). apply rbind_ok in E as (? & _ & E). apply rbind_ok in E as (? & _ & E). apply rbind_ok in E as (rows & _ & E).
  clear Er. revert r N0 E. induction rows as [|[i [[cv lv] uv]] rows IH]; intros r N0 E.
  - cbn [rfold] in E. injection E as <-. exact N0.
  - cbn [rfold] in E. apply rbind_ok in E as (r1 & E1 & E). apply (IH r1); [|exact E]. clear IH E.
    apply rbind_ok in E1 as (sk & _ & E1). destruct sk; [injection E1 as <-; exact N0|].
    destruct (nltb _ (upper_viol cv uv)).
    { apply push_entries_of in E1. intros e He. rewrite E1 in He. apply in_app_iff in He as [He|[<-|[]]]; [exact (N0 e He)|]. cbn [snd]. rewrite rn_n1. lra. }
    destruct (nltb _ (lower_viol cv lv)); [|injection E1 as <-; exact N0].
    apply push_entries_of in E1. intros e He. rewrite E1 in He. apply in_app_iff in He as [He|[<-|[]]]; [exact (N0 e He)|]. cbn [snd]. rewrite rn_lit1. lra.
Qed.

Lemma step_nonzero w (X : @lctx RN) jac min_norm T T' : working_step X jac w min_norm T = Ok T' -> nonzeros (t_mult T').
Proof.
  unfold working_step. intros E. apply rbind_ok in E as ([[rhs lo] up] & _ & E). apply rbind_ok in E as (d0 & _ & E).
  apply rbind_ok in E as ([[d red] inw] & _ & E). apply rbind_ok in E as (cv & _ & E). apply rbind_ok in E as (mu & Em & E).
  injection E as <-. cbn [t_mult]. exact (multipliers_nonzero _ _ _ _ _ _ _ Em).
Qed.

Lemma stored_dense (v : rvec) i : nonzeros v -> stored v i = negb (if Req_EM_T (dense v i) 0 then true else false).
Proof.
  intros H. unfold stored, dense, oval. destruct (get (vent v) i) as [x|] eqn:E.
  - apply get_Some_In in E. specialize (H _ E). cbn [snd] in H. destruct (Req_EM_T x 0); [contradiction|reflexivity].
  - rewrite rn_n0. destruct (Req_EM_T 0 0); [reflexivity|contradiction].
Qed.

(** ** The reduced radius is positive *)
Lemma reduced_pos w (X : @lctx RN) jac min_norm T T' : 0 < lx_radius X -> 0 <= lx_eps X < / 5 ->
  working_step X jac w min_norm T = Ok T' -> 0 < t_reduced T'.
Proof.
  intros Hr He. unfold working_step. intros E. apply rbind_ok in E as ([[rhs lo] up] & _ & E). apply rbind_ok in E as (d0 & _ & E).
  apply rbind_ok in E as ([[d red] inw] & Es & E). apply rbind_ok in E as (cv & _ & E). apply rbind_ok in E as (mu & _ & E).
  injection E as <-. cbn [t_reduced]. unfold initial_step in Es. apply rbind_ok in Es as (p & _ & Es).
  apply rbind_ok in Es as ([[p1 red1] inw1] & E1 & Es). apply rbind_ok in Es as (d1 & _ & Es). injection Es as _ <- _.
  set (q := vec_norm d0) in *. clearbody q. change R in q. set (rad := lx_radius X) in *. rewrite ratio_rn, rn_n0, rn_n1 in E1.
  destruct (@neqb RN q 0) eqn:E0; cbn [negb] in E1; [injection E1 as _ <- _; exact Hr|].
  apply rbind_ok in E1 as (? & Hq & E1). apply check_ok in Hq. apply rn_ltb in Hq. cbn [nmul nsub ndiv nsqrt RN] in E1. rewrite rn_min in E1.
  set (r := 8 / 10 * rad / q) in *. assert (Hrq : r * q = 8 / 10 * rad) by (unfold r; field; lra).
  assert (Hr0 : 0 < r) by (unfold r; apply Rdiv_lt_0_compat; lra).
  assert (Ha : 0 < Rmin r 1 <= 1) by (unfold Rmin; destruct (Rle_dec r 1); lra).
  destruct (@is_eq RN (Rmin r 1) 1 (lx_eps X)) eqn:Ee; injection E1 as _ <- _.
  - apply (is_eq_one _ _ Ha) in Ee. assert (Har : Rmin r 1 <= r) by apply Rmin_l. apply sqrt_lt_R0.
    assert (4 / 5 * q < r * q) by (apply Rmult_lt_compat_r; lra). nra.
  - apply Rmult_lt_0_compat; [exact Hr|]. apply sqrt_lt_R0. lra.
Qed.

Section SetIterate.
Variables (m : Z) (r : Z -> R) (Mr : Z -> Z -> R) (w : wset) (X : @lctx RN) (jac : @mat RN) (cs : list (list (Z * R))) (T : @wstep RN) (a : R).
Variables (residuals : rvec -> res rvec) (fwd : rvec -> rvec -> res rvec).
Notation n := (wnv w).
Notation nc := (lx_nc X).
Notation Jc := (mR cs).
Notation J := (mat_of n Jc).
Notation p0 := (dense (d_primal (t_dir T))).
Notation c0 := (fun i => dense (lx_cons X) i + J p0 i).
Notation l := (dense (lx_clb X)).
Notation u := (dense (lx_cub X)).
Notation pen := (lx_pen X).
Hypothesis Hm : (0 <= m)%Z.
Hypothesis CX : ctx_ok n X.
Hypothesis SO : set_ok w X.
Hypothesis HS : stores jac cs.
Hypothesis HSr : mnr jac = nc.
Hypothesis HSc : mnc jac = n.
Hypothesis HT : WorkingStepReal.step_res w X J T a.
Hypothesis NZ : nonzeros (t_mult T).
Hypothesis Hres : forall t, vok m t -> exists z, residuals t = Ok z /\ vok m z /\ forall i, (0 <= i < m)%Z -> (dense z i : R) = r i.
Hypothesis Hfwd : applies n m (mprod n m Mr) fwd.

Lemma jac_stored : jac_is n nc jac J.
Proof. exists cs. split; [exact HS|]. split; [exact HSr|]. split; [exact HSc|]. reflexivity. Qed.

Notation keep := (stored (t_mult T)).
Notation drop := (dropped keep nc).
Notation nv := (nc - Z.of_nat (length drop))%Z.

Lemma nc_pos : (0 <= nc)%Z.
Proof. destruct (cx_cons _ _ CX) as [[H0 _] E]. lia. Qed.
Lemma nv_pos : (0 <= nv)%Z.
Proof. rewrite <- kept_length by apply nc_pos. lia. Qed.

Lemma keep_viol i : (0 <= i < nc)%Z -> keep i = viol_row w l u c0 i.
Proof.
  intros Hi. destruct (cons_query w X SO i Hi) as (_ & Es & _). rewrite (stored_dense _ _ NZ). unfold viol_row. rewrite Es.
  rewrite (sr_multv _ _ _ _ _ HT i (cstate w i) Hi Es). rewrite (sr_consv _ _ _ _ _ HT i Hi). unfold viol_sign.
  destruct (cstate w i); unfold active; cbn [ast_eqb negb]; try (destruct (Req_EM_T 0 0); [reflexivity|contradiction]).
  destruct (Rlt_dec (u i) _); [destruct (Req_EM_T 1 0); [lra|reflexivity]|].
  destruct (Rlt_dec _ (l i)); [destruct (Req_EM_T (-1) 0); [lra|reflexivity]|destruct (Req_EM_T 0 0); [reflexivity|contradiction]].
Qed.

(** What the vectors contain for the subproblem *)
Record gn_ready (G : @gnewton RN) (cs' : list (list (Z * R))) : Prop := {
  ry_jac : stores (gn_jac G) cs'; ry_nr : mnr (gn_jac G) = nv; ry_nc : mnc (gn_jac G) = n;
  ry_row : forall i j, (0 <= i < nc)%Z -> keep i = true -> mR cs' (posn keep nc i) j = pen * Jc i j;
  ry_rhs : vok (m + nv) (gn_rhs G);
  ry_res : forall k, (0 <= k < m)%Z -> (dense (gn_rhs G) k : R) = - (r k + mat_of n Mr p0 k);
  ry_con : forall i, (0 <= i < nc)%Z -> keep i = true -> (dense (gn_rhs G) (m + posn keep nc i) : R) = - pen * (c0 i - goal l u c0 i);
  ry_lsqr : vecs_ok n (m + nv) (gn_lsqr G); ry_sol : vok n (gn_sol G);
  ry_proj : vok n (gp_proj G); ry_cons : vok nv (gp_cons G); ry_lsq : vok m (gp_lsq G);
  ry_ldir : vok m (ga_ldir G); ry_cdir : vok nv (ga_cdir G); ry_lprod : vok n (ga_lprod G); ry_cprod : vok n (ga_cprod G); ry_prod : vok n (ga_prod G) }.

Lemma resize_lsqr (s : @lsqr RN) k : (0 <= k)%Z -> wf (ls_u s) -> wf (ls_v s) -> wf (ls_w s) -> wf (ls_p s) -> wf (ls_q s) -> wf (ls_d s) -> (0 <= vcap (ls_t s))%Z ->
  exists s', lsqr_resize s n k = Ok s' /\ vecs_ok n k s'.
Proof.
  intros Hk Wu Wv Ww Wp Wq Wd Wt. pose proof (cx_n _ _ CX) as Hn. unfold lsqr_resize.
  destruct (vec_resize_spec (ls_v s) n Wv Hn) as (v1 & E1 & V1 & D1 & _). rewrite E1. cbn [rbind].
  destruct (vec_resize_spec (ls_w s) n Ww Hn) as (v2 & E2 & V2 & D2 & _). rewrite E2. cbn [rbind].
  destruct (vec_resize_spec (ls_q s) n Wq Hn) as (v3 & E3 & V3 & D3 & _). rewrite E3. cbn [rbind].
  destruct (vec_resize_spec (ls_d s) n Wd Hn) as (v4 & E4 & V4 & D4 & _). rewrite E4. cbn [rbind].
  destruct (vec_resize_spec (ls_u s) k Wu Hk) as (v5 & E5 & V5 & D5 & _). rewrite E5. cbn [rbind].
  destruct (vec_resize_spec (ls_p s) k Wp Hk) as (v6 & E6 & V6 & D6 & _). rewrite E6. cbn [rbind].
  eexists. split; [reflexivity|]. constructor; cbn [ls_u ls_v ls_w ls_p ls_q ls_d ls_t]; try (split; assumption). exact Wt.
Qed.

Lemma lsq_rhs_real (p res0 prod rhs : rvec) : vok n p -> vok m res0 -> vok m prod -> (0 <= vcap rhs)%Z ->
  exists z, lsq_rhs (0 : @num RN) residuals fwd p res0 prod rhs = Ok z /\ vok m z
    /\ forall k, (0 <= k < m)%Z -> (dense z k : R) = - (r k + mat_of n Mr (dense p) k).
Proof.
  intros Vp Vr Vq Kr. unfold lsq_rhs. destruct (Hres res0 Vr) as (rr & E1 & V1 & D1). rewrite E1. cbn [rbind].
  destruct (applies_fun n m Mr fwd p prod Hfwd Vp Vq) as (q & E2 & V2 & D2). rewrite E2. cbn [rbind]. rewrite neg1_rn.
  destruct (dense_lc m rr q rhs (-1) (-1) V1 V2 Kr) as (z & E & V & D). exists z. split; [exact E|]. split; [exact V|].
  intros k Hk. rewrite D. unfold lc. rewrite (D1 k Hk), D2, mprod_in by exact Hk. unfold mat_of. ring.
Qed.

Lemma cons_rhs_real (p cache val viol cres : rvec) : vok n p -> dense p = p0 -> wf cache -> (0 <= vcap val)%Z -> wf viol -> wf cres ->
  exists z, cons_rhs X jac w drop p cache val viol cres = Ok z /\ vok nv z
    /\ forall i, (0 <= i < nc)%Z -> keep i = true -> (dense z (posn keep nc i) : R) = - pen * (c0 i - goal l u c0 i).
Proof.
  intros Vp Ep Wc Kv Wv Wr. unfold cons_rhs. pose proof nc_pos as Hc.
  destruct (jac_product n nc jac J p cache Hc jac_stored Vp Wc) as (arr & s & E1 & E2 & V2 & D2). rewrite E1. cbn [rbind].
  rewrite (cx_zero _ _ CX). rnum. rewrite E2. cbn [rbind]. unfold vec_add. rewrite rn_n1.
  destruct (dense_lc nc (lx_cons X) s val 1 1 (cx_cons _ _ CX) V2 Kv) as (cv & E3 & V3 & D3). rewrite E3. cbn [rbind].
  destruct (@feasibility_residuals_spec RN RN_Ord RN_OrdArith nc cv (lx_clb X) (lx_cub X)) with (r := viol) (w := Some w) (sg := true)
    as (z & E4 & W4 & D4 & H4); try apply rno_nan; try apply V3; try apply (cx_clb _ _ CX); try apply (cx_cub _ _ CX); auto.
  { split; [apply (so_nc _ _ SO)|]. rewrite (so_len _ _ SO). apply (so_nc _ _ SO). }
  { exact (cx_cle _ _ CX). }
  rewrite E4. cbn [rbind].
  destruct (vec_resize_spec (vec_clear cres) nv (wf_clear _ Wr) nv_pos) as (c1 & E5 & W5 & D5 & _). rewrite E5. cbn [rbind].
  destruct (vec_remove_entries_spec z c1 drop W4 W5) as (c2 & E6 & W6 & D6 & G6).
  { rewrite D4. apply dropped_sorted. }
  { rewrite D4, D5. lia. }
  rewrite E6. cbn [rbind]. destruct (scale_fun nv c2 (-1 * pen) (conj W6 (eq_trans D6 D5))) as [Vs Ds].
  eexists. split; [reflexivity|]. rewrite rn_lit1. change (@nmul RN (-1) (lx_pen X)) with (-1 * pen).
  split; [exact Vs|]. intros i Hi Hk. rewrite Ds.
  assert (Ec : dense c2 (posn keep nc i) = dense z i) by (unfold dense; now rewrite (G6 i _ (kept_posn _ _ _ Hi Hk))).
  rewrite Ec. rewrite (H4 i Hi). rewrite (skipped_state w X i SO Hi).
  assert (Ecv : (dense cv i : R) = c0 i) by (rewrite D3; unfold lc; rewrite (D2 i Hi), Ep; ring).
  pose proof (keep_viol i Hi) as Hv. rewrite Hk in Hv. unfold viol_row in Hv. destruct (cons_query w X SO i Hi) as (_ & Es & _). rewrite Es in Hv.
  destruct (cstate w i); try discriminate. unfold active; cbn [ast_eqb negb]. rewrite Ecv. unfold goal.
  destruct (Rlt_dec (u i) (c0 i)) as [L|L]; [rewrite (proj2 (rn_ltb _ _) L); cbn [nsub RN]; change (-1 * pen * (c0 i - u i) = - pen * (c0 i - u i)); ring|].
  destruct (Rlt_dec (c0 i) (l i)) as [L'|L']; [|discriminate].
  rewrite (proj2 (rn_ltb_false _ _)) by lra. rewrite (proj2 (rn_ltb _ _) L'). cbn [nsub nopp RN].
  change (-1 * pen * (- (l i - c0 i)) = - pen * (c0 i - l i)). ring.
Qed.

Lemma cons_matrix_real (target : @mat RN) : mwf target ->
  exists M cs', cons_matrix X n jac drop target = Ok M /\ stores M cs' /\ mnr M = nv /\ mnc M = n
    /\ forall i j, (0 <= i < nc)%Z -> keep i = true -> mR cs' (posn keep nc i) j = pen * Jc i j.
Proof.
  intros (ts & Ht). pose proof (layout_facts target ts Ht) as (H1 & H2 & H3 & _). unfold cons_matrix.
  assert (Hk : (0 <= mcap target)%Z) by lia.
  destruct (C52_resize (mat_clear target) _ nv n (clear_stores target H1 H2 Hk) nv_pos (cx_n _ _ CX)) as (t1 & cs1 & E1 & S1 & R1 & C1 & _).
  { intros i j _ Hg. exfalso. apply Hg. unfold mget. rewrite nth_repeat. reflexivity. }
  rewrite E1. cbn [rbind].
  destruct (C14_remove_rows jac cs t1 drop HS (ex_intro _ _ S1)) as (t2 & cs2 & E2 & S2 & R2 & C2 & G2).
  { rewrite HSr. apply dropped_sorted. }
  { congruence. }
  { rewrite HSr, R1. lia. }
  rewrite E2. cbn [rbind]. destruct (C52_scale t2 cs2 pen S2) as (cs3 & S3 & R3 & C3 & G3).
  exists (mat_scale t2 pen), cs3. split; [reflexivity|]. split; [exact S3|]. split; [congruence|]. split; [congruence|].
  intros i j Hi Hkp. unfold mR, mdense. rewrite G3, (G2 i _ j (kept_posn _ _ _ Hi Hkp)).
  destruct (@neqb RN pen (@n0 RN)) eqn:E0.
  - apply rn_eqb in E0. rewrite rn_n0 in E0. rewrite E0. cbn [oval]. rewrite rn_n0. symmetry. apply Rmult_0_l.
  - assert (Ho : forall o : option R, @oval RN (option_map (fun x => @nmul RN x pen) o) = pen * @oval RN o).
    { intros [x|]; [exact (Rmult_comm x pen)|]. cbn [option_map oval]. rewrite rn_n0. symmetry. apply Rmult_0_r. }
    apply Ho.
Qed.

Lemma set_iterate_real (G : @gnewton RN) : gn_room n m G ->
  exists G' cs', gn_set_iterate X n m jac w residuals fwd T G = Ok G' /\ gn_ready G' cs'.
Proof.
  intros RG. unfold gn_set_iterate. pose proof nc_pos as Hc. pose proof nv_pos as Hv. pose proof (sr_p _ _ _ _ _ HT) as Vp.
  rewrite (removed_spec nc (t_mult T)); [|apply (sr_mult _ _ _ _ _ HT)|apply (sr_mult _ _ _ _ _ HT)]. cbn [rbind].
  destruct RG. 
  destruct (vec_resize_spec (ga_cdir G) nv gr_cdir0 Hv) as (acd & E1 & W1 & D1 & _). rewrite E1. cbn [rbind].
  destruct (vec_resize_spec (gn_rhs G) (m + nv) gr_rhs0 ltac:(lia)) as (rhs & E2 & W2 & D2 & _). rewrite E2. cbn [rbind].
  destruct (vec_resize_spec (gp_cons G) nv gr_cons0 Hv) as (fc & E3 & W3 & D3 & _). rewrite E3. cbn [rbind].
  destruct (resize_lsqr (gn_lsqr G) (m + nv)) as (ls & E4 & V4); auto; [lia|]. rewrite E4. cbn [rbind].
  rewrite (cx_zero _ _ CX).
  destruct (lsq_rhs_real _ _ _ _ Vp gr_res0 gr_lsq0 gr_lrhs0) as (lr & E5 & V5 & D5). rewrite E5. cbn [rbind].
  destruct (cons_rhs_real _ (gn_cache G) (gn_val G) (gn_viol G) (gn_cres G) Vp eq_refl gr_cache0 gr_val0 gr_viol0 gr_cres0) as (c & E6 & V6 & D6).
  rewrite E6. cbn [rbind].
  destruct (vec_concat_spec lr c (vec_clear rhs) (proj1 V5) (proj1 V6)) as (z & E7 & W7 & D7 & G7). { cbn. now apply wf_cap. }
  rewrite E7. cbn [rbind].
  destruct (cons_matrix_real (gn_jac G) gr_jac0) as (M & cs' & E8 & S8 & R8 & C8 & G8). rewrite E8. cbn [rbind].
  eexists _, cs'. split; [reflexivity|].
  constructor; cbn [gn_res gn_lrhs gn_rhs gn_jac gn_sol gn_lsqr gp_proj gp_cons gp_lsq ga_ldir ga_cdir ga_lprod ga_cprod ga_prod]; auto; try (split; assumption).
  - split; [exact W7|]. rewrite D7, (proj2 V5), (proj2 V6). reflexivity.
  - intros k Hk. rewrite <- (D5 k Hk). unfold dense. rewrite G7, (proj2 V5). now replace (k <? m)%Z with true by lia.
  - intros i Hi Hk. rewrite <- (D6 i Hi Hk). pose proof (posn_range keep nc i Hi Hk). unfold dense. rewrite G7, (proj2 V5).
    replace (m + posn keep nc i <? m)%Z with false by lia. now replace (m + posn keep nc i - m)%Z with (posn keep nc i) by lia.
Qed.

(** ** The subproblem is the least squares problem *)
Variables (P : Z -> Z -> R) (G' : @gnewton RN) (cs' : list (list (Z * R))).
Hypothesis RY : gn_ready G' cs'.
Hypothesis Psym : forall i j, (0 <= i < n)%Z -> (0 <= j < n)%Z -> P i j = P j i.
Notation A := (mprod n (m + nv) (stack n m Mr P cs')).
Notation At := (mprod (m + nv) n (fun i j => stack n m Mr P cs' j i)).
Notation b := (dense (gn_rhs G')).
Notation q x := (plus p0 (mprod n n P x)).
Notation ls := (lsobj n m nc r Mr Jc w (dense (lx_cons X)) l u c0 pen).
Notation lg := (lsgrad n m nc r Mr Jc w (dense (lx_cons X)) l u c0 pen).

Lemma mat_of_plus Q x y k : mat_of n Q (plus x y) k = mat_of n Q x k + mat_of n Q y k.
Proof. unfold mat_of, plus. rewrite <- sumd_plus. apply sumd_ext. intros. ring. Qed.

Lemma res_first x k : (0 <= k < m)%Z -> res_of A b x k = - (r k + mat_of n Mr (q x) k).
Proof.
  intros Hk. unfold res_of, lc. rewrite (ry_res _ _ RY k Hk). rewrite stack_prod by (pose proof nv_pos; lia). rewrite mat_of_plus.
  unfold row. replace (k <? m)%Z with true by lia. unfold mat_of. ring.
Qed.
Lemma res_second x i : (0 <= i < nc)%Z -> keep i = true ->
  res_of A b x (m + posn keep nc i) = - (pen * (dense (lx_cons X) i + J (q x) i - goal l u c0 i)).
Proof.
  intros Hi Hk. pose proof (posn_range keep nc i Hi Hk) as Hp. unfold res_of, lc. rewrite (ry_con _ _ RY i Hi Hk).
  rewrite stack_prod by lia. rewrite mat_of_plus. unfold row. replace (m + posn keep nc i <? m)%Z with false by lia.
  replace (m + posn keep nc i - m)%Z with (posn keep nc i) by lia.
  rewrite (sumd_ext n _ (fun j => pen * (Jc i j * mprod n n P x j))).
  2: { intros j Hj. rewrite (ry_row _ _ RY i j Hi Hk). ring. }
  rewrite sumd_scal. fold (mat_of n Jc (mprod n n P x) i). req. ring.
Qed.

Lemma split_sum (f : Z -> R) (F H : Z -> R) : (forall k, (0 <= k < m)%Z -> f k = F k) ->
  (forall i, (0 <= i < nc)%Z -> keep i = true -> f (m + posn keep nc i)%Z = H i) ->
  sumd (m + nv) f = sumd m F + sumd nc (fun i => if viol_row w l u c0 i then H i else 0).
Proof.
  intros H1 H2. rewrite sumd_split by (try apply nv_pos; exact Hm). f_equal; [apply sumd_ext; exact H1|].
  rewrite <- (sumd_posn keep nc (fun i => f (m + i)%Z) nc_pos). apply sumd_ext. intros i Hi. rewrite <- (keep_viol i Hi).
  destruct (keep i) eqn:E; [now apply H2|reflexivity].
Qed.

Lemma obj_ls x : obj (m + nv) A b x = ls (q x).
Proof.
  unfold obj, lsobj. f_equal. unfold dotd. apply split_sum.
  - intros k Hk. rewrite (res_first x k Hk). ring.
  - intros i Hi Hk. rewrite (res_second x i Hi Hk). ring.
Qed.

Lemma adj_range v : At v = mprod n n P (fun j => sumd (m + nv) (fun k => row m Mr cs' k j * v k)).
Proof.
  apply functional_extensionality; intros j. unfold mprod. destruct ((0 <=? j) && (j <? n))%Z%bool eqn:Ej; [|reflexivity].
  assert (Hj : (0 <= j < n)%Z) by lia.
  rewrite (sumd_ext n _ (fun j0 => sumd (m + nv) (fun k => P j j0 * (row m Mr cs' k j0 * v k)))).
  2: { intros. now rewrite sumd_scal. }
  rewrite sumd_swap. apply sumd_ext. intros k Hk. unfold stack. rewrite Rmult_comm, <- sumd_scal. apply sumd_ext. intros i Hi.
  rewrite (Psym j i) by assumption. ring.
Qed.

Lemma grad_ls x : At (res_of A b x) = scal (-1) (mprod n n P (lg (q x))).
Proof.
  rewrite adj_range. apply functional_extensionality; intros j. unfold scal.
  destruct ((0 <=? j) && (j <? n))%Z%bool eqn:Ej; [|unfold mprod; rewrite Ej; ring]. assert (Hj : (0 <= j < n)%Z) by lia.
  rewrite (mprod_in n n P (fun j => sumd (m + nv) _) j Hj), (mprod_in n n P (lg (q x)) j Hj). rewrite <- sumd_scal. apply sumd_ext. intros i Hi. cbv beta.
  replace (-1 * (P j i * lg (q x) i)) with (P j i * (-1 * lg (q x) i)) by ring. f_equal.
  rewrite (split_sum _ (fun k => -1 * ((r k + mat_of n Mr (q x) k) * Mr k i))
    (fun c => -1 * ((pen * (dense (lx_cons X) c + mat_of n Jc (q x) c - goal l u c0 c)) * (pen * Jc c i)))).
  - unfold lsgrad. rewrite sumd_scal. rewrite Rmult_plus_distr_l. f_equal. rewrite <- sumd_scal. apply sumd_ext. intros c Hc.
    destruct (viol_row w l u c0 c); ring.
  - intros k Hk. rewrite (res_first x k Hk). unfold row. replace (k <? m)%Z with true by lia. ring.
  - intros c Hc Hk. rewrite (res_second x c Hc Hk). unfold row. pose proof (posn_range keep nc c Hc Hk).
    replace (m + posn keep nc c <? m)%Z with false by lia. replace (m + posn keep nc c - m)%Z with (posn keep nc c) by lia.
    rewrite (ry_row _ _ RY c i Hc Hk). ring.
Qed.
Lemma at_rhs : At b = scal (-1) (mprod n n P (lg p0)).
Proof.
  assert (E : b = res_of A b (fun _ => 0)).
  { unfold res_of. rewrite mprod_zero. apply functional_extensionality; intros i. unfold lc. assert (G0 : forall y : R, y = 1 * y + -1 * 0) by (intros; ring). apply G0. }
  rewrite E, grad_ls. rewrite mprod_zero. replace (plus p0 (fun _ => 0)) with p0; [reflexivity|].
  apply functional_extensionality; intros i. unfold plus. assert (G0 : forall y : R, y = y + 0) by (intros; ring). apply G0.
Qed.
End SetIterate.
