(** C29: restoration of multipliers and working set after preprocessing. *)
From Coq Require Import Reals Lra.
From Flocq Require Import Core.
From Verif Require Import Base Num Cmp Sparse Vec VecFacts VecFacts2 VecFacts3 VecReal RSum Mat MatFacts MatFacts2 MatFacts3 MatFacts4 Arr
  WorkingSet WorkingSetFacts Feas OptFacts Problem Preproc PreprocFacts PreprocTrans PreprocReal Restore RestoreFacts RestoreLoops RestoreReal RestoreMain Eval PropsPre.
Local Open Scope R_scope.

(** ** Specification *)
(** Component [j] of the stationarity residual for [nc] constraints. *)
Definition residual (nc : Z) (J : list (list (Z * R))) (g y z : rvec) (j : Z) : R :=
  dense g j + sumd nc (fun i => mR J i j * dense y i) + dense z j.
(** A coefficient [a] in a forcing constraint that is tight at its lower (upper) bound forces the
    variable to its upper bound. *)
Definition at_upper (lower : bool) (a : R) : Prop := if lower then 0 < a else a < 0.
(** The sign of a multiplier that the working set demands. *)
Definition sign_ok (s : ast) (v : R) : Prop :=
  match s with Inactive => v = 0 | ActLower => v <= 0 | ActUpper => 0 <= v | ActBoth => True end.
(** The state of a variable agrees with its value. *)
Definition at_state (lb ub v : R) (s : ast) : Prop :=
  match s with Inactive => True | ActLower => v = lb | ActUpper => v = ub | ActBoth => v = lb /\ v = ub end.
Definition disjoint_forcing (l : list (@fcons RN)) : Prop :=
  ForallOrdPairs (fun f f' => forall j, In j (keys (fc_vars f)) -> ~ In j (keys (fc_vars f'))) l.
(** No variable forced to its lower bound has residual 0, or some residual is strictly wrong. *)
Definition decided (rho : Z -> R) (f : @fcons RN) : Prop :=
  (forall j a, In (j, a) (fc_vars f) -> ~ at_upper (fc_lower f) a -> rho j <> 0)
  \/ exists j a, In (j, a) (fc_vars f) /\ (at_upper (fc_lower f) a /\ 0 < rho j \/ ~ at_upper (fc_lower f) a /\ rho j < 0).
(** Working sets of the right size that represent some active set with at most as many members as
    there are variables. *)
Definition ws_ok (w : wset) (nv nc : Z) : Prop := (exists vs cs, holds w vs cs) /\ wnv w = nv /\ wnc w = nc.

(** The reduced iterate [t]: sizes, a working set with at most as many members as there are variables,
    multipliers with the signs that it demands.  The iterate [o] receives the result. *)
Record reduced_ok (p : @problem RN) (pp : @preproc RN) (t o : @diter RN) : Prop := {
  ri_ws : ws_ok (di_ws t) (uf_nv (p_func (pp_trans pp))) (uf_nc (p_func p) + p_nl (pp_trans pp));
  ri_size : (ws_size (di_ws t) <= uf_nv (p_func (pp_trans pp)))%Z;
  ri_vd : wf (di_vd t) /\ vdim (di_vd t) = uf_nv (p_func (pp_trans pp));
  ri_cd : wf (di_cd t) /\ vdim (di_cd t) = (uf_nc (p_func p) + p_nl (pp_trans pp))%Z;
  ri_sv : supports_vars_dual (di_ws t) (di_vd t) = Ok true;
  ri_sc : supports_cons_dual (di_ws t) (di_cd t) = Ok true;
  ri_primal : wf (di_primal t) /\ vdim (di_primal t) = uf_nv (p_func (pp_trans pp));
  ri_ows : ws_ok (di_ws o) (uf_nv (p_func p)) (uf_nc (p_func p) + p_nl p);
  ri_oprimal : wf (di_primal o) /\ vdim (di_primal o) = uf_nv (p_func p);
  ri_ovd : wf (di_vd o); ri_ocd : wf (di_cd o) }.

(** Gradient [g] and Jacobian of the original problem; its last rows are the linear constraints. *)
Record eval_ok (p : @problem RN) (cs : list (list (Z * R))) (g : rvec) (jac : @mat RN) (J : list (list (Z * R))) : Prop := {
  ei_g : wf g /\ vdim g = uf_nv (p_func p);
  ei_j : stores jac J /\ mnr jac = (uf_nc (p_func p) + p_nl p)%Z /\ mnc jac = uf_nv (p_func p);
  ei_lin : forall i j, (0 <= i < p_nl p)%Z -> (0 <= j < uf_nv (p_func p))%Z -> mR J (uf_nc (p_func p) + i) j = mR cs i j }.

(** [y] extends constraint multipliers [cd] of the reduced problem by 0. *)
Definition extends (p : @problem RN) (pp : @preproc RN) (cd : rvec) (y : Z -> R) : Prop :=
  (forall i, (0 <= i < uf_nc (p_func p))%Z -> y i = dense cd i)
  /\ (forall i i', (0 <= i < p_nl p)%Z -> kept (pp_removed pp) i i' -> y (uf_nc (p_func p) + i)%Z = dense cd (uf_nc (p_func p) + i')%Z)
  /\ (forall i, In i (pp_removed pp) -> y (uf_nc (p_func p) + i)%Z = 0).

(** What is promised of the working set [w] and the multipliers [cd], [vd] at the point [x]. *)
Record restored_ok (p : @problem RN) (pp : @preproc RN) (t : @diter RN) (g : rvec) (J : list (list (Z * R))) (x : rvec) (w : wset) (cd vd : rvec) : Prop := {
  ro_ws : ws_ok w (uf_nv (p_func p)) (uf_nc (p_func p) + p_nl p) /\ ws_valid w = Ok true;
  ro_vd : wf vd /\ vdim vd = uf_nv (p_func p);
  ro_cd : wf cd /\ vdim cd = (uf_nc (p_func p) + p_nl p)%Z;
  ro_removed : forall j, In j (keys (pp_fixed pp)) -> residual (uf_nc (p_func p) + p_nl p) J g cd vd j = 0;
  ro_kept : forall Jr gr j j', (0 <= j < uf_nv (p_func p))%Z -> kept (keys (pp_fixed pp)) j j' -> dense gr j' = dense g j ->
    (forall i, (0 <= i < uf_nc (p_func p))%Z -> mR Jr i j' = mR J i j) ->
    (forall i i', (0 <= i < p_nl p)%Z -> kept (pp_removed pp) i i' -> mR Jr (uf_nc (p_func p) + i') j' = mR J (uf_nc (p_func p) + i) j) ->
    residual (uf_nc (p_func p) + p_nl p) J g cd vd j = residual (uf_nc (p_func p) + p_nl (pp_trans pp)) Jr gr (di_cd t) (di_vd t) j';
  ro_vsign : forall j, (0 <= j < uf_nv (p_func p))%Z -> exists s, ws_var_state w j = Ok s /\ sign_ok s (dense vd j)
    /\ (In j (keys (pp_fixed pp)) -> at_state (dense (p_vlb p) j) (dense (p_vub p) j) (dense x j) s);
  ro_csign : forall i, (0 <= i < uf_nc (p_func p) + p_nl p)%Z -> exists s, ws_cons_state w i = Ok s /\ sign_ok s (dense cd i) }.

(** ** Proof *)
Lemma sign_sgn s v : sign_ok s v <-> sgn s v.
Proof. reflexivity. Qed.

Lemma supports_sgn (d : rvec) states n f : wf d -> vdim d = n -> arr states n f ->
  exists b, supports_range d states = Ok b /\ (b = true <-> forall i, (0 <= i < n)%Z -> sgn (f i) (dense d i)).
Proof.
  intros Hw Hd [Hl Hn]. assert (P0 : (0 <= vdim d)%Z) by apply Hw. destruct (supports_range_spec d states Hw ltac:(lia)) as (b & E & Hb). exists b. split; [exact E|]. rewrite Hb. split.
  - intros H i Hi. unfold dense. rewrite oval_rn. destruct (get (vent d) i) as [x|] eqn:Eg.
    + destruct (H i x Eg) as (s & E1 & E2). rewrite (Hn i Hi) in E1. injection E1 as ->. now apply sgn_supports.
    + destruct (f i); cbn [sgn]; lra.
  - intros H i x Eg. destruct Hw as (_ & Hs & _). pose proof (sorted_in_In _ _ _ _ Hs (In_keys _ _ _ (get_Some_In _ _ _ Eg))) as Hi. rewrite Hd in Hi.
    exists (f i). split; [exact (Hn i Hi)|]. apply sgn_supports. specialize (H i Hi). unfold dense in H. rewrite oval_rn in H. rnum. rewrite Eg in H. exact H.
Qed.

Lemma desired_at (f : @fcons RN) a : a <> 0 -> @desired_upper RN f a = true <-> at_upper (fc_lower f) a.
Proof.
  intros Ha. rewrite desired_up. unfold at_upper. destruct (Rlt_dec 0 a), (fc_lower f); cbn [negb]; split; intros H; try lra; try discriminate; reflexivity.
Qed.

Lemma decided_wrong rho f : (forall j a, In (j, a) (fc_vars f) -> a <> 0) -> decided rho f ->
  (forall e, In e (fc_vars f) -> wrong rho f e = false) \/ exists e, In e (fc_vars f) /\ wrong rho f e = true /\ rho (fst e) <> 0.
Proof.
  intros Ha [H|(j & a & Hin & H)].
  - destruct (existsb (wrong rho f) (fc_vars f)) eqn:E.
    + right. apply existsb_exists in E. destruct E as ([j a] & Hin & Hw). exists (j, a). split; [exact Hin|]. split; [exact Hw|].
      apply wrong_true in Hw. cbn [fst snd] in *. destruct Hw as [[_ Hw]|[Hd Hw]]; [lra|]. apply (H j a Hin). rewrite <- desired_at by exact (Ha j a Hin). rewrite Hd. discriminate.
    + left. intros e He. destruct (wrong rho f e) eqn:Ew; [|reflexivity]. rewrite <- not_true_iff_false in E. destruct E. apply existsb_exists. eauto.
  - right. exists (j, a). split; [exact Hin|]. pose proof (Ha j a Hin) as Hne. rewrite <- desired_at in H by exact Hne. split.
    + apply wrong_true. cbn [fst snd]. destruct H as [[H1 H2]|[H1 H2]]; [left; auto|right]. split; [now apply not_true_iff_false|lra].
    + cbn [fst]. destruct H as [[_ H]|[_ H]]; lra.
Qed.

Lemma ws_states w n m vs cs : holds w vs cs -> wnv w = n -> wnc w = m ->
  arr (wvst w) n (stf vs) /\ arr (wcst w) m (stf cs) /\ (forall j, (0 <= j < n)%Z -> ws_var_state w j = Ok (stf vs j)) /\ (forall i, (0 <= i < m)%Z -> ws_cons_state w i = Ok (stf cs i)).
Proof.
  intros H <- <-. pose proof H as []. split; [exact h_vst|]. split; [exact h_cst|]. split.
  - intros j Hj. unfold ws_var_state. destruct (Z.ltb_spec j (wnv w)); [|lia]. cbn [check rbind]. now apply (arr_get_arr _ _ _ j h_vst).
  - intros j Hj. unfold ws_cons_state. destruct (Z.ltb_spec j (wnc w)); [|lia]. cbn [check rbind]. now apply (arr_get_arr _ _ _ j h_cst).
Qed.

Section Restoration.
Variables (p : @problem RN) (cs : list (list (Z * R))) (feas : R) (pp : @preproc RN).
Hypothesis HP : pdata p cs.
Hypothesis Hpre : pre_create p (feas : @num RN) (0 : @num RN) = Ok pp.
Let nv := uf_nv (p_func p).
Let ng := uf_nc (p_func p).
Let nl := p_nl p.
Let nvr := uf_nv (p_func (pp_trans pp)).
Let nlr := p_nl (pp_trans pp).

Lemma multipliers_main : forall (junk : Z) (t o : @diter RN) x (g : rvec) (jac : @mat RN) Jc (y0 : Z -> R),
  reduced_ok p pp t o -> restore_primal pp (di_primal t) (di_primal o) = Ok x -> eval_ok p cs g jac Jc -> extends p pp (di_cd t) y0 ->
  disjoint_forcing (ps_forc (pp_state pp)) ->
  Forall (decided (fun j => dense g j + sumd (ng + nl) (fun i => mR Jc i j * y0 i))) (ps_forc (pp_state pp)) ->
  exists w cd vd, @restore_multipliers RN pp junk (0 : @num RN) g jac t o = Ok (w, cd, vd) /\ restored_ok p pp t g Jc x w cd vd.
Proof.
  intros junk t o x g jac Jc y0 [((vst & cst & Ht) & Dtv & Dtc) Hsz [Wvd Dvd] [Wcd Dcd] Hsv Hsc [Wpt _] ((vso & cso & Ho) & Dov & Doc) [Wpo Dpo] Wvo Wco] Ex [[Wg Dg] (HJ & Djr & Djc) Hlin] (Y1 & Y2 & Y3) Hdis Hdec.
  fold nvr ng nv nl nlr in Dtv, Dtc, Hsz, Dvd, Dcd, Dov, Doc, Dpo, Dg, Djr, Djc, Hlin, Y1, Y2, Y3.
  pose proof HP as (HS & Hr & Hc & Hg0 & (Wvl & Dvl) & (Wvu & Dvu) & _). fold ng in Hg0.
  destruct (pre_struct p cs _ _ pp HS Hr Hc Wvl Dvl Wvu Dvu Hpre) as (Eo & (fv & fc & rv & rc & A1 & A2 & A3 & A4 & K1 & K2 & Fo1 & Fo2 & Vok) & Ef & Er & Et).
  rewrite Hc in A1, A3, Vok. rewrite Hr in A2, A4. fold nv in A1, A3, Vok, Ef. fold nl in A2, A4, Er.
  pose proof (nv_pos p cs HP) as Hnv. pose proof (nl_pos p cs HP) as Hnl. fold nv in Hnv. fold nl in Hnl.
  destruct (create_fixed_inv _ _ _ _ Hnv A1 Ef) as [F1 F2]. destruct (create_removed_inv _ _ _ _ Hnl A2 Er) as [R1 R2].
  destruct (trans_problem p cs HP _ _ _ fv fc rv rc A3 A4 F1 F2 R1 R2 _ Et) as (cs' & HQ & Hfq & Hnq & Hlq & _). fold nv in Hnq. fold nl in Hlq.
  set (s := pp_state pp) in *. set (kv := fun j => vunchanged (fv j)). set (kc := fun i => cunchanged (fc i)).
  assert (Kf : keys (pp_fixed pp) = dropped kv nv) by (rewrite F1; apply keys_fixed_of).
  assert (Kr : pp_removed pp = dropped kc nl) by exact R1.
  assert (Nv : nvr = (nv - Z.of_nat (length (dropped kv nv)))%Z). { unfold nvr. rewrite Hnq, <- Kf. unfold keys. rewrite map_length. rnum. lia. }
  assert (Nl : nlr = (nl - Z.of_nat (length (dropped kc nl)))%Z). { unfold nlr. rewrite Hlq, <- Kr. lia. }
  rewrite Nv in *. rewrite Nl in *. clear Nv Nl.
  assert (Kv : forall j, (0 <= j < nv)%Z -> keep_var s j = Ok (kv j)). { intros j Hj. unfold keep_var. now rewrite (arr_get_arr _ _ _ _ A1 Hj). }
  assert (Kc : forall i, (0 <= i < nl)%Z -> keep_cons s i = Ok (kc i)). { intros i Hi. unfold keep_cons. now rewrite (arr_get_arr _ _ _ _ A2 Hi). }
  unfold restore_multipliers. rewrite Eo. fold s nv ng nl.
  replace (uf_nv (p_func (pp_trans pp))) with (nv - Z.of_nat (length (dropped kv nv)))%Z.
  2:{ rewrite Hnq, <- Kf. unfold keys. rewrite map_length. rnum. lia. }
  replace (p_nl (pp_trans pp)) with (nl - Z.of_nat (length (dropped kc nl)))%Z by (rewrite Hlq, <- Kr; lia).
  rewrite (create_map_spec nv _ (keep_var s) kv Hnv Kv eq_refl). cbn [rbind]. rewrite (create_map_spec nl _ (keep_cons s) kc Hnl Kc eq_refl). cbn [rbind].
  destruct (ws_states _ _ _ _ _ Ht Dtv Dtc) as (T1 & T2 & T3 & T4).
  destruct (states_ok nv ng nl kv kc Hnv Hg0 Hnl s (di_ws t) (stf vst) (stf cst) Kv Kc T3 T4) as (v0 & c0 & E1 & V0 & C0). rewrite E1. cbn [rbind].
  destruct (duals_ok nv ng nl kv kc Hnv Hg0 Hnl (di_vd t) (di_cd t) Wvd Dvd Wcd Dcd) as (z0 & yy0 & E2 & Z0 & YY0). rewrite E2. cbn [rbind fst snd].
  assert (Hnc : (0 <= ng + nl)%Z) by lia.
  unfold store_duals at 1. cbn [r_vd r_cd].
  destruct (set_from_raw_ok (di_vd o) z0 nv _ Wvo Z0 Hnv) as (zv & Ez & Wz & Dz & Hz). rnum. rewrite Ez. cbn [rbind].
  destruct (set_from_raw_ok (di_cd o) yy0 (ng + nl) _ Wco YY0 Hnc) as (yv & Ey & Wy & Dy & Hy). rewrite Ey. cbn [rbind fst snd].
  set (rho0 := lagr ng nl Jc (dense g) (liftc ng nl kc 0 (dense (di_cd t))) (liftv nv kv 0 (dense (di_vd t)))).
  assert (Res : exists rs, @compute_residuals RN nv jac g zv yv (0 : @num RN) = Ok rs /\ arr rs nv rho0).
  { unfold compute_residuals, stationarity_residuals. destruct (stationarity_cache_spec jac Jc g yv zv HJ Wg Wy Wz ltac:(lia) ltac:(lia) ltac:(lia)) as (ca & Eca & Aca). rewrite Eca. cbn [rbind].
    rewrite Djc in Aca. destruct (set_from_raw_ok (evec nv) ca nv _ (wf_evec nv Hnv) Aca Hnv) as (sv & Esv & Wsv & Dsv & Hsv'). rnum. rewrite Esv. cbn [rbind].
    destruct (vec_to_raw_spec sv Wsv) as (rs & Ers & _). exists rs. split; [exact Ers|]. pose proof (to_raw_arr sv rs Wsv Ers) as Ars. rewrite Dsv in Ars. eapply arr_ext; [exact Ars|].
    intros j Hj. cbv beta. rewrite Hsv' by exact Hj. rewrite (stat_at_real jac Jc g yv zv j HJ Wy) by lia. unfold rho0, lagr. rewrite Hz by exact Hj. rewrite Djr.
    rewrite (sumd_ext (ng + nl) _ (fun i => mR Jc i j * liftc ng nl kc 0 (dense (di_cd t)) i)); [lra|]. intros i Hi. cbv beta. now rewrite Hy. }
  destruct Res as (rs & Ers & Ars). rnum. rewrite Ers. cbn [rbind].
  set (Pv := fun j a => @vs_kind RN (fv j) <> VUnchanged -> at_state (dense (p_vlb p) j) (dense (p_vub p) j) (vs_value (fv j)) a).
  assert (PvI : forall j, Pv j Inactive) by (intros j _; exact I).
  assert (Sgv : forall j, (0 <= j < nv - Z.of_nat (length (dropped kv nv)))%Z -> sgn (stf vst j) (dense (di_vd t) j)).
  { unfold supports_vars_dual in Hsv. unbind Hsv. destruct (supports_sgn (di_vd t) (wvst (di_ws t)) _ _ Wvd Dvd T1) as (b & Eb & Hb). apply Hb. rnum. congruence. }
  assert (Sgc : forall i, (0 <= i < ng + (nl - Z.of_nat (length (dropped kc nl))))%Z -> sgn (stf cst i) (dense (di_cd t) i)).
  { unfold supports_cons_dual in Hsc. unbind Hsc. destruct (supports_sgn (di_cd t) (wcst (di_ws t)) _ _ Wcd Dcd T2) as (b & Eb & Hb). apply Hb. rnum. congruence. }
  assert (Cnt : (Z.of_nat (length (filter (fun j => active (stf vst j)) (zrange (nv - Z.of_nat (length (dropped kv nv)))))) + Z.of_nat (length (filter (fun i => active (stf cst i)) (zrange (ng + (nl - Z.of_nat (length (dropped kc nl))))))) <= nv - Z.of_nat (length (dropped kv nv)))%Z).
  { assert (Hvd : ws_valid (di_ws t) = Ok true) by (apply (holds_valid _ _ _ Ht); lia). destruct (valid_counts _ Hvd) as (f' & g' & Q1 & Q2 & Q3). rewrite Dtv, Dtc in *.
    rewrite (filter_ext_in _ (fun j => active (f' j))). 2:{ intros j Hj. apply zrange_In in Hj. pose proof (T3 j Hj). pose proof (Q1 j Hj). congruence. }
    rewrite (filter_ext_in (fun i => active (stf cst i)) (fun i => active (g' i))). 2:{ intros i Hi. apply zrange_In in Hi. pose proof (T4 i Hi). pose proof (Q2 i Hi). congruence. }
    exact Q3. }
  pose proof (F_init nv ng nl kv kc Hnv Hg0 Hnl Jc (dense g) (dense (di_vd t)) (dense (di_cd t)) (stf vst) (stf cst) Sgv Sgc Cnt Pv PvI) as HF0. fold rho0 in HF0.
  set (rem := fun j => negb (kv j)) in *.
  assert (I0 : INV nv ng nl Jc (dense g) rem rho0 Pv (mkrst v0 c0 z0 yy0 rs) rem (fun i => negb (kc i)) (fun _ => 0) 0).
  { do 5 eexists. split; [|exact HF0]. constructor; assumption. }
  (* fixed variables *)
  assert (Sf : sorted_in 0 nv (keys (pp_fixed pp))) by (rnum; rewrite Kf; apply dropped_sorted).
  assert (InF : forall j, In j (keys (pp_fixed pp)) <-> (0 <= j < nv)%Z /\ kv j = false) by (intros j; rnum; rewrite Kf; apply dropped_in). rnum.
  destruct (fixed_loop nv ng nl Jc (dense g) rem rho0 Pv s fv (pp_fixed pp) A1 _ _ _ _ I0) as (r1 & E3 & I1).
  { exact (sorted_in_NoDup _ _ _ Sf). }
  { intros j Hj. now apply InF. }
  { intros j Hj Ek. apply InF in Hj. destruct Hj as [Hj Hk]. unfold rem. rewrite Hk. split; [reflexivity|]. intros _. pose proof (Vok j Hj) as Hvk. unfold var_ok in Hvk. rewrite Ek in Hvk.
    destruct Hvk as [Q1 Q2]. apply rn_eqb in Q2. cbn [at_state]. rewrite Q1. auto. }
  rnum. rewrite E3. cbn [rbind].
  (* converted bounds *)
  assert (Co : forall i j a, In (j, a) (coeffs (p_lin p) cs i) <-> (0 <= j < nv)%Z /\ mget cs i j = Some a /\ a <> 0).
  { intros i j a. rewrite coeffs_in by exact HS. rewrite Hc. fold nv. rewrite rn_n0, rn_eqb_false. reflexivity. }
  assert (CoR : forall i j a, In (j, a) (coeffs (p_lin p) cs i) -> mR cs i j = a). { intros i j a Hin. apply Co in Hin. unfold mR, mdense. rewrite oval_rn. rnum. now rewrite (proj1 (proj2 Hin)). }
  assert (Co0 : forall i j, (0 <= j < nv)%Z -> ~ In j (keys (coeffs (p_lin p) cs i)) -> mR cs i j = 0).
  { intros i j Hj Hn. unfold mR, mdense. rewrite oval_rn. rnum. destruct (mget cs i j) as [a|] eqn:Em; [|reflexivity]. destruct (Req_dec a 0) as [->|Ha]; [reflexivity|].
    destruct Hn. apply (In_keys _ _ a). apply Co. auto. }
  rewrite Forall_forall in K1, Fo1.
  destruct (conv_loop nv ng nl Jc (dense g) Hg0 rem rho0 Pv PvI (ps_conv s) _ _ _ _ I1 K2) as (r2 & E4 & I2).
  { intros cb Hin. destruct (K1 cb Hin) as (Q1 & Q2 & k & Q3). rewrite Hr in Q1. fold nl in Q1.
    assert (Hi1 : In (cb_var cb, cb_factor cb) (coeffs (p_lin p) cs (cb_cons cb))) by (rewrite Q2; now left). pose proof (proj1 (Co _ _ _) Hi1) as (P1 & P2 & P3).
    split; [exact Q1|]. split; [exact P1|]. split; [unfold kc; now rewrite Q3|]. split; [exact P3|]. split; [rewrite Hlin by auto; now apply CoR|].
    intros k' Hk' Hne. rewrite Hlin by auto. apply Co0; [exact Hk'|]. rewrite Q2. cbn [keys map fst]. intros [H|[]]. congruence. }
  rnum. rewrite E4. cbn [rbind].
  (* forcing constraints *)
  assert (Rho : forall j, (0 <= j < nv)%Z -> kv j = false -> dense g j + sumd (ng + nl) (fun i => mR Jc i j * y0 i) = rho0 j).
  { intros j Hj Hk. unfold rho0, lagr, liftv. rewrite Hk, Rplus_0_r. f_equal. apply sumd_ext. intros i Hi. f_equal. unfold liftc. destruct (Z.ltb_spec i ng); [apply Y1; lia|].
    replace i with (ng + (i - ng))%Z at 1 by lia. destruct (kc (i - ng)%Z) eqn:Ki.
    - apply Y2; [lia|]. rewrite Kr. apply kept_posn; [lia|exact Ki].
    - apply Y3. rewrite Kr. apply dropped_in. split; [lia|exact Ki]. }
  assert (Uniq : forall f f' j, In f (ps_forc s) -> In f' (ps_forc s) -> In j (keys (fc_vars f)) -> In j (keys (fc_vars f')) -> f = f').
  { intros f f' j H1 H2 H3 H4. destruct (ForallOrdPairs_In Hdis f f' H1 H2) as [E|[H|H]]; [exact E| |]; destruct (H j); assumption. }
  assert (NDc : forall i, NoDup (keys (coeffs (p_lin p) cs i))) by (intros i; exact (sorted_in_NoDup _ _ _ (coeffs_sorted (p_lin p) cs HS i))).
  destruct (forcing_loop nv ng nl Jc (dense g) Hg0 rem rho0 Pv junk (ps_forc s) r2 _ _ _ I2 Fo2) as (r3 & E5 & I3).
  { intros f Hin. destruct (Fo1 f Hin) as (Q1 & Q2 & Q3 & Q4). rewrite Hr in Q1. fold nl in Q1. split; [exact Q1|]. split.
    { unfold kc. rewrite Q2. cbn [cunchanged negb andb]. destruct (existsb (Z.eqb (fc_cons f)) (map cb_cons (ps_conv s))) eqn:Eb; [|reflexivity].
      apply existsb_In in Eb. apply in_map_iff in Eb. destruct Eb as (cb & Ecb & Hcb). destruct (K1 cb Hcb) as (_ & _ & k & Hk). rewrite Ecb in Hk. congruence. }
    split; [rewrite Q3; apply NDc|]. split; [|split].
    - intros j a Hja. pose proof Hja as Hja'. rewrite Q3 in Hja'. pose proof (proj1 (Co _ _ _) Hja') as (P1 & P2 & P3). pose proof (Q4 j a Hja) as Hk. split; [exact P1|]. split.
      { unfold rem, kv, vunchanged. rewrite Hk. cbn [negb andb]. now rewrite andb_false_r. }
      split; [exact P3|]. split; [rewrite Hlin by auto; now apply CoR|].
      intros _. pose proof (Vok j P1) as Hvk. unfold var_ok in Hvk. rewrite Hk in Hvk. destruct Hvk as [(f' & a' & U1 & U2 & U3)|(a' & [] & _)].
      assert (f' = f) as -> by (apply (Uniq f' f j U1 Hin); [exact (In_keys _ _ _ U2)|exact (In_keys _ _ _ Hja)]).
      assert (a' = a) as ->. { rewrite Q3 in U2. apply Co in U2. destruct U2 as (_ & U2 & _). congruence. }
      rewrite U3. unfold at_bound, desired, desired_upper. destruct (nltb n0 a), (fc_lower f); cbn [Bool.eqb negb at_state]; reflexivity.
    - intros k Hk Hni. rewrite Hlin by auto. apply Co0; [exact Hk|]. now rewrite <- Q3.
    - apply decided_wrong.
      + intros j a Hja. rewrite Q3 in Hja. now apply Co in Hja.
      + rewrite Forall_forall in Hdec. specialize (Hdec f Hin). unfold decided in *.
        assert (HR : forall j a, In (j, a) (fc_vars f) -> dense g j + sumd (ng + nl) (fun i => mR Jc i j * y0 i) = rho0 j).
        { intros j a Hja. apply Rho; [rewrite Q3 in Hja; now apply Co in Hja|]. unfold kv, vunchanged. now rewrite (Q4 j a Hja). }
        destruct Hdec as [Hd|(j & a & Hja & Hd)]; [left|right; exists j, a; split; [exact Hja|]; now rewrite <- (HR j a Hja)].
        intros j a Hja Hu. rewrite <- (HR j a Hja). exact (Hd j a Hja Hu). }
  { exact Hdis. }
  rnum. rewrite E5. cbn [rbind].
  assert (I4 : INV nv ng nl Jc (dense g) rem rho0 Pv r3 (fun _ => false) (fun _ => false) (fun _ => 0) 0).
  { destruct I3 as (V & C & z & y & rho & HR & HF). do 5 eexists. split; [exact HR|]. eapply F_ext; [exact HF| | | |]; auto.
    intros j Hj. symmetry. apply not_true_iff_false. rewrite !andb_true_iff, !negb_true_iff. intros [[H1 H2] H3]. unfold rem in H1. apply negb_true_iff in H1.
    assert (Hex : existsb (Z.eqb j) (keys (pp_fixed pp)) = true) by (apply existsb_In, InF; auto).
    rnum. rewrite Hex in H2. cbn [andb] in H2. pose proof (Vok j Hj) as Hvk. unfold var_ok in Hvk. unfold kv, vunchanged in H1. destruct (vs_kind (fv j)) eqn:Ek; try discriminate.
    destruct Hvk as [(f & a & U1 & U2 & _)|(a & [] & _)]. rewrite <- not_true_iff_false in H3. apply H3. apply existsb_exists. exists f. split; [exact U1|]. apply existsb_In. exact (In_keys _ _ _ U2). }
  destruct I4 as (V & C & z & y & rho & HR & HF). pose proof HR as [].
  destruct (store_working_set_spec nv (ng + nl) r3 (di_ws o) _ _ V C Ho Dov Doc rp_v rp_c) as (w & Ew & Hw & Dwv & Dwc). rewrite Ew. cbn [rbind].
  unfold store_duals. destruct (set_from_raw_ok zv _ nv _ Wz rp_z Hnv) as (zf & Ezf & Wzf & Dzf & Hzf). rnum. rewrite Ezf. cbn [rbind].
  destruct (set_from_raw_ok yv _ (ng + nl) _ Wy rp_y Hnc) as (yf & Eyf & Wyf & Dyf & Hyf). rewrite Eyf. cbn [rbind fst snd].
  exists w, yf, zf. split; [reflexivity|].
  destruct (ws_states _ _ _ _ _ Hw Dwv Dwc) as (W1 & W2 & W3 & W4).
  assert (Hres : forall j, (0 <= j < nv)%Z -> residual (ng + nl) Jc g yf zf j = if rem j then 0 else rho0 j).
  { intros j Hj. pose proof (F_T _ _ _ _ _ _ _ _ _ _ _ _ _ _ _ _ _ HF j Hj) as HT. rewrite (F_rho _ _ _ _ _ _ _ _ _ _ _ _ _ _ _ _ _ HF j Hj) in HT. cbn [negb] in HT. rewrite andb_true_r, Rplus_0_r in HT.
    rewrite <- HT. unfold residual, lagr. rewrite Hzf by exact Hj. f_equal. f_equal. apply sumd_ext. intros i Hi. now rewrite Hyf. }
  constructor; fold nv ng nl; try (split; assumption); [split| | | |].
  { split; [eauto|auto]. }
  { apply (holds_valid _ _ _ Hw). pose proof (F_phi _ _ _ _ _ _ _ _ _ _ _ _ _ _ _ _ _ HF) as Hphi. unfold phi in Hphi.
    rewrite (sumd_ext nv _ (fun j => ind (active (V j)))) in Hphi by (intros j Hj; cbv beta; now rewrite orb_false_r).
    rewrite <- !ind_count in Hphi by assumption. rewrite <- !plus_IZR in Hphi. apply le_IZR in Hphi.
    unfold ws_size. rewrite (h_nav _ _ _ Hw), (h_nac _ _ _ Hw). unfold act_list. rewrite !map_length. lia. }
  - intros j Hj. apply InF in Hj. destruct Hj as [Hj Hk]. rewrite Hres by exact Hj. unfold rem. now rewrite Hk.
  - replace (p_nl (pp_trans pp)) with (nl - Z.of_nat (length (dropped kc nl)))%Z by (rewrite Hlq, <- Kr; lia). intros Jr gr j j' Hj Hk Hg Hm1 Hm2. rewrite Hres by exact Hj. rnum. rewrite Kf in Hk.
    assert (Kj : kv j = true). { destruct (kv j) eqn:E; [reflexivity|]. destruct Hk as [Hk _]. destruct Hk. apply dropped_in. auto. }
    assert (j' = posn kv nv j) as -> by (destruct Hk as [_ ->]; reflexivity).
    unfold rem. rewrite Kj. cbn [negb]. unfold rho0. rewrite (lift_residual nv ng nl kv kc Hg0 Hnl Jc Jr (dense g) (dense gr) (dense (di_vd t)) (dense (di_cd t)) j Hj Kj Hg Hm1); [reflexivity|].
    intros i Hi Ki. apply Hm2; [exact Hi|]. rewrite Kr. now apply kept_posn.
  - intros j Hj. exists (V j). split; [rewrite W3 by exact Hj; now rewrite act_list_state|]. split; [rewrite Hzf by exact Hj; exact (F_V _ _ _ _ _ _ _ _ _ _ _ _ _ _ _ _ _ HF j Hj)|].
    intros Hin. pose proof (proj1 (InF j) Hin) as [_ Hk]. pose proof (F_P _ _ _ _ _ _ _ _ _ _ _ _ _ _ _ _ _ HF j Hj ltac:(unfold rem; now rewrite Hk)) as HPv.
    assert (Hxj : dense x j = vs_value (fv j)).
    { unfold restore_primal in Ex. destruct (merge_entries_inv _ _ _ _ Wpt Wpo ltac:(rewrite Dpo; exact Sf) Ex) as (_ & _ & _ & _ & Hxf). apply Hxf. rewrite F1. apply fixed_of_in. auto. }
    rewrite Hxj. apply HPv. unfold kv, vunchanged in Hk. intros Heq. rewrite Heq in Hk. discriminate.
  - intros i Hi. exists (C i). split; [rewrite W4 by exact Hi; now rewrite act_list_state|]. rewrite Hyf by exact Hi. exact (F_C _ _ _ _ _ _ _ _ _ _ _ _ _ _ _ _ _ HF i Hi).
Qed.

Lemma restore_primal_ok (t o : @diter RN) : reduced_ok p pp t o -> exists x, restore_primal pp (di_primal t) (di_primal o) = Ok x /\ wf x /\ vdim x = nv.
Proof.
  intros []. destruct ri_primal0 as [Wt Dt]. destruct ri_oprimal0 as [Wo Do]. pose proof HP as (HS & Hr & Hc & Hg0 & (Wvl & Dvl) & (Wvu & Dvu) & _).
  destruct (pre_struct p cs _ _ pp HS Hr Hc Wvl Dvl Wvu Dvu Hpre) as (Eo & (fv & fc & rv & rc & A1 & A2 & A3 & A4 & _) & Ef & Er & Et).
  rewrite Hc in A1, A3. rewrite Hr in A2, A4. pose proof (nv_pos p cs HP) as Hnv. pose proof (nl_pos p cs HP) as Hnl.
  destruct (create_fixed_inv _ _ _ _ Hnv A1 Ef) as [F1 F2]. destruct (create_removed_inv _ _ _ _ Hnl A2 Er) as [R1 R2].
  destruct (trans_problem p cs HP _ _ _ fv fc rv rc A3 A4 F1 F2 R1 R2 _ Et) as (cs' & HQ & Hfq & Hnq & Hlq & _).
  destruct (merge_entries_spec (di_primal t) (di_primal o) (pp_fixed pp) Wt Wo) as (x & E & Wx & Dx & _).
  - rewrite Do, F1. apply fixed_of_sorted.
  - rewrite Dt, Do, Hnq. lia.
  - exists x. split; [exact E|]. split; [exact Wx|]. now rewrite Dx.
Qed.
End Restoration.

(** ** C29 *)
(** Without feasibility, optimality or any property of the reduced iterate other than the signs of its
    multipliers, restoration succeeds (all its assertions hold) and the promises above hold, for
    every value [junk] of the uninitialised variable.  Missing: forcing constraints that share a variable,
    and undecided forcing constraints (both refuted below). *)
Theorem C29_restore_partial : forall (p : @problem RN) cs (feas : R) (pp : @preproc RN) (junk : Z) eval (t o : @diter RN) (J : rvec -> list (list (Z * R))) (y : Z -> R),
  pdata p cs -> pre_create p (feas : @num RN) (0 : @num RN) = Ok pp -> reduced_ok p pp t o ->
  (forall x, wf x -> vdim x = uf_nv (p_func p) -> exists g jac, eval x = Ok (g, jac) /\ eval_ok p cs g jac (J x)
     /\ Forall (decided (fun j => dense g j + sumd (uf_nc (p_func p) + p_nl p) (fun i => mR (J x) i j * y i))) (ps_forc (pp_state pp))) ->
  extends p pp (di_cd t) y -> disjoint_forcing (ps_forc (pp_state pp)) ->
  exists it g jac, @restore_iterate RN pp junk (0 : @num RN) eval t o = Ok it
    /\ restore_primal pp (di_primal t) (di_primal o) = Ok (di_primal it) /\ eval (di_primal it) = Ok (g, jac)
    /\ restored_ok p pp t g (J (di_primal it)) (di_primal it) (di_ws it) (di_cd it) (di_vd it).
Proof.
  intros p cs feas pp junk eval t o J y HP Hpre HR Hev Hy Hdis.
  destruct (restore_primal_ok p cs feas pp HP Hpre t o HR) as (x & Ex & Wx & Dx). destruct (Hev x Wx Dx) as (g & jac & Ee & He & Hdec).
  destruct (multipliers_main p cs feas pp HP Hpre junk t o x g jac (J x) y HR Ex He Hy Hdis Hdec) as (w & cd & vd & Em & Hm).
  exists (mkdi x w cd vd), g, jac. unfold restore_iterate. rewrite Ex. cbn [rbind]. rewrite Ee. cbn [rbind fst snd]. rnum. rewrite Em. cbn [rbind].
  pose proof Hm as [[((vs & cs' & Hw) & Dv & Dc) Hval] [Wvd Dvd] [Wcd Dcd] _ _ Sv Sc]. rewrite Hval. cbn [rbind check].
  destruct (ws_states _ _ _ _ _ Hw Dv Dc) as (W1 & W2 & W3 & W4). rewrite (ri_sc _ _ _ _ HR), (ri_sv _ _ _ _ HR). cbn [rbind].
  assert (S1 : supports_cons_dual w cd = Ok true).
  { unfold supports_cons_dual. rewrite Dcd, Dc, Z.eqb_refl. cbn [check rbind]. destruct (supports_sgn cd (wcst w) _ _ Wcd Dcd W2) as (b & E & Hb). rewrite E. f_equal. apply Hb.
    intros i Hi. destruct (Sc i Hi) as (s & Es & Hs). rewrite W4 in Es by exact Hi. injection Es as ->. exact Hs. }
  assert (S2 : supports_vars_dual w vd = Ok true).
  { unfold supports_vars_dual. rewrite Dvd, Dv, Z.eqb_refl. cbn [check rbind]. destruct (supports_sgn vd (wvst w) _ _ Wvd Dvd W1) as (b & E & Hb). rewrite E. f_equal. apply Hb.
    intros i Hi. destruct (Sv i Hi) as (s & Es & Hs & _). rewrite W3 in Es by exact Hi. injection Es as ->. exact Hs. }
  rnum. rewrite S1. cbn [rbind implb check]. rewrite S2. cbn [rbind implb check]. split; [reflexivity|]. cbn [di_primal di_ws di_cd di_vd]. auto.
Qed.
Print Assumptions C29_restore_partial.

(** x0 + x1 <= 0 on [0, 1]^2 and 2 x2 <= 1 with x2 in [0, 1]: the first row forces x0 and x1, the second one becomes a bound. *)
Definition ex29c : list (list (Z * R)) := [[(0%Z, 1)]; [(0%Z, 1)]; [(1%Z, 2)]].
Definition ex29 := linp 3 [0; 0; 0] [1; 1; 1] (mkmat 2 3 3 3 [0; 1; 2; 3]%Z [(0%Z, 1); (0%Z, 1); (1%Z, 2)]) [- (2 * hi); - (2 * hi)] [0; 1].
Lemma ex29_pre : exists pp, pre_create ex29 (0 : @num RN) (0 : @num RN) = Ok pp /\ uf_nv (p_func (pp_trans pp)) = 1%Z /\ p_nl (pp_trans pp) = 0%Z
  /\ pp_removed pp = [0; 1]%Z /\ keys (pp_fixed pp) = [0; 1]%Z /\ ps_forc (pp_state pp) = [@mkfc RN 0 [(0%Z, 1); (1%Z, 1)] false].
Proof.
  eexists. split; [ev punf|]. split; [reflexivity|]. split; [reflexivity|]. split; [reflexivity|]. split; [reflexivity|]. 
  reflexivity.
Qed.

(** The reduced iterate has the variable x2 at its new upper bound, with multiplier 4. *)
Definition ex29t (w : wset) : @diter RN := mkdi (vd [1 / 2]) w (evec 0) (vd [4]).
Definition ex29o : @diter RN := mkdi (evec 3) (ws_create 3 2) (evec 2) (evec 3).

Example C29_example : exists pp w, pdata ex29 ex29c /\ pre_create ex29 (0 : @num RN) (0 : @num RN) = Ok pp /\ reduced_ok ex29 pp (ex29t w) ex29o
  /\ eval_ok ex29 ex29c (vd [-3; 5; -4]) (p_lin ex29) ex29c /\ extends ex29 pp (di_cd (ex29t w)) (fun _ => 0) /\ disjoint_forcing (ps_forc (pp_state pp))
  /\ Forall (decided (fun j => dense (vd [-3; 5; -4]) j + sumd 2 (fun i => mR ex29c i j * 0))) (ps_forc (pp_state pp)).
Proof.
  destruct ex29_pre as (pp & E & En & El & Er & Ef & Ec). exists pp.
  assert (Hst : stores (p_lin ex29) ex29c).
  { unfold stores, layout; cbn. repeat split; try lia.
    - intros [|[|[|[|j]]]] Hj; cbn; try reflexivity. lia.
    - now exists [].
    - repeat constructor; cbn; lia. }
  assert (Wc : forall a b, (0 <= a)%Z -> (0 <= b)%Z -> ws_ok (ws_create a b) a b).
  { intros a b Ha Hb. split; [|split; reflexivity]. exists [], []. now apply create_holds. }
  destruct (add_var_holds (ws_create 1 0) [] [] 0 ActUpper) as (w & Ew & Hw & Dv & Dc); [apply create_holds; lia|cbn; lia|reflexivity|auto|discriminate|].
  exists w. split; [|split; [exact E|]].
  { unfold pdata. split; [exact Hst|]. unfold wf. cbn. repeat split; lia. }
  assert (Hw' : ws_add_var (ws_create 1 0) 0 ActUpper = Ok (mkws 1 0 [ActUpper] [] [0%Z] [] [Some 0%Z] 1 0)) by reflexivity. rewrite Hw' in Ew. injection Ew as <-.
  split; [|split; [|split; [|split]]].
  - constructor; rewrite ?En, ?El.
    + split; [eauto|]. split; reflexivity.
    + cbn. lia.
    + unfold wf. cbn. repeat split; lia.
    + unfold wf. cbn. repeat split; lia.
    + unfold supports_vars_dual, supports_range, ex29t. cbn [di_vd di_ws vd vdim vent]. leaf.
    + reflexivity.
    + unfold wf. cbn. repeat split; lia.
    + apply (Wc 3%Z 2%Z); lia.
    + unfold wf. cbn. repeat split; lia.
    + apply wf_evec. lia.
    + apply wf_evec. lia.
  - constructor.
    + unfold wf. cbn. repeat split; lia.
    + split; [exact Hst|]. split; reflexivity.
    + intros i j _ _. reflexivity.
  - split; [|split].
    + intros i Hi. cbn in Hi. lia.
    + intros i i' Hi [Hn _]. rewrite Er in Hn. cbn in Hi. destruct Hn. assert (i = 0 \/ i = 1)%Z as [->| ->] by lia; cbn; auto.
    + reflexivity.
  - rewrite Ec. constructor; constructor.
  - rewrite Ec. constructor; [|constructor]. right. exists 0%Z, 1. split; [now left|]. right. cbn [fc_lower at_upper]. split; [lra|].
    rewrite (sumd_ext 2 _ (fun _ => 0)) by (intros; lra). rewrite sumd_zero by reflexivity. rc. lra.
Qed.
