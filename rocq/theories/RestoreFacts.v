(** What the preprocessor leaves for the restoration: the recorded conversions and forcing
    constraints describe rows of the matrix, for every arithmetic and every tolerance. *)
From Verif Require Import Base Num Cmp Sparse Vec VecFacts VecFacts2 Mat MatFacts MatFacts2 MatFacts3 MatFacts4 Arr Problem Preproc PreprocFacts.
Local Open Scope Z_scope.

Section Struct.
Context {N : Num}.
Variables (m : mat) (cs : list (list (Z * num))).
Hypothesis HS : stores m cs.
Let nl := mnr m.
Let nv := mnc m.
Let co := coeffs m cs.
Variables (vl vu : Z -> num).

Definition at_bound (lower : bool) (a : num) (j : Z) : num := if Bool.eqb (nltb n0 a) lower then vu j else vl j.

Definition conv_ok (fc : Z -> ckind) (cb : cbound) : Prop :=
  0 <= cb_cons cb < nl /\ co (cb_cons cb) = [(cb_var cb, cb_factor cb)] /\ exists k, fc (cb_cons cb) = CConverted k.
Definition forc_ok (fv : Z -> vstate) (fc : Z -> ckind) (f : fcons) : Prop :=
  0 <= fc_cons f < nl /\ fc (fc_cons f) = CRedundant /\ fc_vars f = co (fc_cons f)
  /\ forall j a, In (j, a) (fc_vars f) -> vs_kind (fv j) = VForcingFixed.
(** [ex] lists the coefficients of a row (with its bound) that is being processed. *)
Definition var_ok (fv : Z -> vstate) (forc : list fcons) (ex : list (Z * num)) (lower : bool) (j : Z) : Prop :=
  match vs_kind (fv j) with
  | VUnchanged => True
  | VBoundFixed => vs_value (fv j) = vl j /\ neqb (vl j) (vu j) = true
  | VForcingFixed => (exists f a, In f forc /\ In (j, a) (fc_vars f) /\ vs_value (fv j) = at_bound (fc_lower f) a j)
      \/ exists a, In (j, a) ex /\ vs_value (fv j) = at_bound lower a j
  end.

Definition ST (ex : list (Z * num)) (lower : bool) (s : pst) fv fc rv rc : Prop :=
  arr (ps_vars s) nv fv /\ arr (ps_cons s) nl fc /\ arr (ps_vreq s) nv rv /\ arr (ps_creq s) nl rc
  /\ Forall (conv_ok fc) (ps_conv s) /\ NoDup (map cb_cons (ps_conv s))
  /\ Forall (forc_ok fv fc) (ps_forc s) /\ NoDup (map fc_cons (ps_forc s))
  /\ forall j, 0 <= j < nv -> var_ok fv (ps_forc s) ex lower j.
Definition st s : Prop := exists fv fc rv rc, ST [] false s fv fc rv rc.

Ltac split_st := unfold ST; split; [|split; [|split; [|split; [|split; [|split; [|split; [|split]]]]]]].

Lemma st_reset : st (state_reset nv nl).
Proof.
  exists (fun _ => mkvs VUnchanged n0), (fun _ => CUnchanged), (fun _ => (false, false)), (fun _ => (false, false)).
  split_st; cbn [ps_vars ps_cons ps_vreq ps_creq ps_conv ps_forc state_reset map]; try apply arr_repeat; try constructor.
Qed.

Lemma st_fix s j s' : st s -> neqb (vl j) (vu j) = true -> state_fix_var s j (vl j) = Ok s' -> st s'.
Proof.
  intros (fv & fc & rv & rc & A1 & A2 & A3 & A4 & K1 & K2 & F1 & F2 & V) Hv E. unfold state_fix_var in E. unbind E. unbind E. unbind E.
  destruct (arr_get_inv _ _ _ _ _ A1 E0) as [Hj ->]. apply check_ok in E1. destruct (arr_set_inv _ _ _ _ _ _ A1 E2) as [_ A1'].
  injection E as <-. exists (upd fv j (mkvs VBoundFixed (vl j))), fc, rv, rc. split_st; cbn [ps_vars ps_cons ps_vreq ps_creq ps_conv ps_forc]; auto.
  - eapply Forall_impl; [|exact F1]. intros f (Q1 & Q2 & Q3 & Q4). split; [exact Q1|]. split; [exact Q2|]. split; [exact Q3|].
    intros k a Hin. specialize (Q4 k a Hin). unfold upd. destruct (Z.eqb_spec k j) as [->|]; [|exact Q4]. unfold vunchanged in E1. rewrite Q4 in E1. discriminate.
  - intros k Hk. unfold var_ok, upd. destruct (Z.eqb_spec k j) as [->|]; [cbn [vs_kind vs_value]; auto|]. exact (V k Hk).
Qed.

Lemma st_remove_gen ex lower s i s' fv fc rv rc : ST ex lower s fv fc rv rc -> state_remove_cons s i = Ok s' ->
  0 <= i < nl /\ cunchanged (fc i) = true /\ ps_forc s' = ps_forc s /\ ST ex lower s' fv (upd fc i CRedundant) rv (upd rc i (true, true)).
Proof.
  intros (A1 & A2 & A3 & A4 & K1 & K2 & F1 & F2 & V) Es. unfold state_remove_cons in Es. unbind Es. unbind Es. unbind Es. unbind Es.
  destruct (arr_get_inv _ _ _ _ _ A2 E) as [Hi ->]. apply check_ok in E0. destruct (arr_set_inv _ _ _ _ _ _ A2 E1) as [_ A2']. destruct (arr_set_inv _ _ _ _ _ _ A4 E2) as [_ A4'].
  injection Es as <-. split; [exact Hi|]. split; [exact E0|]. split; [reflexivity|]. split_st; cbn [ps_vars ps_cons ps_vreq ps_creq ps_conv ps_forc]; auto.
  - eapply Forall_impl; [|exact K1]. intros cb (Q1 & Q2 & k & Q3). split; [exact Q1|]. split; [exact Q2|]. exists k. unfold upd.
    destruct (Z.eqb_spec (cb_cons cb) i) as [<-|]; [rewrite Q3 in E0; discriminate|exact Q3].
  - eapply Forall_impl; [|exact F1]. intros f (Q1 & Q2 & Q3 & Q4). split; [exact Q1|]. split; [|split; [exact Q3|exact Q4]]. unfold upd. destruct (_ =? _); [reflexivity|exact Q2].
Qed.

Lemma st_remove s i s' : st s -> state_remove_cons s i = Ok s' -> st s'.
Proof. intros (fv & fc & rv & rc & H) E. destruct (st_remove_gen _ _ _ _ _ _ _ _ _ H E) as (_ & _ & _ & H'). unfold st. eauto 6. Qed.

Lemma st_convert s i j a lb ub low up s' : st s -> co i = [(j, a)] -> state_convert s i j a lb ub low up = Ok s' -> st s'.
Proof.
  intros (fv & fc & rv & rc & A1 & A2 & A3 & A4 & K1 & K2 & F1 & F2 & V) Hco Es. unfold state_convert in Es. unbind Es. unbind Es. unbind Es. unbind Es. unbind Es. unbind Es.
  destruct (arr_get_inv _ _ _ _ _ A2 E1) as [Hi ->]. apply check_ok in E2. destruct (arr_set_inv _ _ _ _ _ _ A2 E4) as [_ A2'].
  injection Es as <-. exists fv, (upd fc i (CConverted (Z.of_nat (length (ps_conv s))))), rv, rc. split_st; cbn [ps_vars ps_cons ps_vreq ps_creq ps_conv ps_forc]; auto.
  - apply Forall_app. split.
    + eapply Forall_impl; [|exact K1]. intros cb (Q1 & Q2 & k & Q3). split; [exact Q1|]. split; [exact Q2|]. unfold upd. destruct (_ =? _); eauto.
    + constructor; [|constructor]. unfold conv_ok. cbn [cb_cons cb_var cb_factor]. split; [exact Hi|]. split; [exact Hco|]. unfold upd. rewrite Z.eqb_refl. eauto.
  - rewrite map_app. cbn [map cb_cons]. apply NoDup_snoc; [exact K2|]. intros Hin. apply in_map_iff in Hin. destruct Hin as (cb & <- & Hin).
    rewrite Forall_forall in K1. destruct (K1 cb Hin) as (_ & _ & k & Q3). rewrite Q3 in E2. discriminate.
  - eapply Forall_impl; [|exact F1]. intros f (Q1 & Q2 & Q3 & Q4). split; [exact Q1|]. split; [|split; [exact Q3|exact Q4]]. unfold upd.
    destruct (Z.eqb_spec (fc_cons f) i) as [<-|]; [rewrite Q2 in E2; discriminate|exact Q2].
Qed.

Lemma st_vreq s j q s' : st s -> add_var_req s j q = Ok s' -> st s'.
Proof.
  intros (fv & fc & rv & rc & A1 & A2 & A3 & A4 & R) Es. unfold add_var_req in Es. unbind Es. unbind Es.
  destruct (arr_set_inv _ _ _ _ _ _ A3 E0) as [_ A3']. injection Es as <-. exists fv, fc, (upd rv j (req_or a q)), rc.
  unfold ST. cbn [ps_vars ps_cons ps_vreq ps_creq ps_conv ps_forc]. auto 8.
Qed.

Lemma st_creq s j q s' : st s -> add_cons_req s j q = Ok s' -> st s'.
Proof.
  intros (fv & fc & rv & rc & A1 & A2 & A3 & A4 & R) Es. unfold add_cons_req in Es. unbind Es. unbind Es.
  destruct (arr_set_inv _ _ _ _ _ _ A4 E0) as [_ A4']. injection Es as <-. exists fv, fc, rv, (upd rc j (req_or a q)).
  unfold ST. cbn [ps_vars ps_cons ps_vreq ps_creq ps_conv ps_forc]. auto 8.
Qed.

Section Arrays.
Variables (vlb vub : list num).
Hypotheses (Hvlb : arr vlb nv vl) (Hvub : arr vub nv vu).

Lemma force_loop i lower L : forall s s' D fv fc rv rc, (forall e, In e (D ++ L) -> In e (co i)) ->
  ST (co i) lower s fv fc rv rc -> (forall j a, In (j, a) D -> vs_kind (fv j) = VForcingFixed) ->
  rfold (force_var vlb vub lower) s L = Ok s' ->
  ps_cons s' = ps_cons s /\ ps_forc s' = ps_forc s /\
  exists fv', ST (co i) lower s' fv' fc rv rc /\ forall j a, In (j, a) (D ++ L) -> vs_kind (fv' j) = VForcingFixed.
Proof.
  induction L as [|[j v] L IH]; intros s s' D fv fc rv rc HL HT HD El; cbn [rfold] in El.
  - injection El as <-. rewrite app_nil_r. eauto.
  - unbind El. destruct HT as (A1 & A2 & A3 & A4 & K1 & K2 & F1 & F2 & V).
    unfold force_var in E. cbn [fst snd] in E. unbind E. unbind E. unbind E. unbind E. injection E as <-.
    destruct (arr_set_inv _ _ _ _ _ _ A1 E3) as [Hj A1'].
    assert (Hval : a0 = at_bound lower v j).
    { unfold at_bound. destruct (Bool.eqb (nltb n0 v) lower); cbn [negb] in E0.
      - now destruct (arr_get_inv _ _ _ _ _ Hvub E0).
      - now destruct (arr_get_inv _ _ _ _ _ Hvlb E0). }
    replace (D ++ (j, v) :: L) with ((D ++ [(j, v)]) ++ L) in * by now rewrite <- app_assoc.
    edestruct (fun H1 H2 => IH _ s' (D ++ [(j, v)]) (upd fv j (mkvs VForcingFixed a0)) fc rv rc HL H1 H2 El) as (I1 & I2 & I3); [| |cbn [ps_cons ps_forc] in *; auto].
    + split_st; cbn [ps_vars ps_cons ps_vreq ps_creq ps_conv ps_forc]; auto.
      * eapply Forall_impl; [|exact F1]. intros f (Q1 & Q2 & Q3 & Q4). split; [exact Q1|]. split; [exact Q2|]. split; [exact Q3|].
        intros k b Hin. unfold upd. destruct (k =? j); [reflexivity|exact (Q4 k b Hin)].
      * intros k Hk. unfold var_ok, upd. destruct (Z.eqb_spec k j) as [->|]; [|exact (V k Hk)]. cbn [vs_kind vs_value]. right. exists v. split; [|exact Hval].
        apply HL. apply in_app_iff. left. apply in_app_iff. right. now left.
    + intros k b Hin. unfold upd. destruct (Z.eqb_spec k j) as [->|Hne]; [reflexivity|]. apply in_app_iff in Hin. destruct Hin as [Hin|[Hin|[]]]; [eauto|congruence].
Qed.

Lemma st_force s i lower s' : st s -> state_force m nv vlb vub s i lower = Ok s' -> st s'.
Proof.
  intros (fv & fc & rv & rc & H) Es. unfold state_force in Es. unbind Es. pose proof (row_coeffs_spec m cs HS i) as Hrc. fold nv in Hrc. rewrite Hrc in E. injection E as <-. fold co in Es.
  unbind Es. destruct (st_remove_gen _ _ _ _ _ _ _ _ _ H E) as (Hi & Hu & HF & H1). destruct (co i) as [|e L] eqn:Eco.
  - injection Es as <-. unfold st. eauto 6.
  - unbind Es. unbind Es. injection Es as <-. rewrite <- Eco in *. clear E0.
    assert (H2 : ST (co i) lower a fv (upd fc i CRedundant) rv (upd rc i (true, true))).
    { destruct H1 as (A1 & A2 & A3 & A4 & K1 & K2 & F1 & F2 & V). split_st; auto. intros j Hj. specialize (V j Hj). unfold var_ok in *.
      destruct (vs_kind (fv j)); auto. destruct V as [V|(b & [] & _)]. auto. }
    destruct (force_loop i lower (co i) a a1 [] fv _ _ _ (fun e He => He) H2 ltac:(intros j b []) E1) as (Q1 & Q2 & fv' & H3 & HD). cbn [app] in HD.
    destruct H3 as (A1 & A2 & A3 & A4 & K1 & K2 & F1 & F2 & V). exists fv', (upd fc i CRedundant), rv, (upd rc i (true, true)).
    split_st; cbn [ps_vars ps_cons ps_vreq ps_creq ps_conv ps_forc]; auto.
    + apply Forall_app. split; [exact F1|]. constructor; [|constructor]. unfold forc_ok. cbn [fc_cons fc_vars]. split; [exact Hi|]. split; [unfold upd; now rewrite Z.eqb_refl|]. split; [reflexivity|]. exact HD.
    + rewrite map_app. cbn [map fc_cons]. apply NoDup_snoc; [exact F2|]. intros Hin. apply in_map_iff in Hin. destruct Hin as (f & <- & Hin). rewrite Q2, HF in Hin.
      destruct H as (_ & _ & _ & _ & _ & _ & F1' & _). rewrite Forall_forall in F1'. destruct (F1' f Hin) as (_ & Q & _). rewrite Q in Hu. discriminate.
    + intros j Hj. specialize (V j Hj). unfold var_ok in *. destruct (vs_kind (fv' j)); auto. left. destruct V as [(f & b & V1 & V2 & V3)|(b & V1 & V2)].
      * exists f, b. rewrite in_app_iff. auto.
      * exists (mkfc i (co i) lower), b. rewrite in_app_iff. cbn [fc_vars fc_lower]. split; [right; now left|auto].
Qed.

Lemma st_fix_vars s s' : st s -> fix_vars nv vlb vub s = Ok s' -> st s'.
Proof.
  intros Hs E. unfold fix_vars in E. revert E. apply rfold_inv; [exact Hs|]. clear s s' Hs. intros s j s' Hs Hj E. unbind E. unbind E.
  destruct (arr_get_inv _ _ _ _ _ Hvlb E0) as [Hj' ->]. destruct (arr_get_inv _ _ _ _ _ Hvub E1) as [_ ->].
  destruct (neqb (vl j) (vu j)) eqn:En; [|injection E as <-; exact Hs]. exact (st_fix s j s' Hs En E).
Qed.

Lemma st_singleton llb lub ents si i si' : st (fst si) -> 0 <= i < nl ->
  arr ents nl (fun i => (Z.of_nat (length (co i)), last (map Some (co i)) None)) ->
  singleton_step vlb vub llb lub ents si i = Ok si' -> st (fst si').
Proof.
  intros Hs Hi He E. unfold singleton_step in E. destruct si as [s inf]. cbn [fst snd] in *. unbind E.
  destruct (cunchanged a); cbn [negb] in E; [|injection E as <-; auto].
  rewrite (arr_get_arr _ _ _ _ He Hi) in E. cbn [rbind fst] in E. unbind E. unbind E.
  destruct (_ && _) in E; [unbind E; injection E as <-; exact (st_remove _ _ _ Hs E3)|].
  destruct (_ =? 0) in E.
  - destruct (_ || _) in E; [injection E as <-; exact Hs|]. unbind E. injection E as <-. exact (st_remove _ _ _ Hs E3).
  - destruct (Z.eqb_spec (Z.of_nat (length (co i))) 1) as [H1|H1]; [|injection E as <-; auto]. unbind E. injection E as <-. cbn [fst].
    unfold convert_cons in E3. rewrite (arr_get_arr _ _ _ _ He Hi) in E3. cbn [rbind snd] in E3.
    destruct (co i) as [|[j v] [|]] eqn:Eco; try (cbn in H1; lia). cbn [map last] in E3.
    unbind E3. unbind E3. unbind E3. unbind E3. unbind E3. destruct (_ || _) in E3.
    + exact (st_convert _ _ _ _ _ _ _ _ _ Hs Eco E3).
    + exact (st_remove _ _ _ Hs E3).
Qed.

Lemma st_redundant llb lub mms feas s i s' : st s -> redundant_step llb lub mms feas s i = Ok s' -> st s'.
Proof.
  intros Hs E. unfold redundant_step in E. unbind E. destruct (cunchanged a); cbn [negb] in E; [|injection E as <-; auto]. unbind E. unbind E. unbind E.
  destruct (_ && _) in E; [exact (st_remove _ _ _ Hs E)|injection E as <-; auto].
Qed.

Lemma st_check_cons_step llb lub mms feas si i si' : st (fst si) -> check_cons_step m nv vlb vub llb lub mms feas si i = Ok si' -> st (fst si').
Proof.
  intros Hs E. unfold check_cons_step in E. destruct si as [s inf]. cbn [fst] in *. unbind E. destruct (cunchanged a); cbn [negb] in E; [|injection E as <-; auto]. unbind E. unbind E. unbind E.
  destruct (_ && _) in E; [unbind E; injection E as <-; exact (st_force _ _ _ _ Hs E4)|].
  destruct (is_finite a1 && _ && _) in E; [unbind E; injection E as <-; exact (st_force _ _ _ _ Hs E4)|injection E as <-; auto].
Qed.

Lemma st_cons_req llb lub mms feas s i s' : st s -> cons_req_step llb lub mms feas s i = Ok s' -> st s'.
Proof.
  intros Hs E. unfold cons_req_step in E. unbind E. destruct (cunchanged a); cbn [negb] in E; [|injection E as <-; auto]. unbind E. unbind E. unbind E. unbind E.
  assert (H : st a3) by (destruct (_ && _) in E4; [exact (st_creq _ _ _ _ Hs E4)|injection E4 as <-; exact Hs]).
  destruct (_ && _) in E; [exact (st_creq _ _ _ _ H E)|injection E as <-; exact H].
Qed.

Lemma st_check_vars bs feas si j si' : st (fst si) -> check_vars_step vlb vub bs feas si j = Ok si' -> st (fst si').
Proof.
  intros Hs E. unfold check_vars_step in E. destruct si as [s inf]. cbn [fst] in *. unbind E. destruct (vunchanged a); cbn [negb] in E; [|injection E as <-; auto]. unbind E. unbind E. unbind E. unbind E. unbind E. injection E as <-. cbn [fst].
  assert (H : st a3) by (destruct (_ && _) in E4; [exact (st_vreq _ _ _ _ Hs E4)|injection E4 as <-; exact Hs]).
  destruct (_ && _) in E5; [exact (st_vreq _ _ _ _ H E5)|injection E5 as <-; exact H].
Qed.
End Arrays.
End Struct.

(** The outcome of [pre_create]. *)
Lemma pre_struct {N : Num} (p : problem) cs feas zeps pp :
  stores (p_lin p) cs -> mnr (p_lin p) = p_nl p -> mnc (p_lin p) = uf_nv (p_func p) ->
  wf (p_vlb p) -> vdim (p_vlb p) = uf_nv (p_func p) -> wf (p_vub p) -> vdim (p_vub p) = uf_nv (p_func p) ->
  pre_create p feas zeps = Ok pp ->
  pp_orig pp = p /\ st (p_lin p) cs (dense (p_vlb p)) (dense (p_vub p)) (pp_state pp)
  /\ create_fixed (pp_state pp) (uf_nv (p_func p)) = Ok (pp_fixed pp) /\ create_removed (pp_state pp) (p_nl p) = Ok (pp_removed pp)
  /\ transformed_problem p (pp_state pp) (pp_fixed pp) (pp_removed pp) zeps = Ok (pp_trans pp).
Proof.
  intros HS Hr Hc Wl Dl Wu Du E. unfold pre_create in E. unbind E. unbind E. unbind E. unbind E. unbind E. unbind E. unbind E. injection E as <-.
  cbn [pp_orig pp_state pp_infeasible pp_fixed pp_removed pp_trans]. split; [reflexivity|]. split; [|auto].
  assert (Avl : arr a (mnc (p_lin p)) (dense (p_vlb p))).
  { destruct (vec_to_raw_spec (p_vlb p) Wl) as (l & El & Hl & Hd). assert (l = a) by congruence. subst l. rewrite Hc, <- Dl. split; [lia|exact Hd]. }
  assert (Avu : arr a0 (mnc (p_lin p)) (dense (p_vub p))).
  { destruct (vec_to_raw_spec (p_vub p) Wu) as (l & El & Hl & Hd). assert (l = a0) by congruence. subst l. rewrite Hc, <- Du. split; [lia|exact Hd]. }
  pose proof (cons_counts_spec (p_lin p) cs HS) as (ents & Ee & Aents).
  assert (I1 : st (p_lin p) cs (dense (p_vlb p)) (dense (p_vub p)) a1).
  { eapply st_fix_vars; [exact Avl|exact Avu|apply st_reset|]. rewrite Hc, Hr. exact E2. }
  unfold remove_redundant in E3. rewrite <- Hc, <- Hr in E3. unbind E3. clear E. unbind E3. unbind E3. unbind E3. unbind E3. unbind E3. unbind E3. unbind E3. unbind E3.
  assert (ents = a7) by congruence. subst ents.
  assert (I2 : st (p_lin p) cs (dense (p_vlb p)) (dense (p_vub p)) (fst a10)).
  { revert E9. apply (rfold_inv (fun si => st (p_lin p) cs (dense (p_vlb p)) (dense (p_vub p)) (fst si))); [exact I1|]. intros si i si' Hsi Hi Es. apply zrange_In in Hi. eapply st_singleton; eauto. }
  assert (I3 : st (p_lin p) cs (dense (p_vlb p)) (dense (p_vub p)) a12).
  { revert E11. apply rfold_inv; [exact I2|]. intros s i s' Hs Hi Es. eapply st_redundant; eauto. }
  assert (I4 : st (p_lin p) cs (dense (p_vlb p)) (dense (p_vub p)) (fst a13)).
  { unfold check_cons in E12. unbind E12. unbind E12. injection E12 as <-. cbn [fst].
    assert (J : st (p_lin p) cs (dense (p_vlb p)) (dense (p_vub p)) (fst a15)).
    { revert E14. apply (rfold_inv (fun si => st (p_lin p) cs (dense (p_vlb p)) (dense (p_vub p)) (fst si))); [exact I3|]. intros si i si' Hsi Hi Es. eapply st_check_cons_step; eauto. }
    revert E15. apply rfold_inv; [exact J|]. intros s i s' Hs Hi Es. eapply st_cons_req; eauto. }
  revert E3. apply (rfold_inv (fun si => st (p_lin p) cs (dense (p_vlb p)) (dense (p_vub p)) (fst si))); [exact I4|]. intros si j si' Hsi Hj Es. eapply st_check_vars; eauto.
Qed.
