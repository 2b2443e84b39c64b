(** Where the functions are when they are asked for values, and to which points stored values
    belong. *)
From Verif Require Import Base Num Cmp Sparse Vec Mat WorkingSet Feas TrustRadius Problem Restoration Solver SolverFacts SolverIter SolverLoop SolverEvents.
Local Open Scope Z_scope.

(** ** Vectors *)
Section Vecs.
Context {N : Num}.

Definition noerr {A} (r : res A) : Prop := forall c, r <> Err c.
Lemma noerr_bind {A B} (r : res A) (k : A -> res B) : noerr r -> (forall a, noerr (k a)) -> noerr (rbind r k).
Proof. intros Hr Hk c. destruct r as [a|e|]; cbn; [apply Hk|intros _; now apply (Hr e)|discriminate]. Qed.
Lemma noerr_ok {A} (a : A) : noerr (Ok a).
Proof. discriminate. Qed.
Lemma noerr_check b : noerr (check b).
Proof. destruct b; discriminate. Qed.
Lemma align_noerr dim (ls : list (list (Z * num))) : noerr (align dim ls).
Proof.
  unfold align. generalize (total_len ls) as fuel. intros fuel. revert ls. induction fuel as [|f IH]; intros ls; cbn [align_loop]; destruct (all_nil ls); try apply noerr_ok; [discriminate|].
  apply noerr_bind; [apply IH|]. intros rest. apply noerr_ok.
Qed.
Lemma max_violation_noerr nc c lb ub : noerr (max_violation nc c lb ub).
Proof.
  unfold max_violation, feas_rows. repeat (apply noerr_bind; [first [apply noerr_check|apply align_noerr|idtac]|intros ?]); try apply noerr_ok.
Qed.
Lemma merit_noerr nc o c lb ub p : noerr (merit_func nc o c lb ub p).
Proof.
  unfold merit_func, total_violation, feas_rows. repeat (apply noerr_bind; [first [apply noerr_check|apply align_noerr|idtac]|intros ?]); try apply noerr_ok.
Qed.

(** Indices are not negative; indices are below the dimension. *)
Definition nn (l : list (Z * num)) : Prop := Forall (fun e => 0 <= fst e) l.
Definition bnd (v : vec) : Prop := Forall (fun e => fst e < vdim v) (vent v).

Lemma push_bnd v i x v' : vec_push v i x = Ok v' -> bnd v -> bnd v'.
Proof.
  unfold vec_push. intros H Hb. do 4 (apply rbind_ok in H; destruct H as (? & ?C & H)). assert (v' = mkvec (vdim v) (vcap v) (vent v ++ [(i, x)])) by congruence. subst v'.
  unfold bnd. cbn. apply Forall_app. split; [exact Hb|]. constructor; [|constructor]. cbn. apply check_ok in C0. lia.
Qed.
Lemma reserve_ent v n v' : vec_reserve v n = Ok v' -> vent v' = vent v /\ vdim v' = vdim v.
Proof.
  unfold vec_reserve. intros H. apply rbind_ok in H. destruct H as (? & _ & H). destruct (n <=? vcap v); [assert (v' = v) by congruence|assert (v' = mkvec (vdim v) n (vent v)) by congruence]; subst v'; auto.
Qed.
Lemma push_all_ent v es v' : push_all v es = Ok v' -> vent v' = vent v ++ es /\ vdim v' = vdim v.
Proof.
  revert v. induction es as [|[i x] es IH]; intros v H.
  - unfold push_all in H. cbn in H. assert (v' = v) by congruence. subst. now rewrite app_nil_r.
  - unfold push_all in H. cbn [rfold fst snd] in H. apply rbind_ok in H. destruct H as (v1 & H1 & H).
    fold (push_all v1 es) in H. destruct (IH _ H) as (E & D). unfold vec_push in H1. do 4 (apply rbind_ok in H1; destruct H1 as (? & _ & H1)).
    assert (v1 = mkvec (vdim v) (vcap v) (vent v ++ [(i, x)])) by congruence. subst v1. cbn in *. rewrite E, D, <- app_assoc. auto.
Qed.
Lemma push_all_bnd v es v' : push_all v es = Ok v' -> bnd v -> bnd v'.
Proof. intros H Hb. unfold push_all in H. eapply (rfold_inv bnd); [exact Hb| |exact H]. intros s a s' Hs _ E. exact (push_bnd _ _ _ _ E Hs). Qed.
Lemma clear_bnd v : bnd (vec_clear v).
Proof. constructor. Qed.
Lemma reserve_bnd v n v' : vec_reserve v n = Ok v' -> bnd v -> bnd v'.
Proof. intros H. destruct (reserve_ent _ _ _ H) as (E & D). unfold bnd. now rewrite E, D. Qed.

Lemma copy_ent x y z : vec_copy x y = Ok z -> vent z = vent x.
Proof.
  unfold vec_copy. intros H. apply rbind_ok in H. destruct H as (? & _ & H). apply rbind_ok in H. destruct H as (t & _ & H).
  apply push_all_ent in H. cbn in H. apply H.
Qed.
Lemma copy_bnd x y z : vec_copy x y = Ok z -> bnd z.
Proof.
  unfold vec_copy. intros H. apply rbind_ok in H. destruct H as (? & _ & H). apply rbind_ok in H. destruct H as (t & _ & H).
  eapply push_all_bnd; eauto. apply clear_bnd.
Qed.
Lemma clip_bnd x lb ub eps y z : vec_clip x lb ub eps y = Ok z -> bnd z.
Proof.
  unfold vec_clip. intros H. do 3 (apply rbind_ok in H; destruct H as (? & _ & H)). cbv zeta in H.
  apply rbind_ok in H. destruct H as (c & Hc & H). apply rbind_ok in H. destruct H as (rows & _ & H).
  apply rbind_ok in H. destruct H as (c' & Hf & H). apply rbind_ok in H. destruct H as (b & _ & H). apply rbind_ok in H. destruct H as (? & _ & H).
  assert (c' = z) by congruence. subst c'. eapply (rfold_inv bnd); [| |exact Hf].
  2: { intros s a s' Hs _ E. cbv beta in E. destruct (snd a) as [|o1 [|o2 [|o3 [|? ?]]]]; try discriminate. destruct (is_zero _ eps); [congruence|]. exact (push_bnd _ _ _ _ E Hs). }
  eapply reserve_bnd; [exact Hc|apply clear_bnd].
Qed.
Lemma take_below_eq n l : take_below n l = below n l.
Proof. induction l as [|e l IH]; cbn; [reflexivity|]. now rewrite IH. Qed.
Lemma restore_ent nv nc p r x : restoration_restore nv nc p r = Ok x -> vent x = take_below nv (vent p).
Proof.
  unfold restoration_restore. intros H. do 2 (apply rbind_ok in H; destruct H as (? & _ & H)). apply rbind_ok in H. destruct H as (t & Ht & H).
  apply push_all_ent in H. destruct (reserve_ent _ _ _ Ht) as (E & _). destruct H as (H & _). rewrite H, E. cbn [vec_clear vent app]. symmetry. apply take_below_eq.
Qed.

Lemma nn_advance i (l : list (Z * num)) : nn l -> nn (advance i l).
Proof. intros H. destruct l as [|[j v] l]; [constructor|]. cbn. destruct (j =? i); [now inversion H|exact H]. Qed.
Lemma align_nn dim (ls : list (list (Z * num))) rows : 0 <= dim + 1 -> Forall nn ls -> align dim ls = Ok rows -> Forall (fun r => 0 <= fst r) rows.
Proof.
  unfold align. generalize (total_len ls) as fuel. intros fuel Hd. revert ls rows. induction fuel as [|f IH]; intros ls rows Hl H; cbn [align_loop] in H;
    destruct (all_nil ls); try discriminate; try (assert (rows = []) by congruence; subst; constructor).
  apply rbind_ok in H. destruct H as (rest & Hr & H). assert (rows = (min_head dim ls, map (head_val (min_head dim ls)) ls) :: rest) by congruence. subst rows.
  constructor.
  - cbn [fst]. clear - Hl Hd. unfold min_head. induction Hl as [|l ls Hn Hl IHl]; cbn [fold_right]; [lia|].
    apply Z.min_glb; [|exact IHl]. unfold head_idx. destruct l as [|[j v] l]; [lia|]. inversion Hn; auto.
  - apply (IH (map (advance (min_head dim ls)) ls)); [|exact Hr]. apply Forall_map. eapply Forall_impl; [|exact Hl]. intros l. apply nn_advance.
Qed.
Lemma take_below_app n (l1 l2 : list (Z * num)) : Forall (fun e => fst e < n) l1 -> Forall (fun e => n <= fst e) l2 -> take_below n (l1 ++ l2) = l1.
Proof.
  intros H1 H2. induction H1 as [|e l1 He H1 IH]; cbn.
  - destruct H2 as [|e l2 He H2]; [reflexivity|]. cbn. destruct (Z.leb_spec n (fst e)); [reflexivity|lia].
  - destruct (Z.leb_spec n (fst e)); [lia|]. now rewrite IH.
Qed.
Lemma push_rows nv (f : Z * list (option num) -> res (option num)) rows : Forall (fun r => 0 <= fst r) rows -> forall r x,
  rfold (fun r row => v <- f row ;; match v with Some a => vec_push r (nv + fst row) a | None => Ok r end) r rows = Ok x ->
  exists l2, vent x = vent r ++ l2 /\ Forall (fun e => nv <= fst e) l2.
Proof.
  induction 1 as [|[i row] rows Hi Hr IH]; intros r x H.
  - cbn in H. assert (r = x) by congruence. subst. exists []. now rewrite app_nil_r.
  - cbn [rfold fst] in H. apply rbind_ok in H. destruct H as (r1 & H1 & H). apply rbind_ok in H1. destruct H1 as (v & _ & H1).
    destruct (IH _ _ H) as (l2 & E & F). destruct v as [a|].
    + pose proof (push_all_ent r [(nv + i, a)] r1) as K. unfold push_all in K. cbn [rfold fst snd] in K. rewrite H1 in K. cbn [rbind] in K.
      destruct (K eq_refl) as (E1 & _). exists ((nv + i, a) :: l2). rewrite E, E1, <- app_assoc. split; [reflexivity|]. constructor; [cbn in *; lia|exact F].
    + assert (r = r1) by congruence. subst r1. exists l2. auto.
Qed.
Lemma rfold_eq {A S} (f g : S -> A -> res S) l : (forall s a, f s a = g s a) -> forall s, rfold f s l = rfold g s l.
Proof. intros H. induction l as [|a l IH]; intros s; cbn; [reflexivity|]. rewrite H. destruct (g s a); cbn; auto. Qed.
Lemma transform_ent nv nc p c lb ub r x : 0 <= nc -> bnd p -> nn (vent c) -> nn (vent lb) -> nn (vent ub) ->
  restoration_transform nv nc p c lb ub r = Ok x -> take_below nv (vent x) = vent p.
Proof.
  intros Hnc Hb Hc Hl Hu. unfold restoration_transform. intros H.
  apply rbind_ok in H. destruct H as (? & C1 & H). apply check_ok in C1. apply rbind_ok in H. destruct H as (? & C2 & H). apply check_ok in C2.
  apply rbind_ok in H. destruct H as (? & C3 & H).
  apply rbind_ok in H. destruct H as (r1 & H1 & H). apply rbind_ok in H. destruct H as (r2 & H2 & H). apply rbind_ok in H. destruct H as (rows & Hr & H).
  destruct (reserve_ent _ _ _ H1) as (E1 & _). destruct (push_all_ent _ _ _ H2) as (E2 & _). rewrite E1 in E2. cbn [vec_clear vent app] in E2.
  assert (Hrows : Forall (fun r => 0 <= fst r) rows) by (refine (align_nn _ _ _ _ _ Hr); [lia|]; apply Forall_cons; [exact Hl|]; apply Forall_cons; [exact Hu|]; apply Forall_cons; [exact Hc|constructor]).
  rewrite (rfold_eq _ (fun r row => v <- match snd row with
    | [l; u; c] => let v := clip_val (oval c) (oval l) (oval u) in if negb (neqb v n0) then Ok (Some v) else Ok None
    | _ => Trap end ;; match v with Some a => vec_push r (nv + fst row) a | None => Ok r end)) in H.
  2: { intros s [i row]. cbn [fst snd]. destruct row as [|o1 [|o2 [|o3 [|? ?]]]]; try reflexivity. cbv zeta. destruct (negb _); reflexivity. }
  apply (push_rows nv (fun row => match snd row with
    | [l; u; c] => let v := clip_val (oval c) (oval l) (oval u) in if negb (neqb v n0) then Ok (Some v) else Ok None
    | _ => Trap end)) in H; [|exact Hrows].
  destruct H as (l2 & -> & Hl2). rewrite E2. apply take_below_app; [|exact Hl2]. unfold bnd in Hb. replace nv with (vdim p) by lia. exact Hb.
Qed.
End Vecs.

Section Coh.
Context {N : Num} {W : Type}.
Variable Or : @oracles N W.
Variable cf : @config N.
Notation st := (@st N W).
Notation M := (@M N W).
Notation ev := (@ev N).
Notation iterate := (@iterate N).

(** A request for values, or a step computation, for the iterate [x] finds the functions at [x]. *)
Definition okev (e : ev) : Prop :=
  match e with
  | EHess ph u r x | EEval ph u r x => u = Some (upart cf ph x) /\ (ph = Rest -> r = Some x)
  | _ => True
  end.
(** [l0]: events before the call that is considered *)
Variable l0 : list ev.
Definition okl (s : st) : Prop := exists l, s_log s = l ++ l0 /\ Forall okev l.
(** Cached values of the restoration function belong to the point of the user function. *)
Definition cacheok (s : st) : Prop :=
  match s_rcons s with Some (v, c) => c = s_cur s /\ nn (vent v) | None => True end /\
  match s_rjac s with Some (_, c) => c = s_cur s | None => True end.
Definition atx (ph : phase) (x : pt) (s : st) : Prop :=
  s_cur s = Some (upart cf ph x) /\ (ph = Rest -> s_rcur s = Some x /\ cacheok s).
Definition K (ph : phase) (x : pt) (s : st) : Prop := okl s /\ atx ph x s.

(** Values of an iterate that belong to its primal; [half]: objective and constraint values only *)
Definition half (ph : phase) (i : iterate) : Prop :=
  it_oat i = Some (vent (it_x i)) /\ (ph = Opt -> it_cat i = Some (vent (it_x i)) /\ nn (vent (it_cons i)) /\ bnd (it_x i)).
Definition vals (ph : phase) (i : iterate) : Prop :=
  half ph i /\ it_gat i = Some (vent (it_x i)) /\ (ph = Opt -> it_jat i = Some (vent (it_x i))).
Definition good (ph : phase) (s : st) : Prop :=
  K ph (vent (it_x (p_it (ps_of ph s)))) s /\ vals ph (p_it (ps_of ph s)).

(** Constraint values have no negative indices. *)
Record sane : Prop := {
  sn_nc : 0 <= cf_nc cf;
  sn_lb : nn (vent (cf_clb cf)); sn_ub : nn (vent (cf_cub cf));
  sn_eval : forall w ph e, fst (fst (or_eval Or w ph)) = Ok e -> nn (vent (ev_cons e));
  sn_rcons : forall w v, fst (fst (or_rcons Or w)) = Ok v -> nn (vent v);
  sn_refine : forall w ph p e, ta_refine (fst (fst (or_trial Or w ph p))) = Some e -> nn (vent (ev_cons e)) }.
Hypothesis Sane : sane.
(** No evaluation triggered by callbacks for preprocessed problems. *)
Hypothesis NoCb : cf_preproc cf = false \/ forall w, or_has_cb Or w = false.

Definition kept (s s' : st) : Prop :=
  s_cur s' = s_cur s /\ s_rcur s' = s_rcur s /\ s_rcons s' = s_rcons s /\ s_rjac s' = s_rjac s /\ (okl s -> okl s').
Lemma okl_emit e s s' : okl s -> okev e -> s_log s' = e :: s_log s -> okl s'.
Proof. intros (l & L & F) He Es. exists (e :: l). rewrite Es, L. auto. Qed.
Lemma kept_ua s s' : ua s s' -> kept s s'.
Proof. intros (w & [->| ->]); repeat split; auto. intros H. eapply okl_emit; [exact H| |reflexivity]. exact I. Qed.
Lemma kept_atx ph x s s' : kept s s' -> atx ph x s -> atx ph x s'.
Proof.
  intros (C & R & V & J & _) (A & B). split; [congruence|]. intros E. destruct (B E) as (B1 & B2). split; [congruence|].
  unfold cacheok in *. now rewrite V, J, C.
Qed.
Lemma kept_K ph x s s' : kept s s' -> K ph x s -> K ph x s'.
Proof. intros H (A & B). split; [now apply H|eapply kept_atx; eauto]. Qed.

(** [ask_func] with what is known of the answer. *)
Lemma wp_ask_func' {A} (f : W -> ans A) (Q : A -> st -> Prop) (E : option code -> st -> Prop) s :
  (forall a s' w, ua s s' -> fst (fst (f w)) = Ok a -> Q a s') -> (forall s', ua s s' -> E (Some EFuncEval) s') -> wp (ask_func f) Q E s.
Proof.
  intros HQ HE. unfold ask_func, ask. apply wp_bind, wp_get. destruct (f (s_w s)) as [[r a] w] eqn:Ef.
  apply wp_bind, wp_modify, wp_bind, wp_user_abort; intros _; apply wp_lift; intros x Hx;
    first [ apply (HQ x _ (s_w s)); [exists w; auto|rewrite Ef; cbn; destruct r; cbn in Hx; congruence]
          | destruct r; cbn [func_res] in Hx; try discriminate; assert (x = EFuncEval) by congruence; subst x; apply HE; exists w; auto ].
Qed.

Lemma set_value_K ph x r s : okl s ->
  wp (set_value Or cf ph x r) (fun _ s' => K ph (vent x) s') (fun c s' => c = Some EFuncEval /\ K ph (vent x) s') s.
Proof.
  intros H. unfold set_value. apply wp_bind, wp_modify.
  assert (K ph (vent x) (match ph with
    | Opt => with_cur (Some (vent x)) s
    | Rest => with_cur (Some (take_below (cf_nv cf) (vent x))) (with_rfunc (Some (vent x)) None None s) end)).
  { destruct ph; (split; [exact H|]); split; try reflexivity; try discriminate. intros _. split; [reflexivity|]. split; exact I. }
  apply wp_ask_func; intros; [|split; [reflexivity|]]; eapply kept_K; eauto using kept_ua.
Qed.
Lemma rest_cons_K x s : K Rest x s -> wp (rest_cons Or) (fun v s' => K Rest x s' /\ nn (vent v) /\ exists v', s_rcons s' = Some (v', s_cur s') /\ v' = v)
  (fun c s' => c = Some EFuncEval /\ K Rest x s') s.
Proof.
  intros H. unfold rest_cons. apply wp_bind, wp_get. destruct (s_rcons s) as [[v c]|] eqn:E.
  - apply wp_ret. split; [exact H|]. destruct H as (_ & _ & H). destruct (H eq_refl) as (_ & C & _). rewrite E in C. destruct C as (-> & C). split; [exact C|].
    exists v. auto.
  - apply wp_bind. apply wp_ask_func'; [|intros s' U; split; [reflexivity|eapply kept_K; eauto using kept_ua]].
    intros v s' w U Hv. pose proof (kept_ua _ _ U) as (C & R & V & J & L). apply wp_bind, wp_modify, wp_ret.
    pose proof (sn_rcons Sane _ _ Hv) as Hn. destruct H as (H1 & H2 & H3). destruct (H3 eq_refl) as (H4 & H5 & H6). rewrite J, R, <- C.
    split; [|split; [exact Hn|exists v; auto]]. split; [exact (L H1)|]. split; [exact (eq_trans C H2)|]. intros _. split; [cbn; congruence|].
    split; [split; [reflexivity|exact Hn]|]. cbn. destruct (s_rjac s) as [[j cj]|]; [|exact I]. congruence.
Qed.
Lemma rest_jac_K x s : K Rest x s -> wp (rest_jac Or) (fun v s' => K Rest x s' /\ s_rcons s' = s_rcons s /\ s_cur s' = s_cur s /\ exists v', s_rjac s' = Some (v', s_cur s') /\ v' = v)
  (fun c s' => c = Some EFuncEval /\ K Rest x s') s.
Proof.
  intros H. unfold rest_jac. apply wp_bind, wp_get. destruct (s_rjac s) as [[v c]|] eqn:E.
  - apply wp_ret. split; [exact H|]. destruct H as (_ & _ & H). destruct (H eq_refl) as (_ & _ & C). rewrite E in C. subst c.
    repeat split. exists v. auto.
  - apply wp_bind. apply wp_ask_func; [|intros s' U; split; [reflexivity|eapply kept_K; eauto using kept_ua]].
    intros v s' U. pose proof (kept_ua _ _ U) as (C & R & V & J & L). apply wp_bind, wp_modify, wp_ret.
    destruct H as (H1 & H2 & H3). destruct (H3 eq_refl) as (H4 & H5 & H6). rewrite <- C.
    split; [|split; [exact V|split; [reflexivity|exists v; auto]]]. split; [exact (L H1)|]. split; [exact (eq_trans C H2)|]. intros _. split; [cbn; congruence|].
    split; [|reflexivity]. cbn. rewrite V. destruct (s_rcons s) as [[j cj]|]; [|exact I]. destruct H5. split; congruence.
Qed.
Lemma eval_K ph wh x s : K ph (vent x) s ->
  wp (eval Or ph wh x) (fun e s' => K ph (vent x) s' /\ nn (vent (ev_cons e))) (fun c s' => c = Some EFuncEval /\ K ph (vent x) s') s.
Proof.
  intros H. unfold eval. apply wp_bind, wp_get, wp_bind, wp_emit.
  assert (H1 : K ph (vent x) (with_log (EEval ph (s_cur s) (s_rcur s) (vent x)) s)).
  { destruct H as (A & B & C). split; [|split; [exact B|exact C]]. eapply okl_emit; [exact A| |reflexivity]. split; [exact B|]. intros E. now apply C. }
  destruct ph.
  - apply wp_ask_func'; [|intros s' U; split; [reflexivity|eapply kept_K; eauto using kept_ua]].
    intros e s' w U He. split; [eapply kept_K; eauto using kept_ua|]. eapply sn_eval; eauto.
  - apply wp_bind. eapply wp_cons; [apply (rest_cons_K _ _ H1)| |]; cbv beta; [|auto]. intros v s2 (H2 & _). apply wp_bind.
    eapply (wp_cons _ (fun _ s' => K Rest (vent x) s') _ (fun c s' => c = Some EFuncEval /\ K Rest (vent x) s')); [| |auto].
    + destruct wh; [now apply wp_ret| |]; (eapply wp_cons; [apply (rest_jac_K _ _ H2)| |]; cbv beta; [intros ? ? (A & _); exact A|auto]).
    + intros j s3 H3. apply wp_ask_func'; [|intros s' U; split; [reflexivity|eapply kept_K; eauto using kept_ua]].
      intros e s' w U He. split; [eapply kept_K; eauto using kept_ua|]. eapply sn_eval; eauto.
Qed.
Lemma set_func_value_K ph x r s : okl s ->
  wp (set_func_value Or cf ph x r) (fun _ s' => K ph (vent x) s') (fun c s' => c = Some EFuncEval /\ K ph (vent x) s') s.
Proof.
  intros H. unfold set_func_value. apply wp_bind. eapply wp_cons; [apply set_value_K; exact H| |]; cbv beta; [|auto].
  intros rej s' H'. destruct rej; [|now apply wp_ret]. destruct r; try (apply wp_raise; auto); now apply wp_ret.
Qed.

(** ** Parts of an iteration *)
Lemma ps_of_its ph a b (s : st) : ps_of ph (with_ps ph (ps_its a b (ps_of ph s)) s) = ps_its a b (ps_of ph s).
Proof. apply ps_of_with. Qed.
Lemma K_ps ph x q p s : K ph x s -> K ph x (with_ps q p s).
Proof. intros H. exact H. Qed.

Lemma cur_of_K ph x s : K ph x s -> cur_of ph s = Some x.
Proof. intros (_ & A & B). destruct ph; [exact A|]. apply B. reflexivity. Qed.

Lemma evaluate_at_trial_K ph s : okl s ->
  wp (evaluate_at_trial Or cf ph)
    (fun b s' => p_it (ps_of ph s') = p_it (ps_of ph s) /\ K ph (vent (it_x (p_tr (ps_of ph s')))) s' /\ it_x (p_tr (ps_of ph s')) = it_x (p_tr (ps_of ph s)) /\
      (b = false -> bnd (it_x (p_tr (ps_of ph s))) -> half ph (p_tr (ps_of ph s'))))
    (fun c s' => c = Some EFuncEval /\ okl s' /\ p_it (ps_of ph s') = p_it (ps_of ph s)) s.
Proof.
  intros H. unfold evaluate_at_trial. apply wp_bind, wp_getp. set (p := ps_of ph s). apply wp_bind.
  eapply wp_cons; [apply (wp_and _ _ _ _ _ _ (set_func_value_K ph (it_x (p_tr p)) RTrying s H) (set_func_value_fs Or cf ph (it_x (p_tr p)) RTrying s))| |]; cbv beta.
  2: { intros c s1 ((C & H1 & _) & F1). destruct (fs_it ph _ _ F1). auto. }
  intros rej s1 (H1 & F1). destruct (fs_it ph _ _ F1) as (I1 & T1). destruct rej.
  { apply wp_ret. rewrite I1, T1. split; [reflexivity|]. split; [exact H1|]. split; [reflexivity|discriminate]. }
  apply wp_bind. eapply wp_cons; [apply (wp_and _ _ _ _ _ _ (eval_K ph WObjCons (it_x (p_tr p)) s1 H1) (eval_fs Or ph WObjCons (it_x (p_tr p)) s1))| |]; cbv beta.
  2: { intros c s2 ((C & H2 & _) & F2). destruct (fs_it ph _ _ F2) as (I2 & _). split; [exact C|]. split; [exact H2|]. rewrite I2. exact I1. }
  intros e s2 ((H2 & Hn) & F2). destruct (fs_it ph _ _ F2) as (I2 & T2). apply wp_bind, wp_get, wp_bind, wp_modp, wp_ret. rewrite ps_of_its.
  cbn [ps_its p_it p_tr store it_x]. rewrite T2, T1. fold p. split; [rewrite I2; exact I1|]. split; [exact H2|]. split; [reflexivity|].
  intros _ Hb. pose proof (cur_of_K _ _ _ H2) as Ec. unfold half. cbn. rewrite Ec. split; [reflexivity|]. intros _. repeat split; auto.
Qed.

Lemma opt_accepted_K x s : K Opt x s -> wp (opt_accepted Or cf) (fun _ s' => K Opt x s') (fun _ s' => okl s') s.
Proof.
  intros H. unfold opt_accepted. apply wp_bind, wp_ask; intros a s1 U.
  2: { apply kept_ua in U. apply U, H. }
  pose proof (kept_K _ _ _ _ (kept_ua _ _ U) H) as H1. apply wp_bind, wp_get. destruct (or_has_cb Or (s_w s1)) eqn:E; [|now apply wp_ret].
  destruct NoCb as [NC|NC]; [|rewrite NC in E; discriminate]. unfold restore_original. rewrite NC. apply wp_bind, wp_ret, wp_ask; intros b s2 U2.
  - eapply kept_K; eauto using kept_ua.
  - apply kept_ua in U2. apply U2, H1.
Qed.

Lemma accept_step_K ph s : okl s -> half ph (p_tr (ps_of ph s)) -> vals ph (p_it (ps_of ph s)) ->
  wp (accept_step Or cf ph) (fun _ s' => good ph s')
    (fun c s' => (ph = Rest -> c = Some EFuncEval) /\ okl s' /\ vals ph (p_it (ps_of ph s'))) s.
Proof.
  intros H Hh Hv. unfold accept_step. apply wp_bind, wp_getp. set (p := ps_of ph s) in *. apply wp_bind.
  eapply wp_cons; [apply (wp_and _ _ _ _ _ _ (set_func_value_K ph (it_x (p_tr p)) RAccepted s H) (set_func_value_fs Or cf ph (it_x (p_tr p)) RAccepted s))| |]; cbv beta.
  2: { intros c s1 ((C & H1 & _) & F1). destruct (fs_it ph _ _ F1) as (I1 & _). rewrite I1. auto. }
  intros rej s1 (H1 & F1). destruct (fs_it ph _ _ F1) as (I1 & T1).
  apply wp_bind. eapply wp_cons; [apply (wp_and _ _ _ _ _ _ (eval_K ph WDerivs (it_x (p_tr p)) s1 H1) (eval_fs Or ph WDerivs (it_x (p_tr p)) s1))| |]; cbv beta.
  2: { intros c s2 ((C & H2 & _) & F2). destruct (fs_it ph _ _ F2) as (I2 & _). rewrite I2, I1. auto. }
  intros e s2 ((H2 & Hn) & F2). destruct (fs_it ph _ _ F2) as (I2 & T2). apply wp_bind, wp_get, wp_bind, wp_modp.
  pose proof (cur_of_K _ _ _ H2) as Ec. cbv beta. rewrite Ec, T2, T1, I2, I1.
  change (ps_of ph s) with p.
  set (tr := store WDerivs e (Some (vent (it_x (p_tr p)))) (p_tr p)).
  assert (Vtr : vals ph tr).
  { destruct Hh as (Ho & Hc). split; [split; [exact Ho|intros E; destruct (Hc E) as (A & B & C); repeat split; auto]|]. split; [reflexivity|]. intros _. reflexivity. }
  match goal with |- wp _ _ _ ?x => set (s3 := x) end.
  assert (I3 : p_it (ps_of ph s3) = p_it p) by (unfold s3; now rewrite ps_of_with).
  assert (T3 : p_tr (ps_of ph s3) = tr) by (unfold s3; now rewrite ps_of_with).
  assert (K3 : K ph (vent (it_x tr)) s3) by exact H2.
  clearbody s3. apply wp_bind.
  eapply (wp_cons _ (fun _ s4 => K ph (vent (it_x tr)) s4 /\ p_it (ps_of ph s4) = p_it p /\ p_tr (ps_of ph s4) = tr) _
           (fun c s4 => (ph = Rest -> c = Some EFuncEval) /\ okl s4 /\ p_it (ps_of ph s4) = p_it p)).
  - destruct ph; cbv iota beta.
    + eapply wp_cons; [apply (wp_and _ _ _ _ _ _ (opt_accepted_K _ _ K3) (opt_accepted_fs Or cf s3))| |]; cbv beta; intros c s4 (H4 & F4); destruct (fs_it Opt _ _ F4) as (I4 & T4).
      * split; [exact H4|]. rewrite I4, T4. auto.
      * split; [discriminate|]. split; [exact H4|]. now rewrite I4.
    + unfold rest_accepted. apply wp_bind. eapply wp_cons; [apply (wp_and _ _ _ _ _ _ (rest_cons_K _ _ K3) (rest_cons_fs Or s3))| |]; cbv beta; intros c s4 (H4 & F4); destruct (fs_it Rest _ _ F4) as (I4 & T4).
      2: { destruct H4 as (C & H4 & _). rewrite I4. auto. }
      destruct H4 as (H4 & _). apply wp_bind, wp_lift; intros v Hvv; [|now destruct (max_violation_noerr _ _ _ _ _ Hvv)].
      destruct (nleb v (cf_feas cf)).
      * apply wp_modp. cbn [ps_of with_ps s_rest ps_abort p_it p_tr] in *. rewrite I4, T4. auto.
      * apply wp_ret. rewrite I4, T4. auto.
  - intros _ s4 (H4 & I4 & T4). apply wp_modp. unfold good. rewrite ps_of_its. cbn [ps_its p_it]. rewrite T4. split; [exact H4|exact Vtr].
  - cbv beta. intros c s4 (C & H4 & I4). rewrite I4. auto.
Qed.

Lemma reject_step_K ph s : okl s -> vals ph (p_it (ps_of ph s)) ->
  wp (reject_step Or cf ph) (fun _ s' => good ph s') (fun c s' => c = Some EFuncEval /\ okl s' /\ vals ph (p_it (ps_of ph s'))) s.
Proof.
  intros H Hv. unfold reject_step. apply wp_bind, wp_getp, wp_bind.
  eapply wp_cons; [apply (wp_and _ _ _ _ _ _ (set_func_value_K ph (it_x (p_it (ps_of ph s))) RRejected s H) (set_func_value_fs Or cf ph _ RRejected s))| |]; cbv beta.
  - intros _ s1 (H1 & F1). apply wp_ret. destruct (fs_it ph _ _ F1) as (I1 & _). unfold good. rewrite I1. auto.
  - intros c s1 ((C & H1 & _) & F1). destruct (fs_it ph _ _ F1) as (I1 & _). rewrite I1. auto.
Qed.

Lemma vals_duals ph c v i : vals ph i -> vals ph (it_with_duals c v i).
Proof. auto. Qed.

Lemma set_trial_point_K ph x s :
  wp (set_trial_point cf ph x : M unit) (fun _ s' => exists y, bnd y /\ s' = with_ps ph (ps_its (p_it (ps_of ph s)) (it_with_x y (p_tr (ps_of ph s))) (ps_of ph s)) s)
    (fun _ s' => s' = s) s.
Proof.
  unfold set_trial_point. apply wp_bind, wp_getp, wp_bind, wp_lift; [|auto]. intros y Hy. apply wp_modp. exists y. split; [eapply clip_bnd; eauto|reflexivity].
Qed.

Lemma compute_trial_K ph s : good ph s ->
  wp (compute_trial Or cf ph)
    (fun _ s' => okl s' /\ vals ph (p_it (ps_of ph s')) /\ bnd (it_x (p_tr (ps_of ph s'))) /\ good ph s')
    (fun _ s' => good ph s') s.
Proof.
  intros H. unfold compute_trial. apply wp_bind, wp_getp, wp_bind, wp_assert. intros _. apply wp_bind, wp_modp, wp_bind, wp_get, wp_bind, wp_emit, wp_bind, wp_get.
  set (s1 := with_ps ph (ps_timer true (ps_of ph s)) s).
  assert (G1 : good ph s1).
  { destruct H as (A & B). unfold good, s1. rewrite ps_of_with. split; [exact A|exact B]. }
  assert (P1 : ps_of ph s1 = ps_timer true (ps_of ph s)) by (apply ps_of_with).
  assert (I1 : it_x (p_it (ps_of ph s)) = it_x (p_it (ps_of ph s1))) by now rewrite P1.
  change (s_cur s) with (s_cur s1). change (s_rcur s) with (s_rcur s1). rewrite I1. clearbody s1. clear P1 I1 H s.
  set (s2 := with_log _ s1).
  assert (P2 : ps_of ph s2 = ps_of ph s1) by apply ps_of_log.
  assert (G2 : good ph s2).
  { destruct G1 as ((A & B & C) & D). unfold good. rewrite P2. split; [|exact D]. split; [|split; [exact B|exact C]]. eapply okl_emit; [exact A| |reflexivity].
    split; [exact B|]. intros E. now apply C. }
  clearbody s2. clear P2 G1 s1.
  destruct (or_trial Or (s_w s2) ph (ps_of ph s2)) as [[a ab] w] eqn:Et.
  apply wp_bind, wp_modify, wp_bind.
  set (s3 := with_w w s2).
  assert (P3 : ps_of ph s3 = ps_of ph s2) by apply ps_of_w.
  eapply (wp_cons _ (fun _ s4 => K ph (vent (it_x (p_it (ps_of ph s2)))) s4 /\ p_it (ps_of ph s4) = p_it (ps_of ph s2)) _ (fun _ s4 => good ph s4)); [| |auto].
  { assert (G3 : K ph (vent (it_x (p_it (ps_of ph s2)))) s3) by apply G2.
    apply wp_user_abort; intros _; [split; [exact G3|now rewrite P3]|].
    assert (U : ua s3 (aborted s3)) by (exists (s_w s3); right; destruct s3; reflexivity).
    split; [eapply kept_K; eauto using kept_ua|]. destruct (fs_it ph _ _ (fs_ua _ _ U)) as (-> & _). now rewrite P3. }
  intros _ s4 (G4 & I4). apply wp_bind, wp_modp. rewrite I4.
  set (it := it_with_duals _ _ (match ta_refine a with Some e => _ | None => _ end)).
  set (s5 := with_ps ph _ s4).
  assert (P5 : p_it (ps_of ph s5) = it) by (unfold s5; now rewrite ps_of_with).
  assert (X5 : it_x it = it_x (p_it (ps_of ph s2))) by (unfold it; destruct (ta_refine a); reflexivity).
  assert (V5 : vals ph it).
  { unfold it. apply vals_duals. destruct (ta_refine a) as [e|] eqn:Er; [|apply G2].
    destruct G2 as (B & D). rewrite (cur_of_K _ _ _ B). destruct D as ((Do & Dc) & _).
    split; [split; [reflexivity|]|split; [reflexivity|intros _; reflexivity]]. intros E. destruct (Dc E) as (_ & _ & Db). split; [reflexivity|]. split; [|exact Db].
    cbn. apply (sn_refine Sane (s_w s2) ph (ps_of ph s2)). now rewrite Et. }
  assert (G5 : good ph s5).
  { unfold good. rewrite P5, X5. split; [exact G4|exact V5]. }
  clearbody s5. clear P5 X5 V5 it G4 I4 s4 P3 s3 Et G2 s2.
  apply wp_bind, wp_lift; intros t Ht; [|exact G5].
  apply wp_bind. eapply wp_cons; [apply (set_trial_point_K ph (t_point t) s5)| |]; cbv beta; [|intros _ s6 ->; exact G5].
  intros _ s6 (y & Hy & ->). apply wp_bind, wp_modp, wp_ret. rewrite ps_of_its. unfold good. rewrite !ps_of_with.
  cbn [ps_timer ps_its p_it p_tr it_with_x it_x]. destruct G5 as (A & B). split; [apply A|]. split; [exact B|]. split; [exact Hy|]. split; [exact A|exact B].
Qed.

Lemma try_step_K ph a b c s : okl s -> bnd (it_x (p_tr (ps_of ph s))) ->
  wp (try_step Or cf ph a b c)
    (fun r s' => okl s' /\ p_it (ps_of ph s') = p_it (ps_of ph s) /\ bnd (it_x (p_tr (ps_of ph s'))) /\ (fst r = true -> half ph (p_tr (ps_of ph s'))))
    (fun c s' => c = Some EFuncEval /\ okl s' /\ p_it (ps_of ph s') = p_it (ps_of ph s)) s.
Proof.
  intros H Hb. unfold try_step. apply wp_bind. eapply wp_cons; [apply (evaluate_at_trial_K ph s H)| |]; cbv beta; [|auto].
  intros rej s1 (I1 & K1 & X1 & Hh). destruct rej.
  { apply wp_ret. rewrite X1. split; [apply K1|]. split; [exact I1|]. split; [exact Hb|discriminate]. }
  apply wp_bind, wp_getp, wp_bind, wp_lift; intros m Hm; [|now destruct (merit_noerr _ _ _ _ _ _ _ Hm)].
  apply wp_tick. intros r w. rewrite ps_of_w, X1. split; [apply K1|]. auto.
Qed.

(** The state within an iteration, once the trial point is known *)
Definition J (ph : phase) (i : iterate) (s : st) : Prop :=
  okl s /\ p_it (ps_of ph s) = i /\ bnd (it_x (p_tr (ps_of ph s))).
Lemma J_modp ph i f s : (forall p, p_it (f p) = p_it p /\ p_tr (f p) = p_tr p) -> J ph i s -> J ph i (with_ps ph (f (ps_of ph s)) s).
Proof. intros Hf (A & B & C). destruct (Hf (ps_of ph s)) as (F1 & F2). unfold J. rewrite ps_of_with, F1, F2. split; [exact A|]. auto. Qed.
Lemma good_modp ph f s : (forall p, p_it (f p) = p_it p) -> good ph s -> good ph (with_ps ph (f (ps_of ph s)) s).
Proof. intros Hf (A & B). unfold good. rewrite ps_of_with, Hf. split; [exact A|exact B]. Qed.
Lemma good_J ph s : good ph s -> bnd (it_x (p_tr (ps_of ph s))) -> J ph (p_it (ps_of ph s)) s.
Proof. intros ((A & _) & _) H. split; [exact A|]. auto. Qed.

Lemma compute_soc_K ph i s : J ph i s -> wp (compute_soc Or cf ph) (fun _ s' => J ph i s') (fun _ s' => J ph i s') s.
Proof.
  intros H. unfold compute_soc. apply wp_bind, wp_getp, wp_bind, wp_assert. intros _. apply wp_bind, wp_modp, wp_bind, wp_getp.
  apply (J_modp ph i (ps_timer true)) in H; [|auto]. revert H. generalize (with_ps ph (ps_timer true (ps_of ph s)) s). clear s. intros s H.
  apply wp_bind. assert (HU : forall s', ua s s' -> J ph i s').
  { intros s' U. destruct (fs_it ph _ _ (fs_ua _ _ U)) as (I1 & T1). destruct H as (A & B & C). unfold J. rewrite I1, T1. split; [|auto]. now apply (kept_ua _ _ U). }
  apply wp_ask; [|auto]. intros c s1 U1. specialize (HU _ U1). apply wp_bind.
  eapply (wp_cons _ (fun _ s2 => J ph i s2) _ (fun _ s2 => J ph i s2)); [| |auto].
  - destruct (so_point c) as [x|]; [|now apply wp_ret]. eapply wp_cons; [apply (set_trial_point_K ph x s1)| |]; cbv beta.
    + intros _ s2 (y & Hy & ->). destruct HU as (A & B & C). unfold J. rewrite ps_of_its. cbn [ps_its p_it p_tr it_with_x it_x]. split; [exact A|]. auto.
    + intros _ s2 ->. exact HU.
  - intros _ s2 H2. apply wp_bind, wp_modp, wp_ret. apply (J_modp ph i (ps_timer false)); auto.
Qed.
Lemma soc_part_K ph i a b c s : J ph i s ->
  wp (soc_part Or cf ph a b c) (fun r s' => J ph i s' /\ (fst r = true -> half ph (p_tr (ps_of ph s'))))
    (fun e s' => (ph = Rest -> e = Some EFuncEval) /\ okl s' /\ p_it (ps_of ph s') = i) s.
Proof.
  intros H. unfold soc_part. destruct ((0 <? ncons cf ph) && cf_perf_soc cf) eqn:E.
  2: { apply wp_bind, wp_bump, wp_ret. split; [|discriminate]. apply (J_modp ph i (fun p => ps_cnt (cnt_rej (p_cnt p)) p)); auto. }
  assert (Hr : ph <> Rest) by (intros ->; discriminate).
  apply wp_bind. eapply wp_cons; [apply (compute_soc_K ph i s H)| |]; cbv beta.
  2: { intros e s' (A & B & _). split; [tauto|auto]. }
  clear s H. intros so s H. apply wp_bind, wp_getp. destruct (negb (snd so) && _).
  - apply wp_bind. eapply wp_cons; [apply (try_step_K ph a b c s); apply H| |]; cbv beta; destruct H as (H & Hi & Hb).
    + intros r s1 (A & B & C & D). rewrite Hi in B. destruct r as [[] r2]; cbn [fst] in *; apply wp_bind.
      * apply wp_bind, wp_modp, wp_bump, wp_ret. unfold J. rewrite !ps_of_with. cbn [ps_step ps_cnt p_it p_tr]. split; [auto|exact D].
      * apply wp_bump, wp_ret. unfold J. rewrite !ps_of_with. cbn [ps_step ps_cnt p_it p_tr]. split; [auto|discriminate].
    + intros e s1 (A & B & C). rewrite Hi in C. auto.
  - apply wp_bind, wp_emit, wp_ret. split; [|discriminate]. destruct H as (H & Hi & Hb). unfold J. rewrite ps_of_log. split; [|auto].
    eapply okl_emit; [exact H| |reflexivity]. exact I.
Qed.

Lemma perform_iteration_K ph s : good ph s ->
  wp (perform_iteration Or cf ph) (fun _ s' => good ph s')
    (fun c s' => okl s' /\ vals ph (p_it (ps_of ph s')) /\ (ph = Rest -> c = Some EFuncEval \/ good ph s')) s.
Proof.
  intros H.
  assert (GE : forall c s', good ph s' -> okl s' /\ vals ph (p_it (ps_of ph s')) /\ (ph = Rest -> c = Some EFuncEval \/ good ph s')).
  { intros c s' G. split; [apply G|]. split; [apply G|]. auto. }
  unfold perform_iteration. apply wp_bind, wp_getp, wp_bind, wp_assert. intros _. apply wp_bind, wp_lift; [|auto]. intros b _.
  apply wp_bind, wp_assert. intros _. apply wp_bind, wp_emit.
  assert (H1 : good ph (with_log (EIter ph) s)).
  { destruct H as ((A & B) & C). unfold good. rewrite ps_of_log. split; [|exact C]. split; [|exact B]. eapply okl_emit; [exact A| |reflexivity]. exact I. }
  revert H1. generalize (with_log (EIter ph) s). intros s1 H1.
  destruct (unbounded_test cf (ps_of ph s)). { apply wp_modp. now apply (good_modp ph (ps_status PUnbounded)). }
  clear s H. apply wp_bind. eapply (wp_cons _ (fun _ s2 => good ph s2) _ (fun _ s2 => good ph s2)); [| |auto].
  { unfold prepare_iteration. apply wp_bind, wp_getp, wp_bind, wp_lift; [|auto]. intros m _. apply wp_bind, wp_lift; [|auto]. intros ((sl, fe), sr) _.
    apply wp_bind, wp_modp, wp_bind, wp_modp.
    apply (good_modp ph (ps_res sl fe sr)) in H1; [|auto].
    apply (good_modp ph (fun p => if is_feasible fe (cf_feas cf) then ps_feas (p_nfeas p + 1) (p_nreset p) p else p)) in H1; [|intros p; now destruct is_feasible].
    revert H1. match goal with |- good ph ?x -> _ => generalize x end. intros s2 H2. do 3 (apply wp_bind, wp_assert; intros _). now apply wp_ret. }
  clear s1 H1. intros m s H. apply wp_bind, wp_getp. destruct is_optimal. { apply wp_modp. now apply (good_modp ph (ps_status POptimal)). }
  apply wp_bind. eapply wp_cons; [apply (compute_trial_K ph s H)| |]; cbv beta; [|auto].
  clear s H. intros t s (_ & _ & Hb & H). pose proof (good_J _ _ H Hb) as HJ. apply wp_bind.
  eapply (wp_cons _ (fun _ s2 => good ph s2 /\ J ph (p_it (ps_of ph s)) s2) _ (fun _ s2 => False)); [| |intros ? ? []].
  { destruct (t_failed t); [apply wp_bump|now apply wp_ret]. split; [apply (good_modp ph (fun p => ps_cnt (cnt_fail (p_cnt p)) p))|apply (J_modp ph _ (fun p => ps_cnt (cnt_fail (p_cnt p)) p))]; auto. }
  intros _ s2 (H2 & J2). apply wp_bind, wp_getp. destruct (locally_infeasible cf (ps_of ph s2) t && p_ali (ps_of ph s2)).
  { apply wp_modp. now apply (good_modp ph (ps_status PLocInf)). }
  assert (HV : vals ph (p_it (ps_of ph s))) by apply H. revert J2 HV. generalize (p_it (ps_of ph s)). intros i J2 HV. clear s Hb H HJ H2.
  assert (GF : forall c s', (ph = Rest -> c = Some EFuncEval) /\ okl s' /\ p_it (ps_of ph s') = i ->
            okl s' /\ vals ph (p_it (ps_of ph s')) /\ (ph = Rest -> c = Some EFuncEval \/ good ph s')).
  { intros c s' (A & B & ->). auto. }
  apply wp_bind. eapply (wp_cons _ (fun _ s3 => J ph i s3) _ (fun _ s3 => False)); [| |intros ? ? []].
  { destruct (t_reset t); [apply wp_modp|now apply wp_ret]. apply (J_modp ph i (fun p => ps_feas 0 (p_nreset p + 1) p)); auto. }
  clear s2 J2. intros _ s H. apply wp_bind. eapply wp_cons; [apply (try_step_K ph m (t_model t) (nlit (-1) 1) s); apply H| |]; cbv beta.
  2: { intros c s' (A & B & C). apply GF. destruct H as (_ & H & _). rewrite C, H. auto. }
  intros r s1 (A & B & C & D). destruct H as (_ & Hi & _). rewrite Hi in B. clear s Hi.
  apply wp_bind, wp_getp, wp_bind, wp_modp.
  assert (HJ : J ph i (with_ps ph (ps_step StRejected (is_geq (t_norm t) (p_rad (ps_of ph s1)) (cf_eps cf)) (ps_of ph s1)) s1)).
  { apply (J_modp ph i (ps_step StRejected _)); [auto|]. split; auto. }
  assert (HD : fst r = true -> half ph (p_tr (ps_of ph (with_ps ph (ps_step StRejected (is_geq (t_norm t) (p_rad (ps_of ph s1)) (cf_eps cf)) (ps_of ph s1)) s1)))).
  { rewrite ps_of_with. exact D. }
  revert HJ HD. generalize (with_ps ph (ps_step StRejected (is_geq (t_norm t) (p_rad (ps_of ph s1)) (cf_eps cf)) (ps_of ph s1)) s1). clear s1 A B C D.
  intros s HJ HD. apply wp_bind.
  eapply (wp_cons _ (fun r s' => J ph i s' /\ (fst r = true -> half ph (p_tr (ps_of ph s')))) _ (fun e s' => (ph = Rest -> e = Some EFuncEval) /\ okl s' /\ p_it (ps_of ph s') = i)); [| |exact GF].
  { destruct (fst r) eqn:Er.
    - apply wp_bind, wp_bump, wp_bind, wp_modp, wp_ret. destruct HJ as (A & B & C). unfold J. rewrite !ps_of_with. cbn [ps_step ps_cnt p_it p_tr]. split; [auto|]. intros _. now apply HD.
    - exact (soc_part_K _ _ _ _ _ _ HJ). }
  clear s r HJ HD. intros r s ((A & B & C) & D). apply wp_bind, wp_modify.
  set (s1 := with_log _ _). assert (P1 : p_it (ps_of ph s1) = i /\ p_tr (ps_of ph s1) = p_tr (ps_of ph s)).
  { unfold s1. rewrite ps_of_log, ps_of_with. auto. }
  assert (A1 : okl s1). { eapply okl_emit; [exact A| |reflexivity]. exact I. }
  clearbody s1. apply wp_bind, wp_modp. set (s2 := with_ps ph _ s1). assert (P2 : p_it (ps_of ph s2) = i /\ p_tr (ps_of ph s2) = p_tr (ps_of ph s)).
  { unfold s2. rewrite ps_of_with. exact P1. }
  assert (A2 : okl s2) by exact A1. clearbody s2. clear s1 A1 P1 B C. destruct P2 as (I2 & T2). rewrite <- T2 in D. clear A T2 s.
  apply wp_bind. eapply (wp_cons _ (fun _ s' => good ph s') _ (fun c s' => (ph = Rest -> c = Some EFuncEval) /\ okl s' /\ vals ph (p_it (ps_of ph s')))).
  - destruct (fst r).
    + apply accept_step_K; auto. now rewrite I2.
    + eapply wp_cons; [apply (reject_step_K ph s2 A2); now rewrite I2| |]; cbv beta; [auto|]. intros c s' (-> & E). auto.
  - clear. intros _ s H. destruct ph; [|now apply wp_ret]. apply wp_ask.
    + intros _ s' U. destruct (fs_it Opt _ _ (fs_ua _ _ U)) as (I1 & _). destruct H as (A & B). unfold good. rewrite I1. split; [|exact B]. eapply kept_K; eauto using kept_ua.
    + intros c s' U. destruct (fs_it Opt _ _ (fs_ua _ _ U)) as (I1 & _). rewrite I1. destruct H as (A & B). split; [apply (kept_ua _ _ U), A|]. split; [exact B|discriminate].
  - cbv beta. intros c s' (E1 & E2 & E3). auto.
Qed.

(** An error in restoration was replaced by the status for an exhausted time limit. *)
Definition lost (s : st) : Prop := exists l c, s_log s = l ++ l0 /\ In (ELost Rest c) l.
Definition ps_end (ph : phase) (s : st) : Prop :=
  okl s /\ vals ph (p_it (ps_of ph s)) /\ (p_status (ps_of ph s) <> PTime -> good ph s) /\ (ph = Rest -> good ph s \/ lost s).
Lemma good_end ph f s : (forall p, p_it (f p) = p_it p) -> good ph s -> ps_end ph (with_ps ph (f (ps_of ph s)) s).
Proof. intros Hf H. apply (good_modp ph f) in H; [|exact Hf]. split; [apply H|]. split; [apply H|]. auto. Qed.
Lemma good_w ph w s : good ph s -> good ph (with_w w s).
Proof. unfold good. now rewrite ps_of_w. Qed.

Lemma ps_loop_K fuel ph lim : forall s, good ph s -> wp (ps_loop Or cf fuel ph lim) (fun _ s' => ps_end ph s') (fun _ s' => okl s') s.
Proof.
  induction fuel as [|fuel IH]; intros s H; cbn [ps_loop]. { apply wp_nofuel. apply H. }
  apply wp_bind, wp_tick. intros t w. apply (good_w ph w) in H. revert H. generalize (with_w w s). clear s. intros s H.
  destruct t. { apply wp_modp. now apply (good_end ph (ps_status PTime)). }
  apply wp_bind, wp_getp. destruct (negb (lim =? -1) && _). { apply wp_modp. now apply (good_end ph (ps_status PIter)). }
  destruct (p_abort (ps_of ph s)). { apply wp_modp. now apply (good_end ph (ps_status PManual)). }
  apply wp_bind, wp_try. eapply wp_cons; [apply (perform_iteration_K ph s H)| |]; cbv beta.
  - clear s H. intros _ s H. apply wp_bind, wp_tick. intros t w1. apply (good_w ph w1) in H. revert H. generalize (with_w w1 s). clear s. intros s H.
    destruct t. { apply wp_bind, wp_ret, wp_modp. now apply (good_end ph (ps_status PTime)). }
    apply wp_bind, wp_getp. destruct (_ || _). { apply wp_modp. now apply (good_end ph (ps_status PDeadpoint)). }
    destruct is_running; [now apply IH|]. apply wp_ret. split; [apply H|]. split; [apply H|]. auto.
  - clear s H. intros [c|] s (A & B & C); [|exact A]. apply wp_bind.
    assert (FE : forall s', okl s' -> vals ph (p_it (ps_of ph s')) -> (ph = Rest -> good ph s' \/ lost s') -> ps_end ph (with_ps ph (ps_status PTime (ps_of ph s')) s')).
    { clear. intros s A B C. unfold ps_end, good, lost. rewrite ps_of_with. cbn [ps_status p_it p_status s_log]. split; [exact A|]. split; [exact B|]. split; [congruence|]. exact C. }
    assert (NT : forall t s', s' = s \/ (exists w, s' = with_w w s) -> c <> EAbortTime -> wp (if (t : bool) then bind (emit (ELost ph c)) (fun _ => modp ph (ps_status PTime)) else raise c)
                (fun _ s' => ps_end ph s') (fun _ s' => okl s') s').
    { intros t s' Hs Hc. destruct t; [|apply wp_raise; destruct Hs as [->|(w' & ->)]; exact A]. apply wp_bind, wp_emit, wp_modp.
      assert (okl s' /\ vals ph (p_it (ps_of ph s'))) as (A' & B') by (destruct Hs as [->|(w' & ->)]; [|rewrite ps_of_w]; auto).
      apply FE; [|now rewrite ps_of_log|].
      - eapply okl_emit; [exact A'| |reflexivity]. exact I.
      - intros ->. right. destruct A' as (l & L & _). exists (ELost Rest c :: l), c. cbn. rewrite L. auto. }
    destruct c; try (apply wp_tick; intros t w1; apply NT; [right; eexists; reflexivity|discriminate]).
    apply wp_ret. apply wp_bind, wp_ret, wp_modp. apply FE; [exact A|exact B|]. intros E. left. destruct (C E); [discriminate|assumption].
Qed.

Lemma deriv_loop_K ph x k : forall j s, K ph (vent x) s -> it_x (p_it (ps_of ph s)) = x ->
  wp (deriv_loop Or cf ph k j) (fun _ s' => K ph (vent x) s') (fun _ s' => okl s') s.
Proof.
  induction k as [|k IH]; intros j s H Hx; cbn [deriv_loop]; [now apply wp_ret|].
  apply wp_bind, wp_getp, wp_bind, wp_tick. intros y w. apply wp_bind.
  assert (F0 : fs s (with_w w s)) by (apply fs_ua; exists w; auto).
  eapply wp_cons; [apply (wp_and _ _ _ _ _ _ (set_value_K ph y RDeriv (with_w w s) (proj1 H)) (set_value_fs Or cf ph y RDeriv (with_w w s)))| |]; cbv beta.
  2: { intros c s1 ((_ & A & _) & _). exact A. }
  intros rej s1 (H1 & F1). apply wp_bind.
  eapply (wp_cons _ (fun _ s2 => okl s2 /\ fs s1 s2) _ (fun _ s2 => okl s2)); [| |auto].
  { destruct rej; [apply wp_ret; split; [apply H1|apply (po_refl _ fs_preo)]|].
    apply wp_ask_func; [intros _ s2 U; split; [|now apply fs_ua]|intros s2 U]; apply (kept_ua _ _ U), H1. }
  intros _ s2 (A2 & F2). rewrite Hx. apply wp_bind.
  eapply wp_cons; [apply (wp_and _ _ _ _ _ _ (set_value_K ph x RDeriv s2 A2) (set_value_fs Or cf ph x RDeriv s2))| |]; cbv beta.
  2: { intros c s3 ((_ & A & _) & _). exact A. }
  intros rej2 s3 (H3 & F3). destruct rej2; [apply wp_raise; apply H3|]. apply IH; [exact H3|].
  destruct (fs_it ph _ _ F0) as (I0 & _), (fs_it ph _ _ F1) as (I1 & _), (fs_it ph _ _ F2) as (I2 & _), (fs_it ph _ _ F3) as (I3 & _).
  now rewrite I3, I2, I1, I0.
Qed.
Lemma deriv_check_K ph s : good ph s -> wp (deriv_check Or cf ph) (fun _ s' => good ph s') (fun _ s' => okl s') s.
Proof.
  intros H. eapply (wp_cons _ (fun _ s' => K ph (vent (it_x (p_it (ps_of ph s)))) s' /\ fs s s') _ (fun c s' => okl s' /\ fs s s')).
  - apply wp_and; [|apply deriv_check_fs]. unfold deriv_check. destruct (cf_deriv cf); [|apply wp_ret, H]. apply wp_bind.
    eapply wp_cons; [apply (deriv_loop_K ph (it_x (p_it (ps_of ph s))) _ 0 s); [apply H|reflexivity]| |]; cbv beta; [|auto].
    intros _ s1 H1. apply wp_ask; intros a s2 U; [eapply kept_K; eauto using kept_ua|]. apply (kept_ua _ _ U), H1.
  - intros _ s' (A & F). destruct (fs_it ph _ _ F) as (I1 & _). unfold good. rewrite I1. split; [exact A|apply H].
  - intros c s' (A & _). exact A.
Qed.
Lemma ps_solve_K fuel ph lim ali s : good ph s -> wp (ps_solve Or cf fuel ph lim ali) (fun _ s' => ps_end ph s') (fun _ s' => okl s') s.
Proof.
  intros H. unfold ps_solve. apply wp_bind, wp_modp. apply (good_modp ph (fun p => ps_status PRunning (ps_ali ali p))) in H; [|auto].
  revert H. match goal with |- good ph ?x -> _ => generalize x end. clear s. intros s H.
  apply wp_bind, wp_getp, wp_bind, wp_lift; [|intros; apply H]. intros _ _. apply wp_bind.
  eapply wp_cons; [apply (deriv_check_K ph s H)| |]; cbv beta; [|auto]. clear s H. intros _ s H. apply wp_bind, wp_modp.
  apply (good_modp ph (fun p => ps_step StNone (p_bdry p) (ps_cnt (mkcnt (c_iter (p_cnt p)) 0 0 0 0 0) (ps_abort false (ps_status PRunning p))))) in H; [|auto].
  revert H. match goal with |- good ph ?x -> _ => generalize x end. clear s. intros s H. apply wp_bind, wp_emit, wp_bind.
  eapply wp_cons; [apply ps_loop_K| |]; cbv beta; [| |auto].
  - destruct H as ((A & B) & C). unfold good. rewrite ps_of_log. split; [|exact C]. split; [|exact B]. eapply okl_emit; [exact A| |reflexivity]. exact I.
  - intros _ s' H'. apply wp_bind, wp_getp, wp_assert. auto.
Qed.

(** ** Phases *)
Lemma to_restoration_K s : good Opt s -> wp (to_restoration Or cf) (fun _ s' => good Rest s' /\ s_phase s' = Rest) (fun _ s' => okl s') s.
Proof.
  intros H. unfold to_restoration. apply wp_bind, wp_get. cbv zeta. apply wp_bind, wp_lift; [|intros; apply H]. intros x Hx.
  apply wp_bind, wp_modify, wp_bind, wp_lift; [|intros; apply H]. intros y Hy. apply wp_bind, wp_modp, wp_bind, wp_modify, wp_bind, wp_get, wp_bind, wp_emit.
  destruct H as ((A & B & _) & ((F & G) & D & E)). destruct (G eq_refl) as (G1 & G2 & G3). specialize (E eq_refl). cbn [ps_of] in *.
  pose proof (transform_ent _ _ _ _ _ _ _ _ (sn_nc Sane) G3 G2 (sn_lb Sane) (sn_ub Sane) Hx) as Ex.
  pose proof (copy_ent _ _ _ Hy) as Ey. cbn [upart] in B.
  match goal with |- wp _ _ _ ?z => set (s1 := z) end.
  assert (K1 : K Rest (vent x) s1).
  { split; [|split].
    - eapply okl_emit; [exact A| |reflexivity]. cbn. rewrite Ex, B. auto.
    - cbn. rewrite Ex. exact B.
    - intros _. split; [reflexivity|]. split; cbn; rewrite B; auto. }
  assert (X1 : it_x (p_it (ps_of Rest s1)) = y) by reflexivity.
  match goal with |- context [s_rcur ?z] => change (s_rcur z) with (Some (vent x)) end.
  clearbody s1. clear A B D E F G G1 G2 G3 Hx Hy Ex s.
  apply wp_bind. apply wp_ask_func; [|intros s2 U; apply (kept_ua _ _ U), K1]. intros e s2 U. pose proof (kept_K _ _ _ _ (kept_ua _ _ U) K1) as K2.
  destruct (fs_it Rest _ _ (fs_ua _ _ U)) as (I2 & T2).
  apply wp_bind, wp_modp, wp_bind, wp_modify, wp_emit. 
  split; [|reflexivity]. cbn [ps_of with_log with_phase with_ps s_rest ps_its p_it] in *. unfold good. cbn. rewrite I2, X1, Ey. split.
  - destruct K2 as (A & B & C). split; [|split; [exact B|exact C]]. eapply okl_emit; [exact A| |reflexivity]. exact I.
  - unfold vals, half. cbn. rewrite Ey. repeat split; discriminate.
Qed.

Lemma to_optimization_K s : good Rest s -> wp (to_optimization Or cf) (fun _ s' => good Opt s' /\ s_phase s' = Opt) (fun _ s' => okl s') s.
Proof.
  intros H. unfold to_optimization. apply wp_bind, wp_get. apply wp_bind, wp_lift; [|intros; apply H]. intros x Hx.
  apply wp_bind, wp_modify, wp_bind, wp_lift; [|intros; apply H]. intros y Hy. apply wp_bind, wp_modp.
  pose proof (restore_ent _ _ _ _ _ Hx) as Ex. pose proof (copy_ent _ _ _ Hy) as Ey. pose proof (copy_bnd _ _ _ Hy) as By.
  match goal with |- wp _ _ _ ?z => set (s1 := z) end. set (xr := vent (it_x (p_it (s_rest s)))) in *.
  assert (K1 : K Rest xr s1) by apply H. assert (X1 : it_x (p_it (ps_of Opt s1)) = y) by reflexivity. clearbody s1. clear H Hx Hy. clearbody xr. clear s.
  apply wp_bind. eapply wp_cons; [apply (wp_and _ _ _ _ _ _ (rest_cons_K _ _ K1) (rest_cons_fs Or s1))| |]; cbv beta.
  2: { intros c s2 ((_ & A & _) & _). exact A. }
  intros cv s2 ((K2 & Hn & v & Hv & ->) & F2). apply wp_bind.
  eapply wp_cons; [apply (wp_and _ _ _ _ _ _ (rest_jac_K _ _ K2) (rest_jac_fs Or s2))| |]; cbv beta.
  2: { intros c s3 ((_ & A & _) & _). exact A. }
  intros cj s3 ((K3 & Hc & Hs & j & Hj & ->) & F3). apply wp_bind, wp_get, wp_bind, wp_emit.
  destruct (fs_it Opt _ _ F2) as (I2 & _), (fs_it Opt _ _ F3) as (I3 & _). rewrite Hc, Hv, Hj.
  destruct K3 as (A3 & B3 & _). cbn [upart] in B3. rewrite <- Ex in B3.
  assert (K4 : K Opt (vent x) (with_log (EEval Opt (s_cur s3) (s_rcur s3) (vent x)) s3)).
  { split; [|split; [exact B3|discriminate]]. eapply okl_emit; [exact A3| |reflexivity]. split; [exact B3|discriminate]. }
  apply wp_bind. apply wp_ask_func; [|intros s4 U; apply (kept_ua _ _ U), K4]. intros e s4 U. pose proof (kept_K _ _ _ _ (kept_ua _ _ U) K4) as K5.
  destruct (fs_it Opt _ _ (fs_ua _ _ U)) as (I4 & _). rewrite ps_of_log in I4.
  assert (X4 : it_x (p_it (ps_of Opt s4)) = y) by (rewrite I4, I3, I2; exact X1).
  apply wp_bind, wp_modp, wp_bind, wp_modify, wp_emit. split; [|reflexivity]. unfold good. cbn [ps_of with_log with_phase with_ps s_opt ps_its p_it] in *. cbn [it_x]. rewrite X4, Ey. split.
  - destruct K5 as (A & B & C). split; [|split; [exact B|exact C]]. eapply okl_emit; [exact A| |reflexivity]. exact I.
  - unfold vals, half. cbn. rewrite ?X4, ?Ey, <- Hs, B3. repeat split; auto.
Qed.

Lemma set_and_evaluate_K r s : okl s -> bnd (it_x (p_it (s_opt s))) ->
  wp (set_and_evaluate Or cf r) (fun _ s' => good Opt s' /\ s_phase s' = s_phase s) (fun _ s' => okl s') s.
Proof.
  intros H Hb. unfold set_and_evaluate. apply wp_bind, wp_getp, wp_bind. cbn [ps_of].
  eapply wp_cons; [apply (wp_and _ _ _ _ _ _ (set_value_K Opt (it_x (p_it (s_opt s))) r s H) (set_value_fs Or cf Opt (it_x (p_it (s_opt s))) r s))| |]; cbv beta.
  2: { intros c s1 ((_ & A & _) & _). exact A. }
  intros rej s1 (K1 & F1). apply wp_bind.
  eapply wp_cons; [apply (wp_and _ _ _ _ _ _ (eval_K Opt WAll _ s1 K1) (eval_fs Or Opt WAll (it_x (p_it (s_opt s))) s1))| |]; cbv beta.
  2: { intros c s2 ((_ & A & _) & _). exact A. }
  intros e s2 ((K2 & Hn) & F2). apply wp_bind, wp_get, wp_bind, wp_modp, wp_ret.
  destruct (fs_it Opt _ _ F1) as (I1 & _), (fs_it Opt _ _ F2) as (I2 & _). cbn [ps_of] in *.
  assert (E2 : p_it (s_opt s2) = p_it (s_opt s)) by now rewrite I2.
  split; [|cbn; rewrite (fs_phase _ _ F2); apply (fs_phase _ _ F1)].
  unfold good. cbn [ps_of with_ps s_opt ps_its p_it]. cbn [store it_x]. rewrite E2. split; [exact K2|].
  pose proof (cur_of_K _ _ _ K2) as Ec. cbn [cur_of] in Ec. unfold vals, half. cbn. rewrite ?E2, Ec. repeat split; auto.
Qed.
Lemma check_feasibility_K s : okl s -> bnd (it_x (p_it (s_opt s))) ->
  wp (check_feasibility Or cf) (fun _ s' => good Opt s' /\ s_phase s' = s_phase s) (fun _ s' => okl s') s.
Proof.
  intros H Hb. unfold check_feasibility. apply wp_bind. eapply wp_cons; [apply (set_and_evaluate_K RTrying s H Hb)| |]; cbv beta; [|auto].
  intros rej s1 (H1 & P1). destruct rej; [apply wp_ret; auto|]. apply wp_bind, wp_getp, wp_bind, wp_lift; [|intros; apply H1]. intros v _. apply wp_ret. auto.
Qed.
Lemma set_initial_iterate_K s : okl s -> wp (set_initial_iterate Or cf) (fun _ s' => good Opt s' /\ s_phase s' = Opt) (fun _ s' => okl s') s.
Proof.
  intros H. unfold set_initial_iterate. apply wp_bind, wp_get, wp_bind, wp_assert. intros Hp. apply wp_bind, wp_lift; [|auto]. intros x Hx.
  apply wp_bind, wp_modp, wp_bind. eapply wp_cons; [apply set_and_evaluate_K| |]; cbv beta; [exact H|exact (clip_bnd _ _ _ _ _ _ Hx)| |auto].
  intros rej s1 (H1 & P1). destruct rej; [apply wp_raise; apply H1|]. apply wp_ret. split; [exact H1|]. rewrite P1. cbn. destruct (s_phase s); [reflexivity|discriminate].
Qed.

Definition run_end (s : st) : Prop :=
  match s_phase s with Opt => okl s /\ vals Opt (p_it (s_opt s)) | Rest => okl s /\ (good Rest s \/ lost s) end.
Definition okx (s : st) : Prop := okl s \/ lost s.

Lemma good_bnd s : good Opt s -> bnd (it_x (p_it (s_opt s))).
Proof. intros (_ & (_ & H) & _). apply (H eq_refl). Qed.
Lemma run_loop_K fi unlimited : forall fuel remaining enable s, good (s_phase s) s -> (unlimited = true -> remaining = -1) ->
  wp (run_loop Or cf fuel fi remaining unlimited enable) (fun _ s' => run_end s') (fun _ s' => okl s') s.
Proof.
  induction fuel as [|fuel IH]; intros remaining enable s H Hu; cbn [run_loop]. { apply wp_nofuel. apply H. }
  assert (GR : forall x s1, good (s_phase s1) s1 -> run_end (with_status x s1)).
  { clear. intros x s H. unfold run_end. cbn [s_phase with_status]. destruct (s_phase s); split; try apply H. left. exact H. }
  apply wp_bind, wp_assert. intros Hr. apply wp_bind, wp_tick. intros t w. apply (good_w (s_phase s) w) in H. change (s_phase s) with (s_phase (with_w w s)) in H.
  revert H. generalize (with_w w s). clear s. intros s H.
  destruct t. { apply wp_modify. now apply GR. }
  destruct (remaining =? 0) eqn:E0. { apply wp_modify. now apply GR. }
  apply wp_bind, wp_get. cbv zeta. apply wp_bind, wp_modp.
  match goal with |- wp _ _ _ ?z => set (s1 := z) end.
  assert (G1 : good (s_phase s) s1).
  { apply (good_modp (s_phase s) (fun p => ps_cnt (mkcnt (s_iters s) (c_elapsed (p_cnt p)) (c_acc (p_cnt p)) (c_soc (p_cnt p)) (c_rej (p_cnt p)) (c_fail (p_cnt p))) p)); auto. }
  assert (WP : forall q p, s_phase (with_ps q p s) = s_phase s) by (intros []; reflexivity). assert (P1 : s_phase s1 = s_phase s) by apply WP. clear WP. clearbody s1.
  set (ph := s_phase s) in *. clearbody ph. clear s H.
  assert (Hlim : remaining = -1 \/ 0 <= remaining) by (destruct unlimited; [auto|right; lia]).
  apply wp_bind. eapply wp_cons; [apply (wp_and _ _ _ _ _ _ (ps_solve_K fi ph remaining enable s1 G1) (ps_solve_spec Or cf fi ph remaining enable s1 Hlim))| |]; cbv beta; [|intros c s2 (A & _); exact A].
  intros _ s2 (H2 & n & x & So & _). pose proof (so_phase _ _ _ _ _ _ _ _ So) as P2. rewrite P1 in P2. clear So s1 G1 P1.
  apply wp_bind, wp_getp, wp_bind, wp_assert. intros _. apply wp_bind, wp_assert. intros _. apply wp_bind, wp_modify.
  match goal with |- wp _ _ _ ?z => set (s3 := z) end.
  assert (P3 : s_phase s3 = ph) by exact P2.
  assert (PS : ps_of ph s3 = ps_of ph s2) by (unfold s3; now destruct ph).
  assert (H3 : ps_end ph s3).
  { unfold ps_end, good in *. rewrite PS. exact H2. }
  rewrite <- PS in *. clearbody s3. clear s2 H2 P2 PS.
  set (rem' := if unlimited then _ else _). assert (Hu' : unlimited = true -> rem' = -1) by (unfold rem'; intros E; rewrite E in *; auto). clearbody rem'.
  destruct H3 as (A & B & C & D).
  assert (FIN : forall x, wp (modify (with_status x)) (fun _ s' => run_end s') (fun _ s' => okl s') s3).
  { intros y. apply wp_modify. unfold run_end. cbn [s_phase with_status]. rewrite P3. destruct ph; split; auto. }
  assert (NEXT : forall en s', good Opt s' /\ s_phase s' = Opt -> wp (run_loop Or cf fuel fi rem' unlimited en) (fun _ s' => run_end s') (fun _ s' => okl s') s').
  { intros en s' (G & P). apply IH; [now rewrite P|exact Hu']. }
  assert (TR : p_status (ps_of ph s3) <> PTime -> ph = Rest -> wp (toggle Or cf) (fun _ s' => good Opt s' /\ s_phase s' = Opt) (fun _ s' => okl s') s3).
  { intros Ht ->. unfold toggle. apply wp_bind, wp_get. rewrite P3. apply to_optimization_K. auto. }
  destruct (p_status (ps_of ph s3)) eqn:Es; try apply FIN; destruct ph; try apply FIN;
    try (apply wp_assert; discriminate);
    try (apply wp_bind; eapply wp_cons; [apply TR; [discriminate|reflexivity]| |]; cbv beta; [|auto]; intros _ s4 H4; apply wp_bind;
         first [ apply wp_bind, wp_assert; discriminate | apply wp_ret; now apply NEXT
               | eapply wp_cons; [apply (check_feasibility_K s4); [apply H4|apply good_bnd, H4]| |]; cbv beta; [|auto]; intros b s5 (G5 & P5); apply NEXT; split; [exact G5|]; rewrite P5; apply H4 ]).
  (* locally infeasible *)
  apply wp_bind. destruct enable.
  - unfold toggle. apply wp_bind, wp_get. rewrite P3. eapply wp_cons; [apply (to_restoration_K s3)| |]; cbv beta; [apply C; discriminate| |auto].
    intros _ s4 (G4 & P4). apply IH; [now rewrite P4|exact Hu'].
  - apply wp_ret. apply IH; [rewrite P3; apply C; discriminate|exact Hu'].
Qed.

Lemma lost_log s s' : (exists l, s_log s' = l ++ s_log s) -> lost s -> lost s'.
Proof. intros (l & L) (l1 & c & L1 & H). exists (l ++ l1), c. rewrite L, L1, app_assoc. split; [reflexivity|]. apply in_or_app. auto. Qed.

Lemma restore_original_K s : okl s -> wp (restore_original Or cf) (fun _ s' => okl s') (fun _ s' => okl s') s.
Proof.
  intros H. unfold restore_original. destruct (cf_preproc cf); [|now apply wp_ret]. apply wp_bind, wp_getp, wp_bind.
  eapply wp_cons; [apply (set_value_K Opt _ RNone s H)| |]; cbv beta. 2: { intros c s1 (_ & A & _). exact A. }
  intros rej s1 K1. destruct rej; [apply wp_raise; apply K1|]. apply wp_bind.
  eapply wp_cons; [apply (eval_K Opt WAll _ s1 K1)| |]; cbv beta. 2: { intros c s2 (_ & A & _). exact A. }
  intros e s2 (K2 & _). apply wp_ret. apply K2.
Qed.

Theorem solver_solve_K fuel fi lim s : okl s ->
  wp (solver_solve Or cf fuel fi lim)
    (fun _ s' => s_status s = SInfeasible \/ lost s' \/ (okl s' /\ vals Opt (p_it (s_opt s')))) (fun _ s' => okl s' \/ lost s') s.
Proof.
  intros H. unfold solver_solve. apply wp_bind, wp_get. destruct (s_status s) eqn:Es; try (apply wp_ret; now left).
  all: apply wp_bind, wp_assert; intros Ht; apply wp_bind, wp_modify; assert (H1 : okl (with_timer true s)) by exact H;
    revert H1; generalize (with_timer true s); clear s H Ht Es; intros s H; unfold run_solving_loop;
    apply wp_bind, wp_bind, wp_modify; assert (H1 : okl (with_iters 0 s)) by exact H; revert H1; generalize (with_iters 0 s); clear s H; intros s H;
    apply wp_bind; (eapply wp_cons; [apply (set_initial_iterate_K s H)| |]; cbv beta; [|auto]); clear s H; intros _ s (H & P);
    apply wp_bind; (eapply wp_cons; [apply (run_loop_K fi (lim =? -1)); [now rewrite P|lia]| |]; cbv beta; [|auto]); clear s H P; intros _ s H;
    apply wp_bind, wp_get, wp_bind, wp_assert; intros _;
    (eapply (wp_cons _ (fun _ s' => lost s' \/ (okl s' /\ vals Opt (p_it (s_opt s')))) _ (fun _ s' => okl s' \/ lost s')); [| |auto]);
    [ unfold run_end in H; destruct (s_phase s) eqn:P; [apply wp_ret; auto|]; destruct H as (_ & [H|H]);
      [ unfold toggle; apply wp_bind, wp_get; rewrite P; eapply wp_cons; [apply (to_optimization_K s H)| |]; cbv beta; auto; intros _ s' (G & _); right; split; apply G
      | eapply wp_cons; [apply (toggle_silent Or cf s)| |]; cbv beta; intros ? s' (_ & _ & _ & l & L & _); [left|right]; eapply lost_log; eauto ]
    | clear s H; intros _ s H; apply wp_bind;
      (eapply (wp_cons _ (fun _ s' => lost s' \/ (okl s' /\ vals Opt (p_it (s_opt s')))) _ (fun _ s' => okl s' \/ lost s')); [| |auto]);
      [ destruct H as [H|(H & V)];
        [ eapply wp_cons; [apply (restore_original_fs Or cf s)| |]; cbv beta; intros ? s' F; [left|right]; (eapply lost_log; [|exact H]); destruct (fs_log _ _ F) as (l & L & _); eauto
        | eapply wp_cons; [apply (wp_and _ _ _ _ _ _ (restore_original_K s H) (restore_original_fs Or cf s))| |]; cbv beta; intros ? s' (A & F); [|auto];
          right; split; [exact A|]; destruct (fs_it Opt _ _ F) as (I1 & _); cbn [ps_of] in I1; now rewrite I1 ]
      | clear s H; intros _ s H; apply wp_bind, wp_getp, wp_bind, wp_lift; [|intros; destruct H as [H|(H & _)]; auto]; intros _ _; apply wp_bind, wp_ask;
        [ intros _ s' U; apply wp_modify; right; destruct H as [H|(H & V)];
          [ left; eapply (lost_log s); [destruct (fs_log _ _ (fs_ua _ _ U)) as (l & L & _); eauto|exact H]
          | right; destruct (fs_it Opt _ _ (fs_ua _ _ U)) as (I1 & _); split; [apply (kept_ua _ _ U), H|]; cbn [ps_of with_timer s_opt] in *; now rewrite I1 ]
        | intros c s' U; destruct H as [H|(H & V)];
          [ right; eapply (lost_log s); [destruct (fs_log _ _ (fs_ua _ _ U)) as (l & L & _); eauto|exact H]
          | left; apply (kept_ua _ _ U), H ] ] ] ].
Qed.

(** Step computations alone: nothing is lost. *)
Definition okh (s : st) : Prop := exists l, s_log s = l ++ l0 /\ forall e, In e l -> is_hess e = true -> okev e.
Lemma okl_okh s : okl s -> okh s.
Proof. intros (l & L & F). exists l. split; [exact L|]. intros e He _. eapply Forall_forall in F; eauto. Qed.
Lemma avoid_okh s s' : avoid is_hess s s' -> okh s -> okh s'.
Proof.
  intros (l & L & H) (l1 & L1 & H1). exists (l ++ l1). rewrite L, L1, app_assoc. split; [reflexivity|]. intros e He Hh. apply in_app_or in He.
  destruct He as [He|He]; [|auto]. rewrite (H e He) in Hh. discriminate.
Qed.
Theorem solver_solve_H fuel fi lim s : okl s -> wp (solver_solve Or cf fuel fi lim) (fun _ s' => okh s') (fun _ s' => okh s') s.
Proof.
  intros H. unfold solver_solve. apply wp_bind, wp_get.
  assert (B : forall m : M unit, wp m (fun _ s' => okh s') (fun _ s' => okh s') s ->
    wp (match s_status s with SInfeasible => ret tt | _ => m end) (fun _ s' => okh s') (fun _ s' => okh s') s).
  { intros m Hm. destruct (s_status s); try exact Hm. apply wp_ret, okl_okh, H. }
  apply B. clear B. apply wp_bind, wp_assert. intros _. apply wp_bind, wp_modify. assert (H1 : okl (with_timer true s)) by exact H.
  revert H1. generalize (with_timer true s). clear s H. intros s H. unfold run_solving_loop.
  apply wp_bind, wp_bind, wp_modify. assert (H1 : okl (with_iters 0 s)) by exact H. revert H1. generalize (with_iters 0 s). clear s H. intros s H.
  apply wp_bind. eapply wp_cons; [apply (set_initial_iterate_K s H)| |]; cbv beta; [|intros; now apply okl_okh]. clear s H. intros _ s (H & P).
  apply wp_bind. eapply wp_cons; [apply (run_loop_K fi (lim =? -1)); [now rewrite P|lia]| |]; cbv beta; [|intros; now apply okl_okh]. clear s H P. intros _ s H.
  assert (Hs : okh s) by (apply okl_okh; unfold run_end in H; destruct (s_phase s); apply H). clear H.
  apply wp_bind, wp_get, wp_bind, wp_assert. intros _.
  eapply (wp_cons _ (fun _ s' => okh s') _ (fun _ s' => okh s')); [| |auto].
  { destruct (s_phase s); [now apply wp_ret|]. eapply wp_cons; [apply (toggle_h Or cf s)| |]; cbv beta; intros ? s' A; eapply avoid_okh; eauto. }
  clear s Hs. intros _ s H. apply wp_bind. eapply (wp_cons _ (fun _ s' => okh s') _ (fun _ s' => okh s')); [| |auto].
  { eapply wp_cons; [apply (restore_original_h Or cf s)| |]; cbv beta; intros ? s' A; eapply avoid_okh; eauto. }
  clear s H. intros _ s H. apply wp_bind, wp_getp, wp_bind, wp_lift; [|auto]. intros _ _. apply wp_bind, wp_ask.
  - intros _ s' U. apply wp_modify. change (okh s'). eapply avoid_okh; [apply (avoid_ua is_hess s); [reflexivity|exact U]|exact H].
  - intros c s' U. eapply avoid_okh; [apply (avoid_ua is_hess s); [reflexivity|exact U]|exact H].
Qed.
End Coh.
