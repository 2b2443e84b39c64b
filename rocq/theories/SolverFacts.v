(** Weakest preconditions for the computations of Solver.v, and what the parts of an iteration
    leave unchanged. *)
From Verif Require Import Base Num Cmp Sparse Vec Mat WorkingSet Feas TrustRadius Problem Restoration Solver.
Local Open Scope Z_scope.

Section Wp.
Context {N : Num} {W : Type}.
Notation st := (@st N W).
Notation M := (@M N W).
Implicit Types E : option code -> st -> Prop.

(** [Q] after success; [E] after an error ([Some]) or exhausted fuel ([None]); nothing is claimed
    about crashed computations. *)
Definition wp {A} (m : M A) (Q : A -> st -> Prop) (E : option code -> st -> Prop) (s : st) : Prop :=
  match m s with
  | (Done _ a, s') => Q a s'
  | (Fail _ c, s') => E (Some c) s'
  | (Stop _, s') => True
  | (NoFuel _, s') => E None s'
  end.

Lemma wp_bind {A B} (m : M A) (k : A -> M B) Q E s :
  wp m (fun a s' => wp (k a) Q E s') E s -> wp (bind m k) Q E s.
Proof. unfold wp, bind. destruct (m s) as [[a|c| |] s']; auto. Qed.
Lemma wp_ret {A} (a : A) (Q : A -> st -> Prop) E s : Q a s -> wp (ret a) Q E s.
Proof. auto. Qed.
Lemma wp_get (Q : st -> st -> Prop) E s : Q s s -> wp get Q E s.
Proof. auto. Qed.
Lemma wp_modify f (Q : unit -> st -> Prop) E s : Q tt (f s) -> wp (modify f) Q E s.
Proof. auto. Qed.
Lemma wp_lift {A} (r : res A) (Q : A -> st -> Prop) E s :
  (forall a, r = Ok a -> Q a s) -> (forall c, r = Err c -> E (Some c) s) -> wp (lift r) Q E s.
Proof. unfold wp, lift. destruct r; auto. Qed.
Lemma wp_assert b (Q : unit -> st -> Prop) E s : (b = true -> Q tt s) -> wp (assert_ b) Q E s.
Proof. unfold wp, assert_, lift, check. destruct b; auto. Qed.
Lemma wp_raise {A} c (Q : A -> st -> Prop) (E : option code -> st -> Prop) s : E (Some c) s -> wp (raise c) Q E s.
Proof. auto. Qed.
Lemma wp_try m (Q : option code -> st -> Prop) (E : option code -> st -> Prop) s :
  wp m (fun _ s' => Q None s') (fun c s' => match c with Some _ => Q c s' | None => E None s' end) s -> wp (try m) Q E s.
Proof. unfold wp, try. destruct (m s) as [[a|c| |] s']; auto. Qed.
Lemma wp_cons {A} (m : M A) (Q Q' : A -> st -> Prop) (E E' : option code -> st -> Prop) s :
  wp m Q E s -> (forall a s', Q a s' -> Q' a s') -> (forall c s', E c s' -> E' c s') -> wp m Q' E' s.
Proof. unfold wp. destruct (m s) as [[a|c| |] s']; auto. Qed.
Lemma wp_nofuel {A} (Q : A -> st -> Prop) (E : option code -> st -> Prop) s : E None s -> wp (fun s => (NoFuel _, s)) Q E s.
Proof. auto. Qed.
(** Both of two postconditions. *)
Lemma wp_and {A} (m : M A) (Q Q' : A -> st -> Prop) (E E' : option code -> st -> Prop) s :
  wp m Q E s -> wp m Q' E' s -> wp m (fun a s' => Q a s' /\ Q' a s') (fun c s' => E c s' /\ E' c s') s.
Proof. unfold wp. destruct (m s) as [[a|c| |] s']; auto. Qed.

(** What a question to the user may change: the world, and, if an abort is requested, the abort flag
    of the optimisation solver. *)
Definition aborted (s : st) : st := with_ps Opt (ps_abort true (s_opt s)) (with_log (EAbort (s_phase s)) s).
Definition ua (s s' : st) : Prop := exists w, s' = with_w w s \/ s' = aborted (with_w w s).

Lemma wp_user_abort b (Q : unit -> st -> Prop) E s : (b = false -> Q tt s) -> (b = true -> Q tt (aborted s)) -> wp (user_abort b) Q E s.
Proof. unfold user_abort. destruct b; intros H1 H2; [exact (H2 eq_refl)|exact (H1 eq_refl)]. Qed.
Lemma wp_ask {A} (f : W -> ans A) (Q : A -> st -> Prop) (E : option code -> st -> Prop) s :
  (forall a s', ua s s' -> Q a s') -> (forall c s', ua s s' -> E (Some c) s') -> wp (ask f) Q E s.
Proof.
  intros HQ HE. unfold ask. apply wp_bind, wp_get. destruct (f (s_w s)) as [[r a] w] eqn:Ef.
  apply wp_bind, wp_modify, wp_bind, wp_user_abort; intros _; apply wp_lift; intros x _; try (apply HQ); try (apply HE); exists w; auto.
Qed.
Lemma wp_ask_func {A} (f : W -> ans A) (Q : A -> st -> Prop) (E : option code -> st -> Prop) s :
  (forall a s', ua s s' -> Q a s') -> (forall s', ua s s' -> E (Some EFuncEval) s') -> wp (ask_func f) Q E s.
Proof.
  intros HQ HE. unfold ask_func, ask. apply wp_bind, wp_get. destruct (f (s_w s)) as [[r a] w] eqn:Ef.
  apply wp_bind, wp_modify, wp_bind, wp_user_abort; intros _; apply wp_lift; intros x Hx;
    try (apply HQ; exists w; auto); destruct r; cbn [func_res] in Hx; try discriminate; assert (x = EFuncEval) by congruence; subst x; apply HE; exists w; auto.
Qed.
Lemma wp_tick {A} (f : W -> A * W) (Q : A -> st -> Prop) E s :
  (forall a w, Q a (with_w w s)) -> wp (tick f) Q E s.
Proof. intros H. unfold tick. apply wp_bind, wp_get. destruct (f (s_w s)) as [r w]. apply wp_bind, wp_modify, wp_ret, H. Qed.
Lemma wp_getp ph (Q : ps -> st -> Prop) E s : Q (ps_of ph s) s -> wp (getp ph) Q E s.
Proof. auto. Qed.
Lemma wp_modp ph f (Q : unit -> st -> Prop) E s : Q tt (with_ps ph (f (ps_of ph s)) s) -> wp (modp ph f) Q E s.
Proof. auto. Qed.
Lemma wp_emit e (Q : unit -> st -> Prop) E s : Q tt (with_log e s) -> wp (emit e) Q E s.
Proof. auto. Qed.
Lemma wp_bump ph f (Q : unit -> st -> Prop) E s :
  Q tt (with_ps ph (ps_cnt (f (p_cnt (ps_of ph s))) (ps_of ph s)) s) -> wp (bump ph f) Q E s.
Proof. auto. Qed.

Lemma ps_of_with ph p (s : st) : ps_of ph (with_ps ph p s) = p.
Proof. destruct ph; reflexivity. Qed.
Lemma ps_of_w ph w (s : st) : ps_of ph (with_w w s) = ps_of ph s.
Proof. destruct ph; reflexivity. Qed.
Lemma ps_of_log ph e (s : st) : ps_of ph (with_log e s) = ps_of ph s.
Proof. destruct ph; reflexivity. Qed.
End Wp.

(** Opens a computation up to the next named function. *)
Ltac wstep :=
  match goal with
  | |- wp (bind _ _) _ _ _ => apply wp_bind
  | |- wp (ret _) _ _ _ => apply wp_ret
  | |- wp get _ _ _ => apply wp_get
  | |- wp (modify _) _ _ _ => apply wp_modify
  | |- wp (assert_ _) _ _ _ => apply wp_assert; intros ?
  | |- wp (raise _) _ _ _ => apply wp_raise
  | |- wp (getp _) _ _ _ => apply wp_getp
  | |- wp (modp _ _) _ _ _ => apply wp_modp
  | |- wp (emit _) _ _ _ => apply wp_emit
  | |- wp (bump _ _) _ _ _ => apply wp_bump
  end; cbv beta.
Ltac wsteps := repeat wstep.

(** ** Relations kept by computations *)
Section Keep.
Context {N : Num} {W : Type}.
Notation st := (@st N W).
Notation M := (@M N W).
Implicit Types R : st -> st -> Prop.

Definition kp {A} (R : st -> st -> Prop) (m : M A) : Prop := forall s, wp m (fun _ s' => R s s') (fun _ s' => R s s') s.

Record preo (R : st -> st -> Prop) : Prop := { po_refl : forall s, R s s; po_trans : forall a b c, R a b -> R b c -> R a c }.

Lemma kp_bind {A B} R (m : M A) (k : A -> M B) : preo R -> kp R m -> (forall a, kp R (k a)) -> kp R (bind m k).
Proof.
  intros P Hm Hk s. apply wp_bind. eapply wp_cons; [apply Hm| |]; intros a s' H.
  - eapply wp_cons; [apply Hk| |]; intros b s'' H'; exact (po_trans _ P _ _ _ H H').
  - exact H.
Qed.
Lemma kp_ret {A} R (a : A) : preo R -> kp R (ret a : M A).
Proof. intros P s. apply wp_ret, (po_refl _ P). Qed.
Lemma kp_get R : preo R -> kp R (get : M st).
Proof. intros P s. apply wp_get, (po_refl _ P). Qed.
Lemma kp_getp R ph : preo R -> kp R (getp ph : M ps).
Proof. intros P s. apply wp_getp, (po_refl _ P). Qed.
Lemma kp_lift {A} R (r : res A) : preo R -> kp R (lift r : M A).
Proof. intros P s. apply wp_lift; intros; apply (po_refl _ P). Qed.
Lemma kp_assert R b : preo R -> kp R (assert_ b : M unit).
Proof. intros P s. apply wp_assert; intros; apply (po_refl _ P). Qed.
Lemma kp_raise {A} R c : preo R -> kp R (raise c : M A).
Proof. intros P s. apply wp_raise, (po_refl _ P). Qed.
Lemma kp_modify R f : (forall s, R s (f s)) -> kp R (modify f : M unit).
Proof. intros H s. apply wp_modify, H. Qed.
Lemma kp_modp R ph f : (forall s, R s (with_ps ph (f (ps_of ph s)) s)) -> kp R (modp ph f : M unit).
Proof. intros H s. apply wp_modp, H. Qed.
Lemma kp_emit R e : (forall s, R s (with_log e s)) -> kp R (emit e : M unit).
Proof. intros H s. apply wp_emit, H. Qed.
Lemma kp_ask {A} R (f : W -> ans A) : (forall s s', ua s s' -> R s s') -> kp R (ask f : M A).
Proof. intros H s. apply wp_ask; auto. Qed.
Lemma kp_ask_func {A} R (f : W -> ans A) : (forall s s', ua s s' -> R s s') -> kp R (ask_func f : M A).
Proof. intros H s. apply wp_ask_func; auto. Qed.
Lemma kp_tick {A} R (f : W -> A * W) : (forall s s', ua s s' -> R s s') -> kp R (tick f : M A).
Proof. intros H s. apply wp_tick; intros a w. apply H. exists w. auto. Qed.
Lemma kp_user_abort R b : preo R -> (forall s s', ua s s' -> R s s') -> kp R (user_abort b : M unit).
Proof.
  intros P H s. apply wp_user_abort; intros _; [apply (po_refl _ P)|]. apply H. exists (s_w s). right. destruct s; reflexivity.
Qed.
Lemma kp_if {A} R (b : bool) (m1 m2 : M A) : kp R m1 -> kp R m2 -> kp R (if b then m1 else m2).
Proof. destruct b; auto. Qed.
Lemma kp_weaken {A} (R R' : st -> st -> Prop) (m : M A) : (forall s s', R s s' -> R' s s') -> kp R m -> kp R' m.
Proof. intros H K s. eapply wp_cons; [apply K| |]; auto. Qed.

(** Inside an iteration of phase [ph], most functions change only the iterates of its solver, the
    timer, the point of the functions and their caches; the user may request aborts. *)
Definition quiet (q : phase) (l : list (@ev N)) : Prop :=
  Forall (fun e => match e with EAbort x => x = q | EHess _ _ _ _ | EEval _ _ _ _ => True | _ => False end) l.
Definition has_abort (l : list (@ev N)) : bool := existsb (fun e => match e with EAbort _ => true | _ => false end) l.

Record fr (ph : phase) (s s' : st) : Prop := {
  fr_phase : s_phase s' = s_phase s;
  fr_status : s_status s' = s_status s;
  fr_iters : s_iters s' = s_iters s;
  fr_primal : s_primal s' = s_primal s;
  fr_rprimal : s_rprimal s' = s_rprimal s;
  fr_timer : s_timer s' = s_timer s;
  fr_ps : exists a b tm ab, ps_of ph s' = ps_abort ab (ps_timer tm (ps_its a b (ps_of ph s)));
  fr_other : match ph with Opt => s_rest s' = s_rest s | Rest => exists ab, s_opt s' = ps_abort ab (s_opt s) end;
  fr_rabort : p_abort (s_rest s') = p_abort (s_rest s);
  fr_log : exists l, s_log s' = l ++ s_log s /\ quiet (s_phase s) l /\ p_abort (s_opt s') = p_abort (s_opt s) || has_abort l }.

Lemma ps_eta (p : ps) : p = ps_abort (p_abort p) (ps_timer (p_timer p) (ps_its (p_it p) (p_tr p) p)).
Proof. destruct p; reflexivity. Qed.
Lemma ps_eta_abort (p : ps) : p = ps_abort (p_abort p) p.
Proof. destruct p; reflexivity. Qed.
Lemma has_abort_app l1 l2 : has_abort (l1 ++ l2) = has_abort l1 || has_abort l2.
Proof. apply existsb_app. Qed.

Lemma fr_preo ph : preo (fr ph).
Proof.
  constructor.
  - intros s. constructor; auto.
    + do 4 eexists. apply ps_eta.
    + destruct ph; [reflexivity|]. eexists. apply ps_eta_abort.
    + exists []. repeat split; [constructor|]. cbn. now rewrite orb_false_r.
  - intros s1 s2 s3 [] []. constructor; try congruence.
    + destruct fr_ps0 as (a & b & tm & ab & E1), fr_ps1 as (a' & b' & tm' & ab' & E2). rewrite E2, E1. do 4 eexists. reflexivity.
    + destruct ph; [congruence|]. destruct fr_other0 as (ab & E1), fr_other1 as (ab' & E2). rewrite E2, E1. eexists. reflexivity.
    + destruct fr_log0 as (l & L1 & Q1 & A1), fr_log1 as (l' & L2 & Q2 & A2). exists (l' ++ l).
      rewrite L2, L1, app_assoc, A2, A1, has_abort_app. repeat split; [|now rewrite <- orb_assoc, (orb_comm (has_abort l'))].
      apply Forall_app. split; [|exact Q1]. rewrite <- fr_phase0. exact Q2.
Qed.

(** Functions that leave both problem solvers alone, except for the user requesting an abort. *)
Record fs (s s' : st) : Prop := {
  fs_phase : s_phase s' = s_phase s;
  fs_status : s_status s' = s_status s;
  fs_iters : s_iters s' = s_iters s;
  fs_primal : s_primal s' = s_primal s;
  fs_rprimal : s_rprimal s' = s_rprimal s;
  fs_timer : s_timer s' = s_timer s;
  fs_rest : s_rest s' = s_rest s;
  fs_log : exists l, s_log s' = l ++ s_log s /\ quiet (s_phase s) l /\ s_opt s' = ps_abort (p_abort (s_opt s) || has_abort l) (s_opt s) }.
Lemma fs_preo : preo fs.
Proof.
  constructor.
  - intros s. constructor; auto. exists []. repeat split; [constructor|]. cbn. rewrite orb_false_r. apply ps_eta_abort.
  - intros s1 s2 s3 [] []. constructor; try congruence.
    destruct fs_log0 as (l & L1 & Q1 & A1), fs_log1 as (l' & L2 & Q2 & A2). exists (l' ++ l).
    rewrite L2, L1, app_assoc, A2, A1, has_abort_app. repeat split.
    + apply Forall_app. split; [|exact Q1]. rewrite <- fs_phase0. exact Q2.
    + unfold ps_abort at 1 2. cbn. now rewrite <- orb_assoc, (orb_comm (has_abort l')).
Qed.
Lemma fs_fr ph s s' : fs s s' -> fr ph s s'.
Proof.
  intros []. destruct fs_log0 as (l & L & Q & A). constructor; auto.
  - destruct ph; cbn.
    + rewrite A. do 4 eexists. rewrite (ps_eta (s_opt s)) at 2. reflexivity.
    + rewrite fs_rest0. do 4 eexists. apply ps_eta.
  - destruct ph; [assumption|]. rewrite A. eexists. reflexivity.
  - congruence.
  - exists l. repeat split; auto. now rewrite A.
Qed.
Lemma fs_it ph s s' : fs s s' -> p_it (ps_of ph s') = p_it (ps_of ph s) /\ p_tr (ps_of ph s') = p_tr (ps_of ph s).
Proof.
  intros []. destruct fs_log0 as (l & L & Q & A). destruct ph; cbn; [rewrite A|rewrite fs_rest0]; auto.
Qed.
Lemma fs_ua s s' : ua s s' -> fs s s'.
Proof.
  intros (w & [->| ->]); constructor; try reflexivity.
  - exists []. repeat split; [constructor|]. cbn. rewrite orb_false_r. apply ps_eta_abort.
  - exists [EAbort (s_phase s)]. repeat split; [repeat constructor|]. cbn. now rewrite orb_true_r.
Qed.
Lemma fs_ev e (s : st) : match e with EHess _ _ _ _ | EEval _ _ _ _ => True | _ => False end -> fs s (with_log e s).
Proof.
  intros H. constructor; try reflexivity.
  exists [e]. repeat split; [repeat constructor; destruct e; tauto|]. destruct e; try tauto; cbn; rewrite orb_false_r; apply ps_eta_abort.
Qed.
Lemma fs_same (s s' : st) : s_phase s' = s_phase s -> s_status s' = s_status s -> s_iters s' = s_iters s ->
  s_primal s' = s_primal s -> s_rprimal s' = s_rprimal s -> s_timer s' = s_timer s -> s_opt s' = s_opt s -> s_rest s' = s_rest s ->
  s_log s' = s_log s -> fs s s'.
Proof.
  intros. constructor; auto. exists []. repeat split; [assumption|constructor|]. rewrite H5. cbn. rewrite orb_false_r. apply ps_eta_abort.
Qed.

Lemma fr_ua ph s s' : ua s s' -> fr ph s s'.
Proof.
  intros (w & [->| ->]).
  - constructor; try reflexivity.
    + rewrite ps_of_w. do 4 eexists. apply ps_eta.
    + destruct ph; [reflexivity|]. eexists. apply ps_eta_abort.
    + exists []. repeat split; [constructor|]. cbn. now rewrite orb_false_r.
  - constructor; try reflexivity.
    + destruct ph; cbn; do 4 eexists; [|apply ps_eta].
      rewrite (ps_eta (s_opt s)) at 1. reflexivity.
    + destruct ph; [reflexivity|]. cbn. eexists. reflexivity.
    + exists [EAbort (s_phase s)]. repeat split; [constructor; [reflexivity|constructor]|]. cbn. now rewrite orb_true_r.
Qed.

(** Changes that stay inside the frame. *)
Lemma fr_its ph f g tm (s : st) : fr ph s (with_ps ph (ps_timer tm (ps_its (f (p_it (ps_of ph s))) (g (p_tr (ps_of ph s))) (ps_of ph s))) s).
Proof.
  constructor; try reflexivity.
  - rewrite ps_of_with. do 4 eexists. rewrite (ps_eta_abort (ps_timer _ _)). reflexivity.
  - destruct ph; [reflexivity|]. cbn. eexists. apply ps_eta_abort.
  - destruct ph; reflexivity.
  - exists []. repeat split; [constructor|]. destruct ph; cbn; now rewrite orb_false_r.
Qed.
Lemma fr_ev ph e (s : st) : match e with EHess _ _ _ _ | EEval _ _ _ _ => True | _ => False end -> fr ph s (with_log e s).
Proof.
  intros H. constructor; try reflexivity.
  - rewrite ps_of_log. do 4 eexists. apply ps_eta.
  - destruct ph; [reflexivity|]. eexists. apply ps_eta_abort.
  - exists [e]. repeat split; [repeat constructor; destruct e; tauto|]. destruct e; try tauto; cbn; now rewrite orb_false_r.
Qed.
Lemma fr_same ph (s s' : st) : s_phase s' = s_phase s -> s_status s' = s_status s -> s_iters s' = s_iters s ->
  s_primal s' = s_primal s -> s_rprimal s' = s_rprimal s -> s_timer s' = s_timer s -> s_opt s' = s_opt s -> s_rest s' = s_rest s ->
  s_log s' = s_log s -> fr ph s s'.
Proof.
  intros. constructor; auto.
  - replace (ps_of ph s') with (ps_of ph s) by (destruct ph; cbn; congruence). do 4 eexists. apply ps_eta.
  - destruct ph; [congruence|]. eexists. rewrite H5. apply ps_eta_abort.
  - congruence.
  - exists []. repeat split; [assumption|constructor|]. rewrite H5. cbn. now rewrite orb_false_r.
Qed.
End Keep.

Ltac kstep P :=
  match goal with
  | |- kp _ (bind _ _) => apply kp_bind; [exact P| |intros ?]
  | |- kp _ (ret _) => apply kp_ret; exact P
  | |- kp _ get => apply kp_get; exact P
  | |- kp _ (getp _) => apply kp_getp; exact P
  | |- kp _ (lift _) => apply kp_lift; exact P
  | |- kp _ (assert_ _) => apply kp_assert; exact P
  | |- kp _ (raise _) => apply kp_raise; exact P
  | |- kp _ (if ?b then _ else _) => destruct b
  | |- kp _ (match ?x with _ => _ end) => destruct x
  end.

Section Frame.
Context {N : Num} {W : Type}.
Variable Or : @oracles N W.
Variable cf : @config N.
Notation st := (@st N W).
Notation M := (@M N W).

Ltac sstep :=
  first [ kstep (@fs_preo N W)
        | apply kp_ask; exact fs_ua
        | apply kp_ask_func; exact fs_ua
        | apply kp_tick; exact fs_ua
        | apply kp_user_abort; [apply fs_preo|exact fs_ua]
        | apply kp_emit; intros ?; apply fs_ev; exact I
        | apply kp_modify; intros ?; apply fs_ua; eexists; left; reflexivity ].

Lemma set_value_fs q x r : kp fs (set_value Or cf q x r).
Proof. unfold set_value. repeat sstep. apply kp_modify. intros s. destruct q; apply fs_same; reflexivity. Qed.
Lemma rest_cons_fs : kp fs (rest_cons Or).
Proof. unfold rest_cons. repeat sstep. apply kp_modify. intros s. apply fs_same; reflexivity. Qed.
Lemma rest_jac_fs : kp fs (rest_jac Or).
Proof. unfold rest_jac. repeat sstep. apply kp_modify. intros s. apply fs_same; reflexivity. Qed.
Lemma eval_fs q wh x : kp fs (eval Or q wh x).
Proof. unfold eval. repeat (sstep || apply rest_cons_fs || apply rest_jac_fs). Qed.
Lemma set_func_value_fs q x r : kp fs (set_func_value Or cf q x r).
Proof. unfold set_func_value. repeat (sstep || apply set_value_fs). Qed.
Lemma restore_original_fs : kp fs (restore_original Or cf).
Proof. unfold restore_original. repeat (sstep || apply set_value_fs || apply eval_fs). Qed.
Lemma opt_accepted_fs : kp fs (opt_accepted Or cf).
Proof. unfold opt_accepted. repeat (sstep || apply restore_original_fs). Qed.
Lemma reject_step_fs ph : kp fs (reject_step Or cf ph).
Proof. unfold reject_step. repeat (sstep || apply set_func_value_fs). Qed.
Lemma deriv_loop_fs ph k : forall j, kp fs (deriv_loop Or cf ph k j).
Proof. induction k as [|k IH]; intros j; cbn [deriv_loop]; repeat (sstep || apply set_value_fs || apply IH). Qed.
Lemma deriv_check_fs ph : kp fs (deriv_check Or cf ph).
Proof. unfold deriv_check. repeat (sstep || apply deriv_loop_fs). Qed.

Ltac fstep ph :=
  first [ kstep (@fr_preo N W ph)
        | apply kp_ask; intros ? ?; apply fr_ua
        | apply kp_ask_func; intros ? ?; apply fr_ua
        | apply kp_tick; intros ? ?; apply fr_ua
        | apply kp_user_abort; [apply fr_preo|intros ? ?; apply fr_ua]
        | apply kp_emit; intros ?; apply fr_ev; exact I
        | apply kp_modify; intros ?; apply fr_ua; eexists; left; reflexivity ].

Lemma set_value_fr ph q x r : kp (fr ph) (set_value Or cf q x r).
Proof. apply (kp_weaken fs); [exact (fs_fr ph)|apply set_value_fs]. Qed.
Lemma rest_cons_fr ph : kp (fr ph) (rest_cons Or).
Proof. apply (kp_weaken fs); [exact (fs_fr ph)|apply rest_cons_fs]. Qed.
Lemma rest_jac_fr ph : kp (fr ph) (rest_jac Or).
Proof. apply (kp_weaken fs); [exact (fs_fr ph)|apply rest_jac_fs]. Qed.
Lemma eval_fr ph q wh x : kp (fr ph) (eval Or q wh x).
Proof. apply (kp_weaken fs); [exact (fs_fr ph)|apply eval_fs]. Qed.
Lemma set_func_value_fr ph q x r : kp (fr ph) (set_func_value Or cf q x r).
Proof. apply (kp_weaken fs); [exact (fs_fr ph)|apply set_func_value_fs]. Qed.
Lemma its_fr ph f g : kp (fr ph) (modp ph (fun p => ps_its (f p) (g p) p) : M unit).
Proof.
  apply kp_modp. intros s. pose proof (fr_its ph (fun _ => f (ps_of ph s)) (fun _ => g (ps_of ph s)) (p_timer (ps_of ph s)) s) as H.
  replace (ps_its (f (ps_of ph s)) (g (ps_of ph s)) (ps_of ph s)) with
    (ps_timer (p_timer (ps_of ph s)) (ps_its (f (ps_of ph s)) (g (ps_of ph s)) (ps_of ph s))) by (destruct (ps_of ph s); reflexivity).
  exact H.
Qed.
Lemma timer_fr ph b : kp (fr ph) (modp ph (ps_timer b) : M unit).
Proof.
  apply kp_modp. intros s. pose proof (fr_its ph (fun x => x) (fun x => x) b s) as H.
  replace (ps_timer b (ps_of ph s)) with (ps_timer b (ps_its (p_it (ps_of ph s)) (p_tr (ps_of ph s)) (ps_of ph s))) by (destruct (ps_of ph s); reflexivity).
  exact H.
Qed.
Lemma evaluate_at_trial_fr ph : kp (fr ph) (evaluate_at_trial Or cf ph).
Proof. unfold evaluate_at_trial. repeat (fstep ph || apply set_func_value_fr || apply eval_fr || apply its_fr). Qed.
Lemma restore_original_fr ph : kp (fr ph) (restore_original Or cf).
Proof. apply (kp_weaken fs); [exact (fs_fr ph)|apply restore_original_fs]. Qed.
Lemma opt_accepted_fr ph : kp (fr ph) (opt_accepted Or cf).
Proof. apply (kp_weaken fs); [exact (fs_fr ph)|apply opt_accepted_fs]. Qed.
Lemma reject_step_fr ph : kp (fr ph) (reject_step Or cf ph).
Proof. apply (kp_weaken fs); [exact (fs_fr ph)|apply reject_step_fs]. Qed.
Lemma set_trial_point_fr ph x : kp (fr ph) (set_trial_point cf ph x : M unit).
Proof. unfold set_trial_point. repeat (fstep ph || apply its_fr). Qed.
Lemma compute_trial_fr ph : kp (fr ph) (compute_trial Or cf ph).
Proof.
  unfold compute_trial. repeat (fstep ph || apply timer_fr || apply its_fr || apply set_trial_point_fr).
Qed.
Lemma compute_soc_fr ph : kp (fr ph) (compute_soc Or cf ph).
Proof.
  unfold compute_soc. repeat (fstep ph || apply timer_fr || apply its_fr || apply set_trial_point_fr).
Qed.
Lemma try_step_fr ph a b c : kp (fr ph) (try_step Or cf ph a b c).
Proof. unfold try_step. repeat (fstep ph || apply evaluate_at_trial_fr). Qed.
Lemma deriv_check_fr ph : kp (fr ph) (deriv_check Or cf ph).
Proof. apply (kp_weaken fs); [exact (fs_fr ph)|apply deriv_check_fs]. Qed.
Lemma set_and_evaluate_fr r : kp (fr Opt) (set_and_evaluate Or cf r).
Proof. unfold set_and_evaluate. repeat (fstep Opt || apply set_value_fr || apply eval_fr || apply its_fr). Qed.
Lemma check_feasibility_fr : kp (fr Opt) (check_feasibility Or cf).
Proof. unfold check_feasibility. repeat (fstep Opt || apply set_and_evaluate_fr). Qed.
Lemma set_initial_iterate_fr : kp (fr Opt) (set_initial_iterate Or cf).
Proof. unfold set_initial_iterate. repeat (fstep Opt || apply set_and_evaluate_fr || apply its_fr). Qed.
End Frame.

(** ** Computations without loops do not run out of fuel *)
Section Nf.
Context {N : Num} {W : Type}.
Notation st := (@st N W).
Notation M := (@M N W).
Definition nf {A} (m : M A) : Prop := forall s, fst (m s) <> NoFuel _.
Lemma nf_bind {A B} (m : M A) (k : A -> M B) : nf m -> (forall a, nf (k a)) -> nf (bind m k).
Proof.
  intros Hm Hk s. unfold bind. specialize (Hm s). destruct (m s) as [[a|c| |] s']; cbn in *; try discriminate; try apply Hk; congruence.
Qed.
Lemma nf_ret {A} (a : A) : nf (ret a).
Proof. intros s. discriminate. Qed.
Lemma nf_get : nf get.
Proof. intros s. discriminate. Qed.
Lemma nf_modify f : nf (modify f).
Proof. intros s. discriminate. Qed.
Lemma nf_lift {A} (r : res A) : nf (lift r).
Proof. intros s. destruct r; discriminate. Qed.
Lemma nf_wp {A} (m : M A) (Q : A -> st -> Prop) (E : option code -> st -> Prop) s :
  nf m -> wp m Q E s -> wp m Q (fun c s' => c <> None /\ E c s') s.
Proof. intros H K. specialize (H s). unfold wp in *. destruct (m s) as [[a|c| |] s']; cbn in *; auto; try congruence. split; [discriminate|auto]. Qed.
End Nf.

Ltac nstep :=
  match goal with
  | |- nf (bind _ _) => apply nf_bind; [|intros ?]
  | |- nf (ret _) => apply nf_ret
  | |- nf get => apply nf_get
  | |- nf (modify _) => apply nf_modify
  | |- nf (lift _) => apply nf_lift
  | |- nf (if ?b then _ else _) => destruct b
  | |- nf (match ?x with _ => _ end) => destruct x
  end.
Ltac nsteps := repeat (nstep || match goal with |- nf (let _ := _ in _) => cbv zeta end).

Section NfSolver.
Context {N : Num} {W : Type}.
Variable Or : @oracles N W.
Variable cf : @config N.
Notation M := (@M N W).
Lemma ask_nf {A} (f : W -> ans A) : nf (ask f : M A).
Proof. unfold ask, user_abort, emit, modp. nsteps. Qed.
Lemma tick_nf {A} (f : W -> A * W) : nf (tick f : M A).
Proof. unfold tick. nsteps. Qed.
Ltac ns := repeat (nstep || apply ask_nf || apply tick_nf).
Lemma rest_cons_nf : nf (rest_cons Or).
Proof. unfold rest_cons, ask_func. ns. Qed.
Lemma rest_jac_nf : nf (rest_jac Or).
Proof. unfold rest_jac, ask_func. ns. Qed.
Lemma set_value_nf ph x r : nf (set_value Or cf ph x r).
Proof. unfold set_value, ask_func. ns. Qed.
Lemma eval_nf ph wh x : nf (eval Or ph wh x).
Proof. unfold eval, emit, ask_func. repeat (nstep || apply ask_nf || apply rest_cons_nf || apply rest_jac_nf). Qed.
Ltac nn := repeat (nstep || apply ask_nf || apply tick_nf || apply rest_cons_nf || apply rest_jac_nf || apply set_value_nf || apply eval_nf).
Lemma set_func_value_nf ph x r : nf (set_func_value Or cf ph x r).
Proof. unfold set_func_value, raise. nn. Qed.
Lemma evaluate_at_trial_nf ph : nf (evaluate_at_trial Or cf ph).
Proof. unfold evaluate_at_trial, getp, modp. repeat (nstep || apply set_func_value_nf || apply eval_nf). Qed.
Lemma try_step_nf ph a b c : nf (try_step Or cf ph a b c).
Proof. unfold try_step, getp. repeat (nstep || apply evaluate_at_trial_nf || apply tick_nf). Qed.
Lemma restore_original_nf : nf (restore_original Or cf).
Proof. unfold restore_original, getp, raise. nn. Qed.
Lemma set_trial_point_nf ph x : nf (set_trial_point cf ph x : M unit).
Proof. unfold set_trial_point, getp, modp. nn. Qed.
Lemma perform_iteration_nf ph : nf (perform_iteration Or cf ph).
Proof.
  unfold perform_iteration, prepare_iteration, compute_trial, soc_part, compute_soc, accept_step, opt_accepted, rest_accepted, reject_step,
    user_abort, getp, bump, modp, emit, assert_.
  repeat (nstep || apply try_step_nf || apply set_trial_point_nf || apply restore_original_nf || apply set_func_value_nf
          || apply eval_nf || apply ask_nf || apply rest_cons_nf || apply rest_jac_nf).
Qed.
Lemma deriv_loop_nf ph k : forall j, nf (deriv_loop Or cf ph k j).
Proof. induction k as [|k IH]; intros j; cbn [deriv_loop]; unfold getp, raise, ask_func; repeat (apply IH || nstep || apply tick_nf || apply set_value_nf || apply ask_nf). Qed.
Lemma deriv_check_nf ph : nf (deriv_check Or cf ph).
Proof. unfold deriv_check. repeat (nstep || apply deriv_loop_nf || apply ask_nf). Qed.
Lemma toggle_nf : nf (toggle Or cf).
Proof.
  unfold toggle, to_restoration, to_optimization, modp, emit, ask_func.
  repeat (nstep || apply ask_nf || apply rest_cons_nf || apply rest_jac_nf).
Qed.
Lemma set_and_evaluate_nf r : nf (set_and_evaluate Or cf r).
Proof. unfold set_and_evaluate, getp, modp. nn. Qed.
Lemma check_feasibility_nf : nf (check_feasibility Or cf).
Proof. unfold check_feasibility, getp. repeat (nstep || apply set_and_evaluate_nf). Qed.
Lemma set_initial_iterate_nf : nf (set_initial_iterate Or cf).
Proof. unfold set_initial_iterate, assert_, modp, raise. repeat (nstep || apply set_and_evaluate_nf). Qed.
End NfSolver.
