(** C83: least-squares functions. *)
From Coq Require Import Reals Lra FunctionalExtensionality.
From Verif Require Import Base Num Cmp Sparse Vec VecFacts VecFacts2 RSum VecReal Mat PreprocReal QnReal SteihaugFacts PropsVec LsqrFacts Flags LsqFunc.
Local Open Scope R_scope.

Section Props.
Context {U : Type}.
(** Residuals [r], their Jacobian [J], constraints [c] and their Jacobian as functions of the point;
    [pt] is the point that the data of the user refer to.  [live]: no callback fails. *)
Variables (n m nc : Z) (pt : U -> Z -> R) (live : Prop).
Variables (r : (Z -> R) -> Z -> R) (J : (Z -> R) -> Z -> Z -> R) (c : (Z -> R) -> Z -> R) (Jc : (Z -> R) -> @mat RN -> Prop).
Notation lsqcb := (@lsqcb RN U).
Notation lsqf := (@lsqf RN U).
Notation call := (@call RN U).
Notation answer := (@answer RN).

(** ** Specification *)
Definition half_sq (x : Z -> R) : R := / 2 * sumd m (fun i => r x i * r x i).
Definition is_vec (d : Z) (f : Z -> R) (v : rvec) : Prop := vok d v /\ forall i, (0 <= i < d)%Z -> dense v i = f i.

(** A callback that keeps the point, returning [Ok] only what satisfies [P] *)
Definition cb_fine {A} (u : U) (p : U * res A) (P : A -> Prop) : Prop :=
  pt (fst p) = pt u /\ match snd p with Ok a => P a | Err _ => ~ live | Trap => False end.
Record cb_ok (cb : lsqcb) : Prop := {
  ok_set : forall u x, vok n x -> match cb_set cb u x with (u', Ok _) => pt u' = dense x | (_, Err _) => ~ live | (_, Trap) => False end;
  ok_nnz : forall f, cb_nnz cb = Some f -> forall u, cb_fine u (f u) (fun h => (-1 <= h_res h)%Z /\ (-1 <= h_fwd h)%Z);
  ok_res : forall u t, vok m t -> vent t = [] -> cb_fine u (cb_res cb u t) (is_vec m (r (pt u)));
  ok_fwd : forall u d t, vok n d -> vok m t -> vent t = [] ->
    cb_fine u (cb_fwd cb u d t) (is_vec m (fun i => sumd n (fun j => J (pt u) i j * dense d j)));
  ok_adj : forall u d t, vok m d -> vok n t -> vent t = [] ->
    cb_fine u (cb_adj cb u d t) (is_vec n (fun j => sumd m (fun i => J (pt u) i j * dense d i)));
  ok_cons : forall u t, nc <> 0%Z -> vok nc t -> vent t = [] -> cb_fine u (cb_cons cb u t) (is_vec nc (c (pt u)));
  ok_jac : forall u t, nc <> 0%Z -> cb_fine u (cb_jac cb u t) (Jc (pt u)) }.

(** Calls with vectors of the right dimensions *)
Definition call_ok (q : call) : Prop :=
  match q with
  | CSet x => vok n x
  | CGrad g => vok n g
  | CRes t => vok m t
  | CFwd d p => vok n d /\ vok m p
  | CAdj d p => vok m d /\ vok n p
  | CCons t => vok nc t
  | CHess d p => vok n d /\ vok n p
  | CCallbacks cb => cb_ok cb
  | CNnz | CObj | CJac _ | CLm _ => True
  end.

(** The answer of a call at the point [x] with the Levenberg-Marquardt factor [lm] *)
Definition right (x : Z -> R) (lm : R) (q : call) (a : res answer) : Prop :=
  match a with
  | Trap => False
  | Err e => e = EFuncEval /\ ~ live
  | Ok a =>
    match q, a with
    | CSet _, ABool _ | CNnz, AHints _ | CCallbacks _, ANone | CLm _, ANone => True
    | CObj, ANum v => v = half_sq x
    | CGrad _, AVec v => is_vec n (fun j => sumd m (fun i => J x i j * r x i)) v
    | CRes _, AVec v => is_vec m (r x) v
    | CFwd d _, AVec v => is_vec m (fun i => sumd n (fun j => J x i j * dense d j)) v
    | CAdj d _, AVec v => is_vec n (fun j => sumd m (fun i => J x i j * dense d i)) v
    | CCons t, AVec v => nc = 0%Z \/ is_vec nc (c x) v
    | CJac t, AMat M => nc = 0%Z \/ Jc x M
    | CHess d _, AVec v => is_vec n (fun j => sumd m (fun i => J x i j * sumd n (fun k => J x i k * dense d k)) + lm * dense d j) v
    | _, _ => False
    end
  end.
(** All answers up to the first failed change of the point *)
Fixpoint all_right (x : Z -> R) (lm : R) (l : list (call * res answer)) : Prop :=
  match l with
  | [] => True
  | (q, a) :: l => right x lm q a /\
    match q, a with
    | CSet y, Ok _ => all_right (dense y) lm l
    | CSet y, _ => True
    | CLm k, _ => all_right x k l
    | _, _ => all_right x lm l
    end
  end.

(** ** The state *)
Record inv (F : lsqf) (x : Z -> R) (lm : R) : Prop := {
  iv_n : lf_n F = n; iv_m : lf_m F = m; iv_nc : lf_nc F = nc; iv_int : lf_int F = false; iv_eps : lf_eps F = (0 : @num RN);
  iv_cb : cb_ok (lf_cb F); iv_lm : lf_lm F = (lm : @num RN);
  iv_fwd : vok m (lf_fwd F); iv_res : vok m (lf_res F); iv_hess : vok n (lf_hess F);
  iv_pt : pt (lf_u F) = x;
  iv_has : lf_has F = true -> is_vec m (r x) (lf_res F) }.

Lemma vok_clear d (v : rvec) : vok d v -> vok d (vec_clear v).
Proof. intros [W D]. split; [now apply wf_clear|exact D]. Qed.

Definition good {A} (x : Z -> R) (lm : R) (p : lsqf * res A) (P : lsqf -> A -> Prop) : Prop :=
  inv (fst p) x lm /\ match snd p with Ok a => P (fst p) a | Err e => e = EFuncEval /\ ~ live | Trap => False end.
Lemma good_ok {A} x lm (F : lsqf) (a : A) (P : lsqf -> A -> Prop) : inv F x lm -> P F a -> good x lm (F, Ok a) P.
Proof. split; auto. Qed.
Lemma good_bind {A B} x lm (p : lsqf * res A) (k : lsqf -> A -> lsqf * res B) P Q : good x lm p P ->
  (forall F a, inv F x lm -> P F a -> good x lm (k F a) Q) -> good x lm (obind p k) Q.
Proof. destruct p as [F [a|e|]]; intros [I H] Hk; unfold obind; cbn [fst snd] in *; [now apply Hk|split; auto|contradiction]. Qed.
Lemma good_weaken {A} x lm (p : lsqf * res A) (P Q : lsqf -> A -> Prop) : good x lm p P -> (forall F a, inv F x lm -> P F a -> Q F a) -> good x lm p Q.
Proof. destruct p as [F [a|e|]]; intros [I H] Hw; split; cbn [fst snd] in *; auto. Qed.

Lemma inv_set_u F x lm u : inv F x lm -> pt u = x -> inv (set_u F u) x lm.
Proof. intros [] E. split; auto. Qed.
Lemma inv_set_fwd F x lm v : inv F x lm -> vok m v -> inv (set_fwd F v) x lm.
Proof. intros [] E. split; auto. Qed.
Lemma inv_set_hess F x lm v : inv F x lm -> vok n v -> inv (set_hess F v) x lm.
Proof. intros [] E. split; auto. Qed.
Lemma good_call {A} x lm (F : lsqf) (p : U * res A) P : inv F x lm -> cb_fine (lf_u F) p P -> good x lm (ocall F p) (fun _ => P).
Proof.
  destruct p as [u a]. intros I [Hp Ha]. unfold ocall. cbn [fst snd] in *. rewrite (iv_int _ _ _ I). split; cbn [fst snd].
  - apply inv_set_u; [exact I|]. rewrite Hp. apply (iv_pt _ _ _ I).
  - destruct a as [a|e|]; cbn [func_call]; auto.
Qed.

Lemma residual_ok x lm F : inv F x lm -> good x lm (lsq_residual F) (fun F _ => is_vec m (r x) (lf_res F)).
Proof.
  intros I. unfold lsq_residual. destruct (lf_has F) eqn:E.
  - apply good_ok; [exact I|]. now apply (iv_has _ _ _ I).
  - eapply good_bind.
    + eapply good_call; [exact I|]. apply (ok_res _ (iv_cb _ _ _ I)); [apply vok_clear, (iv_res _ _ _ I)|reflexivity].
    + cbn beta. intros F' v I' H. rewrite (iv_pt _ _ _ I) in H. apply good_ok; [|exact H].
      destruct I'. split; auto. apply H.
Qed.

Lemma forward_ok x lm F d p : inv F x lm -> vok n d -> vok m p ->
  good x lm (lsq_forward F d p) (fun _ => is_vec m (fun i => sumd n (fun j => J x i j * dense d j))).
Proof.
  intros I Hd Hp. unfold lsq_forward. rewrite (iv_n _ _ _ I), (iv_m _ _ _ I). pose proof Hd as [_ ->]. pose proof Hp as [_ ->]. rewrite !Z.eqb_refl. cbn [andb].
  eapply good_weaken; [apply good_call; [exact I|]; apply (ok_fwd _ (iv_cb _ _ _ I)); [exact Hd|now apply vok_clear|reflexivity]|].
  cbn beta. intros _ v _ H. rewrite (iv_pt _ _ _ I) in H. exact H.
Qed.
Lemma adjoint_ok x lm F d p : inv F x lm -> vok m d -> vok n p ->
  good x lm (lsq_adjoint F d p) (fun _ => is_vec n (fun j => sumd m (fun i => J x i j * dense d i))).
Proof.
  intros I Hd Hp. unfold lsq_adjoint. rewrite (iv_n _ _ _ I), (iv_m _ _ _ I). pose proof Hd as [_ ->]. pose proof Hp as [_ ->]. rewrite !Z.eqb_refl. cbn [andb].
  eapply good_weaken; [apply good_call; [exact I|]; apply (ok_adj _ (iv_cb _ _ _ I)); [exact Hd|now apply vok_clear|reflexivity]|].
  cbn beta. intros _ v _ H. rewrite (iv_pt _ _ _ I) in H. exact H.
Qed.
Lemma is_vec_ext d f g v : is_vec d f v -> (forall i, (0 <= i < d)%Z -> f i = g i) -> is_vec d g v.
Proof. intros [V D] H. split; [exact V|]. intros i Hi. rewrite D, H by lia. reflexivity. Qed.

Lemma hess_base_ok x lm F d t : inv F x lm -> vok n d -> vok n t ->
  good x lm (lsq_hess_base F d t) (fun _ => is_vec n (fun j => sumd m (fun i => J x i j * sumd n (fun k => J x i k * dense d k)))).
Proof.
  intros I Hd Ht. unfold lsq_hess_base. eapply good_bind; [apply forward_ok; [exact I|exact Hd|apply (iv_fwd _ _ _ I)]|].
  cbn beta. intros F' f I' [Vf Df]. eapply good_weaken; [apply adjoint_ok; [now apply inv_set_fwd|exact Vf|exact Ht]|].
  cbn beta. intros _ v _ H. eapply is_vec_ext; [exact H|]. intros j Hj. cbn beta. apply sumd_ext. intros i Hi. rewrite Df by lia. reflexivity.
Qed.

Lemma hess_ok x lm F d p : inv F x lm -> vok n d -> vok n p ->
  good x lm (lsq_hess F d p) (fun _ => is_vec n (fun j => sumd m (fun i => J x i j * sumd n (fun k => J x i k * dense d k)) + lm * dense d j)).
Proof.
  intros I Hd Hp. unfold lsq_hess. set (G := set_hess _ _).
  assert (IG : inv G x lm).
  { apply inv_set_hess; [apply inv_set_fwd; [exact I|apply vok_clear, (iv_fwd _ _ _ I)]|apply vok_clear, (iv_hess _ _ _ I)]. }
  clearbody G. rewrite (iv_lm _ _ _ IG), rn_n0, rn_n1. destruct (@neqb RN lm 0) eqn:E; cbn [negb].
  - apply rn_eqb in E. eapply good_weaken; [apply hess_base_ok; eauto|]. cbn beta. intros _ v _ H. eapply is_vec_ext; [exact H|].
    intros j _. cbn beta. rewrite E. ring.
  - eapply good_bind; [apply hess_base_ok; [exact IG|exact Hd|apply (iv_hess _ _ _ IG)]|]. cbn beta. intros F' h I' [Vh Dh].
    change (lf_lm F') with (lf_lm (set_hess F' h)). change (lf_eps F') with (lf_eps (set_hess F' h)).
    assert (I2 : inv (set_hess F' h) x lm) by (now apply inv_set_hess).
    rewrite (iv_lm _ _ _ I2), (iv_eps _ _ _ I2).
    destruct (dense_lc n h d p 1 lm Vh Hd (vok_cap _ _ Hp)) as (z & Ez & Vz & Dz). rewrite Ez. apply good_ok; [exact I2|]. split; [exact Vz|].
    intros j Hj. rewrite Dz. unfold lc. rewrite Dh by lia. apply Rplus_eq_compat_r. ring.
Qed.

Lemma hints_ok x lm F : inv F x lm -> good x lm (lsq_hints F) (fun _ h => (-1 <= h_res h)%Z /\ (-1 <= h_fwd h)%Z).
Proof.
  intros I. unfold lsq_hints. destruct (cb_nnz (lf_cb F)) as [f|] eqn:E; [|apply good_ok; [exact I|cbn; lia]].
  apply good_call; [exact I|]. now apply (ok_nnz _ (iv_cb _ _ _ I)).
Qed.
Lemma reserve_hint_ok d (v : rvec) k : vok d v -> (-1 <= k)%Z -> exists v', reserve_hint v k = Ok v' /\ vok d v' /\ dense v' = dense v.
Proof.
  intros [W D] Hk. unfold reserve_hint. destruct (Z.eqb_spec k (-1)); [exists v; repeat split; auto; apply W|].
  destruct (vec_reserve_spec v k W) as (v' & E & W' & D' & V' & _); [lia|]. exists v'. split; [exact E|]. split; [split; congruence|].
  unfold dense. now rewrite V'.
Qed.

(** One call *)
Definition next (x : Z -> R) (q : call) : Z -> R := match q with CSet y => dense y | _ => x end.
Definition next_lm (lm : R) (q : call) : R := match q with CLm k => k | _ => lm end.
Definition survives (q : call) (a : res answer) : bool := match q, a with CSet _, Ok _ => true | CSet _, _ => false | _, _ => true end.

Lemma good_answer {A} x lm (p : lsqf * res A) (k : A -> answer) (Q : res answer -> Prop) :
  good x lm p (fun _ a => Q (Ok (k a))) -> (forall e, e = EFuncEval /\ ~ live -> Q (Err e)) ->
  Q (snd (answered k p)) /\ inv (fst (answered k p)) x lm.
Proof. destruct p as [F [a|e|]]; intros [I H] HE; cbn [answered fst snd rmap] in *; [split; auto|split; auto|contradiction]. Qed.

Lemma call_right x lm F q : inv F x lm -> call_ok q ->
  right x lm q (snd (call_run F q)) /\ (survives q (snd (call_run F q)) = true -> inv (fst (call_run F q)) (next x q) (next_lm lm q)).
Proof.
  intros I Hq. assert (HE : forall q' e, e = EFuncEval /\ ~ live -> right x lm q' (Err e)) by (intros; assumption).
  assert (K : forall A (k : A -> answer) p, good x lm p (fun _ a => right x lm q (Ok (k a))) ->
    right x lm q (snd (answered k p)) /\ (survives q (snd (answered k p)) = true -> inv (fst (answered k p)) x lm)).
  { intros A k p H. destruct (good_answer x lm p k (right x lm q) H (HE q)). auto. }
  destruct q as [y| | |g|t|d p|d p|t|t|d p|cb|k]; cbn [call_ok call_run next next_lm] in *.
  - pose proof (ok_set _ (iv_cb _ _ _ I) (lf_u F) y Hq) as H. unfold lsq_set, ocall. rewrite (iv_int _ _ _ I).
    destruct (cb_set (lf_cb F) (lf_u F) y) as [u [b|e|]]; cbn [obind answered fst snd func_call rmap right survives]; [|split; [auto|discriminate]|contradiction].
    split; [exact Logic.I|intros _]. destruct I. split; auto. discriminate.
  - apply K. unfold lsq_nonzeros. eapply good_bind; [apply hints_ok; exact I|]. cbn beta. intros F' h I' [H1 H2].
    destruct (reserve_hint_ok m _ _ (iv_res _ _ _ I') H1) as (v1 & -> & V1 & D1).
    destruct (reserve_hint_ok m _ _ (iv_fwd _ _ _ I') H2) as (v2 & -> & V2 & _).
    destruct (reserve_hint_ok n _ _ (iv_hess _ _ _ I') H2) as (v3 & -> & V3 & _). apply good_ok; [|exact Logic.I].
    apply inv_set_hess; [apply inv_set_fwd; [|exact V2]|exact V3]. destruct I'. split; auto. intros H. split; [exact V1|]. intros i Hi. cbn [set_res lf_res].
    rewrite D1. destruct (iv_has0 H) as [_ ->]; auto.
  - apply K. unfold lsq_obj. eapply good_bind; [apply residual_ok; exact I|]. cbn beta. intros F' _ I' [V D]. apply good_ok; [exact I'|].
    cbn [right]. rewrite (norm_sq_fun m _ V). unfold half_sq.
    replace (dotd m (dense (lf_res F')) (dense (lf_res F'))) with (sumd m (fun i => r x i * r x i)).
    + change (@nmul RN (@nlit RN 1 2) ?a) with (@nlit RN 1 2 * a). f_equal. cbn [nlit RN]. unfold rn_lit. lra.
    + unfold dotd. apply sumd_ext. intros i Hi. now rewrite D.
  - apply K. unfold lsq_grad. eapply good_bind; [apply residual_ok; exact I|]. cbn beta. intros F' _ I' [V D].
    eapply good_weaken; [apply adjoint_ok; [exact I'|exact V|now apply vok_clear]|]. cbn beta. intros _ v _ H. cbn [right]. eapply is_vec_ext; [exact H|].
    intros j Hj. cbn beta. apply sumd_ext. intros i Hi. now rewrite D.
  - apply K. unfold lsq_residuals. rewrite (iv_m _ _ _ I). pose proof Hq as [_ ->]. rewrite Z.eqb_refl. eapply good_bind; [apply residual_ok; exact I|].
    cbn beta. intros F' _ I' [V D]. destruct (copy_fun m _ t V Hq) as (z & -> & Vz & _ & Dz). apply good_ok; [exact I'|]. split; [exact Vz|].
    intros i Hi. rewrite Dz. auto.
  - apply K. eapply good_weaken; [apply forward_ok; [exact I|apply Hq|apply Hq]|]. auto.
  - apply K. eapply good_weaken; [apply adjoint_ok; [exact I|apply Hq|apply Hq]|]. auto.
  - apply K. unfold lsq_cons. rewrite (iv_nc _ _ _ I). destruct (Z.eqb_spec nc 0) as [E|E]; [apply good_ok; [exact I|left; exact E]|].
    eapply good_weaken; [apply good_call; [exact I|apply (ok_cons _ (iv_cb _ _ _ I)); [exact E|now apply vok_clear|reflexivity]]|].
    cbn beta. intros _ v _ H. rewrite (iv_pt _ _ _ I) in H. right. exact H.
  - apply K. unfold lsq_jac. rewrite (iv_nc _ _ _ I). destruct (Z.eqb_spec nc 0) as [E|E]; [apply good_ok; [exact I|left; exact E]|].
    eapply good_weaken; [apply good_call; [exact I|apply (ok_jac _ (iv_cb _ _ _ I)); exact E]|].
    cbn beta. intros _ v _ H. rewrite (iv_pt _ _ _ I) in H. right. exact H.
  - apply K. eapply good_weaken; [apply hess_ok; [exact I|apply Hq|apply Hq]|]. auto.
  - split; [exact Logic.I|intros _]. destruct I. split; auto.
  - split; [exact Logic.I|intros _]. destruct I. split; auto.
Qed.

Lemma run_right l : forall F x lm, inv F x lm -> (forall q, In q l -> call_ok q) -> all_right x lm (snd (run F l)).
Proof.
  induction l as [|q l IH]; intros F x lm I Hl; [exact Logic.I|]. cbn [run snd]. cbn zeta.
  destruct (call_right x lm F q I (Hl q (or_introl eq_refl))) as [H1 H2]. cbn [all_right snd]. split; [exact H1|].
  assert (Hl' : forall q', In q' l -> call_ok q') by (intros; apply Hl; right; assumption).
  destruct q; cbn [survives next next_lm] in H2; try (apply IH; auto; fail).
  destruct (snd (call_run F (CSet x0))); auto.
Qed.

(** Every sequence of calls of a new function yields the values that belong to the last point and
    factor, up to the first point that could not be set. *)
Theorem C83_calls : forall cb lm u F l, cb_ok cb -> lsq_create cb n nc m (lm : @num RN) (0 : @num RN) u = Ok F ->
  (forall q, In q l -> call_ok q) -> all_right (pt u) lm (snd (run F l)).
Proof.
  intros cb lm u F l Hcb E Hl. apply run_right; [|exact Hl]. unfold lsq_create in E.
  apply rbind_ok in E as (? & _ & E). apply rbind_ok in E as (f & Ef & E). apply rbind_ok in E as (g & Eg & E). apply rbind_ok in E as (h & Eh & E).
  assert (V : forall d v, vec_create_empty d = Ok v -> vok d v).
  { intros d v H. unfold vec_create_empty, vec_create in H. apply rbind_ok in H as (? & H1 & H). apply rbind_ok in H as (? & _ & H). apply check_ok in H1.
    injection H as <-. split; [|reflexivity]. unfold wf. cbn. repeat split; lia. }
  apply rbind_ok in E as (h' & Eh' & E).
  assert (V' : vok n h').
  { apply V in Eh. destruct (_ =? _)%num; [now injection Eh' as <-|]. destruct (vec_reserve_spec h n (proj1 Eh)) as (v & Ev & Wv & Dv & _).
    - destruct Eh as [(H & _) D]. rewrite D in H. exact H.
    - rewrite Ev in Eh'. injection Eh' as <-. split; [exact Wv|]. rewrite Dv. apply Eh. }
  injection E as <-. split; auto; try reflexivity. discriminate.
Qed.

(** ** The answers fit together. *)
Lemma derivable_sum (f : Z -> R -> R) (f' : Z -> R) t k : (forall i, (0 <= i < Z.of_nat k)%Z -> derivable_pt_lim (f i) t (f' i)) ->
  derivable_pt_lim (fun s => rsum k (fun i => f i s)) t (rsum k f').
Proof.
  induction k as [|k IH]; intros H; cbn [rsum]; [apply derivable_pt_lim_const|].
  apply (derivable_pt_lim_plus (fun s => rsum k (fun i => f i s)) (f (Z.of_nat k))); [apply IH; intros; apply H; lia|apply H; lia].
Qed.

(** The gradient is the derivative of the value, if [J] is that of the residuals. *)
Theorem C83_gradient : forall x lm g v d, (0 <= m)%Z ->
  right x lm (CGrad g) (Ok (AVec v)) ->
  (forall i, (0 <= i < m)%Z -> derivable_pt_lim (fun t => r (fun j => x j + t * d j) i) 0 (sumd n (fun j => J x i j * d j))) ->
  derivable_pt_lim (fun t => half_sq (fun j => x j + t * d j)) 0 (sumd n (fun j => dense v j * d j)).
Proof.
  intros x lm g v d Hm [_ Dv] HJ.
  assert (E : sumd n (fun j => dense v j * d j) = / 2 * sumd m (fun i => sumd n (fun j => J x i j * d j) * r x i + r x i * sumd n (fun j => J x i j * d j))).
  { rewrite (sumd_ext m _ (fun i => 2 * sumd n (fun j => J x i j * r x i * d j))).
    2:{ intros i Hi. rewrite (sumd_ext n (fun j => J x i j * r x i * d j) (fun j => r x i * (J x i j * d j))) by (intros; ring). rewrite sumd_scal. ring. }
    rewrite sumd_scal, sumd_swap, <- Rmult_assoc, Rinv_l, Rmult_1_l by lra. apply sumd_ext. intros j Hj. rewrite Dv by lia.
    rewrite Rmult_comm, <- sumd_scal. apply sumd_ext. intros. ring. }
  rewrite E. unfold half_sq. apply (derivable_pt_lim_scal (fun t => sumd m (fun i => r (fun j => x j + t * d j) i * r (fun j => x j + t * d j) i)) (/ 2)).
  unfold sumd at 1 2. apply derivable_sum. intros i Hi. rewrite Z2Nat.id in Hi by lia.
  assert (X0 : r (fun j => x j + 0 * d j) i = r x i) by (f_equal; apply functional_extensionality; intros; ring).
  rewrite <- X0. apply (derivable_pt_lim_mult (fun t => r (fun j => x j + t * d j) i) (fun t => r (fun j => x j + t * d j) i)); apply HJ; lia.
Qed.

(** The Hessian products are those of a symmetric matrix, positive semidefinite for a nonnegative factor
    as the flags say (lsq.c:362-363). *)
Theorem C83_hessian : forall x lm d p v e q w,
  right x lm (CHess d p) (Ok (AVec v)) -> right x lm (CHess e q) (Ok (AVec w)) ->
  sumd n (fun j => dense e j * dense v j) = sumd n (fun j => dense d j * dense w j)
  /\ (0 <= lm -> 0 <= sumd n (fun j => dense d j * dense v j)
       /\ lm * sumd n (fun j => dense d j * dense d j) <= sumd n (fun j => dense d j * dense v j)).
Proof.
  intros x lm d p v e q w [_ Dv] [_ Dw].
  assert (B : forall (a b : rvec) (z : rvec), (forall j, (0 <= j < n)%Z -> dense z j = sumd m (fun i => J x i j * sumd n (fun k => J x i k * dense b k)) + lm * dense b j) ->
    sumd n (fun j => dense a j * dense z j) = sumd m (fun i => sumd n (fun j => J x i j * dense a j) * sumd n (fun k => J x i k * dense b k)) + lm * sumd n (fun j => dense a j * dense b j)).
  { intros a b z Hz. rewrite (sumd_ext n _ (fun j => sumd m (fun i => J x i j * dense a j * sumd n (fun k => J x i k * dense b k)) + lm * (dense a j * dense b j))).
    - rewrite sumd_plus, sumd_scal. f_equal. rewrite sumd_swap. apply sumd_ext. intros i Hi. rewrite Rmult_comm, <- sumd_scal. apply sumd_ext. intros. ring.
    - intros j Hj. rewrite Hz by lia. rewrite Rmult_plus_distr_l. f_equal; [|ring]. rewrite <- sumd_scal. apply sumd_ext. intros. ring. }
  split.
  - rewrite (B e d v Dv), (B d e w Dw). f_equal; [apply sumd_ext; intros; ring|f_equal; apply sumd_ext; intros; ring].
  - intros Hl. rewrite (B d d v Dv).
    assert (0 <= sumd m (fun i => sumd n (fun j => J x i j * dense d j) * sumd n (fun k => J x i k * dense d k))) by (apply sumd_nonneg; intros; nra).
    assert (0 <= sumd n (fun j => dense d j * dense d j)) by (apply sumd_nonneg; intros; nra). nra.
Qed.
End Props.
Print Assumptions C83_calls.
Print Assumptions C83_gradient.
Print Assumptions C83_hessian.

(** ** One residual, x0 + x1 - 1.  [bad]: the point 0 is stored, but reported as an error. *)
Local Open Scope Z_scope.
Definition xr (x : Z -> R) (i : Z) : R := (x 0%Z + x 1%Z - 1)%R.
Definition xJ (x : Z -> R) (i j : Z) : R := 1%R.
Definition v1 (a : R) : rvec := mkvec 1 1 [(0, a : @num RN)].
Definition v2 (a b : R) : rvec := mkvec 2 2 [(0, a : @num RN); (1, b : @num RN)].
Definition xcb (bad : bool) : @lsqcb RN rvec := mklsqcb
  (fun _ y => if bad && (match vent y with [] => true | _ => false end) then (y, Err EFuncEval) else (y, Ok false))
  (Some (fun u => (u, Ok (mkhints 1 1 2 0 0))))
  (fun u _ => (u, Ok (v1 (xr (dense u) 0))))
  (fun u d _ => (u, Ok (v1 (dense d 0%Z + dense d 1%Z)%R)))
  (fun u d _ => (u, Ok (v2 (dense d 0) (dense d 0))))
  (fun u t => (u, Ok t)) (fun u t => (u, Ok t)).
Definition xok bad := cb_ok 2 1 0 (fun u : rvec => dense u) (bad = false) xr xJ (fun _ _ => 0%R) (fun _ _ => True) (xcb bad).

Lemma v1_ok a : vok 1 (v1 a). Proof. split; [|reflexivity]. unfold wf, v1. cbn. repeat split; lia. Qed.
Lemma v2_ok a b : vok 2 (v2 a b). Proof. split; [|reflexivity]. unfold wf, v2. cbn. repeat split; lia. Qed.
Lemma sumd1 (f : Z -> R) : sumd 1 f = f 0. Proof. change (0 + f 0%Z = f 0%Z)%R. ring. Qed.
Lemma sumd2 (f : Z -> R) : sumd 2 f = (f 0%Z + f 1%Z)%R. Proof. change (0 + f 0%Z + f 1%Z = f 0%Z + f 1%Z)%R. ring. Qed.
Lemma xok_all bad : xok bad.
Proof.
  constructor; cbn [xcb cb_set cb_nnz cb_res cb_fwd cb_adj cb_cons cb_jac]; try (intros; lia).
  - intros u x _. destruct bad; cbn [andb]; [destruct (vent x)|]; cbn; auto; discriminate.
  - intros f E. injection E as <-. intros u. split; [reflexivity|]. cbn. lia.
  - intros u t _ _. split; [reflexivity|]. split; [apply v1_ok|]. intros i Hi. replace i with 0 by lia. reflexivity.
  - intros u d t _ _ _. split; [reflexivity|]. split; [apply v1_ok|]. intros i Hi. replace i with 0 by lia. rewrite sumd2. unfold xJ. rewrite !Rmult_1_l. reflexivity.
  - intros u d t _ _ _. split; [reflexivity|]. split; [apply v2_ok|]. intros i Hi. rewrite sumd1. unfold xJ. rewrite Rmult_1_l.
    assert (i = 0 \/ i = 1) as [->| ->] by lia; reflexivity.
Qed.

Definition xF (bad : bool) (lm : R) (h : rvec) : @lsqf RN rvec :=
  mklsqf 2 1 0 false (0%R : @num RN) (xcb bad) (lm : @num RN) (mkvec 1 0 []) (mkvec 1 0 []) false h (mkvec 2 0 []).
Lemma xcreate bad : lsq_create (xcb bad) 2 0 1 (0%R : @num RN) (0%R : @num RN) (mkvec 2 0 []) = Ok (xF bad 0%R (mkvec 2 0 [])).
Proof.
  unfold lsq_create. rewrite rn_n0. rewrite (proj2 (rn_leb 0 0)) by lra. cbn [check rbind].
  rewrite (proj2 (rn_eqb 0 0)) by reflexivity. reflexivity.
Qed.

(** Value, gradient and product at the point (2, 0) *)
Example C83_example : xok false /\ exists F, lsq_create (xcb false) 2 0 1 (0%R : @num RN) (0%R : @num RN) (mkvec 2 0 []) = Ok F
  /\ exists a g h, map snd (snd (run F [CSet (v2 2%R 0%R); CObj; CGrad (mkvec 2 0 []); CHess (v2 1%R 1%R) (mkvec 2 0 [])]))
     = [Ok (ABool false); Ok (ANum a); Ok (AVec g); Ok (AVec h)]
  /\ a = (/ 2)%R /\ dense g 0 = 1%R /\ dense g 1 = 1%R /\ dense h 0 = 2%R.
Proof.
  split; [apply xok_all|]. eexists. split; [apply xcreate|]. set (l := [CSet _; _; _; _]).
  assert (H : all_right (U := rvec) 2 1 0 (false = false) xr xJ (fun _ _ => 0%R) (fun _ _ => True) (dense (mkvec 2 0 [] : rvec)) 0%R (snd (run (xF false 0%R (mkvec 2 0 [])) l))).
  { apply (C83_calls 2 1 0 (fun u : rvec => dense u) (false = false) xr xJ (fun _ _ => 0%R) (fun _ _ => True) (xcb false) 0%R (mkvec 2 0 [])); [apply xok_all|apply xcreate|].
    assert (E : vok 2 (mkvec 2 0 [] : rvec)) by (split; [|reflexivity]; unfold wf; cbn; repeat split; lia).
    intros q [<-|[<-|[<-|[<-|[]]]]]; cbn [call_ok]; auto using v2_ok. }
  revert H. subst l. cbn [run snd map]. cbn zeta.
  set (F0 := fst (call_run _ (CSet _))). set (F1 := fst (call_run F0 _)). set (F2 := fst (call_run F1 _)).
  change (snd (call_run (xF false 0%R (mkvec 2 0 [])) (CSet (v2 2%R 0%R)))) with (@Ok (@answer RN) (ABool false)).
  destruct (snd (call_run F0 CObj)) as [a|e|]; destruct (snd (call_run F1 _)) as [g|e1|]; destruct (snd (call_run F2 _)) as [h|e2|];
    cbn [all_right right]; intros (_ & H); try tauto.
  destruct a as [| |a| | |]; try tauto. destruct g as [| | |g| |]; try tauto. destruct h as [| | |h| |]; try tauto.
  destruct H as (Ha & Hg & Hh & _). exists a, g, h. split; [reflexivity|]. destruct Hg as [_ Hg]. destruct Hh as [_ Hh].
  rewrite (Hg 0), (Hg 1), (Hh 0), Ha by lia. unfold half_sq. rewrite !sumd1, !sumd2. unfold xr, xJ.
  change (dense (v2 2%R 0%R) 0) with 2%R. change (dense (v2 2%R 0%R) 1) with 0%R. change (dense (v2 1%R 1%R) 0) with 1%R. change (dense (v2 1%R 1%R) 1) with 1%R.
  repeat split; lra.
Qed.

(** The point of a failed call: the residuals of the point before are used, although the data of the
    user have already changed. *)
Theorem C83_failed_point_refuted : exists F l v, cb_ok 2 1 0 (fun u : rvec => dense u) False xr xJ (fun _ _ => 0%R) (fun _ _ => True) (xcb true)
  /\ lsq_create (xcb true) 2 0 1 (0%R : @num RN) (0%R : @num RN) (mkvec 2 0 []) = Ok F
  /\ Forall (call_ok 2 1 0 (fun u : rvec => dense u) False xr xJ (fun _ _ => 0%R) (fun _ _ => True)) l
  /\ last (map snd (snd (run F l))) Trap = Ok (ANum v) /\ v <> half_sq 1 xr (dense (lf_u (fst (run F l)))).
Proof.
  exists (xF true 0%R (mkvec 2 0 [])), [CSet (v2 1%R 0%R); CObj; CSet (mkvec 2 0 []); CObj], (@nmul RN (nlit 1 2) (vec_norm_sq (v1 (xr (dense (v2 1%R 0%R)) 0)))).
  split; [|split; [apply xcreate|split; [|split; [reflexivity|]]]].
  - destruct (xok_all true). assert (D : ~ (true = false)) by discriminate. split; intros.
    + specialize (ok_set0 u x H). destruct (cb_set (xcb true) u x) as [u' [b|e|]]; auto.
    + destruct (ok_nnz0 f H u) as [H1 H2]. split; [exact H1|]. destruct (snd (f u)); auto.
    + destruct (ok_res0 u t H H0) as [H1 H2]. split; [exact H1|]. destruct (snd _); auto.
    + destruct (ok_fwd0 u d t H H0 H1) as [H3 H2]. split; [exact H3|]. destruct (snd _); auto.
    + destruct (ok_adj0 u d t H H0 H1) as [H3 H2]. split; [exact H3|]. destruct (snd _); auto.
    + lia.
    + lia.
  - assert (E : vok 2 (mkvec 2 0 [] : rvec)) by (split; [|reflexivity]; unfold wf; cbn; repeat split; lia).
    repeat constructor; cbn [call_ok]; auto using v2_ok; try apply E; try apply v2_ok.
  - change (lf_u (fst (run (xF true 0%R (mkvec 2 0 [])) _))) with (mkvec 2 0 [] : rvec).
    rewrite (norm_sq_fun 1) by apply v1_ok. unfold half_sq, dotd. rewrite !sumd1.
    change (dense (v1 (xr (dense (v2 1%R 0%R)) 0)) 0) with (1 + 0 - 1)%R. unfold xr. change (dense (mkvec 2 0 [] : rvec) 0) with (@n0 RN). change (dense (mkvec 2 0 [] : rvec) 1) with (@n0 RN).
    rewrite rn_n0. change (@nmul RN ?a ?b) with (a * b)%R. intros H. rewrite Rmult_comm in H. lra.
Qed.
Print Assumptions C83_failed_point_refuted.

(** Negative factors are not refused after the creation (lsq.c:562-574): the function keeps its flag. *)
Theorem C83_psd_refuted : exists F l d p v, xok false
  /\ lsq_create (xcb false) 2 0 1 (0%R : @num RN) (0%R : @num RN) (mkvec 2 0 []) = Ok F /\ has_flags lsq_flags HESS_PSD = true
  /\ vok 2 d /\ vok 2 p /\ last (map snd (snd (run F (l ++ [CHess d p])))) Trap = Ok (AVec v) /\ (sumd 2 (fun j => dense d j * dense v j) < 0)%R.
Proof.
  assert (E : vok 2 (mkvec 2 0 [] : rvec)) by (split; [|reflexivity]; unfold wf; cbn; repeat split; lia).
  pose proof (C83_calls 2 1 0 (fun u : rvec => dense u) (false = false) xr xJ (fun _ _ => 0%R) (fun _ _ => True) (xcb false) 0%R (mkvec 2 0 []) _
    [CLm (-1)%R; CHess (v2 1%R (-1)%R) (mkvec 2 0 [])] (xok_all false) (xcreate false)) as H.
  cbn [run snd] in H. cbn zeta in H. specialize (H ltac:(intros q [<-|[<-|[]]]; cbn [call_ok]; auto using v2_ok)).
  destruct (snd (call_run _ (CHess _ _))) as [h|e|] eqn:Eh; cbn [all_right call_run snd right] in H; try tauto. destruct h as [| | |h| |]; try tauto.
  destruct H as (_ & [_ Hh] & _).
  exists (xF false 0%R (mkvec 2 0 [])), [CLm (-1)%R], (v2 1%R (-1)%R), (mkvec 2 0 []), h.
  split; [apply xok_all|]. split; [apply xcreate|]. split; [reflexivity|]. split; [apply v2_ok|]. split; [exact E|]. split.
  - cbn [app run snd map last]. cbn zeta. now rewrite Eh.
  - rewrite sumd2, (Hh 0), (Hh 1) by lia. rewrite !sumd1, !sumd2. unfold xJ. change (dense (v2 1%R (-1)%R) 0) with 1%R. change (dense (v2 1%R (-1)%R) 1) with (-1)%R. lra.
Qed.
Print Assumptions C83_psd_refuted.

(** The number of nonzeros reported for Hessian products is that of forward products (lsq.c:113-116). *)
Theorem C83_hint_refuted : exists F g c j k d v, xok false
  /\ lsq_create (xcb false) 2 0 1 (0%R : @num RN) (0%R : @num RN) (mkvec 2 0 []) = Ok F
  /\ (forall u d t w, snd (cb_fwd (xcb false) u d t) = Ok w -> (vnnz w <= k)%Z) /\ (forall u d t w, snd (cb_adj (xcb false) u d t) = Ok w -> (vnnz w <= g)%Z)
  /\ map snd (snd (run F [CNnz; CHess d (mkvec 2 0 [])])) = [Ok (AHints (g, c, j, k)); Ok (AVec v)] /\ vok 2 d /\ (k < vnnz v)%Z.
Proof.
  exists (xF false 0%R (mkvec 2 0 [])), 2, 0, 0, 1, (v2 1%R 0%R), (v2 (1 + 0)%R (1 + 0)%R).
  split; [apply xok_all|]. split; [apply xcreate|]. split; [intros u d t w H; injection H as <-; cbn; lia|]. split; [intros u d t w H; injection H as <-; cbn; lia|].
  split; [|split; [apply v2_ok|cbn; lia]].
  cbn [run snd map]. cbn zeta. f_equal. f_equal. cbn [call_run answered snd]. unfold lsq_hess.
  change (lf_lm (set_hess _ _)) with (0%R : @num RN). rewrite rn_n0, (proj2 (rn_eqb 0 0)) by reflexivity. reflexivity.
Qed.
Print Assumptions C83_hint_refuted.

(** Negative factors are refused at the creation; replaced callbacks are those used from then on. *)
Theorem C83_refuses : forall (U : Type) (cb : @lsqcb RN U) (n nc m : Z) (lm eps : R) (u : U), (lm < 0)%R -> lsq_create cb n nc m (lm : @num RN) (eps : @num RN) u = Trap.
Proof.
  intros U cb n nc m lm eps u H. unfold lsq_create. replace (@nleb RN n0 lm) with false; [reflexivity|].
  symmetry. apply rn_leb_false. rewrite rn_n0. exact H.
Qed.
Print Assumptions C83_refuses.
Theorem C83_replaced : forall (U : Type) (F : @lsqf RN U) cb x, lf_int F = false ->
  snd (run F [CCallbacks cb; CSet x]) =
    [(CCallbacks cb, Ok ANone);
     (CSet x, match snd (cb_set cb (lf_u F) x) with Ok b => Ok (ABool b) | Err _ => Err EFuncEval | Trap => Trap end)].
Proof.
  intros U F cb x Hi. cbn [run call_run fst snd]. do 2 f_equal. f_equal.
  unfold answered, lsq_set, obind, ocall. cbn [fst snd lsq_set_callbacks lf_cb lf_u lf_int]. rewrite Hi.
  destruct (snd (cb_set cb (lf_u F) x)); reflexivity.
Qed.
Print Assumptions C83_replaced.
(** A callback that rejects everything answers after the replacement. *)
Example C83_example_replaced : forall (F : @lsqf RN unit) x, lf_int F = false ->
  let cb := mklsqcb (fun u _ => (u, Ok true)) None (fun u t => (u, Ok t)) (fun u _ t => (u, Ok t)) (fun u _ t => (u, Ok t)) (fun u t => (u, Ok t)) (fun u t => (u, Ok t)) in
  snd (run F [CCallbacks cb; CSet x]) = [(CCallbacks cb, Ok ANone); (CSet x, Ok (ABool true))]
  /\ lsq_create cb 1 0 1 ((-1)%R : @num RN) (0%R : @num RN) tt = Trap.
Proof. intros F x Hi cb. split; [exact (C83_replaced unit F cb x Hi)|]. apply C83_refuses. lra. Qed.
