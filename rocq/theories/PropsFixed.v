(** C45: fixing variables evaluates the original function on the restricted domain. *)
From Verif Require Import Base Num Cmp Arr Sparse Vec VecFacts VecFacts2 VecFacts3 Mat MatFacts MatFacts2 MatFacts3 Problem ProblemFacts
  Registry FixedVar PropsVec PropsMat.
From Coq Require Import Lia.
Local Open Scope Z_scope.

Section Fixed.
Context {N : Num}.
Implicit Types (f : func) (s : fixedf) (fx : list (Z * num)) (x v w t : vec).

(** A callback that fills an object of [n] variables keeps it well-formed and does not shrink it. *)
Definition tidy (n : Z) (call : vec -> res vec) : Prop :=
  forall v w, wf v -> vent v = [] -> vdim v = n -> call v = Ok w -> wf w /\ vdim w = n /\ vcap v <= vcap w.

(** What is asked of a user function: sizes and hints are not negative, and its callbacks leave
    well-formed results behind.  Nothing is asked of the values. *)
Record honest f : Prop := {
  h_nv : 0 <= uf_nv (fn_u f); h_nc : 0 <= uf_nc (fn_u f);
  h_gnnz : forall k, fn_gnnz f = Some k -> 0 <= k;
  h_jnnz : forall k, fn_jnnz f = Some k -> 0 <= k;
  h_grad : forall x, tidy (uf_nv (fn_u f)) (fn_grad f x);
  h_hess : forall x d y, tidy (uf_nv (fn_u f)) (uf_hess (fn_u f) x d y);
  h_adj : forall x d, tidy (uf_nv (fn_u f)) (fn_adj f x d);
  h_jac : forall x (m w : mat), mwf m -> mnnz m = 0 -> mnr m = uf_nc (fn_u f) -> mnc m = uf_nv (fn_u f) -> uf_jac (fn_u f) x m = Ok w ->
     mwf w /\ mnr w = uf_nc (fn_u f) /\ mnc w = uf_nv (fn_u f) /\ mcap m <= mcap w }.

(** States reached by the solver: [b] tells whether room for the Jacobian was asked for, [o] is the
    reduced point set last. *)
Inductive reach f fx : bool -> option vec -> fixedf -> Prop :=
| r_create s : ff_create f fx = Ok s -> reach f fx false None s
| r_set b o s x s' : reach f fx b o s -> wf x -> vdim x = uf_nv (fn_u f) - len fx -> ff_set s x = Ok s' -> reach f fx b (Some x) s'
| r_nonzeros b o s s' : reach f fx b o s -> ff_nonzeros s = Ok s' -> reach f fx true o s'
| r_lsq_nonzeros b o s s' : reach f fx b o s -> ff_lsq_nonzeros s = Ok s' ->
    reach f fx (match fn_jnnz f with Some _ => true | None => b end) o s'
| r_grad b o s s' t r : reach f fx b o s -> ff_obj_grad s t = Ok (s', r) -> reach f fx b o s'
| r_jac b o s s' (t r : mat) : reach f fx b o s -> ff_cons_jac s t = Ok (s', r) -> reach f fx b o s'
| r_hess b o s s' d y t r : reach f fx b o s -> wf d -> vdim d = uf_nv (fn_u f) - len fx ->
    ff_hess_prod s d y t = Ok (s', r) -> reach f fx b o s'
| r_fwd b o s s' d t r : reach f fx b o s -> wf d -> vdim d = uf_nv (fn_u f) - len fx ->
    ff_jac_forward s d t = Ok (s', r) -> reach f fx b o s'
| r_adj b o s s' d t r : reach f fx b o s -> ff_jac_adjoint s d t = Ok (s', r) -> reach f fx b o s'.

(** [X] is the reduced point [x] completed by the fixed values. *)
Definition completes f fx x X : Prop :=
  wf X /\ vdim X = uf_nv (fn_u f)
  /\ (forall i y, In (i, y) fx -> get (vent X) i = Some y)
  /\ (forall i j, kept (map fst fx) i j -> get (vent X) i = get (vent x) j).

(** [D] is the reduced direction [d] extended by zeros. *)
Definition extends f fx (d D : vec) : Prop :=
  wf D /\ vdim D = uf_nv (fn_u f)
  /\ (forall i, In i (map fst fx) -> dense D i = n0)
  /\ (forall i j, kept (map fst fx) i j -> dense D i = dense d j).

(** ** Invariant *)
Definition room f (b : bool) (m : mat) : Prop :=
  b = true -> match fn_jnnz f with Some k => k | None => uf_nv (fn_u f) * uf_nc (fn_u f) end <= mcap m.
Definition full f v : Prop := wf v /\ vdim v = uf_nv (fn_u f) /\ uf_nv (fn_u f) <= vcap v.

Definition inv_ff f fx (b : bool) (o : option vec) s : Prop :=
  ff_func s = f /\ ff_fixed s = fx /\ sorted_in 0 (uf_nv (fn_u f)) (map fst fx) /\ len fx <= uf_nv (fn_u f)
  /\ (wf (ff_values s) /\ vdim (ff_values s) = uf_nv (fn_u f))
  /\ full f (ff_grad s) /\ full f (ff_dir s) /\ full f (ff_prod s)
  /\ (mwf (ff_jac s) /\ mnr (ff_jac s) = uf_nc (fn_u f) /\ mnc (ff_jac s) = uf_nv (fn_u f) /\ room f b (ff_jac s))
  /\ match o with Some x => exists X, ff_point s = Some X /\ completes f fx x X | None => ff_point s = None end.

Lemma check_indices_ok n fs : forall last, check_indices n last fs = Ok tt -> sorted_in (Z.max 0 (last + 1)) n fs.
Proof.
  induction fs as [|i fs IH]; intros last H; cbn [check_indices sorted_in] in *; [exact I|].
  destruct (Z.leb_spec 0 i); [|discriminate]. destruct (Z.ltb_spec i n); [|discriminate]. destruct (Z.ltb_spec last i); [|discriminate].
  cbn [check rbind] in H. split; [lia|]. apply IH in H. now rewrite Z.max_r in H by lia.
Qed.

Lemma check_indices_total n fs : forall last, -1 <= last -> sorted_in (last + 1) n fs -> check_indices n last fs = Ok tt.
Proof.
  induction fs as [|i fs IH]; intros last H0 H; cbn [check_indices sorted_in] in *; [reflexivity|]. destruct H as [H1 H2].
  destruct (Z.leb_spec 0 i); [|lia]. destruct (Z.ltb_spec i n); [|lia]. destruct (Z.ltb_spec last i); [|lia].
  cbn [check rbind]. apply IH; auto. lia.
Qed.

Lemma vec_create_full_ok n : 0 <= n -> vec_create_full n = Ok (mkvec n n []).
Proof. intros H. unfold vec_create_full, vec_create. destruct (Z.leb_spec 0 n); [reflexivity|lia]. Qed.

Lemma full_new f : 0 <= uf_nv (fn_u f) -> full f (mkvec (uf_nv (fn_u f)) (uf_nv (fn_u f)) []).
Proof. intros H. unfold full, wf. cbn [vdim vcap vent keys map length sorted_in]. repeat split; auto; lia. Qed.

Lemma mwf_empty r c cap m : 0 <= r -> 0 <= c -> 0 <= cap -> mat_create r c cap = Ok m -> mwf m /\ mnr m = r /\ mnc m = c /\ mcap m = cap.
Proof.
  intros Hr Hc Hk E. unfold mat_create in E.
  destruct (Z.leb_spec 0 r), (Z.leb_spec 0 c), (Z.leb_spec 0 cap); try lia. cbn [andb check rbind] in E. injection E as <-. cbn [mnr mnc mcap].
  split; [|auto]. eexists. now apply stores_repeat_nil.
Qed.

Lemma vec_push_cap v i y w : vec_push v i y = Ok w -> vcap w = vcap v.
Proof. unfold vec_push. intros H. repeat (match type of H with context [check ?b] => destruct b; cbn [check rbind] in H; [|discriminate] end). now injection H as <-. Qed.

Lemma vec_reserve_cap v n w : vec_reserve v n = Ok w -> vcap v <= vcap w.
Proof.
  unfold vec_reserve. intros H. repeat (match type of H with context [check ?b] => destruct b; cbn [check rbind] in H; [|discriminate] end).
  destruct (Z.leb_spec n (vcap v)); injection H as <-; cbn [vcap]; lia.
Qed.

Lemma add_zero_cap src t fs r : add_zero_entries src t fs = Ok r -> vcap t <= vcap r.
Proof.
  unfold add_zero_entries. intros H. apply rbind_ok in H. destruct H as (u & E & H). apply vec_reserve_cap in E. cbn [vec_clear vcap] in E.
  enough (vcap r = vcap u) by lia. revert u fs H E. generalize 0 as off. induction (vent src) as [|[i y] es IH]; intros off u fs H E; cbn [add_zero_loop] in H.
  - now injection H as <-.
  - destruct (skip_le fs off i) as [fs' off']. apply rbind_ok in H. destruct H as (u' & Ep & H). apply vec_push_cap in Ep.
    rewrite <- Ep. eapply IH; eauto. lia.
Qed.

Lemma tidy_full f call v w : tidy (uf_nv (fn_u f)) call -> full f v -> call (vec_clear v) = Ok w -> full f w.
Proof.
  intros Ht (Wv & Dv & Cv) E. destruct (Ht (vec_clear v) w) as (Ww & Dw & Cw); auto; [now apply clear_wf|].
  split; [auto|]. split; [auto|]. cbn [vec_clear vcap] in Cw. lia.
Qed.

Lemma func_obj_grad_call f x v w : func_obj_grad f x v = Ok w -> fn_grad f x (vec_clear v) = Ok w.
Proof.
  unfold func_obj_grad. intros H. apply rbind_ok in H. destruct H as (u & E & H).
  apply rbind_ok in H. destruct H as (? & _ & H). apply rbind_ok in H. destruct H as (? & _ & H). congruence.
Qed.

Lemma func_hess_prod_call (u : ufunc) x d y v w : func_hess_prod u x d y v = Ok w -> uf_hess u x d y (vec_clear v) = Ok w.
Proof.
  unfold func_hess_prod. intros H. do 7 (apply rbind_ok in H; destruct H as (? & _ & H)).
  apply rbind_ok in H. destruct H as (p & E & H). do 2 (apply rbind_ok in H; destruct H as (? & _ & H)). congruence.
Qed.

Lemma func_cons_jac_call (u : ufunc) x (m w : mat) : func_cons_jac u x m = Ok w ->
  (if uf_nc u =? 0 then Ok (mat_clear m) else uf_jac u x (mat_clear m)) = Ok w.
Proof.
  unfold func_cons_jac. intros H. apply rbind_ok in H. destruct H as (p & E & H).
  do 4 (apply rbind_ok in H; destruct H as (? & _ & H)). congruence.
Qed.

Lemma func_cons_jac_tidy f x (m w : mat) : honest f -> mwf m -> mnr m = uf_nc (fn_u f) -> mnc m = uf_nv (fn_u f) ->
  func_cons_jac (fn_u f) x m = Ok w -> mwf w /\ mnr w = uf_nc (fn_u f) /\ mnc w = uf_nv (fn_u f) /\ mcap m <= mcap w.
Proof.
  intros Hf Wm Rm Cm E. apply func_cons_jac_call in E. pose proof (mat_clear_mwf m Wm) as Wc.
  destruct (uf_nc (fn_u f) =? 0).
  - injection E as <-. split; [eexists; exact Wc|]. cbn [mat_clear mnr mnc mcap]. repeat split; auto; lia.
  - destruct (h_jac f Hf x (mat_clear m) w) as (H1 & H2 & H3 & H4); auto. eexists; exact Wc.
Qed.

Lemma merge_completes f fx x V X : sorted_in 0 (uf_nv (fn_u f)) (map fst fx) -> wf V -> vdim V = uf_nv (fn_u f) ->
  wf x -> vdim x = uf_nv (fn_u f) - len fx -> merge_entries x V fx = Ok X -> completes f fx x X.
Proof.
  intros Hs WV DV Wx Dx E. destruct (merge_entries_spec x V fx) as (X' & E' & WX & DX & Hk & Hi); auto; [now rewrite DV|lia|].
  assert (X' = X) as -> by congruence. split; [auto|]. split; [congruence|]. split; [auto|]. exact Hk.
Qed.

Lemma reach_inv f fx b o s : honest f -> reach f fx b o s -> inv_ff f fx b o s.
Proof.
  intros Hf. pose proof (h_nv f Hf) as Hn. pose proof (h_nc f Hf) as Hc.
  induction 1 as [s E|b o s x s' _ IH Wx Dx E|b o s s' _ IH E|b o s s' _ IH E|b o s s' t r _ IH E|b o s s' t r _ IH E
    |b o s s' d y t r _ IH Wd Dd E|b o s s' d t r _ IH Wd Dd E|b o s s' d t r _ IH E].
  - unfold ff_create in E. destruct (Z.leb_spec (len fx) (uf_nv (fn_u f))); [|discriminate]. cbn [check rbind] in E.
    destruct (check_indices _ _ _) as [[]| |] eqn:Ei; cbn [rbind] in E; try discriminate.
    apply check_indices_ok in Ei. change (Z.max 0 (-1 + 1)) with 0 in Ei.
    apply rbind_ok in E. destruct E as (? & _ & E). rewrite !vec_create_full_ok in E by auto. cbn [rbind] in E.
    apply rbind_ok in E. destruct E as (m & Em & E). apply mwf_empty in Em; auto; [|lia]. destruct Em as (M1 & M2 & M3 & _).
    injection E as <-. unfold inv_ff. cbn [ff_func ff_fixed ff_values ff_grad ff_dir ff_prod ff_jac ff_point].
    pose proof (full_new f Hn) as Hfull. repeat (split; [solve [auto|apply Hfull|split; apply Hfull]|]). split; [|reflexivity].
    repeat (split; [assumption|]). discriminate.
  - destruct IH as (I1 & I2 & I3 & I4 & (I5 & I5') & I6 & I7 & I8 & I9 & I10). unfold ff_set in E.
    apply rbind_ok in E. destruct E as (X & EX & E). apply rbind_ok in E. destruct E as (p & Ep & E). injection E as <-. rewrite I2 in EX.
    unfold func_set_value in Ep. do 2 (apply rbind_ok in Ep; destruct Ep as (? & _ & Ep)). injection Ep as <-.
    pose proof (merge_completes f fx x _ X I3 I5 I5' Wx Dx EX) as HX.
    unfold inv_ff. cbn [ff_func ff_fixed ff_values ff_grad ff_dir ff_prod ff_jac ff_point].
    repeat (split; [solve [auto]|]). split; [split; apply HX|]. repeat (split; [solve [auto]|]). eauto.
  - destruct IH as (I1 & I2 & I3 & I4 & I5 & I6 & I7 & I8 & (I9 & I9r & I9c & I9m) & I10). unfold ff_nonzeros in E. rewrite I1, I2 in E.
    apply rbind_ok in E. destruct E as (g & Eg & E). apply rbind_ok in E. destruct E as (m & Em & E). injection E as <-.
    unfold inv_ff. cbn [ff_func ff_fixed ff_values ff_grad ff_dir ff_prod ff_jac ff_point].
    repeat (split; [solve [auto]|]). split; [|repeat (split; [solve [auto]|])].
    + destruct I6 as (G1 & G2 & G3). edestruct (vec_reserve_spec (ff_grad s)) as (g' & Eg' & W' & D' & _); [exact G1| |].
      2: { rewrite Eg' in Eg. assert (g' = g) as -> by congruence. apply vec_reserve_cap in Eg'. split; [auto|]. split; [congruence|lia]. }
      destruct (fn_gnnz f) eqn:E'; [now apply (h_gnnz f Hf)|lia].
    + split; [|exact I10]. destruct I9 as (cs & [L1 L2]).
      edestruct (mat_reserve_spec (ff_jac s)) as (m' & Em' & L' & R' & C' & K' & K''); [exact L1| |].
      2: { rewrite Em' in Em. assert (m' = m) as -> by congruence. split; [exists cs; split; [exact L'|congruence]|]. split; [congruence|]. split; [congruence|].
           intros _. exact K''. }
      destruct (fn_jnnz f) eqn:E'; [now apply (h_jnnz f Hf)|apply Z.mul_nonneg_nonneg; auto].
  - destruct IH as (I1 & I2 & I3 & I4 & I5 & I6 & I7 & I8 & (I9 & I9r & I9c & I9m) & I10). unfold ff_lsq_nonzeros in E. rewrite I1, I2 in E.
    apply rbind_ok in E. destruct E as (m & Em & E). injection E as <-.
    unfold inv_ff. cbn [ff_func ff_fixed ff_values ff_grad ff_dir ff_prod ff_jac ff_point].
    repeat (split; [solve [auto]|]). split; [|exact I10]. destruct (fn_jnnz f) as [k|] eqn:Ek.
    + destruct I9 as (cs & [L1 L2]).
      edestruct (mat_reserve_spec (ff_jac s)) as (m' & Em' & L' & R' & C' & K' & K''); [exact L1|exact (h_jnnz f Hf _ Ek)|].
      rewrite Em' in Em. assert (m' = m) as -> by congruence. split; [exists cs; split; [exact L'|congruence]|]. split; [congruence|]. split; [congruence|].
      intros _. rewrite Ek. exact K''.
    + injection Em as <-. auto.
  - destruct IH as (I1 & I2 & I3 & I4 & I5 & I6 & I7 & I8 & I9 & I10). unfold ff_obj_grad in E. rewrite I1 in E.
    apply rbind_ok in E. destruct E as (X & EX & E). apply rbind_ok in E. destruct E as (g & Eg & E). apply rbind_ok in E. destruct E as (q & _ & E).
    injection E as <- <-. apply func_obj_grad_call in Eg. apply (tidy_full f) in Eg; auto; [|apply (h_grad f Hf)].
    unfold inv_ff. cbn [ff_func ff_fixed ff_values ff_grad ff_dir ff_prod ff_jac ff_point]. repeat (split; [solve [auto]|]). auto.
  - destruct IH as (I1 & I2 & I3 & I4 & I5 & I6 & I7 & I8 & (I9 & I9r & I9c & I9m) & I10). unfold ff_cons_jac in E. rewrite I1 in E.
    apply rbind_ok in E. destruct E as (X & EX & E). apply rbind_ok in E. destruct E as (g & Eg & E). apply rbind_ok in E. destruct E as (q & _ & E).
    injection E as <- <-. apply (func_cons_jac_tidy f) in Eg; auto. destruct Eg as (G1 & G2 & G3 & G4).
    unfold inv_ff. cbn [ff_func ff_fixed ff_values ff_grad ff_dir ff_prod ff_jac ff_point]. repeat (split; [solve [auto]|]). split; [|exact I10].
    repeat (split; [solve [auto]|]). intros Hb. specialize (I9m Hb). lia.
  - destruct IH as (I1 & I2 & I3 & I4 & I5 & I6 & I7 & I8 & I9 & I10). unfold ff_hess_prod in E. unfold ff_idx in E. rewrite I1, I2 in E.
    apply rbind_ok in E. destruct E as (X & EX & E). apply rbind_ok in E. destruct E as (D & ED & E). apply rbind_ok in E. destruct E as (p & Ep & E).
    apply rbind_ok in E. destruct E as (q & _ & E).
    injection E as <- <-. apply func_hess_prod_call in Ep. apply (tidy_full f) in Ep; auto; [|apply (h_hess f Hf)].
    destruct I7 as (D1 & D2 & D3). destruct (add_zero_entries_spec d (ff_dir s) (map fst fx)) as (D' & ED' & W' & Dim' & _); auto; try (rewrite ?map_length; congruence || lia).
    assert (D' = D) as -> by congruence. apply add_zero_cap in ED.
    unfold inv_ff. cbn [ff_func ff_fixed ff_values ff_grad ff_dir ff_prod ff_jac ff_point]. repeat (split; [solve [auto]|]).
    split; [split; [auto|split; [congruence|lia]]|]. repeat (split; [solve [auto]|]). auto.
  - destruct IH as (I1 & I2 & I3 & I4 & I5 & I6 & I7 & I8 & I9 & I10). unfold ff_jac_forward in E. unfold ff_idx in E. rewrite I1, I2 in E.
    apply rbind_ok in E. destruct E as (X & EX & E). apply rbind_ok in E. destruct E as (D & ED & E).
    apply rbind_ok in E. destruct E as (q & _ & E).
    injection E as <- <-. 
    destruct I7 as (D1 & D2 & D3). destruct (add_zero_entries_spec d (ff_dir s) (map fst fx)) as (D' & ED' & W' & Dim' & _); auto; try (rewrite ?map_length; congruence || lia).
    assert (D' = D) as -> by congruence. apply add_zero_cap in ED.
    unfold inv_ff. cbn [ff_func ff_fixed ff_values ff_grad ff_dir ff_prod ff_jac ff_point]. repeat (split; [solve [auto]|]).
    split; [split; [auto|split; [congruence|lia]]|]. repeat (split; [solve [auto]|]). auto.
  - destruct IH as (I1 & I2 & I3 & I4 & I5 & I6 & I7 & I8 & I9 & I10). unfold ff_jac_adjoint in E. rewrite I1, I2 in E.
    apply rbind_ok in E. destruct E as (X & EX & E). apply rbind_ok in E. destruct E as (D & ED & E).
    apply rbind_ok in E. destruct E as (q & _ & E). injection E as <- <-.
    unfold lsq_jac_adjoint in ED. do 2 (apply rbind_ok in ED; destruct ED as (? & _ & ED)). apply (tidy_full f) in ED; auto; [|apply (h_adj f Hf)].
    unfold inv_ff. cbn [ff_func ff_fixed ff_values ff_grad ff_dir ff_prod ff_jac ff_point]. repeat (split; [solve [auto]|]). auto.
Qed.

(** ** The claims *)

(** The user's callback [call] computes the [n] numbers [g] into any empty vector with room for them. *)
Definition computes (n : Z) (call : vec -> res vec) (g : Z -> num) : Prop :=
  forall v, wf v -> vdim v = n -> vent v = [] -> n <= vcap v ->
  exists w, call v = Ok w /\ vec_is_finite w = true /\ forall i, 0 <= i < n -> dense w i = g i.

(** The user's Jacobian callback stores the columns [gs] into any empty matrix with room for them. *)
Definition computes_jac f X (gs : list (list (Z * num))) : Prop :=
  forall m, mwf m -> mnnz m = 0 -> mnr m = uf_nc (fn_u f) -> mnc m = uf_nv (fn_u f) -> len (concat gs) <= mcap m ->
  exists w : mat, uf_jac (fn_u f) X m = Ok w /\ stores w gs /\ mat_is_finite w = Ok true.

(** The completed point. *)
Theorem C45_point : forall f fx b x s, honest f -> reach f fx b (Some x) s ->
  exists X, ff_point s = Some X /\ completes f fx x X.
Proof. intros f fx b x s Hf Hr. apply (reach_inv f fx b (Some x) s Hf) in Hr. apply Hr. Qed.

(** Points with finite entries are accepted. *)
Lemma finite_entries v : (forall e, In e (vent v) -> negb (nisnan (snd e) || nisinf (snd e)) = true) -> vec_is_finite v = true.
Proof.
  intros H. unfold vec_is_finite. apply forallb_forall. intros e He. apply H.
  clear H. revert He. generalize (vent v) as l. induction l as [|a l IH]; [contradiction|]. destruct l as [|b l]; [contradiction|].
  change (removelast (a :: b :: l)) with (a :: removelast (b :: l)). intros [<-|He]; [now left|right; auto].
Qed.

Definition finite_num (y : num) : bool := negb (nisnan y || nisinf y).

Theorem C45_set_total : forall f fx b o s x, honest f -> reach f fx b o s -> wf x -> vdim x = uf_nv (fn_u f) - len fx ->
  (forall i y, get (vent x) i = Some y -> finite_num y = true) -> (forall i y, In (i, y) fx -> finite_num y = true) ->
  exists s', ff_set s x = Ok s'.
Proof.
  intros f fx b o s x Hf Hr Wx Dx Fx Ff. apply (reach_inv f fx b o s Hf) in Hr.
  destruct Hr as (I1 & I2 & I3 & I4 & (I5 & I5') & _). unfold ff_set. rewrite I2.
  destruct (merge_entries_spec x (ff_values s) fx) as (X & E & WX & DX & Hk & Hi); auto; [now rewrite I5'|lia|].
  rewrite E. cbn [rbind]. unfold func_set_value. rewrite (wf_valid _ WX). cbn [check rbind]. rewrite finite_entries; [cbn [check rbind]; eauto|].
  intros [i y] Hin. cbn [snd]. assert (Hg : get (vent X) i = Some y) by (eapply In_get; [apply WX|exact Hin]).
  destruct (in_dec Z.eq_dec i (map fst fx)) as [Hf'|Hnf].
  - apply in_map_iff in Hf'. destruct Hf' as ([i' y'] & Ei & Hin'). cbn [fst] in Ei. subst i'. pose proof (Hi _ _ Hin'). apply (Ff i). congruence.
  - rewrite (Hk i (i - count_lt (map fst fx) i)) in Hg by (split; auto). exact (Fx _ _ Hg).
Qed.

(** Objective and constraint values are those at the completed point. *)
Theorem C45_values : forall f fx b x s, honest f -> reach f fx b (Some x) s ->
  exists X, completes f fx x X /\ ff_obj_val s = func_obj_val f X
    /\ forall t, ff_cons_val s t = func_cons_val (fn_u f) X t.
Proof.
  intros f fx b x s Hf Hr. apply (reach_inv f fx b (Some x) s Hf) in Hr.
  destruct Hr as (I1 & I2 & _ & _ & _ & _ & _ & _ & _ & X & EX & HX). exists X. split; [exact HX|].
  unfold ff_obj_val, ff_cons_val, at_point. rewrite EX, I1. split; reflexivity.
Qed.

Lemma clear_full f v : full f v -> wf (vec_clear v) /\ vdim (vec_clear v) = uf_nv (fn_u f) /\ vent (vec_clear v) = [] /\ uf_nv (fn_u f) <= vcap (vec_clear v).
Proof. intros (H1 & H2 & H3). split; [now apply clear_wf|]. auto. Qed.

Lemma remove_dense f fx w t : sorted_in 0 (uf_nv (fn_u f)) (map fst fx) -> wf w -> vdim w = uf_nv (fn_u f) ->
  wf t -> vdim t = uf_nv (fn_u f) - len fx ->
  exists r, vec_remove_entries w t (map fst fx) = Ok r /\ wf r /\ vdim r = vdim t
    /\ forall i j, kept (map fst fx) i j -> dense r j = dense w i.
Proof.
  intros Hs Ww Dw Wt Dt. destruct (vec_remove_entries_spec w t (map fst fx)) as (r & E & Wr & Dr & Hk); auto; [now rewrite Dw|rewrite map_length; lia|].
  exists r. repeat (split; [solve [auto]|]). intros i j H. unfold dense. now rewrite (Hk i j H).
Qed.

(** The gradient is that of the original function at the completed point, at the free variables. *)
Theorem C45_grad : forall f fx b x s t g, honest f -> reach f fx b (Some x) s -> wf t -> vdim t = uf_nv (fn_u f) - len fx ->
  exists X, completes f fx x X /\
  (computes (uf_nv (fn_u f)) (fn_grad f X) g ->
   exists s' r, ff_obj_grad s t = Ok (s', r) /\ reach f fx b (Some x) s' /\ wf r /\ vdim r = vdim t
     /\ forall i j, 0 <= i < uf_nv (fn_u f) -> kept (map fst fx) i j -> dense r j = g i).
Proof.
  intros f fx b x s t g Hf Hr Wt Dt. pose proof Hr as Hr0. apply (reach_inv f fx b (Some x) s Hf) in Hr.
  destruct Hr as (I1 & I2 & I3 & _ & _ & I6 & _ & _ & _ & X & EX & HX). exists X. split; [exact HX|]. intros Hg.
  destruct (clear_full f _ I6) as (C1 & C2 & C3 & C4). destruct (Hg _ C1 C2 C3 C4) as (w & Ew & Fw & Gw).
  destruct (h_grad f Hf X _ _ C1 C3 C2 Ew) as (Ww & Dw & _).
  destruct (remove_dense f fx w t I3 Ww Dw Wt Dt) as (r & Er & Wr & Dr & Hk).
  assert (E : exists s', ff_obj_grad s t = Ok (s', r)).
  { unfold ff_obj_grad, at_point, ff_idx. rewrite EX, I1, I2. cbn [rbind]. unfold func_obj_grad. rewrite Ew. cbn [rbind].
    rewrite (wf_valid _ Ww), Fw. cbn [check rbind]. rewrite Er. cbn [rbind]. eauto. }
  destruct E as (s' & E). exists s', r. split; [exact E|]. split; [eapply r_grad; eauto|]. split; [auto|]. split; [auto|].
  intros i j Hi Hkij. rewrite (Hk i j Hkij). auto.
Qed.

(** The Hessian product is that of the original function at the completed point, in the direction
    extended by zeros, at the free variables. *)
Theorem C45_hess : forall f fx b x s d y t h, honest f -> reach f fx b (Some x) s ->
  wf d -> vdim d = uf_nv (fn_u f) - len fx -> (forall i a, get (vent d) i = Some a -> finite_num a = true) ->
  wf y -> vdim y = uf_nc (fn_u f) -> vec_is_finite y = true -> wf t -> vdim t = uf_nv (fn_u f) - len fx ->
  exists X D, completes f fx x X /\ extends f fx d D /\
  (computes (uf_nv (fn_u f)) (uf_hess (fn_u f) X D y) h ->
   exists s' r, ff_hess_prod s d y t = Ok (s', r) /\ reach f fx b (Some x) s' /\ wf r /\ vdim r = vdim t
     /\ forall i j, 0 <= i < uf_nv (fn_u f) -> kept (map fst fx) i j -> dense r j = h i).
Proof.
  intros f fx b x s d y t h Hf Hr Wd Dd Fd Wy Dy Fy Wt Dt. pose proof Hr as Hr0. apply (reach_inv f fx b (Some x) s Hf) in Hr.
  destruct Hr as (I1 & I2 & I3 & _ & _ & _ & (I7 & I7d & _) & I8 & _ & X & EX & HX).
  destruct (add_zero_entries_spec d (ff_dir s) (map fst fx)) as (D & ED & WD & DD & HD1 & HD2); auto; [now rewrite I7d|rewrite map_length; lia|].
  exists X, D. split; [exact HX|]. split.
  { split; [auto|]. split; [congruence|]. split; [intros i Hi; unfold dense; now rewrite (HD2 i Hi)|]. intros i j Hk. unfold dense. now rewrite (HD1 i j Hk). }
  assert (FD : vec_is_finite D = true).
  { apply finite_entries. intros [i a] Hin. cbn [snd]. assert (Hg : get (vent D) i = Some a) by (eapply In_get; [apply WD|exact Hin]).
    destruct (in_dec Z.eq_dec i (map fst fx)) as [Hf'|Hnf]; [rewrite (HD2 i Hf') in Hg; discriminate|].
    rewrite (HD1 i (i - count_lt (map fst fx) i)) in Hg by (split; auto). exact (Fd _ _ Hg). }
  intros Hh. destruct (clear_full f _ I8) as (C1 & C2 & C3 & C4). destruct (Hh _ C1 C2 C3 C4) as (w & Ew & Fw & Gw).
  destruct (h_hess f Hf X D y _ _ C1 C3 C2 Ew) as (Ww & Dw & _).
  destruct (remove_dense f fx w t I3 Ww Dw Wt Dt) as (r & Er & Wr & Dr & Hk).
  assert (E : exists s', ff_hess_prod s d y t = Ok (s', r)).
  { unfold ff_hess_prod, at_point, ff_idx. rewrite EX, I1, I2. cbn [rbind]. rewrite ED. cbn [rbind]. unfold func_hess_prod.
    rewrite Dy, DD, I7d. destruct I8 as (_ & I8 & _). rewrite I8, !Z.eqb_refl, (wf_valid _ Wy), (wf_valid _ WD), FD, Fy. cbn [check rbind]. rewrite Ew. cbn [rbind].
    rewrite (wf_valid _ Ww), Fw. cbn [check rbind]. rewrite Er. cbn [rbind]. eauto. }
  destruct E as (s' & E). exists s', r. split; [exact E|]. split; [exact (r_hess f fx b (Some x) s s' d y t r Hr0 Wd Dd E)|]. split; [auto|]. split; [auto|].
  intros i j Hi Hkij. rewrite (Hk i j Hkij). auto.
Qed.

(** Products with the Jacobian of the residuals. *)
Theorem C45_lsq_forward : forall f fx b x s d t, honest f -> reach f fx b (Some x) s ->
  wf d -> vdim d = uf_nv (fn_u f) - len fx -> vdim t = fn_nr f ->
  exists X D, completes f fx x X /\ extends f fx d D /\
    (forall r, fn_fwd f X D (vec_clear t) = Ok r ->
     exists s', ff_jac_forward s d t = Ok (s', r) /\ reach f fx b (Some x) s').
Proof.
  intros f fx b x s d t Hf Hr Wd Dd Dt. pose proof Hr as Hr0. apply (reach_inv f fx b (Some x) s Hf) in Hr.
  destruct Hr as (I1 & I2 & I3 & _ & _ & _ & (I7 & I7d & _) & I8 & _ & X & EX & HX).
  destruct (add_zero_entries_spec d (ff_dir s) (map fst fx)) as (D & ED & WD & DD & HD1 & HD2); auto; [now rewrite I7d|rewrite map_length; lia|].
  exists X, D. split; [exact HX|]. split.
  { split; [auto|]. split; [congruence|]. split; [intros i Hi; unfold dense; now rewrite (HD2 i Hi)|]. intros i j Hk. unfold dense. now rewrite (HD1 i j Hk). }
  intros r Er.
  assert (E : exists s', ff_jac_forward s d t = Ok (s', r)).
  { unfold ff_jac_forward, at_point, ff_idx. rewrite EX, I1, I2. cbn [rbind]. rewrite ED. cbn [rbind]. unfold lsq_jac_forward.
    rewrite Dt, DD, I7d, !Z.eqb_refl. cbn [check rbind]. rewrite Er. cbn [rbind]. eauto. }
  destruct E as (s' & E). exists s'. split; [exact E|]. exact (r_fwd f fx b (Some x) s s' d t r Hr0 Wd Dd E).
Qed.

Theorem C45_lsq_adjoint : forall f fx b x s d t h, honest f -> reach f fx b (Some x) s ->
  vdim d = fn_nr f -> wf t -> vdim t = uf_nv (fn_u f) - len fx ->
  exists X, completes f fx x X /\
  (computes (uf_nv (fn_u f)) (fn_adj f X d) h ->
   exists s' r, ff_jac_adjoint s d t = Ok (s', r) /\ reach f fx b (Some x) s' /\ wf r /\ vdim r = vdim t
     /\ forall i j, 0 <= i < uf_nv (fn_u f) -> kept (map fst fx) i j -> dense r j = h i).
Proof.
  intros f fx b x s d t h Hf Hr Dd Wt Dt. pose proof Hr as Hr0. apply (reach_inv f fx b (Some x) s Hf) in Hr.
  destruct Hr as (I1 & I2 & I3 & _ & _ & _ & I7 & _ & _ & X & EX & HX).
  exists X. split; [exact HX|]. intros Hh. destruct (clear_full f _ I7) as (C1 & C2 & C3 & C4). destruct (Hh _ C1 C2 C3 C4) as (w & Ew & Fw & Gw).
  destruct (h_adj f Hf X d _ _ C1 C3 C2 Ew) as (Ww & Dw & _).
  destruct (remove_dense f fx w t I3 Ww Dw Wt Dt) as (r & Er & Wr & Dr & Hk).
  assert (E : exists s', ff_jac_adjoint s d t = Ok (s', r)).
  { unfold ff_jac_adjoint, at_point, ff_idx. rewrite EX, I1, I2. cbn [rbind]. unfold lsq_jac_adjoint.
    rewrite Dd. destruct I7 as (_ & I7 & _). rewrite I7, !Z.eqb_refl. cbn [check rbind]. rewrite Ew. cbn [rbind].
    rewrite Er. cbn [rbind]. eauto. }
  destruct E as (s' & E). exists s', r. split; [exact E|]. split; [eapply r_adj; eauto|]. split; [auto|]. split; [auto|].
  intros i j Hi Hkij. rewrite (Hk i j Hkij). auto.
Qed.

Lemma cols_bound (gs : list (list (Z * num))) r : 0 <= r -> Forall (fun c => sorted_in 0 r (keys c)) gs -> len (concat gs) <= len gs * r.
Proof.
  intros H0. induction 1 as [|c gs Hc _ IH]; cbn [concat length]; [lia|]. rewrite app_length.
  enough (len c <= r) by lia. assert (Hl : length (keys c) = length c) by apply map_length.
  revert Hc. rewrite <- Hl. generalize (keys c) as k. clear -H0. intros k Hk.
  assert (G : forall lo l, lo <= r -> sorted_in lo r l -> len l <= r - lo).
  { intros lo l. revert lo. induction l as [|a l IHl]; intros lo Hlo Hs; cbn [length sorted_in] in *; [lia|]. destruct Hs as [Ha Hs].
    specialize (IHl (a + 1) ltac:(lia) Hs). lia. }
  specialize (G 0 k H0 Hk). lia.
Qed.

(** The constraint Jacobian, once room for it was asked for with an honest hint. *)
Theorem C45_jac : forall f fx x s (t : mat) gs, honest f -> reach f fx true (Some x) s ->
  mwf t -> mnr t = uf_nc (fn_u f) -> mnc t = uf_nv (fn_u f) - len fx ->
  (forall k, fn_jnnz f = Some k -> len (concat gs) <= k) ->
  len gs = uf_nv (fn_u f) -> Forall (fun c => sorted_in 0 (uf_nc (fn_u f)) (keys c)) gs ->
  exists X, completes f fx x X /\
  (computes_jac f X gs ->
   exists s' r rs, ff_cons_jac s t = Ok (s', r) /\ reach f fx true (Some x) s' /\ stores r rs /\ mnr r = mnr t /\ mnc r = mnc t
     /\ forall i j j', 0 <= i < uf_nc (fn_u f) -> 0 <= j < uf_nv (fn_u f) -> kept (map fst fx) j j' -> mget rs i j' = mget gs i j).
Proof.
  intros f fx x s t gs Hf Hr Wt Rt Ct Hk Lg Sg. pose proof Hr as Hr0. apply (reach_inv f fx true (Some x) s Hf) in Hr.
  destruct Hr as (I1 & I2 & I3 & _ & _ & _ & _ & _ & (J1 & J2 & J3 & J4) & X & EX & HX).
  exists X. split; [exact HX|]. intros Hj. specialize (J4 eq_refl).
  assert (Hcap : len (concat gs) <= mcap (ff_jac s)).
  { destruct (fn_jnnz f) as [k|]; [specialize (Hk k eq_refl); lia|]. pose proof (cols_bound gs _ (h_nc f Hf) Sg). rewrite Lg in H. lia. }
  pose proof (mat_clear_mwf (ff_jac s) J1) as Hc.
  assert (E : exists (w : mat) ws, func_cons_jac (fn_u f) X (ff_jac s) = Ok w /\ stores w ws /\ mnr w = uf_nc (fn_u f) /\ mnc w = uf_nv (fn_u f)
     /\ forall i j, 0 <= i < uf_nc (fn_u f) -> 0 <= j < uf_nv (fn_u f) -> mget ws i j = mget gs i j).
  { unfold func_cons_jac. destruct (Z.eqb_spec (uf_nc (fn_u f)) 0) as [E0|E0].
    - cbn [rbind]. rewrite (valid_of_wf _ _ Hc). cbn [check rbind]. rewrite (mat_is_finite_stores _ _ Hc).
      assert (Hcat : forall k, concat (repeat (@nil (Z * num)) k) = []) by (induction k; auto). rewrite Hcat. cbn [forallb check rbind].
      eexists _, _. split; [reflexivity|]. split; [exact Hc|]. split; [exact J2|]. split; [exact J3|]. intros; lia.
    - destruct (Hj (mat_clear (ff_jac s))) as (w & Ew & Sw & Fw); auto; [eexists; exact Hc|].
      destruct (h_jac f Hf X (mat_clear (ff_jac s)) w) as (_ & Rw & Cw & _); auto; [eexists; exact Hc|].
      rewrite Ew. cbn [rbind]. rewrite (valid_of_wf _ _ Sw). cbn [check rbind]. rewrite Fw. cbn [check rbind].
      eexists _, _. split; [reflexivity|]. eauto. }
  destruct E as (w & ws & Ew & Sw & Rw & Cw & Gw).
  destruct (C14_remove_cols w ws t (map fst fx)) as (r & rs & Er & Sr & Rr & Cr & Hkk); auto; try (rewrite ?map_length; congruence || lia).
  assert (E : exists s', ff_cons_jac s t = Ok (s', r)).
  { unfold ff_cons_jac, at_point, ff_idx. rewrite EX, I1, I2. cbn [rbind]. rewrite Ew. cbn [rbind]. rewrite Er. cbn [rbind]. eauto. }
  destruct E as (s' & E). exists s', r, rs. split; [exact E|]. split; [eapply r_jac; eauto|]. split; [auto|]. split; [auto|]. split; [auto|].
  intros i j j' Hi Hjj Hkj. rewrite (Hkk i j j'); auto. lia.
Qed.

(** The wrapper is created for every strictly increasing list of indices with finite values. *)
Theorem C45_create_total : forall f fx, honest f -> sorted_in 0 (uf_nv (fn_u f)) (map fst fx) ->
  (forall i y, In (i, y) fx -> is_finite y = true) -> exists s, ff_create f fx = Ok s.
Proof.
  intros f fx Hf Hs Hv. pose proof (h_nv f Hf) as Hn. pose proof (h_nc f Hf) as Hc. unfold ff_create.
  assert (Hl : len fx <= uf_nv (fn_u f)).
  { rewrite <- (map_length fst). pose proof (cols_bound [map (fun i => (i, n0)) (map fst fx)] _ Hn) as H. cbn [concat length] in H.
    rewrite app_nil_r in H. rewrite map_length in H. enough (len (map fst fx) <= 1 * uf_nv (fn_u f)) by lia. apply H. constructor; [|constructor].
    unfold keys. rewrite map_map. cbn [fst]. now rewrite map_id. }
  destruct (Z.leb_spec (len fx) (uf_nv (fn_u f))); [|lia]. cbn [check rbind].
  rewrite check_indices_total; [|lia|exact Hs]. cbn [rbind].
  replace (forallb _ fx) with true by (symmetry; apply forallb_forall; intros [i y] Hin; exact (Hv i y Hin)).
  cbn [check rbind]. rewrite !vec_create_full_ok by auto. cbn [rbind].
  destruct (mat_create_spec (uf_nc (fn_u f)) (uf_nv (fn_u f)) 0) as (m & -> & _); auto; [lia|]. cbn [rbind]. eauto.
Qed.

End Fixed.

(** ** Block structure of the Hessian *)

(** No block boundary separates [i] and [k]; [i] lies behind all blocks. *)
Definition same_block (es : list Z) (i k : Z) : Prop := forall e, In e es -> (i < e <-> k < e).
Definition behind_blocks (es : list Z) (i : Z) : Prop := forall e, In e es -> e <= i.

(** An increasing list as an increasing run of numbers from [prev]. *)
Fixpoint incr (prev : Z) (es : list Z) : Prop := match es with [] => True | e :: es' => prev < e /\ incr e es' end.

Lemma pass_range fs : forall lo hi off b n, sorted_in lo hi fs -> b <= lo -> 0 <= n ->
  exists fs', fold_left pass (map (fun k => b + k) (zrange n)) (fs, off) = (fs', off + count_lt fs (b + n))
    /\ sorted_in (Z.max lo (b + n)) hi fs' /\ (forall k, b + n <= k -> count_lt fs k = count_lt fs (b + n) + count_lt fs' k)
    /\ (length fs' <= length fs)%nat.
Proof.
  intros lo hi off b n Hs Hb Hn. pattern n. apply natlike_ind; [| |exact Hn].
  - exists fs. cbn [zrange map Z.to_nat seq fold_left]. rewrite Z.add_0_r.
    assert (H0 : count_lt fs b = 0) by (apply count_lt_none; intros g Hg; pose proof (sorted_in_In _ _ _ _ Hs Hg); lia).
    rewrite H0, Z.add_0_r. split; [reflexivity|]. rewrite Z.max_l by lia. split; [exact Hs|]. split; [|lia]. intros; lia.
  - clear n Hn. intros n Hn (fs' & E & S' & C' & L'). change (Z.succ n) with (n + 1). rewrite zrange_succ by lia. rewrite map_app, fold_left_app, E.
    cbn [map fold_left]. unfold pass. cbn [fst snd].
    assert (Hc : forall g gs, fs' = g :: gs -> forall k, k <= g -> b + n <= k -> count_lt fs k = count_lt fs (b + n)).
    { intros g gs -> k Hk Hk'. rewrite (C' k Hk'). rewrite (count_lt_none (g :: gs)); [lia|].
      intros q [<-|Hq]; [lia|]. destruct S' as [_ S']. pose proof (sorted_in_In _ _ _ _ S' Hq). lia. }
    destruct fs' as [|g gs].
    + exists []. split; [|split; [exact I|split; [|cbn [length]; lia]]].
      * rewrite (C' (b + (n + 1))) by lia. rewrite count_lt_nil. f_equal. lia.
      * intros k Hk. rewrite (C' k), (C' (b + (n + 1))) by lia. rewrite !count_lt_nil. lia.
    + destruct S' as [Sg Sgs]. destruct (Z.eqb_spec g (b + n)) as [->|Hne].
      * exists gs. assert (Hz : count_lt gs (b + (n + 1)) = 0).
        { apply count_lt_none. intros q Hq. pose proof (sorted_in_In _ _ _ _ Sgs Hq). lia. }
        split; [|split; [|split; [|cbn [length] in L'; lia]]].
        -- rewrite (C' (b + (n + 1))) by lia. rewrite count_lt_cons. destruct (Z.ltb_spec (b + n) (b + (n + 1))); [|lia]. f_equal. lia.
        -- apply (sorted_in_weaken (b + n + 1) _ hi hi); auto; try lia.
        -- intros k Hk. rewrite (C' k), (C' (b + (n + 1))) by lia. rewrite !count_lt_cons.
           destruct (Z.ltb_spec (b + n) (b + (n + 1))); [|lia]. destruct (Z.ltb_spec (b + n) k); lia.
      * exists (g :: gs). rewrite (Hc g gs eq_refl (b + (n + 1))) by lia. split; [reflexivity|]. split; [cbn [sorted_in]; split; [lia|exact Sgs]|].
        split; [|exact L']. intros k Hk. apply C'. lia.
Qed.

Lemma count_step fs lo hi e i : sorted_in lo hi fs -> e <= i -> 0 <= count_lt fs i - count_lt fs e <= i - e.
Proof.
  intros Hs He. replace i with (e + (i - e)) by lia. assert (H0 : 0 <= i - e) by lia. revert H0. generalize (i - e) as n. clear i He.
  intros n Hn. pattern n. apply natlike_ind; [| |exact Hn]; clear n Hn.
  - rewrite Z.add_0_r. lia.
  - intros n Hn IH. replace (e + Z.succ n) with (e + n + 1) by lia. pose proof (count_lt_succ fs lo hi (e + n) Hs). 
    destruct (existsb (Z.eqb (e + n)) fs); lia.
Qed.

Lemma kept_end fs lo hi i i' e : sorted_in lo hi fs -> kept fs i i' -> (i < e <-> i' < e - count_lt fs e).
Proof.
  intros Hs [Hn ->]. split; intros H.
  - apply (count_lt_mono fs lo hi i e Hs Hn H).
  - destruct (Z.lt_ge_cases i e) as [|Hge]; [auto|]. pose proof (count_step fs lo hi e i Hs Hge). lia.
Qed.

Definition prev_end (es : list Z) (k : nat) : Z := match k with O => 0 | S k' => nth k' es 0 end.

Lemma blocks_count s es : blocks s es -> (forall e, In e es -> 0 < e) -> len es <= last es 0.
Proof.
  intros (_ & _ & _ & Hinc & _) Hpos.
  enough (H : forall k e, nth_error es k = Some e -> Z.of_nat k < e).
  { destruct es as [|e0 es0]; [cbn; lia|]. assert (Hne : e0 :: es0 <> []) by discriminate. pose proof (H _ _ (last_nth _ Hne)).
    cbn [length] in *. lia. }
  induction k as [|k IH]; intros e He.
  - apply nth_error_In, Hpos in He. cbn; lia.
  - assert (Hk : (S k < length es)%nat) by (apply nth_error_Some; congruence).
    destruct (nth_error es k) as [p|] eqn:Ep; [|apply nth_error_None in Ep; lia].
    specialize (IH p eq_refl). pose proof (Hinc k (S k) p e ltac:(lia) Ep He). lia.
Qed.

(** Reduced variables lie in the same block exactly if the original ones do, and are linear exactly
    if the original ones are. *)
Theorem C45_hess_struct : forall s t es fixed, blocks s es -> (forall e, In e es -> 0 < e) ->
  sorted_in 0 (sdim s) fixed -> sdim t = sdim s - len fixed -> sdim t <= len (sends t) ->
  exists t' ts, fixed_hess_struct s t fixed = Ok t' /\ blocks t' ts /\ sdim t' = sdim t
    /\ (forall i i' k k', 0 <= i -> 0 <= k -> kept fixed i i' -> kept fixed k k' -> (same_block es i k <-> same_block ts i' k'))
    /\ (forall i i', 0 <= i -> kept fixed i i' -> (behind_blocks es i <-> behind_blocks ts i')).
Proof.
  intros s t es fixed Hb Hpos Hs Hd Hl. pose proof Hb as (H1 & H2 & H3 & H4 & H5).
  assert (Hcnt : forall e, e <= sdim s -> e - count_lt fixed e <= sdim t).
  { intros e He. rewrite Hd. rewrite <- (count_lt_all fixed (sdim s)).
    - pose proof (count_step fixed 0 (sdim s) e (sdim s) Hs He). lia.
    - intros g Hg. apply (sorted_in_In _ _ _ _ Hs Hg). }
  assert (Hc0 : count_lt fixed 0 = 0) by (apply count_lt_none; intros g Hg; apply (sorted_in_In _ _ _ _ Hs Hg)).
  assert (Hs0 : 0 <= sdim t) by (specialize (Hcnt 0 ltac:(lia)); rewrite Hc0 in Hcnt; lia).
  unfold fixed_hess_struct.
  match goal with |- context [rfold ?body ?init _] => destruct (zrange_loop (fun j (u : hstruct * list Z * Z) =>
     let '(t', fs, off) := u in let pv := prev_end es (Z.to_nat j) in
     exists ts, blocks t' ts /\ sdim t' = sdim t /\ off = count_lt fixed pv /\ 0 <= pv <= sdim s
       /\ sorted_in pv (sdim s) fs /\ (forall k, pv <= k -> count_lt fixed k = off + count_lt fs k)
       /\ last ts 0 = pv - off
       /\ (forall q, In q ts <-> 0 < q /\ exists e, In e (firstn (Z.to_nat j) es) /\ q = e - count_lt fixed e)) body (snum s) init) as ([[t' fs] off] & E & I) end.
  - lia.
  - cbn [Z.to_nat prev_end firstn]. exists []. split.
    { unfold blocks, hs_clear. cbn [snum sdim sends length]. repeat split; try lia; try contradiction.
      - intros [|k] e; discriminate.
      - intros [|i] j x y _; discriminate. }
    cbn [hs_clear sdim last]. rewrite Hc0. repeat (split; [first [reflexivity|lia|assumption|intros; lia]|]).
    intros q. split; [intros []|]. intros (_ & e & [] & _).
  - intros j [[u fs] off] Hj (ts & B & D & Ho & Hp & Sf & Hc & HL & Hin). set (pv := prev_end es (Z.to_nat j)) in *.
    destruct (nth_error es (Z.to_nat j)) as [e|] eqn:Ej; [|apply nth_error_None in Ej; lia].
    pose proof (hs_range_spec s es _ e Hb Ej) as Er. rewrite Z2Nat.id in Er by lia. fold (prev_end es (Z.to_nat j)) in Er. rewrite Er. cbn [rbind].
    fold pv.
    assert (He : e <= sdim s) by (apply H5; eapply nth_error_In; eauto).
    assert (Hpe : pv < e).
    { unfold pv. destruct (Z.to_nat j) as [|k] eqn:Ek; cbn [prev_end]; [apply Hpos; eapply nth_error_In; eauto|].
      apply (H4 k (S k)); [lia| |exact Ej]. apply nth_error_nth'. lia. }
    destruct (pass_range fs pv (sdim s) off pv (e - pv) Sf) as (fs' & Ef & Sf' & Cf & _); [lia|lia|].
    unfold between. rewrite Ef. replace (pv + (e - pv)) with e in * by lia. rewrite Z.max_r in Sf' by lia.
    assert (Hoff : off + count_lt fs e = count_lt fixed e) by (rewrite (Hc e) by lia; reflexivity). rewrite Hoff.
    assert (Hprev : prev_end es (Z.to_nat (j + 1)) = e).
    { replace (Z.to_nat (j + 1)) with (S (Z.to_nat j)) by lia. cbn [prev_end]. now apply nth_error_nth. }
    assert (Hfn : firstn (Z.to_nat (j + 1)) es = firstn (Z.to_nat j) es ++ [e]).
    { replace (Z.to_nat (j + 1)) with (S (Z.to_nat j)) by lia. clear -Ej. revert es Ej. generalize (Z.to_nat j) as n.
      induction n as [|n IH]; intros [|a l]; cbn [nth_error]; try discriminate.
      - intros [= ->]. reflexivity.
      - intros Ej. rewrite !firstn_cons, (IH l Ej). reflexivity. }
    pose proof (count_step fixed 0 (sdim s) pv e Hs ltac:(lia)) as Hst.
    pose proof (count_step fixed 0 (sdim s) 0 e Hs ltac:(lia)) as Hst0. rewrite Hc0 in Hst0.
    assert (Hcf : forall k, e <= k -> count_lt fixed k = count_lt fixed e + count_lt fs' k).
    { intros k Hk. rewrite (Hc k), (Cf k) by lia. lia. }
    rewrite Hprev, Hfn. destruct (Z.eqb_spec (pv - off) (e - count_lt fixed e)) as [Eq|Ne].
    + eexists. split; [reflexivity|]. exists ts. split; [exact B|]. split; [exact D|]. split; [reflexivity|]. split; [lia|]. split; [exact Sf'|]. split; [exact Hcf|]. split; [lia|].
      intros q. rewrite Hin. split.
      * intros (Hq & e' & He' & ->). split; [auto|]. exists e'. split; [apply in_or_app; now left|reflexivity].
      * intros (Hq & e' & He' & ->). split; [auto|]. apply in_app_or in He'. destruct He' as [He'|[<-|[]]]; [eauto|].
        assert (Hq' : In (last ts 0) ts).
        { destruct ts as [|a ts']; [cbn [last] in HL; lia|]. eapply nth_error_In. apply last_nth. discriminate. }
        rewrite HL in Hq'. apply Hin in Hq'. destruct Hq' as (_ & e'' & He'' & Eq'). exists e''. split; [auto|]. lia.
    + assert (Hlen : len ts <= last ts 0) by (eapply blocks_count; [exact B|]; intros q Hq; now apply Hin in Hq).
      destruct (hs_push_spec u ts (e - count_lt fixed e) B) as [Hok _]. destruct Hok as (u' & E & B' & D').
      { rewrite D. specialize (Hcnt e He). split; [lia|]. split; [lia|]. intros _. lia. }
      rewrite E. cbn [rbind]. eexists. split; [reflexivity|]. exists (ts ++ [e - count_lt fixed e]).
      split; [exact B'|]. split; [congruence|]. split; [reflexivity|]. split; [lia|]. split; [exact Sf'|]. split; [exact Hcf|].
      split; [now rewrite last_last|]. intros q. rewrite in_app_iff. rewrite Hin. split.
      * intros [(Hq & e' & He' & ->)|[<-|[]]].
        -- split; [auto|]. exists e'. split; [apply in_or_app; now left|reflexivity].
        -- split; [lia|]. exists e. split; [apply in_or_app; right; now left|reflexivity].
      * intros (Hq & e' & He' & ->). apply in_app_or in He'. destruct He' as [He'|[<-|[]]]; [left; eauto|right; now left].
  - destruct I as (ts & B & D & _ & _ & _ & _ & _ & Hin). rewrite E. cbn [rbind fst]. exists t', ts. split; [reflexivity|]. split; [exact B|]. split; [exact D|].
    rewrite H1, Nat2Z.id, firstn_all in Hin.
    assert (Hnn : forall i i', 0 <= i -> kept fixed i i' -> 0 <= i').
    { intros i i' Hi [_ ->]. pose proof (count_step fixed 0 (sdim s) 0 i Hs Hi). lia. }
    split.
    + intros i i' k k' Hi Hk Ki Kk. pose proof (Hnn i i' Hi Ki). pose proof (Hnn k k' Hk Kk). split; intros Hsb.
      * intros q Hq. apply Hin in Hq. destruct Hq as (_ & e & He & ->).
        rewrite <- (kept_end fixed 0 (sdim s) i i' e Hs Ki), <- (kept_end fixed 0 (sdim s) k k' e Hs Kk). auto.
      * intros e He. rewrite (kept_end fixed 0 (sdim s) i i' e Hs Ki), (kept_end fixed 0 (sdim s) k k' e Hs Kk).
        destruct (Z.lt_ge_cases 0 (e - count_lt fixed e)) as [Hq|Hq]; [|lia]. apply Hsb, Hin. eauto.
    + intros i i' Hi Ki. pose proof (Hnn i i' Hi Ki). split; intros Hbb.
      * intros q Hq. apply Hin in Hq. destruct Hq as (_ & e & He & ->). specialize (Hbb e He).
        pose proof (kept_end fixed 0 (sdim s) i i' e Hs Ki). lia.
      * intros e He. pose proof (kept_end fixed 0 (sdim s) i i' e Hs Ki).
        destruct (Z.lt_ge_cases 0 (e - count_lt fixed e)) as [Hq|Hq]; [|lia].
        assert (Hq' : In (e - count_lt fixed e) ts) by (apply Hin; eauto). specialize (Hbb _ Hq'). lia.
Qed.
Print Assumptions C45_hess_struct.
Print Assumptions C45_point.
Print Assumptions C45_set_total.
Print Assumptions C45_values.
Print Assumptions C45_grad.
Print Assumptions C45_hess.
Print Assumptions C45_lsq_forward.
Print Assumptions C45_lsq_adjoint.
Print Assumptions C45_jac.
Print Assumptions C45_create_total.

(** ** A concrete function: [1/2 |x|^2] over three variables with the constraint [x0 + x1 + x2] *)
Definition fill {N : Num} (x v : vec) : res vec :=
  if vec_is_valid x && (vdim x =? vdim v) && (vdim x <=? vcap v) then Ok (mkvec (vdim v) (vcap v) (vent x)) else Err EIllegalArg.
Definition ones : list (list (Z * @num F64)) := [[(0, fz 1)]; [(0, fz 1)]; [(0, fz 1)]].
Definition demo (hint : option Z) : @func F64 :=
  mkfunc (mkufunc 3 1 (fun x v => Ok v) (fun _ m => if mcap m <? 3 then Trap else build m ones) (fun _ d _ v => fill d v))
    3 (fun _ => Ok (fz 0)) (fun x v => fill x v) (fun _ d v => fill d v) (fun _ d v => fill d v) None hint.

Lemma fill_tidy {N : Num} n x : tidy n (fun v => fill x v).
Proof.
  intros v w Wv _ Dv E. unfold fill in E. destruct (vec_is_valid x) eqn:Hv; [|discriminate]. destruct (Z.eqb_spec (vdim x) (vdim v)) as [Ed|]; [|discriminate].
  destruct (Z.leb_spec (vdim x) (vcap v)); [|discriminate]. cbn [andb] in E. injection E as <-. apply vec_is_valid_spec in Hv. destruct Hv as [Hv1 Hv2].
  unfold wf. cbn [vdim vcap vent]. destruct Wv as (W0 & _). split; [|split; [exact Dv|lia]]. split; [auto|]. split; [now rewrite <- Ed|].
  pose proof (cols_bound [vent x] (vdim v)) as Hc. cbn [concat length] in Hc. rewrite app_nil_r in Hc. rewrite Ed in Hv1.
  assert (Hall : Forall (fun c : list (Z * num) => sorted_in 0 (vdim v) (keys c)) [vent x]) by (constructor; [exact Hv1|constructor]).
  specialize (Hc W0 Hall). lia.
Qed.

Lemma empty_layout {N : Num} (m : mat) : mwf m -> mnnz m = 0 -> layout m [].
Proof.
  intros (cs & (L1 & L2 & L3 & L4 & L5 & L6 & L7) & L8) H0. unfold layout. cbn [length concat].
  split; [auto|]. split; [lia|]. split; [|split; [rewrite H0; reflexivity|split; [exists (ment m); reflexivity|split; [auto|constructor]]]].
  intros j Hj. replace j with 0%nat by lia. rewrite (L3 0%nat) by lia. reflexivity.
Qed.

Lemma demo_jac hint m : mwf m -> mnnz m = 0 -> mnr m = 1 -> mnc m = 3 -> 3 <= mcap m ->
  exists w, uf_jac (fn_u (demo hint)) (ve 3 []) m = Ok w /\ stores w ones /\ shape w m.
Proof.
  intros Wm Nm Rm Cm Km. cbn [demo fn_u uf_jac]. destruct (Z.ltb_spec (mcap m) 3); [lia|].
  destruct (build_layout ones m (empty_layout m Wm Nm)) as (w & E & L & Hs).
  - cbn; lia.
  - cbn; lia.
  - rewrite Rm. unfold ones. repeat (constructor; [cbn [keys map fst sorted_in]; split; [lia|exact I]|]). constructor.
  - exists w. split; [exact E|]. split; [|exact Hs]. split; [exact L|]. destruct Hs as (_ & Hs & _). rewrite Hs, Cm. reflexivity.
Qed.

Lemma demo_honest hint : (forall k, hint = Some k -> 0 <= k) -> honest (demo hint).
Proof.
  intros Hh. constructor; cbn [demo fn_u uf_nv uf_nc fn_gnnz fn_jnnz fn_grad uf_hess fn_adj]; try lia; try discriminate; auto.
  - intros x. apply fill_tidy.
  - intros x d y. apply (fill_tidy 3 d).
  - intros x d. apply (fill_tidy 3 d).
  - intros x m w Wm Nm Rm Cm E. cbn [demo fn_u uf_jac] in E. destruct (Z.ltb_spec (mcap m) 3); [discriminate|].
    destruct (demo_jac None m Wm Nm Rm Cm ltac:(lia)) as (w' & E' & S' & H1 & H2 & H3). cbn [demo fn_u uf_jac] in E'.
    destruct (Z.ltb_spec (mcap m) 3); [discriminate|].
    assert (w' = w) as -> by congruence. split; [eexists; exact S'|]. rewrite H1, H2, H3. repeat split; auto; lia.
Qed.

Lemma demo_computes_jac hint X : computes_jac (demo hint) X ones.
Proof.
  intros m Wm Nm Rm Cm Km. destruct (demo_jac hint m Wm Nm Rm Cm Km) as (w & E & S & _). exists w. split; [exact E|]. split; [exact S|].
  rewrite (mat_is_finite_stores _ _ S). f_equal.
Qed.

(** The second variable is fixed to 5; the reduced point is (2, 7). *)
Definition demo_fix : list (Z * @num F64) := [(1, fz 5)].
Definition demo_x : @vec F64 := ve 2 [(0, 2); (1, 7)].
Definition demo_run (hint : option Z) (nz : @fixedf F64 -> res (@fixedf F64)) : res (@fixedf F64) :=
  s <- ff_create (demo hint) demo_fix ;; s <- nz s ;; ff_set s demo_x.

Example C45_example_point :
  match demo_run None ff_nonzeros with Ok s => option_map show (ff_point s) | _ => None end = Some (show (ve 3 [(0, 2); (1, 5); (2, 7)])).
Proof. vm_compute. reflexivity. Qed.
Example C45_example_grad :
  match demo_run None ff_nonzeros with Ok s => match ff_obj_grad s (ve 2 []) with Ok (_, r) => Some (show r) | _ => None end | _ => None end
  = Some (show demo_x).
Proof. vm_compute. reflexivity. Qed.
Example C45_example_hess :
  match demo_run None ff_nonzeros with Ok s => match ff_hess_prod s (ve 2 [(1, 3)]) (ve 1 []) (ve 2 []) with
    | Ok (s', r) => Some (show (ff_dir s'), show r) | _ => None end | _ => None end
  = Some (show (ve 3 [(2, 3)]), show (ve 2 [(1, 3)])).
Proof. vm_compute. reflexivity. Qed.
Example C45_example_struct :
  match fixed_hess_struct (mkhs [Some 2; Some 3; Some 6; None; None; None; None; None] 3 8) (mkhs [None; None; None; None; None] 0 5) [1; 2; 7] with
  | Ok t => Some (firstn (Z.to_nat (snum t)) (sends t)) | _ => None end = Some [Some 1; Some 4].
Proof. vm_compute. reflexivity. Qed.

Lemma demo_reach hint nz : (forall k, hint = Some k -> 0 <= k) ->
  (forall s s', reach (demo hint) demo_fix false None s -> nz s = Ok s' -> exists b, reach (demo hint) demo_fix b None s') ->
  forall s, demo_run hint nz = Ok s -> exists b, reach (demo hint) demo_fix b (Some demo_x) s.
Proof.
  intros Hh Hnz s E. unfold demo_run in E. apply rbind_ok in E. destruct E as (s0 & E0 & E). apply rbind_ok in E. destruct E as (s1 & E1 & E).
  destruct (Hnz s0 s1) as (b & Hb); auto; [now constructor|]. exists b. eapply r_set; [exact Hb| | |exact E].
  - unfold wf. cbn. repeat split; lia.
  - reflexivity.
Qed.

(** A least-squares function that does not say how many entries its constraint Jacobian has: the
    wrapper's matrix keeps capacity 0, so the function has no room to store its Jacobian.  Claim refuted:
    [C45_jac] without the hypothesis that room was asked for by the plain variant. *)
Theorem C45_lsq_jac_refuted : exists s b, reach (demo None) demo_fix b (Some demo_x) s /\ honest (demo None)
  /\ (exists s0, ff_create (demo None) demo_fix = Ok s0 /\ exists s1, ff_lsq_nonzeros s0 = Ok s1 /\ ff_set s1 demo_x = Ok s)
  /\ (forall X, computes_jac (demo None) X ones)
  /\ ff_cons_jac s (mkmat 1 2 0 2 [0; 0; 0] []) = Trap.
Proof.
  assert (Hn : forall k : Z, None = Some k -> 0 <= k) by discriminate.
  assert (Hok : match demo_run None ff_lsq_nonzeros with Ok _ => true | _ => false end = true) by (vm_compute; reflexivity).
  destruct (demo_run None ff_lsq_nonzeros) as [s| |] eqn:E; try discriminate Hok.
  destruct (demo_reach None ff_lsq_nonzeros Hn) with (s := s) as (b & Hb); auto.
  { intros s0 s1 H0 H1. eexists. eapply r_lsq_nonzeros; eauto. }
  exists s, b. split; [exact Hb|]. split; [apply demo_honest, Hn|]. split.
  { unfold demo_run in E. apply rbind_ok in E. destruct E as (s0 & E0 & E). apply rbind_ok in E. destruct E as (s1 & E1 & E). eauto 6. }
  split; [apply demo_computes_jac|]. 
  assert (Ec : match demo_run None ff_lsq_nonzeros with Ok s => match ff_cons_jac s (mkmat 1 2 0 2 [0; 0; 0] []) with Trap => true | _ => false end
     | _ => false end = true) by (vm_compute; reflexivity).
  rewrite E in Ec. destruct (ff_cons_jac _ _); try discriminate Ec. reflexivity.
Qed.
Print Assumptions C45_lsq_jac_refuted.
