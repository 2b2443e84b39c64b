(** Facts about working sets. *)
From Verif Require Import Base Num Cmp Sparse Vec VecFacts Order VecFacts2 Mat MatFacts Arr WorkingSet.
Local Open Scope Z_scope.

(** ** Specification of consistency, on the public queries *)
Inductive item := IVar (j : Z) | ICons (i : Z).
Definition in_range (w : wset) (it : item) : Prop :=
  match it with IVar j => 0 <= j < wnv w | ICons i => 0 <= i < wnc w end.
Definition item_state (w : wset) (it : item) : res ast :=
  match it with IVar j => ws_var_state w j | ICons i => ws_cons_state w i end.
Definition item_index (w : wset) (it : item) : res Z :=
  match it with IVar j => ws_var_index w j | ICons i => ws_cons_index w i end.
Definition item_code (w : wset) (it : item) : Z :=
  match it with IVar j => j | ICons i => wnv w + i end.

Record consistent (w : wset) : Prop := {
  cs_total : forall it, in_range w it -> exists s k, item_state w it = Ok s /\ item_index w it = Ok k
                 /\ (s = Inactive <-> k = none);
  cs_index : forall it k, in_range w it -> item_index w it = Ok k -> k <> none ->
                 0 <= k < ws_size w /\ ws_content w k = Ok (item_code w it);
  cs_content : forall k, 0 <= k < ws_size w ->
                 exists it, in_range w it /\ item_index w it = Ok k /\ ws_content w k = Ok (item_code w it);
  cs_vars_first : forall j k, 0 <= j < wnv w -> ws_var_index w j = Ok k -> k <> none -> k < wnav w;
  cs_cons_last : forall i k, 0 <= i < wnc w -> ws_cons_index w i = Ok k -> k <> none -> wnav w <= k;
  cs_vcount : Z.of_nat (length (filter active (wvst w))) = wnav w;
  cs_ccount : Z.of_nat (length (filter active (wcst w))) = wnac w;
  cs_bound : 0 <= wnav w <= wnv w /\ 0 <= wnac w <= wnc w
}.

(** ** Abstract state: the added variables and constraints in order, with their states *)
Definition stf (l : list (Z * ast)) (j : Z) : ast := match get l j with Some s => s | None => Inactive end.
Definition ixf (base : Z) (l : list (Z * ast)) (j : Z) : Z :=
  match pos (keys l) j with Some k => base + k | None => none end.

Definition items (nv : Z) (vs cs : list (Z * ast)) : list Z := keys vs ++ map (Z.add nv) (keys cs).

Definition fine (n : Z) (l : list (Z * ast)) : Prop :=
  NoDup (keys l) /\ (forall x, In x (keys l) -> 0 <= x < n) /\ (forall e, In e l -> active (snd e) = true).

Record holds (w : wset) (vs cs : list (Z * ast)) : Prop := {
  h_nv : 0 <= wnv w; h_nc : 0 <= wnc w;
  h_vs : fine (wnv w) vs; h_cs : fine (wnc w) cs;
  h_nav : wnav w = len vs; h_nac : wnac w = len cs;
  h_vst : arr (wvst w) (wnv w) (stf vs); h_cst : arr (wcst w) (wnc w) (stf cs);
  h_vix : arr (wvix w) (wnv w) (ixf 0 vs); h_cix : arr (wcix w) (wnc w) (ixf (wnav w) cs);
  h_clen : len (wcont w) = wnv w + wnc w;
  h_cont : forall k x, nth_error (items (wnv w) vs cs) k = Some x -> nth_error (wcont w) k = Some (Some x);
  h_cntv : Z.of_nat (length (filter active (wvst w))) = len vs;
  h_cntc : Z.of_nat (length (filter active (wcst w))) = len cs
}.

Lemma fine_nil n : fine n [].
Proof. repeat split; try constructor; try contradiction. Qed.

Lemma fine_length n l : 0 <= n -> fine n l -> len l <= n.
Proof.
  intros Hn (H1 & H2 & _). pose proof (NoDup_range_length (keys l) n H1 H2) as L.
  unfold keys in L. rewrite map_length in L. lia.
Qed.

Lemma stf_snoc l i s j : ~ In i (keys l) -> stf (l ++ [(i, s)]) j = upd (stf l) i s j.
Proof.
  intros H. unfold stf, upd. rewrite get_snoc by auto. rewrite Z.eqb_sym. destruct (j =? i); reflexivity.
Qed.

Lemma keys_snoc {A} (l : list (Z * A)) i s : keys (l ++ [(i, s)]) = keys l ++ [i].
Proof. unfold keys. now rewrite map_app. Qed.

Lemma keys_len {A} (l : list (Z * A)) : len (keys l) = len l.
Proof. unfold keys. now rewrite map_length. Qed.

Lemma ixf_snoc b l i s j : ~ In i (keys l) -> ixf b (l ++ [(i, s)]) j = upd (ixf b l) i (b + len l) j.
Proof.
  intros H. unfold ixf, upd. rewrite keys_snoc, pos_app by auto. rewrite Z.eqb_sym, keys_len.
  destruct (j =? i); reflexivity.
Qed.

Lemma fine_snoc n l i s : fine n l -> 0 <= i < n -> ~ In i (keys l) -> active s = true -> fine n (l ++ [(i, s)]).
Proof.
  intros (H1 & H2 & H3) Hi Hni Hs. repeat split.
  - rewrite keys_snoc. now apply NoDup_snoc.
  - rewrite keys_snoc in H. apply in_app_iff in H. destruct H as [|[<-|[]]]; [now apply H2|lia].
  - rewrite keys_snoc in H. apply in_app_iff in H. destruct H as [|[<-|[]]]; [now apply H2|lia].
  - intros e He. apply in_app_iff in He. destruct He as [|[<-|[]]]; auto.
Qed.

Lemma stf_inactive n l i : fine n l -> (stf l i = Inactive <-> ~ In i (keys l)).
Proof.
  intros (_ & _ & H3). unfold stf. rewrite <- get_None. destruct (get l i) as [s|] eqn:E; [|tauto].
  apply get_Some_In in E. apply H3 in E. cbn in E. destruct s; cbn in E; split; intros; congruence.
Qed.

Lemma filter_set_nth {A} (p : A -> bool) l n a b : nth_error l n = Some b -> p b = false -> p a = true ->
  length (filter p (set_nth l n a)) = S (length (filter p l)).
Proof.
  revert n; induction l as [|c l IH]; intros [|n]; cbn [nth_error set_nth filter]; try discriminate.
  - intros [= ->] -> ->. reflexivity.
  - intros H Hb Ha. specialize (IH n H Hb Ha). destruct (p c); cbn [length]; lia.
Qed.

Lemma ast_eqb_spec a b : ast_eqb a b = true <-> a = b.
Proof. destruct a, b; cbn; split; congruence. Qed.

Lemma active_iff s : active s = true <-> s <> Inactive.
Proof. destruct s; cbn; split; congruence. Qed.

(** ** Operations preserve the representation *)
Lemma filter_repeat_inactive n : filter active (repeat Inactive n) = [].
Proof. induction n; cbn; auto. Qed.

Lemma items_len nv vs cs : len (items nv vs cs) = len vs + len cs.
Proof. unfold items. rewrite app_length, map_length, Nat2Z.inj_add, !keys_len. reflexivity. Qed.

Lemma reset_holds w vs cs : holds w vs cs -> holds (ws_reset w) [] [].
Proof.
  intros []. constructor; cbn [ws_reset wnv wnc wvst wcst wvix wcix wcont wnav wnac length]; auto using fine_nil.
  - apply (arr_repeat Inactive).
  - apply (arr_repeat Inactive).
  - apply (arr_repeat none).
  - apply (arr_repeat none).
  - intros [|k] x; discriminate.
  - now rewrite filter_repeat_inactive.
  - now rewrite filter_repeat_inactive.
Qed.

Lemma create_holds nv nc : 0 <= nv -> 0 <= nc -> holds (ws_create nv nc) [] [].
Proof.
  intros Hv Hc. constructor; cbn [ws_create ws_reset wnv wnc wvst wcst wvix wcix wcont wnav wnac length]; auto using fine_nil.
  - apply (arr_repeat Inactive).
  - apply (arr_repeat Inactive).
  - apply (arr_repeat none).
  - apply (arr_repeat none).
  - rewrite repeat_length. lia.
  - intros [|k] x; discriminate.
  - now rewrite filter_repeat_inactive.
  - now rewrite filter_repeat_inactive.
Qed.

Lemma cont_snoc (cont : list (option Z)) (l : list Z) x : 
  (forall k y, nth_error l k = Some y -> nth_error cont k = Some (Some y)) -> len l < len cont ->
  exists cont', arr_set cont (len l) (Some x) = Ok cont' /\ length cont' = length cont
   /\ forall k y, nth_error (l ++ [x]) k = Some y -> nth_error cont' k = Some (Some y).
Proof.
  intros H Hl. eexists. split; [apply arr_set_ok; lia|]. split; [apply set_nth_length|].
  intros k y Hk. rewrite Nat2Z.id, set_nth_spec by lia. destruct (Nat.eqb_spec k (length l)) as [->|].
  - rewrite nth_error_app2 in Hk by lia. rewrite Nat.sub_diag in Hk. cbn in Hk. congruence.
  - apply H. rewrite nth_error_app1 in Hk; auto. assert (nth_error (l ++ [x]) k <> None) as Hs by congruence.
    apply nth_error_Some in Hs. rewrite app_length in Hs. cbn in Hs. lia.
Qed.

Lemma items_bound w vs cs : holds w vs cs -> len (items (wnv w) vs cs) <= len (wcont w).
Proof.
  intros []. rewrite items_len, h_clen0. pose proof (fine_length _ _ h_nv0 h_vs0). pose proof (fine_length _ _ h_nc0 h_cs0). lia.
Qed.

Lemma add_var_holds w vs cs i s : holds w vs cs -> 0 <= i < wnv w -> cs = [] -> ~ In i (keys vs) -> s <> Inactive ->
  exists w', ws_add_var w i s = Ok w' /\ holds w' (vs ++ [(i, s)]) [] /\ wnv w' = wnv w /\ wnc w' = wnc w.
Proof.
  intros H Hi -> Hni Hs. pose proof H as []. 
  assert (Hact : active s = true) by now apply active_iff.
  assert (Hf : fine (wnv w) (vs ++ [(i, s)])) by (apply fine_snoc; auto).
  pose proof (fine_length _ _ h_nv0 Hf) as HL. rewrite app_length in HL. cbn [length] in HL, h_nac0.
  assert (Hin : stf vs i = Inactive) by (eapply stf_inactive; eauto).
  unfold ws_add_var. destruct (Z.leb_spec 0 i); [|lia]. destruct (Z.ltb_spec i (wnv w)); [|lia].
  replace (wnac w) with 0 by (cbn in h_nac0; lia). cbn [check rbind Z.eqb].
  rewrite (arr_get_arr _ _ _ i h_vst0) by lia. cbn [rbind]. rewrite Hin. cbn [ast_eqb check rbind]. rewrite Hact. cbn [check rbind].
  destruct (arr_set_arr _ _ _ i (wnav w) h_vix0) as (vix & E1 & A1); [lia|]. rewrite E1. cbn [rbind].
  assert (Hsz : ws_size w = len (items (wnv w) vs [])).
  { rewrite items_len. unfold ws_size. cbn [length]. lia. }
  destruct (cont_snoc (wcont w) (items (wnv w) vs []) i h_cont0) as (cont & E2 & L2 & A2).
  { rewrite <- Hsz, h_clen0. unfold ws_size. lia. }
  rewrite Hsz, E2. cbn [rbind].
  destruct (arr_set_arr _ _ _ i s h_vst0) as (vst & E3 & A3); [lia|]. rewrite E3. cbn [rbind].
  eexists. split; [reflexivity|]. split; [|split; reflexivity].
  constructor; cbn [wnv wnc wvst wcst wvix wcix wcont wnav wnac]; auto using fine_nil; try (rewrite app_length; cbn [length]; lia).
  - eapply arr_ext; [exact A3|]. intros j _. now rewrite stf_snoc.
  - eapply arr_ext; [exact A1|]. intros j _. rewrite ixf_snoc by auto. rewrite h_nav0. reflexivity.
  - rewrite L2. exact h_clen0.
  - unfold items in *. cbn [keys map] in *. rewrite app_nil_r in A2. fold (keys (vs ++ [(i, s)])). rewrite keys_snoc, app_nil_r. exact A2.
  - pose proof (arr_set_ok (wvst w) i s) as E4. destruct h_vst0 as [Hlen Hnth].
    rewrite E4 in E3 by lia. injection E3 as <-. rewrite (filter_set_nth active _ _ _ Inactive); auto.
    + rewrite app_length. cbn [length]. lia.
    + rewrite Hnth by lia. now rewrite Hin.
Qed.

Lemma add_cons_holds w vs cs i s : holds w vs cs -> 0 <= i < wnc w -> ~ In i (keys cs) -> s <> Inactive ->
  exists w', ws_add_cons w i s = Ok w' /\ holds w' vs (cs ++ [(i, s)]) /\ wnv w' = wnv w /\ wnc w' = wnc w.
Proof.
  intros H Hi Hni Hs. pose proof H as [].
  assert (Hact : active s = true) by now apply active_iff.
  assert (Hf : fine (wnc w) (cs ++ [(i, s)])) by (apply fine_snoc; auto).
  pose proof (fine_length _ _ h_nc0 Hf) as HL. rewrite app_length in HL. cbn [length] in HL.
  pose proof (fine_length _ _ h_nv0 h_vs0) as HLv.
  assert (Hin : stf cs i = Inactive) by (eapply stf_inactive; eauto).
  unfold ws_add_cons. destruct (Z.leb_spec 0 i); [|lia]. destruct (Z.ltb_spec i (wnc w)); [|lia]. cbn [check rbind].
  rewrite (arr_get_arr _ _ _ i h_cst0) by lia. cbn [rbind]. rewrite Hin. cbn [ast_eqb check rbind]. rewrite Hact. cbn [check rbind].
  destruct (arr_set_arr _ _ _ i (wnav w + wnac w) h_cix0) as (cix & E1 & A1); [lia|]. rewrite E1. cbn [rbind].
  assert (Hsz : ws_size w = len (items (wnv w) vs cs)).
  { rewrite items_len. unfold ws_size. lia. }
  destruct (cont_snoc (wcont w) (items (wnv w) vs cs) (wnv w + i) h_cont0) as (cont & E2 & L2 & A2).
  { rewrite <- Hsz, h_clen0. unfold ws_size. lia. }
  rewrite Hsz, E2. cbn [rbind].
  destruct (arr_set_arr _ _ _ i s h_cst0) as (cst & E3 & A3); [lia|]. rewrite E3. cbn [rbind].
  eexists. split; [reflexivity|]. split; [|split; reflexivity].
  constructor; cbn [wnv wnc wvst wcst wvix wcix wcont wnav wnac]; auto; try (rewrite app_length; cbn [length]; lia).
  - eapply arr_ext; [exact A3|]. intros j _. now rewrite stf_snoc.
  - eapply arr_ext; [exact A1|]. intros j _. rewrite ixf_snoc by auto. rewrite h_nac0. reflexivity.
  - rewrite L2. exact h_clen0.
  - unfold items in *. rewrite keys_snoc, map_app, app_assoc. exact A2.
  - pose proof (arr_set_ok (wcst w) i s) as E4. destruct h_cst0 as [Hlen Hnth].
    rewrite E4 in E3 by lia. injection E3 as <-. rewrite (filter_set_nth active _ _ _ Inactive); auto.
    + rewrite app_length. cbn [length]. lia.
    + rewrite Hnth by lia. now rewrite Hin.
Qed.

(** An addition violating its documented preconditions does not succeed. *)
Lemma add_var_rejects w vs cs i s w' : holds w vs cs -> ws_add_var w i s = Ok w' ->
  0 <= i < wnv w /\ cs = [] /\ ~ In i (keys vs) /\ s <> Inactive.
Proof.
  intros [] E. unfold ws_add_var in E.
  destruct (Z.leb_spec 0 i); [|discriminate]. destruct (Z.ltb_spec i (wnv w)); [|discriminate].
  destruct (Z.eqb_spec (wnac w) 0); [|discriminate]. cbn [check rbind] in E.
  rewrite (arr_get_arr _ _ _ i h_vst0) in E by lia. cbn [rbind] in E.
  destruct (ast_eqb (stf vs i) Inactive) eqn:Ei; [|discriminate]. cbn [check rbind] in E.
  destruct (active s) eqn:Ea; [|discriminate].
  split; [lia|]. split; [destruct cs; auto; cbn [length] in h_nac0; lia|].
  split; [|now apply active_iff]. eapply stf_inactive; eauto. now apply ast_eqb_spec.
Qed.

Lemma add_cons_rejects w vs cs i s w' : holds w vs cs -> ws_add_cons w i s = Ok w' ->
  0 <= i < wnc w /\ ~ In i (keys cs) /\ s <> Inactive.
Proof.
  intros [] E. unfold ws_add_cons in E.
  destruct (Z.leb_spec 0 i); [|discriminate]. destruct (Z.ltb_spec i (wnc w)); [|discriminate]. cbn [check rbind] in E.
  rewrite (arr_get_arr _ _ _ i h_cst0) in E by lia. cbn [rbind] in E.
  destruct (ast_eqb (stf cs i) Inactive) eqn:Ei; [|discriminate]. cbn [check rbind] in E.
  destruct (active s) eqn:Ea; [|discriminate].
  split; [lia|]. split; [|now apply active_iff]. eapply stf_inactive; eauto. now apply ast_eqb_spec.
Qed.

(** ** The representation is consistent *)
Lemma ixf_cases b l j : (In j (keys l) /\ exists k, pos (keys l) j = Some k /\ ixf b l j = b + k /\ 0 <= k < len l)
  \/ (~ In j (keys l) /\ ixf b l j = none).
Proof.
  unfold ixf. destruct (pos (keys l) j) as [k|] eqn:E.
  - left. destruct (pos_Some _ _ _ E) as [H1 H2]. rewrite keys_len in H1. split; [eapply nth_error_In; eauto|]. eauto 10.
  - right. apply pos_None in E. auto.
Qed.

Lemma content_at w vs cs k x : holds w vs cs -> 0 <= k -> nth_error (items (wnv w) vs cs) (Z.to_nat k) = Some x ->
  ws_content w k = Ok x.
Proof.
  intros H Hk E. unfold ws_content. apply (h_cont _ _ _ H) in E. apply arr_get_nth in E; [|lia]. now rewrite E.
Qed.

Lemma holds_consistent w vs cs : holds w vs cs -> consistent w.
Proof.
  intros H. pose proof H as [].
  assert (Hsz : ws_size w = len vs + len cs) by (unfold ws_size; lia).
  pose proof (fine_length _ _ h_nv0 h_vs0) as HLv. pose proof (fine_length _ _ h_nc0 h_cs0) as HLc.
  assert (Vst : forall j, 0 <= j < wnv w -> ws_var_state w j = Ok (stf vs j)).
  { intros j Hj. unfold ws_var_state. destruct (Z.ltb_spec j (wnv w)); [|lia]. cbn [check rbind]. now apply (arr_get_arr _ _ _ j h_vst0). }
  assert (Cst : forall j, 0 <= j < wnc w -> ws_cons_state w j = Ok (stf cs j)).
  { intros j Hj. unfold ws_cons_state. destruct (Z.ltb_spec j (wnc w)); [|lia]. cbn [check rbind]. now apply (arr_get_arr _ _ _ j h_cst0). }
  assert (Vix : forall j, 0 <= j < wnv w -> ws_var_index w j = Ok (ixf 0 vs j)).
  { intros j Hj. unfold ws_var_index. destruct (Z.ltb_spec j (wnv w)); [|lia]. cbn [check rbind]. now apply (arr_get_arr _ _ _ j h_vix0). }
  assert (Cix : forall j, 0 <= j < wnc w -> ws_cons_index w j = Ok (ixf (wnav w) cs j)).
  { intros j Hj. unfold ws_cons_index. destruct (Z.ltb_spec j (wnc w)); [|lia]. cbn [check rbind]. now apply (arr_get_arr _ _ _ j h_cix0). }
  constructor.
  - intros [j|i] Hr; cbn [in_range item_state item_index] in *.
    + exists (stf vs j), (ixf 0 vs j). rewrite Vst, Vix by auto. split; [auto|]. split; [auto|]. rewrite (stf_inactive _ _ _ h_vs0).
      destruct (ixf_cases 0 vs j) as [(A & k & B & C & D)|(A & C)]; rewrite C; unfold none; split; intros; try tauto; lia.
    + exists (stf cs i), (ixf (wnav w) cs i). rewrite Cst, Cix by auto. split; [auto|]. split; [auto|]. rewrite (stf_inactive _ _ _ h_cs0).
      destruct (ixf_cases (wnav w) cs i) as [(A & k & B & C & D)|(A & C)]; rewrite C; unfold none; split; intros; try tauto; lia.
  - intros [j|i] k Hr E Hk; cbn [in_range item_index item_code] in *.
    + rewrite Vix in E by auto. injection E as <-.
      destruct (ixf_cases 0 vs j) as [(A & k & B & C & D)|(A & C)]; [|congruence]. rewrite C. split; [lia|].
      apply (content_at w vs cs _ _ H); [lia|]. unfold items. apply pos_Some in B. destruct B as [B1 B2].
      rewrite nth_error_app1; [|rewrite keys_len in B1; apply Nat2Z.inj_lt; rewrite keys_len; lia].
      replace (0 + k) with k by lia. exact B2.
    + rewrite Cix in E by auto. injection E as <-.
      destruct (ixf_cases (wnav w) cs i) as [(A & k & B & C & D)|(A & C)]; [|congruence]. rewrite C. split; [lia|].
      apply (content_at w vs cs _ _ H); [lia|]. unfold items. apply pos_Some in B. destruct B as [B1 B2].
      pose proof (keys_len vs) as KL.
      rewrite nth_error_app2 by lia. replace (Z.to_nat (wnav w + k) - length (keys vs))%nat with (Z.to_nat k) by lia.
      now apply map_nth_error.
  - intros k Hk. pose proof (keys_len vs) as KLv. pose proof (keys_len cs) as KLc.
    destruct (nth_error (items (wnv w) vs cs) (Z.to_nat k)) as [x|] eqn:E.
    2: { apply nth_error_None in E. pose proof (items_len (wnv w) vs cs). lia. }
    assert (Hpos : forall l m y, NoDup l -> nth_error l m = Some y -> pos l y = Some (Z.of_nat m)).
    { intros l m y Hn Hm. destruct (pos l y) as [q|] eqn:Eq.
      - apply pos_Some in Eq. destruct Eq as [Q1 Q2]. pose proof (NoDup_nth_inj _ _ _ _ Hn Hm Q2). f_equal. lia.
      - apply pos_None in Eq. destruct Eq. eapply nth_error_In; eauto. }
    pose proof E as E0. unfold items in E. destruct (Z.lt_ge_cases k (wnav w)).
    + rewrite nth_error_app1 in E by lia. exists (IVar x). cbn [in_range item_index item_code].
      assert (0 <= x < wnv w). { apply h_vs0. eapply nth_error_In; eauto. }
      split; [auto|]. rewrite Vix by auto. split; [|now apply (content_at w vs cs _ _ H); [lia|]].
      f_equal. unfold ixf. rewrite (Hpos (keys vs) (Z.to_nat k) x); auto; [lia|]. apply h_vs0.
    + rewrite nth_error_app2 in E by lia. rewrite nth_error_map in E.
      destruct (nth_error (keys cs) (Z.to_nat k - length (keys vs))) as [i|] eqn:Ei; cbn [option_map] in E; [|discriminate].
      injection E as <-. exists (ICons i). cbn [in_range item_index item_code].
      assert (0 <= i < wnc w). { apply h_cs0. eapply nth_error_In; eauto. }
      split; [auto|]. rewrite Cix by auto. split; [|now apply (content_at w vs cs _ _ H); [lia|]].
      f_equal. unfold ixf. rewrite (Hpos (keys cs) _ i (proj1 h_cs0) Ei). lia.
  - intros j k Hj E Hk. rewrite Vix in E by auto. injection E as <-.
    destruct (ixf_cases 0 vs j) as [(A & k & B & C & D)|(A & C)]; [|congruence]. lia.
  - intros j k Hj E Hk. rewrite Cix in E by auto. injection E as <-.
    destruct (ixf_cases (wnav w) cs j) as [(A & k & B & C & D)|(A & C)]; [|congruence]. lia.
  - lia.
  - lia.
  - lia.
Qed.

(** ** The validity check *)
Lemma arr_map {A} (l : list A) n f : arr l n f -> l = map f (zrange n).
Proof.
  intros H. eapply arr_eq; [exact H| |reflexivity]. destruct H as [Hl H]. split; [rewrite map_length, zrange_length; reflexivity|].
  intros j Hj. rewrite nth_error_map, zrange_nth by lia. cbn [option_map]. rewrite Z2Nat.id by lia. reflexivity.
Qed.

Lemma count_fold {A} (p : A -> bool) (f : Z -> res A) (g : Z -> A) l c : (forall j, In j l -> f j = Ok (g j)) ->
  rfold (fun c j => s <- f j ;; Ok (if p s then c + 1 else c)) c l = Ok (c + Z.of_nat (length (filter p (map g l)))).
Proof.
  revert c; induction l as [|j l IH]; intros c H; cbn [rfold map filter]; [cbn; f_equal; lia|].
  rewrite H by now left. cbn [rbind]. rewrite IH by (intros; apply H; now right).
  destruct (p (g j)); cbn [length]; f_equal; lia.
Qed.

Lemma check_indices_ok ix f n bound : 
  (forall j, 0 <= j < n -> ix j = Ok (f j)) -> (forall j, 0 <= j < n -> f j <> none -> f j < bound) ->
  (forall j k, 0 <= j < n -> 0 <= k < n -> f j <> none -> f j = f k -> j = k) ->
  ws_check_indices ix n bound = Ok (Some (Z.of_nat (length (filter (fun a => negb (a =? none)) (map f (zrange n)))))).
Proof.
  intros H1 H2 H3. unfold ws_check_indices.
  assert (H : forall l c, (forall j, In j l -> 0 <= j < n) ->
    rfold (fun acc j =>
    match acc with
    | None => Ok None
    | Some c =>
      a <- ix j ;;
      if a =? none then Ok (Some c) else
      if bound <=? a then Ok None else
      u <- rfold (fun (ok : bool) k => if ok then b <- ix k ;; Ok (Bool.eqb (j =? k) (a =? b)) else Ok false) true (zrange n) ;;
      Ok (if (u : bool) then Some (c + 1) else None)
    end) (Some c) l = Ok (Some (c + Z.of_nat (length (filter (fun a => negb (a =? none)) (map f l)))))).
  { induction l as [|j l IH]; intros c Hl; cbn [rfold map filter]; [cbn; do 2 f_equal; lia|].
    assert (Hj : 0 <= j < n) by (apply Hl; now left). assert (Hl' : forall j, In j l -> 0 <= j < n) by (intros; apply Hl; now right).
    rewrite H1 by auto. cbn [rbind]. destruct (Z.eqb_spec (f j) none) as [E|E]; cbn [negb].
    - cbn [rbind]. apply IH; auto.
    - destruct (Z.leb_spec bound (f j)); [specialize (H2 j Hj E); lia|].
      rewrite (bool_loop (fun k => b <- ix k ;; Ok (Bool.eqb (j =? k) (f j =? b))) (fun k => Bool.eqb (j =? k) (f j =? f k))).
      2: { intros k Hk. apply zrange_In in Hk. rewrite H1 by auto. reflexivity. }
      assert (Hall : forallb (fun k => Bool.eqb (j =? k) (f j =? f k)) (zrange n) = true).
      { apply forallb_zrange. intros k Hk. destruct (Z.eqb_spec j k) as [->|Hne].
        - rewrite Z.eqb_refl. reflexivity.
        - destruct (Z.eqb_spec (f j) (f k)) as [E2|]; [exfalso; apply Hne, H3; auto|reflexivity]. }
      rewrite Hall. cbn [andb rbind]. rewrite IH by auto. cbn [length]. do 2 f_equal. lia. }
  rewrite H by (intros j Hj; now apply zrange_In). do 2 f_equal.
Qed.

Lemma filter_map_length {A B} (p : A -> bool) (q : B -> bool) (f : Z -> A) (g : Z -> B) l :
  (forall j, In j l -> p (f j) = q (g j)) -> length (filter p (map f l)) = length (filter q (map g l)).
Proof.
  induction l as [|j l IH]; intros H; cbn [map filter]; auto. rewrite H by now left.
  destruct (q (g j)); cbn [length]; rewrite IH by (intros; apply H; now right); reflexivity.
Qed.

Lemma holds_valid w vs cs : holds w vs cs -> ws_size w <= wnv w -> ws_valid w = Ok true.
Proof.
  intros H Hle. pose proof H as []. pose proof (holds_consistent w vs cs H) as HC.
  assert (Hsz : ws_size w = len vs + len cs) by (unfold ws_size; lia).
  assert (Vst : forall j, 0 <= j < wnv w -> ws_var_state w j = Ok (stf vs j)).
  { intros j Hj. unfold ws_var_state. destruct (Z.ltb_spec j (wnv w)); [|lia]. cbn [check rbind]. now apply (arr_get_arr _ _ _ j h_vst0). }
  assert (Cst : forall j, 0 <= j < wnc w -> ws_cons_state w j = Ok (stf cs j)).
  { intros j Hj. unfold ws_cons_state. destruct (Z.ltb_spec j (wnc w)); [|lia]. cbn [check rbind]. now apply (arr_get_arr _ _ _ j h_cst0). }
  assert (Vix : forall j, 0 <= j < wnv w -> ws_var_index w j = Ok (ixf 0 vs j)).
  { intros j Hj. unfold ws_var_index. destruct (Z.ltb_spec j (wnv w)); [|lia]. cbn [check rbind]. now apply (arr_get_arr _ _ _ j h_vix0). }
  assert (Cix : forall j, 0 <= j < wnc w -> ws_cons_index w j = Ok (ixf (wnav w) cs j)).
  { intros j Hj. unfold ws_cons_index. destruct (Z.ltb_spec j (wnc w)); [|lia]. cbn [check rbind]. now apply (arr_get_arr _ _ _ j h_cix0). }
  assert (Uniq : forall it it' k, in_range w it -> in_range w it' -> item_index w it = Ok k -> item_index w it' = Ok k -> k <> none -> it = it').
  { intros it it' k R1 R2 E1 E2 Hk. destruct (cs_index w HC it k R1 E1 Hk) as [_ C1]. destruct (cs_index w HC it' k R2 E2 Hk) as [_ C2].
    rewrite C1 in C2. injection C2 as C2. destruct it, it'; cbn [item_code in_range] in *; f_equal; lia. }
  unfold ws_valid. destruct (Z.leb_spec (wnav w) (ws_size w)); [|lia]. destruct (Z.leb_spec (wnac w) (ws_size w)); [|lia].
  destruct (Z.leb_spec (ws_size w) (wnv w)); [|lia]. cbn [check rbind]. unfold ws_count.
  rewrite (count_fold active _ (stf vs)) by (intros j Hj; apply Vst; now apply zrange_In). cbn [rbind].
  rewrite (count_fold active _ (stf cs)) by (intros j Hj; apply Cst; now apply zrange_In). cbn [rbind].
  rewrite <- (arr_map _ _ _ h_vst0), <- (arr_map _ _ _ h_cst0).
  replace (0 + len (filter active (wvst w))) with (wnav w) by lia.
  replace (0 + len (filter active (wcst w))) with (wnac w) by lia. rewrite !Z.eqb_refl. cbn [negb orb].
  rewrite (check_indices_ok _ (ixf 0 vs)).
  2: exact Vix.
  2: { intros j Hj Hn. eapply (cs_vars_first w HC j); eauto. }
  2: { intros j k Hj Hk Hn E. assert (IVar j = IVar k) as [= ->]; auto. apply (Uniq _ _ (ixf 0 vs j)); cbn; auto. rewrite Vix, E; auto. }
  cbn [rbind].
  assert (Ev : length (filter (fun a => negb (a =? none)) (map (ixf 0 vs) (zrange (wnv w)))) = length (filter active (wvst w))).
  { rewrite (arr_map _ _ _ h_vst0). apply filter_map_length. intros j _. unfold active.
    destruct (ixf_cases 0 vs j) as [(A & k & B & C & D)|(A & C)]; rewrite C.
    - destruct (Z.eqb_spec (0 + k) none) as [E|_]; [unfold none in E; lia|].
      destruct (ast_eqb (stf vs j) Inactive) eqn:E2; auto. apply ast_eqb_spec in E2. eapply stf_inactive in E2; eauto. tauto.
    - rewrite Z.eqb_refl. replace (stf vs j) with Inactive; auto. symmetry. eapply stf_inactive; eauto. }
  rewrite Ev. replace (len (filter active (wvst w))) with (wnav w) by lia. rewrite Z.eqb_refl. cbn [negb].
  rewrite (check_indices_ok _ (ixf (wnav w) cs)).
  2: exact Cix.
  2: { intros j Hj Hn. eapply (cs_index w HC (ICons j)); eauto. }
  2: { intros j k Hj Hk Hn E. assert (ICons j = ICons k) as [= ->]; auto. apply (Uniq _ _ (ixf (wnav w) cs j)); cbn; auto. rewrite Cix, E; auto. }
  cbn [rbind].
  assert (Ec : length (filter (fun a => negb (a =? none)) (map (ixf (wnav w) cs) (zrange (wnc w)))) = length (filter active (wcst w))).
  { rewrite (arr_map _ _ _ h_cst0). apply filter_map_length. intros j _. unfold active.
    destruct (ixf_cases (wnav w) cs j) as [(A & k & B & C & D)|(A & C)]; rewrite C.
    - destruct (Z.eqb_spec (wnav w + k) none) as [E|_]; [unfold none in E; lia|].
      destruct (ast_eqb (stf cs j) Inactive) eqn:E2; auto. apply ast_eqb_spec in E2. eapply stf_inactive in E2; eauto. tauto.
    - rewrite Z.eqb_refl. replace (stf cs j) with Inactive; auto. symmetry. eapply stf_inactive; eauto. }
  rewrite Ec. replace (len (filter active (wcst w))) with (wnac w) by lia. rewrite Z.eqb_refl. cbn [negb].
  unfold ws_check_content.
  match goal with |- rfold (fun ok k => if ok then @?F k else Ok false) _ _ = _ => rewrite (bool_loop F (fun _ => true)) end.
  { cbn [andb]. f_equal. apply forallb_forall. reflexivity. }
  intros k Hk. apply zrange_In in Hk. destruct (cs_content w HC k Hk) as (it & Hr & Hi & Hc). rewrite Hc. cbn [rbind].
  destruct (cs_total w HC it Hr) as (s & k' & Hs & Hk' & Hiff). assert (k' = k) as -> by congruence.
  assert (Hst : s <> Inactive). { intros ->. destruct Hiff as [Hf _]. specialize (Hf eq_refl). unfold none in Hf. lia. }
  assert (Hcode : 0 <= item_code w it < wnv w + wnc w) by (destruct it; cbn [item_code in_range] in *; lia).
  destruct (Z.ltb_spec (item_code w it) 0); [lia|]. destruct (Z.leb_spec (wnv w + wnc w) (item_code w it)); [lia|]. cbn [orb].
  assert (Hss : (if item_code w it <? wnv w then ws_var_state w (item_code w it) else ws_cons_state w (item_code w it - wnv w)) = Ok s).
  { destruct it as [j|i]; cbn [item_code in_range item_state] in *.
    - destruct (Z.ltb_spec j (wnv w)); [auto|lia].
    - destruct (Z.ltb_spec (wnv w + i) (wnv w)); [lia|]. replace (wnv w + i - wnv w) with i by lia. auto. }
  rewrite Hss. cbn [rbind]. destruct (ast_eqb s Inactive) eqn:Es; [apply ast_eqb_spec in Es; contradiction|].
  rewrite (bool_loop (fun l => b <- ws_content w l ;; Ok (Bool.eqb (l =? k) (b =? item_code w it))) (fun _ => true)).
  { cbn [andb]. f_equal. apply forallb_forall. reflexivity. }
  intros l Hl. apply zrange_In in Hl. destruct (cs_content w HC l Hl) as (it' & Hr' & Hi' & Hc'). rewrite Hc'. cbn [rbind]. f_equal.
  destruct (Z.eqb_spec l k) as [->|Hne].
  - rewrite Hc in Hc'. injection Hc' as <-. now rewrite Z.eqb_refl.
  - destruct (Z.eqb_spec (item_code w it') (item_code w it)) as [E|]; auto. destruct Hne.
    assert (it' = it) as -> by (destruct it, it'; cbn [item_code in_range] in *; f_equal; lia). congruence.
Qed.

(** ** Equality test *)
Lemma ws_eq_spec a b va ca vb cb : holds a va ca -> holds b vb cb -> wnv a = wnv b -> wnc a = wnc b ->
  exists r, ws_eq a b = Ok r /\ (r = true <-> keys va = keys vb /\ keys ca = keys cb).
Proof.
  intros Ha Hb Hnv Hnc. pose proof Ha as [Anv Anc Avs Acs Anav Anac Avst Acst Avix Acix Acl Acont Acv Acc].
  pose proof Hb as [Bnv Bnc Bvs Bcs Bnav Bnac Bvst Bcst Bvix Bcix Bcl Bcont Bcv Bcc].
  unfold ws_eq. rewrite Hnc, Hnv, !Z.eqb_refl. cbn [check rbind]. rewrite <- Hnv, <- Hnc.
  rewrite (bool_loop (fun j => x <- arr_get (wvix a) j ;; y <- arr_get (wvix b) j ;; Ok (x =? y)) (fun j => ixf 0 va j =? ixf 0 vb j)).
  2: { intros j Hj. apply zrange_In in Hj. rewrite (arr_get_arr _ _ _ j Avix), (arr_get_arr _ _ _ j Bvix) by lia. reflexivity. }
  cbn [rbind].
  rewrite (bool_loop (fun j => x <- arr_get (wcix a) j ;; y <- arr_get (wcix b) j ;; Ok (x =? y)) (fun j => ixf (wnav a) ca j =? ixf (wnav b) cb j)).
  2: { intros j Hj. apply zrange_In in Hj. rewrite (arr_get_arr _ _ _ j Acix), (arr_get_arr _ _ _ j Bcix) by lia. reflexivity. }
  cbn [andb]. eexists. split; [reflexivity|]. rewrite andb_true_iff, !forallb_zrange.
  assert (Hkeys : forall b1 b2 l1 l2 n, 0 <= b1 -> b1 = b2 -> fine n l1 -> fine n l2 ->
     (forall j, 0 <= j < n -> (ixf b1 l1 j =? ixf b2 l2 j) = true) <-> keys l1 = keys l2).
  { intros b1 b2 l1 l2 n Hb1 <- F1 F2. split.
    - intros H. assert (Hle : forall l1 l2, fine n l1 -> fine n l2 -> (forall j, 0 <= j < n -> (ixf b1 l1 j =? ixf b1 l2 j) = true) ->
        forall k x, nth_error (keys l1) k = Some x -> nth_error (keys l2) k = Some x).
      { clear - Hb1. intros l1 l2 F1 F2 H k x E. assert (Hx : 0 <= x < n) by (apply F1; eapply nth_error_In; eauto).
        specialize (H x Hx). apply Z.eqb_eq in H.
        destruct (ixf_cases b1 l1 x) as [(A & k1 & B & C & D)|(A & C)]; [|destruct A; eapply nth_error_In; eauto].
        destruct (ixf_cases b1 l2 x) as [(A' & k2 & B' & C' & D')|(A' & C')]; [|unfold none in *; lia].
        apply pos_Some in B, B'. destruct B as [_ B], B' as [_ B']. assert (k1 = k2) as <- by lia.
        pose proof (NoDup_nth_inj _ _ _ _ (proj1 F1) E B) as ->. exact B'. }
      apply nth_error_ext. intros k. destruct (nth_error (keys l1) k) as [x|] eqn:E1.
      + symmetry. eapply (Hle l1 l2); eauto.
      + destruct (nth_error (keys l2) k) as [x|] eqn:E2; auto. rewrite (Hle l2 l1 F2 F1) with (x := x) in E1; auto.
        intros j Hj. rewrite Z.eqb_sym. auto.
    - intros E j Hj. unfold ixf. rewrite E. apply Z.eqb_refl. }
  split.
  - intros [H1 H2]. assert (E1 : keys va = keys vb) by (apply (Hkeys 0 0 va vb (wnv a)); auto; try lia; rewrite Hnv; auto).
    split; auto. apply (Hkeys (wnav a) (wnav b) ca cb (wnc a)); auto; try lia; [|rewrite Hnc; auto].
    rewrite Anav, Bnav, <- (keys_len va), <- (keys_len vb), E1. reflexivity.
  - intros [E1 E2]. split.
    + apply (Hkeys 0 0 va vb (wnv a)); auto; try lia; rewrite Hnv; auto.
    + apply (Hkeys (wnav a) (wnav b) ca cb (wnc a)); auto; try lia; [|rewrite Hnc; auto].
      rewrite Anav, Bnav, <- (keys_len va), <- (keys_len vb), E1. reflexivity.
Qed.

(** ** Histories *)
Inductive wop := WReset | WAdd (index : Z) (constraint : bool) (s : ast).
Definition wstep (w : wset) (o : wop) : res wset :=
  match o with WReset => Ok (ws_reset w) | WAdd i c s => ws_add w i c s end.
Definition wabs (p : list (Z * ast) * list (Z * ast)) (o : wop) : list (Z * ast) * list (Z * ast) :=
  match o with
  | WReset => ([], [])
  | WAdd i true s => (fst p, snd p ++ [(i, s)])
  | WAdd i false s => (fst p ++ [(i, s)], snd p)
  end.
Definition wpre (nv nc : Z) (p : list (Z * ast) * list (Z * ast)) (o : wop) : Prop :=
  match o with
  | WReset => True
  | WAdd i true s => 0 <= i < nc /\ ~ In i (keys (snd p)) /\ s <> Inactive
  | WAdd i false s => 0 <= i < nv /\ snd p = [] /\ ~ In i (keys (fst p)) /\ s <> Inactive
  end.

Lemma wstep_holds w p o : holds w (fst p) (snd p) ->
  (wpre (wnv w) (wnc w) p o <-> exists w', wstep w o = Ok w') /\
  (forall w', wstep w o = Ok w' -> holds w' (fst (wabs p o)) (snd (wabs p o)) /\ wnv w' = wnv w /\ wnc w' = wnc w).
Proof.
  intros H. destruct p as [vs cs]. cbn [fst snd] in H. destruct o as [|i [] s]; cbn [wstep wabs wpre ws_add fst snd].
  - split; [split; eauto|]. intros w' [= <-]. split; [eapply reset_holds; eauto|]. split; reflexivity.
  - split.
    + split.
      * intros (H1 & H2 & H3). destruct (add_cons_holds w vs cs i s H H1 H2 H3) as (w' & E & _). eauto.
      * intros (w' & E). eapply add_cons_rejects; eauto.
    + intros w' E. destruct (add_cons_rejects w vs cs i s w' H E) as (H1 & H2 & H3).
      destruct (add_cons_holds w vs cs i s H H1 H2 H3) as (w'' & E' & Hh & D1 & D2). assert (w'' = w') as <- by congruence. auto.
  - split.
    + split.
      * intros (H1 & H2 & H3 & H4). destruct (add_var_holds w vs cs i s H H1 H2 H3 H4) as (w' & E & _). eauto.
      * intros (w' & E). eapply add_var_rejects; eauto.
    + intros w' E. destruct (add_var_rejects w vs cs i s w' H E) as (H1 & H2 & H3 & H4).
      destruct (add_var_holds w vs cs i s H H1 H2 H3 H4) as (w'' & E' & Hh & D1 & D2). assert (w'' = w') as <- by congruence.
      subst cs. auto.
Qed.

Lemma wrun_holds nv nc ops : 0 <= nv -> 0 <= nc -> forall w p, holds w (fst p) (snd p) -> wnv w = nv -> wnc w = nc ->
  forall w', rfold wstep w ops = Ok w' ->
  holds w' (fst (fold_left wabs ops p)) (snd (fold_left wabs ops p)) /\ wnv w' = nv /\ wnc w' = nc.
Proof.
  intros Hv Hc. induction ops as [|o ops IH]; intros w p H E1 E2 w'; cbn [rfold fold_left].
  - intros [= <-]. auto.
  - intros E. apply rbind_ok in E. destruct E as (w1 & Es & E). destruct (wstep_holds w p o H) as [_ Hs].
    destruct (Hs w1 Es) as (H1 & D1 & D2). apply (IH w1 (wabs p o)); auto; congruence.
Qed.

(** ** Supported multipliers *)
Lemma supports_range_spec {N : Num} (d : vec) states : wf d -> len states = vdim d ->
  exists r, supports_range d states = Ok r /\
    (r = true <-> forall i x, get (vent d) i = Some x -> exists s, nth_error states (Z.to_nat i) = Some s /\ state_supports s x = true).
Proof.
  intros (Hd & Hs & Hc) Hl. unfold supports_range.
  set (g := fun e : Z * num => match nth_error states (Z.to_nat (fst e)) with Some s => state_supports s (snd e) | None => false end).
  rewrite (bool_loop (fun e : Z * num => s <- arr_get states (fst e) ;; Ok (state_supports s (snd e))) g).
  - cbn [andb]. eexists. split; [reflexivity|]. rewrite forallb_forall. split.
    + intros H i x Hg. apply get_Some_In in Hg. specialize (H _ Hg). unfold g in H. cbn [fst snd] in H.
      destruct (nth_error states (Z.to_nat i)) as [s|]; [|discriminate]. eauto.
    + intros H [i x] Hin. assert (Hg : get (vent d) i = Some x) by (eapply In_get; eauto).
      destruct (H i x Hg) as (s & E1 & E2). unfold g. cbn [fst snd]. now rewrite E1.
  - intros [i x] Hin. unfold g. cbn [fst snd]. pose proof (In_keys _ _ _ Hin) as Hk. pose proof (sorted_in_In _ _ _ _ Hs Hk) as Hr.
    destruct (nth_error states (Z.to_nat i)) as [s|] eqn:E.
    + apply arr_get_nth in E; [|lia]. rewrite E. reflexivity.
    + apply nth_error_None in E. lia.
Qed.
