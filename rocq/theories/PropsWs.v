(** Property theorems C15-C18: working sets, callbacks, Hessian block structure. *)
From Coq Require Import Permutation Reals.
From Verif Require Import Base Num Cmp Sparse Vec VecFacts Order VecFacts2 F64Facts Mat MatFacts Arr WorkingSet WorkingSetFacts Registry PropsVec.
Local Open Scope Z_scope.

(** ** C15 *)

(** After every accepted history of resets and additions the queries are consistent
    (specification [consistent] in WorkingSetFacts.v), and describe exactly the additions
    since the last reset, in order. *)
Theorem C15_history : forall nv nc ops w, 0 <= nv -> 0 <= nc ->
  rfold wstep (ws_create nv nc) ops = Ok w ->
  consistent w /\ wnv w = nv /\ wnc w = nc
  /\ (let (vs, cs) := fold_left wabs ops ([], []) in
      ws_size w = len vs + len cs /\
      (forall j, 0 <= j < nv -> ws_var_state w j = Ok (match get vs j with Some s => s | None => Inactive end)) /\
      (forall i, 0 <= i < nc -> ws_cons_state w i = Ok (match get cs i with Some s => s | None => Inactive end)) /\
      (forall k x, nth_error (keys vs ++ map (Z.add nv) (keys cs)) k = Some x -> ws_content w (Z.of_nat k) = Ok x)).
Proof.
  intros nv nc ops w Hv Hc E.
  destruct (wrun_holds nv nc ops Hv Hc (ws_create nv nc) ([], []) (create_holds nv nc Hv Hc) eq_refl eq_refl w E) as (H & D1 & D2).
  split; [eapply holds_consistent; eauto|]. split; [exact D1|]. split; [exact D2|].
  destruct (fold_left wabs ops ([], [])) as [vs cs]. cbn [fst snd] in H. pose proof H as []. rewrite D1, D2 in *. split; [|split; [|split]].
  - unfold ws_size. lia.
  - intros j Hj. unfold ws_var_state. rewrite D1. destruct (Z.ltb_spec j nv); [|lia]. cbn [check rbind]. now apply (arr_get_arr _ _ _ j h_vst).
  - intros i Hi. unfold ws_cons_state. rewrite D2. destruct (Z.ltb_spec i nc); [|lia]. cbn [check rbind]. now apply (arr_get_arr _ _ _ i h_cst).
  - intros k x Hk. apply (content_at w vs cs _ _ H); [lia|]. rewrite D1, Nat2Z.id. exact Hk.
Qed.
Print Assumptions C15_history.

(** An addition is accepted iff the item is in range, not yet in the set, its state is
    not inactive and (for variables) no constraint has been added. *)
Theorem C15_accepts : forall nv nc ops w o, 0 <= nv -> 0 <= nc ->
  rfold wstep (ws_create nv nc) ops = Ok w ->
  ((exists w', wstep w o = Ok w') <->
   match o with
   | WReset => True
   | WAdd i true s => 0 <= i < nc /\ ws_cons_state w i = Ok Inactive /\ s <> Inactive
   | WAdd i false s => 0 <= i < nv /\ wnac w = 0 /\ ws_var_state w i = Ok Inactive /\ s <> Inactive
   end).
Proof.
  intros nv nc ops w o Hv Hc E.
  destruct (wrun_holds nv nc ops Hv Hc (ws_create nv nc) ([], []) (create_holds nv nc Hv Hc) eq_refl eq_refl w E) as (H & D1 & D2).
  destruct (wstep_holds w _ o H) as [Hiff _]. rewrite <- Hiff. clear Hiff.
  destruct (fold_left wabs ops ([], [])) as [vs cs]. cbn [fst snd] in H. pose proof H as [].
  destruct o as [|i [] s]; cbn [wpre fst snd]; [tauto| |].
  - rewrite D2 in *. split; intros (H1 & H2 & H3); (split; [lia|]; split; [|exact H3]).
    + unfold ws_cons_state. rewrite D2. destruct (Z.ltb_spec i nc); [|lia]. cbn [check rbind].
      rewrite (arr_get_arr _ _ _ i h_cst) by lia. f_equal. now apply (stf_inactive nc).
    + unfold ws_cons_state in H2. rewrite D2 in H2. destruct (Z.ltb_spec i nc); [|lia]. cbn [check rbind] in H2.
      rewrite (arr_get_arr _ _ _ i h_cst) in H2 by lia. injection H2 as H2. now apply (stf_inactive nc) in H2.
  - rewrite D1 in *. split; intros (H1 & H2 & H3 & H4); (split; [lia|]; split; [|split; [|exact H4]]).
    + rewrite h_nac, H2. reflexivity.
    + unfold ws_var_state. rewrite D1. destruct (Z.ltb_spec i nv); [|lia]. cbn [check rbind].
      rewrite (arr_get_arr _ _ _ i h_vst) by lia. f_equal. now apply (stf_inactive nv).
    + rewrite h_nac in H2. destruct cs; [reflexivity|cbn [length] in H2; lia].
    + unfold ws_var_state in H3. rewrite D1 in H3. destruct (Z.ltb_spec i nv); [|lia]. cbn [check rbind] in H3.
      rewrite (arr_get_arr _ _ _ i h_vst) in H3 by lia. injection H3 as H3. now apply (stf_inactive nv) in H3.
Qed.
Print Assumptions C15_accepts.

(** The validity check accepts every such set that is not larger than the number of variables. *)
Theorem C15_valid_partial : forall nv nc ops w, 0 <= nv -> 0 <= nc ->
  rfold wstep (ws_create nv nc) ops = Ok w -> ws_size w <= nv -> ws_valid w = Ok true.
Proof.
  intros nv nc ops w Hv Hc E Hs.
  destruct (wrun_holds nv nc ops Hv Hc (ws_create nv nc) ([], []) (create_holds nv nc Hv Hc) eq_refl eq_refl w E) as (H & D1 & D2).
  eapply holds_valid; eauto. lia.
Qed.
Print Assumptions C15_valid_partial.

(** The API also accepts larger sets, which the validity check answers with a failed assertion. *)
Theorem C15_valid_refuted : exists ops w,
  rfold wstep (ws_create 1 2) ops = Ok w /\ consistent w /\ ws_valid w = Trap.
Proof.
  exists [WAdd 0 true ActLower; WAdd 1 true ActUpper]. eexists. split; [reflexivity|]. split; [|reflexivity].
  eapply (C15_history 1 2 [WAdd 0 true ActLower; WAdd 1 true ActUpper]); [lia|lia|reflexivity].
Qed.
Print Assumptions C15_valid_refuted.

(** The equality test decides equality of the item sequences ... *)
Theorem C15_eq_partial : forall nv nc opsa opsb a b, 0 <= nv -> 0 <= nc ->
  rfold wstep (ws_create nv nc) opsa = Ok a -> rfold wstep (ws_create nv nc) opsb = Ok b ->
  exists r, ws_eq a b = Ok r /\
   (r = true <-> keys (fst (fold_left wabs opsa ([], []))) = keys (fst (fold_left wabs opsb ([], [])))
              /\ keys (snd (fold_left wabs opsa ([], []))) = keys (snd (fold_left wabs opsb ([], [])))).
Proof.
  intros nv nc opsa opsb a b Hv Hc Ea Eb.
  destruct (wrun_holds nv nc opsa Hv Hc (ws_create nv nc) ([], []) (create_holds nv nc Hv Hc) eq_refl eq_refl a Ea) as (Ha & A1 & A2).
  destruct (wrun_holds nv nc opsb Hv Hc (ws_create nv nc) ([], []) (create_holds nv nc Hv Hc) eq_refl eq_refl b Eb) as (Hb & B1 & B2).
  eapply ws_eq_spec; eauto; congruence.
Qed.
Print Assumptions C15_eq_partial.

(** ... but ignores the states: a set active at the lower bound equals one active at the upper bound. *)
Theorem C15_eq_refuted : exists a b,
  rfold wstep (ws_create 1 0) [WAdd 0 false ActLower] = Ok a /\ rfold wstep (ws_create 1 0) [WAdd 0 false ActUpper] = Ok b
  /\ ws_eq a b = Ok true /\ ws_var_state a 0 <> ws_var_state b 0.
Proof. eexists _, _. split; [reflexivity|]. split; [reflexivity|]. split; [reflexivity|]. discriminate. Qed.
Print Assumptions C15_eq_refuted.

(** Copies are copies. *)
Theorem C15_copy : forall s t, wnv s = wnv t -> wnc s = wnc t -> ws_copy s t = Ok s.
Proof. intros s t H1 H2. unfold ws_copy. rewrite H1, H2, !Z.eqb_refl. reflexivity. Qed.
Print Assumptions C15_copy.

Definition wops := [WAdd 2 false ActBoth; WReset; WAdd 3 false ActLower; WAdd 1 false ActUpper; WAdd 0 true ActBoth].
Example C15_example : match rfold wstep (ws_create 4 2) wops with
  | Ok w => ws_valid w = Ok true /\ ws_size w = 3 /\ ws_content w 1 = Ok 1 /\ ws_content w 2 = Ok 4
            /\ ws_cons_index w 0 = Ok 2 /\ ws_var_index w 2 = Ok none /\ ws_var_state w 3 = Ok ActLower
  | _ => False end.
Proof. vm_compute. repeat split. Qed.

(** ** C16 *)
Definition sign_allowed {N : Num} (s : ast) (x : num) : Prop :=
  match s with
  | ActBoth => True
  | ActLower => nltb n0 x = false
  | ActUpper => nltb x n0 = false
  | Inactive => neqb x n0 = true
  end.

Theorem C16_supports {N : Num} : forall (d : vec) states, wf d -> len states = vdim d ->
  exists r, supports_range d states = Ok r /\
    (r = true <-> forall i x s, get (vent d) i = Some x -> nth_error states (Z.to_nat i) = Some s -> sign_allowed s x).
Proof.
  intros d states Hw Hl. destruct (supports_range_spec d states Hw Hl) as (r & E & Hr). exists r. split; [exact E|]. rewrite Hr.
  assert (Hss : forall s x, state_supports s x = true <-> sign_allowed s x).
  { intros [] x; cbn [state_supports sign_allowed]; rewrite ?negb_true_iff; tauto. }
  split.
  - intros H i x s Hg Hs. destruct (H i x Hg) as (s' & E1 & E2). assert (s' = s) as -> by congruence. now apply Hss.
  - intros H i x Hg. destruct (nth_error states (Z.to_nat i)) as [s|] eqn:Es.
    + exists s. split; auto. apply Hss. eauto.
    + exfalso. destruct Hw as (_ & Hs & _). pose proof (sorted_in_In _ _ _ _ Hs (In_keys _ _ _ (get_Some_In _ _ _ Hg))). apply nth_error_None in Es. lia.
Qed.
Print Assumptions C16_supports.

(** In terms of dense coordinates, for vectors of ordered numbers (finite doubles, reals). *)
Theorem C16_supports_dense {N : Num} {O : Ord N} : forall (d : vec) states, wf d -> len states = vdim d ->
  (forall i x, get (vent d) i = Some x -> nn x) ->
  exists r, supports_range d states = Ok r /\
    (r = true <-> forall i s, 0 <= i < vdim d -> nth_error states (Z.to_nat i) = Some s ->
      match s with
      | ActBoth => True
      | ActLower => (val (dense d i) <= 0)%R
      | ActUpper => (0 <= val (dense d i))%R
      | Inactive => (val (dense d i) = 0)%R
      end).
Proof.
  intros d states Hw Hl Hn. destruct (C16_supports d states Hw Hl) as (r & E & Hr). exists r. split; [exact E|]. rewrite Hr.
  split.
  - intros H i s Hi Hs. unfold dense. destruct (get (vent d) i) as [x|] eqn:Eg; cbn [oval].
    + specialize (H i x s Eg Hs). specialize (Hn i x Eg). destruct s; cbn [sign_allowed] in H; auto.
      * apply eqb_iff in H; [|exact Hn|exact nn_0]. rewrite val_0 in H. exact H.
      * apply ltb_false_iff in H; [|exact nn_0|exact Hn]. rewrite val_0 in H. exact H.
      * apply ltb_false_iff in H; [|exact Hn|exact nn_0]. rewrite val_0 in H. exact H.
    + destruct s; auto; rewrite val_0; apply Rle_refl || reflexivity.
  - intros H i x s Eg Hs. specialize (Hn i x Eg).
    assert (Hi : 0 <= i < vdim d) by (destruct Hw as (_ & Hs' & _); exact (sorted_in_In _ _ _ _ Hs' (In_keys _ _ _ (get_Some_In _ _ _ Eg)))).
    specialize (H i s Hi Hs). unfold dense in H. rewrite Eg in H. cbn [oval] in H. destruct s; cbn [sign_allowed]; auto.
    + apply eqb_iff; [exact Hn|exact nn_0|]. now rewrite val_0.
    + apply ltb_false_iff; [exact nn_0|exact Hn|]. now rewrite val_0.
    + apply ltb_false_iff; [exact Hn|exact nn_0|]. now rewrite val_0.
Qed.
Print Assumptions C16_supports_dense.

Example C16_example :
  supports_range (ve 4 [(0, -1); (1, 2); (3, 5)]) [ActLower; ActUpper; Inactive; ActBoth] = Ok true
  /\ supports_range (ve 4 [(0, 1)]) [ActLower; ActUpper; Inactive; ActBoth] = Ok false
  /\ supports_range (ve 4 [(2, 1)]) [ActLower; ActUpper; Inactive; ActBoth] = Ok false.
Proof. vm_compute. repeat split. Qed.
(** A NaN multiplier is supported at an active bound. *)
Example C16_nan : supports_range (mkvec 1 1 [(0, fnan)] : @vec F64) [ActLower] = Ok true.
Proof. vm_compute. reflexivity. Qed.

(** ** C17 *)
Theorem C17_multiset : forall ops, exists h l, rfold hstep h_create ops = Ok h
  /\ h_size h = len l
  /\ (forall c, count_occ cb_dec l c = copies c 0 ops)
  /\ (forall p, h_get h p = if (0 <=? p) && (p <? len l)
                            then match nth_error l (Z.to_nat p) with Some c => Ok c | None => Trap end else Err EIllegalArg)
  /\ (forall c, (In c l -> exists h', h_remove h c = Ok h' /\ h_size h' = h_size h - 1)
             /\ (~ In c l -> h_remove h c = Err EIllegalArg)).
Proof.
  intros ops. destruct (h_run ops h_create [] create_registers) as (h & l & E & R & C). exists h, l. split; [exact E|].
  pose proof R as (rest & Hs & Hz & Hc). split; [exact Hz|]. split; [exact C|]. split; [intros p; now apply h_get_spec|].
  intros c. destruct (h_remove_spec h l c R) as [H1 H2]. split; [|exact H2]. intros Hin.
  destruct (H1 Hin) as (h' & l' & E' & (r' & _ & Hz' & _) & P). exists h'. split; [exact E'|].
  unfold h_size. rewrite Hz, Hz'. apply Permutation_length in P. cbn [length] in P. lia.
Qed.
Print Assumptions C17_multiset.

(** [copies]: each removal undoes one earlier registration, removals of absent pairs do nothing. *)
Theorem C17_balance : forall c ops, (forall k, (copies c 0 (firstn k ops) <= copies c 0 (firstn k ops ++ [HAdd c]))%nat)
  /\ copies c 0 (ops ++ [HAdd c]) = S (copies c 0 ops) /\ copies c 0 (ops ++ [HRemove c]) = pred (copies c 0 ops)
  /\ (forall d, d <> c -> copies c 0 (ops ++ [HAdd d]) = copies c 0 ops /\ copies c 0 (ops ++ [HRemove d]) = copies c 0 ops).
Proof.
  intros c ops. assert (H : forall l n o, copies c n (l ++ [o]) =
     match o with HAdd d => if cb_dec d c then S (copies c n l) else copies c n l
                | HRemove d => if cb_dec d c then pred (copies c n l) else copies c n l end).
  { induction l as [|[d|d] l IH]; intros n o; cbn [app copies]; [destruct o as [d|d]; cbn [copies]; destruct (cb_dec d c); reflexivity|apply IH|apply IH]. }
  split; [|split; [|split]].
  - intros k. rewrite H. destruct (cb_dec c c); lia.
  - rewrite H. destruct (cb_dec c c); [reflexivity|congruence].
  - rewrite H. destruct (cb_dec c c); [reflexivity|congruence].
  - intros d Hd. rewrite !H. destruct (cb_dec d c); [congruence|auto].
Qed.
Print Assumptions C17_balance.

Example C17_example : match rfold hstep h_create [HAdd (1, 10); HAdd (2, 20); HAdd (1, 10); HRemove (1, 10); HRemove (7, 7)] with
  | Ok h => h_size h = 2 /\ h_get h 0 = Ok (1, 10) /\ h_get h 1 = Ok (2, 20) /\ h_get h 2 = Err EIllegalArg
            /\ h_remove h (7, 7) = Err EIllegalArg
  | _ => False end.
Proof. vm_compute. repeat split. Qed.

(** ** C18 *)
Theorem C18_history : forall dim pushes, 0 <= dim ->
  exists s0 s, hs_create dim true = Ok s0 /\ rfold hs_try s0 pushes = Ok s /\ sdim s = dim
    /\ snum s = len (accepted dim [] pushes)
    /\ (forall k e, nth_error (accepted dim [] pushes) k = Some e ->
          hs_range s (Z.of_nat k) = Ok (match k with O => 0 | S k' => nth k' (accepted dim [] pushes) 0 end, e))
    /\ (forall i j x y, (i < j)%nat -> nth_error (accepted dim [] pushes) i = Some x -> nth_error (accepted dim [] pushes) j = Some y -> x < y)
    /\ (forall e, In e (accepted dim [] pushes) -> e <= dim)
    /\ hs_lin_range s = Ok (last (accepted dim [] pushes) 0, dim).
Proof.
  intros dim pushes Hd. destruct (hs_create_spec dim Hd) as (s0 & E0 & B0 & D0).
  destruct (hs_run pushes s0 [] B0) as (s & E & B & D). rewrite D0 in *. pose proof B as (H1 & H2 & H3 & H4 & H5).
  exists s0, s. split; [exact E0|]. split; [exact E|]. split; [exact D|]. split; [exact H1|]. split; [|split; [|split]].
  - intros k e Hk. now apply hs_range_spec.
  - exact H4.
  - rewrite D in H5. exact H5.
  - rewrite (hs_lin_spec s _ B), D. reflexivity.
Qed.
Print Assumptions C18_history.

(** If the first block is not empty, blocks and linear range partition the variables. *)
Theorem C18_partition_partial : forall dim pushes s0 s, 0 <= dim ->
  hs_create dim true = Ok s0 -> rfold hs_try s0 pushes = Ok s ->
  (forall e, hs_range s 0 = Ok (0, e) -> 0 < e) ->
  (forall k, 0 <= k < snum s -> exists b e, hs_range s k = Ok (b, e) /\ b < e) /\
  forall i, 0 <= i < dim ->
    (exists k b e, 0 <= k < snum s /\ hs_range s k = Ok (b, e) /\ b <= i < e
        /\ (forall k' b' e', 0 <= k' < snum s -> hs_range s k' = Ok (b', e') -> b' <= i < e' -> k' = k)
        /\ (forall b' e', hs_lin_range s = Ok (b', e') -> ~ b' <= i < e'))
    \/ ((exists b e, hs_lin_range s = Ok (b, e) /\ b <= i < e)
        /\ forall k b e, 0 <= k < snum s -> hs_range s k = Ok (b, e) -> ~ b <= i < e).
Proof.
  intros dim pushes s0 s Hd E0 E Hfirst.
  destruct (C18_history dim pushes Hd) as (s0' & s' & E0' & E' & D & Hn & Hr & Hm & Hle & Hl).
  assert (s0' = s0) as -> by congruence. assert (s' = s) as -> by congruence.
  set (es := accepted dim [] pushes) in *. clearbody es.
  set (beg := fun k => match k with O => 0 | S k' => nth k' es 0 end) in *.
  assert (Hnth : forall k, (k < length es)%nat -> nth_error es k = Some (nth k es 0)) by (intros; apply nth_error_nth'; auto).
  assert (Hrk : forall k, (k < length es)%nat -> hs_range s (Z.of_nat k) = Ok (beg k, nth k es 0)) by (intros k Hk; apply Hr; auto).
  assert (Hbe : forall k, (k < length es)%nat -> beg k < nth k es 0).
  { intros [|k] Hk; cbn [beg].
    - apply Hfirst. apply (Hrk 0%nat Hk).
    - apply (Hm k (S k)); auto. apply Hnth. lia. }
  assert (Hmono : forall k k', (k <= k')%nat -> (k' < length es)%nat -> nth k es 0 <= nth k' es 0).
  { intros k k' H1 H2. destruct (Nat.eq_dec k k') as [->|]; [lia|]. apply Z.lt_le_incl. apply (Hm k k'); auto; [lia|apply Hnth; lia]. }
  assert (Hlast : forall k, (k < length es)%nat -> nth k es 0 <= last es 0).
  { intros k Hk. assert (Hne : es <> []) by (intros ->; cbn [length] in Hk; lia).
    pose proof (last_nth es Hne) as HL. rewrite (Hnth (length es - 1)%nat) in HL by lia. injection HL as <-. apply Hmono; lia. }
  split.
  - intros k Hk. exists (beg (Z.to_nat k)), (nth (Z.to_nat k) es 0). split; [|apply Hbe; lia].
    rewrite <- (Hrk (Z.to_nat k)) by lia. f_equal. lia.
  - intros i Hi. destruct (Z.lt_ge_cases i (last es 0)) as [Hlt|Hge].
    + left.
      assert (Hex : exists k, (k < length es)%nat /\ beg k <= i < nth k es 0).
      { assert (Hk : forall n, (n <= length es)%nat -> i < match n with O => 0 | S m => nth m es 0 end ->
           exists k, (k < n)%nat /\ beg k <= i < nth k es 0).
        { induction n as [|n IH]; intros Hnl Hin; [lia|]. destruct (Z.lt_ge_cases i (beg n)) as [H|H].
          - destruct (IH ltac:(lia)) as (k & K1 & K2); [exact H|]. exists k. split; [lia|exact K2].
          - exists n. split; [lia|]. lia. }
        assert (Hne : es <> []) by (intros ->; cbn [last] in Hlt; lia).
        pose proof (last_nth es Hne) as HL. destruct (length es) as [|m] eqn:Em; [destruct es; [congruence|discriminate]|].
        replace (S m - 1)%nat with m in HL by lia. rewrite (Hnth m) in HL by lia. injection HL as HL.
        apply (Hk (S m)); [lia|]. rewrite HL. exact Hlt. }
      destruct Hex as (k & K1 & K2). exists (Z.of_nat k), (beg k), (nth k es 0). split; [lia|]. split; [apply Hrk; auto|]. split; [exact K2|].
      split.
      * intros k' b' e' Hk' Er Hb. pose proof (Hrk (Z.to_nat k') ltac:(lia)) as Er'. rewrite Z2Nat.id in Er' by lia.
        rewrite Er in Er'. injection Er' as -> ->.
        destruct (Nat.lt_trichotomy (Z.to_nat k') k) as [H|[H|H]]; [exfalso| lia |exfalso].
        -- destruct k as [|k]; [lia|]. cbn [beg] in K2. pose proof (Hmono (Z.to_nat k') k ltac:(lia) ltac:(lia)). lia.
        -- destruct (Z.to_nat k') as [|q] eqn:Eq; [lia|]. cbn [beg] in Hb. pose proof (Hmono k q ltac:(lia) ltac:(lia)). lia.
      * intros b' e' El. rewrite Hl in El. injection El as <- <-. lia.
    + right. split; [exists (last es 0), dim; split; [exact Hl|lia]|].
      intros k b e Hk Er Hb. pose proof (Hrk (Z.to_nat k) ltac:(lia)) as Er'. rewrite Z2Nat.id in Er' by lia.
      rewrite Er in Er'. injection Er' as -> ->. pose proof (Hlast (Z.to_nat k) ltac:(lia)). lia.
Qed.
Print Assumptions C18_partition_partial.

(** An empty or negative first block is accepted. *)
Theorem C18_first_block_refuted : exists s0 s, hs_create 3 true = Ok s0 /\ hs_push s0 (-2) = Ok s /\ hs_range s 0 = Ok (0, -2).
Proof. eexists _, _. split; [reflexivity|]. split; reflexivity. Qed.
Print Assumptions C18_first_block_refuted.

(** The query for the block after the last one is not rejected: it reads memory that was
    never written, or (full structure) past the end of the array. *)
Theorem C18_query_refuted : forall dim pushes s0 s, 0 < dim ->
  hs_create dim true = Ok s0 -> rfold hs_try s0 pushes = Ok s -> hs_range s (snum s) <> Err EIllegalArg.
Proof.
  intros dim pushes s0 s Hd E0 E. unfold hs_range. rewrite Z.ltb_irrefl.
  destruct (if 0 <? snum s then hs_end s (snum s - 1) else Ok 0) as [b|c|] eqn:Eb; cbn [rbind]; [| |discriminate].
  - unfold hs_end. destruct (arr_get (sends s) (snum s)) as [[e|]|c|] eqn:Ea; cbn [rbind]; try discriminate.
    unfold arr_get in Ea. destruct (0 <=? snum s); [destruct (nth_error (sends s) _); discriminate|discriminate].
  - exfalso. destruct (0 <? snum s); [|discriminate]. unfold hs_end in Eb.
    destruct (arr_get (sends s) (snum s - 1)) as [[e|]|c'|] eqn:Ea; cbn [rbind] in Eb; try discriminate.
    unfold arr_get in Ea. destruct (0 <=? snum s - 1); [destruct (nth_error (sends s) _); discriminate|discriminate].
Qed.
Print Assumptions C18_query_refuted.

(** Queries beyond that are rejected. *)
Theorem C18_query_rejects : forall s k, snum s < k -> hs_range s k = Err EIllegalArg.
Proof. intros s k H. unfold hs_range. destruct (Z.ltb_spec (snum s) k); [reflexivity|lia]. Qed.
Print Assumptions C18_query_rejects.

(** Copying reproduces the blocks if the target was created with at least the dimension
    of the source; otherwise the target's array overflows. *)
Theorem C18_copy_partial : forall s es t, blocks s es -> 0 <= sdim s <= len (sends t) ->
  exists t', hs_copy s t = Ok t' /\ blocks t' es /\ sdim t' = sdim s.
Proof. exact hs_copy_spec. Qed.
Print Assumptions C18_copy_partial.

Theorem C18_copy_refuted : exists s t, hs_create 2 false = Ok s /\ hs_create 0 false = Ok t /\ hs_copy s t = Trap.
Proof. eexists _, _. repeat split; reflexivity. Qed.
Print Assumptions C18_copy_refuted.

Example C18_example : match (s <- hs_create 7 true ;; rfold hs_try s [2; 2; 9; 5]) with
  | Ok s => snum s = 2 /\ hs_range s 0 = Ok (0, 2) /\ hs_range s 1 = Ok (2, 5) /\ hs_lin_range s = Ok (5, 7)
            /\ hs_range s 3 = Err EIllegalArg /\ hs_range s 2 = Trap
  | _ => False end.
Proof. vm_compute. repeat split. Qed.
