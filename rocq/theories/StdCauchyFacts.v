(** Facts about the set-up of the LP in [StdCauchy.v], over exact arithmetic. *)
From Coq Require Import Reals Lra.
From Verif Require Import Base Num Cmp Sparse Vec VecFacts VecFacts2 VecReal RSum Mat MatFacts MatFacts2 MatFacts3 MatFacts4 Arr Gauss QnReal PreprocReal WorkingSet WorkingSetFacts Cauchy CauchyFacts StdCauchy.
Local Open Scope Z_scope.

(** ** Loops *)
Section Generic.
Context {N : Num}.

(** What is left of a vector agrees with the vector from [j] on. *)
Definition synced (j : Z) (l : list (Z * num)) (v : vec) : Prop := forall k, j <= k -> drop_lt k l = drop_lt k (vent v).
Lemma synced_start v : synced 0 (vent v) v.
Proof. intros k _. reflexivity. Qed.
Lemma synced_head j l v : synced j l v -> wf v -> head_at j (drop_lt j l) = dense v j.
Proof. intros H Hw. rewrite H by lia. now apply head_at_dense. Qed.
Lemma synced_next j l v : synced j l v -> synced (j + 1) (drop_lt j l) v.
Proof. intros H k Hk. rewrite H by lia. apply drop_lt_drop_lt. lia. Qed.

Lemma fill_loop {A} (v : A) b m n l f : 0 <= b -> 0 <= m -> b + m <= n -> arr l n f ->
  exists l', rfold (fun l j => arr_set l (b + j) v) l (zrange m) = Ok l'
    /\ arr l' n (fun k => if (b <=? k) && (k <? b + m) then v else f k).
Proof.
  intros Hb Hm Hn Hl.
  destruct (zrange_loop (fun j t => arr t n (fun k => if (b <=? k) && (k <? b + j) then v else f k))
     (fun l j => arr_set l (b + j) v) m l) as (l' & E & Hl'); [exact Hm| | |].
  - eapply arr_ext; [exact Hl|]. intros k Hk. destruct (Z.leb_spec b k), (Z.ltb_spec k (b + 0)); cbn [andb]; auto; lia.
  - intros j t Hj Ht. destruct (arr_set_arr t n _ (b + j) v Ht ltac:(lia)) as (t' & E & Ht'). exists t'. split; [exact E|].
    eapply arr_ext; [exact Ht'|]. intros k Hk. unfold upd.
    destruct (Z.eqb_spec k (b + j)), (Z.leb_spec b k), (Z.ltb_spec k (b + j)), (Z.ltb_spec k (b + (j + 1))); cbn [andb]; auto; lia.
  - exists l'. split; [exact E|exact Hl'].
Qed.
Lemma fill_loop0 {A} (v : A) m n l f : 0 <= m <= n -> arr l n f ->
  exists l', rfold (fun l j => arr_set l j v) l (zrange m) = Ok l'
    /\ arr l' n (fun k => if k <? m then v else f k).
Proof.
  intros Hm Hl. destruct (fill_loop v 0 m n l f) as (l' & E & Hl'); try lia; [exact Hl|].
  exists l'. split; [exact E|]. eapply arr_ext; [exact Hl'|]. intros k Hk. cbv beta. destruct (Z.leb_spec 0 k); [|lia]. cbn [andb]. rewrite Z.add_0_l. reflexivity.
Qed.

Lemma scatter_loop (es : list (Z * num)) lo n l f : 0 <= lo -> sorted_in lo n (keys es) -> arr l n f ->
  exists l', rfold (fun l e => arr_set l (fst e) (snd e)) l es = Ok l'
    /\ arr l' n (fun k => match get es k with Some x => x | None => f k end).
Proof.
  revert lo l f. induction es as [|[i x] es IH]; intros lo l f Hlo Hs Hl; cbn [rfold get fst snd].
  - exists l. split; [reflexivity|exact Hl].
  - cbn [keys map fst sorted_in] in Hs. destruct Hs as [Hi Hs].
    assert (i < n). { lia. }
    destruct (arr_set_arr l n f i x Hl ltac:(lia)) as (l1 & E1 & Hl1). rewrite E1. cbn [rbind].
    destruct (IH (i + 1) l1 _ ltac:(lia) Hs Hl1) as (l2 & E2 & Hl2). exists l2. split; [exact E2|].
    eapply arr_ext; [exact Hl2|]. intros k Hk. cbv beta. unfold upd.
    destruct (Z.eqb_spec i k) as [->|Hne].
    + rewrite Z.eqb_refl. destruct (get es k) eqn:G; [|reflexivity].
      exfalso. assert (In k (keys es)). { destruct (in_dec Z.eq_dec k (keys es)) as [H'|H']; [exact H'|]. apply get_None in H'. congruence. }
      apply (sorted_in_In _ _ _ _ Hs) in H0. lia.
    + destruct (Z.eqb_spec k i); [congruence|]. reflexivity.
Qed.

(** Storing at the start of an array *)
Lemma store_ok {A} (src dst : list A) : (length src <= length dst)%nat ->
  store src dst = Ok (src ++ skipn (length src) dst).
Proof. intros H. unfold store. apply Nat.leb_le in H. now rewrite H. Qed.
Lemma store_arr {A} (src dst : list A) a n f g : arr src a f -> arr dst n g -> 0 <= a <= n ->
  exists l, store src dst = Ok l /\ arr l n (fun k => if k <? a then f k else g k).
Proof.
  intros [L1 H1] [L2 H2] Ha. rewrite store_ok by lia. eexists. split; [reflexivity|]. split.
  - rewrite app_length, skipn_length. lia.
  - intros j Hj. cbv beta. destruct (Z.ltb_spec j a).
    + rewrite nth_error_app1 by lia. apply H1. lia.
    + rewrite nth_error_app2 by lia. rewrite L1. 
      assert (Hs : forall k (l : list A) i, nth_error (skipn k l) i = nth_error l (k + i)).
      { clear. induction k as [|k IH]; intros [|x l] i; cbn [skipn Nat.add]; auto; [now destruct i|]. apply IH. }
      rewrite Hs. replace (Z.to_nat a + (Z.to_nat j - Z.to_nat a))%nat with (Z.to_nat j) by lia. auto.
Qed.
Lemma firstn_arr {A} (l : list A) n a f : arr l n f -> 0 <= a <= n -> arr (firstn (Z.to_nat a) l) a f.
Proof.
  intros [L H] Ha. split; [rewrite firstn_length; lia|]. intros j Hj. rewrite <- H by lia.
  assert (Hfn : forall k n (l : list A), (k < n)%nat -> nth_error (firstn n l) k = nth_error l k).
  { clear. induction k as [|k IH]; intros [|n] [|x l] Hk; try lia; try reflexivity. rewrite firstn_cons. cbn [nth_error]. apply IH. lia. }
  apply Hfn. lia.
Qed.
Lemma skipn_arr {A} (l : list A) n a f : arr l n f -> 0 <= a <= n -> arr (skipn (Z.to_nat a) l) (n - a) (fun k => f (a + k)).
Proof.
  intros [L H] Ha. split; [rewrite skipn_length; lia|]. intros j Hj.
  assert (Hs : forall k (l : list A) i, nth_error (skipn k l) i = nth_error l (k + i)).
  { clear. induction k as [|k IH]; intros [|x l] i; cbn [skipn Nat.add]; auto; [now destruct i|]. apply IH. }
  rewrite Hs. replace (Z.to_nat a + Z.to_nat j)%nat with (Z.to_nat (a + j)) by lia. apply H. lia.
Qed.
Lemma app_arr {A} (l1 l2 : list A) a b f g : arr l1 a f -> arr l2 b g -> 0 <= a -> 0 <= b ->
  arr (l1 ++ l2) (a + b) (fun k => if k <? a then f k else g (k - a)).
Proof.
  intros [L1 H1] [L2 H2] Ha Hb. split; [rewrite app_length; lia|]. intros j Hj. cbv beta. destruct (Z.ltb_spec j a).
  - rewrite nth_error_app1 by lia. apply H1. lia.
  - rewrite nth_error_app2 by lia. rewrite L1. replace (Z.to_nat j - Z.to_nat a)%nat with (Z.to_nat (j - a)) by lia. apply H2. lia.
Qed.
Lemma arr_of {A} (d : A) (l : list A) n : length l = Z.to_nat n -> arr l n (fun j => nth (Z.to_nat j) l d).
Proof. intros H. split; [exact H|]. intros j Hj. apply nth_error_nth'. lia. Qed.
Lemma arr_nth {A} (d : A) (l : list A) n f j : arr l n f -> 0 <= j < n -> nth (Z.to_nat j) l d = f j.
Proof. intros [_ H] Hj. apply nth_error_nth. now apply H. Qed.

(** ** The matrix of the LP *)

(** Columns [s e_0], ..., [s e_(m-1)] *)
Definition diag (s : num) (m : Z) : list (list (Z * num)) := map (fun i => [(i, s)]) (zrange m).
Definition slack_cols (m : Z) : list (list (Z * num)) := diag n1 m ++ diag (nlit (-1) 1) m.
Lemma diag_len s m : 0 <= m -> len (diag s m) = m.
Proof. intros H. unfold diag. rewrite map_length, zrange_length. lia. Qed.
Lemma diag_concat s m : 0 <= m -> len (concat (diag s m)) = m.
Proof.
  intros H. unfold diag. assert (forall l : list Z, length (concat (map (fun i => [(i, s)]) l)) = length l).
  { induction l as [|a l IH]; cbn [map concat length app]; auto. }
  rewrite H0, zrange_length. lia.
Qed.

Lemma layout_prefix m cs k : layout m (cs ++ repeat [] k) -> layout m cs.
Proof.
  intros (H1 & H2 & H3 & H4 & (rest & H5) & H6 & H7). rewrite app_length in H2.
  assert (Hc : forall k, concat (repeat (@nil (Z * num)) k) = []) by (clear; induction k; auto).
  rewrite concat_app, Hc, app_nil_r in H4, H5. apply Forall_app in H7.
  split; [exact H1|]. split; [lia|]. split; [|split; [exact H4|split; [eauto|split; [exact H6|apply H7]]]].
  intros j Hj. rewrite H3 by (rewrite app_length; lia). rewrite firstn_app.
  replace (j - length cs)%nat with 0%nat by lia. cbn [firstn]. now rewrite app_nil_r.
Qed.

Lemma diag_loop (s : num) nr nco cap base cs m0 nc : 0 <= nc -> layout m0 cs -> len cs = base ->
  mnr m0 = nr -> mnc m0 = nco -> mcap m0 = cap -> base + nc <= nco -> nc <= nr -> mnnz m0 + nc <= cap ->
  exists m', rfold (fun t i => t <- mat_push_col t (base + i) ;; mat_push t i (base + i) s) m0 (zrange nc) = Ok m'
    /\ layout m' (cs ++ diag s nc) /\ mnr m' = nr /\ mnc m' = nco /\ mcap m' = cap.
Proof.
  intros Hnc HL Hb Hr Hco Hca H1 H2 H3.
  destruct (zrange_loop (fun i t => layout t (cs ++ diag s i) /\ shape t m0)
     (fun t i => t <- mat_push_col t (base + i) ;; mat_push t i (base + i) s) nc m0) as (m' & E & HL' & S1 & S2 & S3).
  - exact Hnc.
  - split; [|now repeat split]. unfold diag. rewrite zrange_neg by lia. cbn [map]. now rewrite app_nil_r.
  - intros i t Hi [Ht (S1 & S2 & S3)].
    assert (Hlen : len (cs ++ diag s i) = base + i). { rewrite app_length, Nat2Z.inj_add, Hb, diag_len by lia. reflexivity. }
    destruct (layout_push_col t _ Ht) as (t1 & E1 & HL1 & (T1 & T2 & T3)); [lia|].
    rewrite Hlen in E1. rewrite E1. cbn [rbind].
    destruct (layout_push t1 (cs ++ diag s i) [] i s HL1) as (t2 & E2 & HL2 & (U1 & U2 & U3)).
    + cbn [app keys map fst sorted_in]. split; [lia|exact I].
    + destruct HL1 as (_ & _ & _ & Hn1 & _). rewrite concat_app in Hn1. cbn [concat] in Hn1. rewrite !app_nil_r in Hn1.
      rewrite Hn1. destruct HL as (_ & _ & _ & Hn & _). rewrite concat_app, app_length, Nat2Z.inj_add, diag_concat by lia. lia.
    + rewrite Hlen in E2. exists t2. split; [exact E2|]. split; [|repeat split; congruence].
      unfold diag. rewrite zrange_succ, map_app by lia. cbn [map]. rewrite app_assoc. exact HL2.
  - exists m'. repeat split; try congruence; auto; apply HL'.
Qed.

Lemma append_identities_ok jac cs n m : stores jac cs -> mnc jac = n -> mnr jac = m ->
  exists mt, append_identities jac n m = Ok mt /\ stores mt (cs ++ slack_cols m) /\ mnr mt = m /\ mnc mt = n + 2 * m.
Proof.
  intros Hs Hn Hm. pose proof (layout_facts jac cs Hs) as (F1 & F2 & F3 & F4 & F5).
  unfold append_identities. rewrite Hn, Hm, !Z.eqb_refl. cbn [check rbind].
  destruct (mat_reserve_spec jac (mnnz jac + 2 * m) cs (proj1 Hs) ltac:(lia)) as (m1 & E1 & HL1 & R1 & R2 & R3). rewrite E1. cbn [rbind].
  assert (Hs1 : stores m1 cs) by (split; [exact HL1|rewrite R2; apply Hs]).
  destruct (mat_resize_spec m1 cs m (n + 2 * m) Hs1 ltac:(lia)) as (m2 & E2 & R4 & R5 & Hs2); [|lia|].
  { intros j cc _ Hc. destruct Hs as [(_ & _ & _ & _ & _ & _ & Hf) _]. rewrite Forall_forall in Hf. rewrite <- Hm. apply Hf. eapply nth_error_In; eauto. }
  rewrite E2. cbn [rbind].
  assert (Hlen : len cs = n). { destruct Hs as [_ H]. lia. }
  rewrite firstn_all2 in Hs2 by lia.
  pose proof (layout_prefix _ _ _ (proj1 Hs2)) as HL2.
  assert (Hcap : mcap m2 = mcap m1).
  { revert E2. unfold mat_resize. destruct ((0 <=? m) && (0 <=? n + 2 * m)); cbn [check rbind]; [|discriminate].
    destruct (mnc m1 <? n + 2 * m).
    - destruct (if mnc m1 =? 0 then Ok 0 else arr_get (mcols m1) (mnc m1)); cbn [rbind]; intros E; try discriminate. injection E as <-. reflexivity.
    - destruct (n + 2 * m <? mnc m1).
      + destruct (arr_get (mcols m1) (n + 2 * m)); cbn [rbind]; intros E; try discriminate. injection E as <-. reflexivity.
      + intros E. injection E as <-. reflexivity. }
  assert (Hnnz : mnnz m2 = mnnz jac).
  { destruct HL2 as (_ & _ & _ & -> & _). destruct Hs as [(_ & _ & _ & -> & _) _]. reflexivity. }
  destruct (diag_loop n1 m (n + 2 * m) (mcap m2) n cs m2 m) as (m3 & E3 & HL3 & S1 & S2 & S3); auto; try lia.
  rewrite E3. cbn [rbind].
  destruct (diag_loop (nlit (-1) 1) m (n + 2 * m) (mcap m2) (n + m) (cs ++ diag n1 m) m3 m) as (m4 & E4 & HL4 & T1 & T2 & T3); auto; try lia.
  { rewrite app_length, Nat2Z.inj_add, diag_len by lia. lia. }
  { destruct HL3 as (_ & _ & _ & -> & _). destruct HL2 as (_ & _ & _ & H & _). rewrite concat_app, app_length, Nat2Z.inj_add, diag_concat by lia. lia. }
  rewrite E4. exists m4. split; [reflexivity|]. unfold slack_cols. rewrite app_assoc. split; [|split; assumption].
  split; [exact HL4|]. rewrite !app_length, !Nat2Z.inj_add, !diag_len by lia. lia.
Qed.

Lemma remove_identities_ok mt cs n m : 0 <= n -> stores mt (cs ++ slack_cols m) -> mnr mt = m -> mnc mt = n + 2 * m -> len cs = n ->
  exists jac, remove_identities mt n m = Ok jac /\ stores jac cs /\ mnr jac = m /\ mnc jac = n.
Proof.
  intros Hn0 Hs Hr Hc Hl. pose proof (layout_facts mt _ Hs) as (F1 & F2 & F3 & F4 & F5).
  unfold remove_identities. rewrite Hr, Hc, !Z.eqb_refl. cbn [check rbind].
  destruct (mat_resize_spec mt _ m n Hs Hn0) as (j & E & R1 & R2 & Hj); [|lia|].
  { intros k cc _ Hk. destruct Hs as [(_ & _ & _ & _ & _ & _ & Hf) _]. rewrite Forall_forall in Hf. rewrite <- Hr. apply Hf. eapply nth_error_In; eauto. }
  exists j. split; [exact E|]. split; [|split; assumption].
  replace (Z.to_nat n) with (length cs) in Hj by lia.
  rewrite firstn_len_app in Hj. rewrite app_length in Hj. replace (length cs - (length cs + length (slack_cols m)))%nat with 0%nat in Hj by lia.
  cbn [repeat] in Hj. now rewrite app_nil_r in Hj.
Qed.
End Generic.
