(** Column removal, stacking, equality, validity, resizing, copying of matrices. *)
From Verif Require Import Base Num Cmp Sparse Vec VecFacts VecFacts2 VecFacts3 Mat MatFacts MatFacts2.
Local Open Scope Z_scope.

Lemma count_lt_succ fs lo hi i : sorted_in lo hi fs ->
  count_lt fs (i + 1) = count_lt fs i + (if existsb (Z.eqb i) fs then 1 else 0).
Proof.
  revert lo; induction fs as [|f fs IH]; intros lo H; [reflexivity|]. destruct H as [Hf H].
  rewrite !count_lt_cons. cbn [existsb]. rewrite (IH _ H).
  destruct (Z.eqb_spec i f) as [->|Hne]; cbn [orb].
  - assert (existsb (Z.eqb f) fs = false) as ->.
    { destruct (existsb (Z.eqb f) fs) eqn:E; auto. apply existsb_In in E.
      pose proof (sorted_in_In _ _ _ _ H E). lia. }
    destruct (Z.ltb_spec f (f + 1)), (Z.ltb_spec f f); lia.
  - destruct (Z.ltb_spec f (i + 1)), (Z.ltb_spec f i); lia.
Qed.

Definition notin (fs : list Z) (j : Z) : bool := negb (existsb (Z.eqb j) fs).

Lemma count_kept fs lo hi n : sorted_in lo hi fs -> 0 <= lo -> 0 <= n ->
  len (filter (notin fs) (zrange n)) = n - count_lt fs n.
Proof.
  intros Hs Hlo. revert n. apply natlike_ind.
  - rewrite count_lt_none. { reflexivity. } intros f Hf. pose proof (sorted_in_In _ _ _ _ Hs Hf). lia.
  - intros n Hn IH. replace (Z.succ n) with (n + 1) by lia.
    rewrite zrange_succ, filter_app, app_length by lia. rewrite (count_lt_succ fs lo hi n Hs).
    cbn [filter]. unfold notin at 2. destruct (existsb (Z.eqb n) fs); cbn [negb length]; lia.
Qed.

Lemma zrange_split n j : 0 <= j < n -> exists k, zrange n = zrange j ++ j :: k.
Proof.
  intros Hj. exists (map Z.of_nat (seq (S (Z.to_nat j)) (Z.to_nat n - S (Z.to_nat j)))).
  unfold zrange. replace (Z.to_nat n) with (Z.to_nat j + S (Z.to_nat n - S (Z.to_nat j)))%nat at 1 by lia.
  rewrite seq_app, map_app. f_equal. cbn [seq map plus]. f_equal. lia.
Qed.

Lemma kept_nth fs n i j : sorted_in 0 n fs -> 0 <= i < n -> kept fs i j ->
  nth_error (filter (notin fs) (zrange n)) (Z.to_nat j) = Some i.
Proof.
  intros Hs Hi [Hni ->]. destruct (zrange_split n i Hi) as (k & ->). rewrite filter_app. cbn [filter].
  assert (notin fs i = true) as ->.
  { unfold notin. destruct (existsb (Z.eqb i) fs) eqn:E; auto. apply existsb_In in E. tauto. }
  pose proof (count_kept fs 0 n i Hs ltac:(lia) ltac:(lia)) as Hc.
  rewrite nth_error_app2 by lia. replace (_ - _)%nat with 0%nat by lia. reflexivity.
Qed.

Section MatFacts3.
Context {N : Num}.
Implicit Types (m : mat) (cs : list (list (Z * num))).

(** ** C14, columns *)

Lemma mremove_cols_loop_spec m cs rows js : stores m cs -> sorted_in 0 (mnr m) rows ->
  forall lo cols ts t off,
  js = map (fun k => lo + Z.of_nat k) (seq 0 (length js)) -> 0 <= lo -> lo + len js = mnc m ->
  sorted_in lo (mnc m) cols -> layout t ts -> mnr m = mnr t + len rows ->
  mnc m = mnc t + off + len cols -> len ts = lo - off ->
  mnnz t + len (concat (map (fun j => remove_ents rows (nth (Z.to_nat j) cs [])) (filter (notin cols) js))) <= mcap t ->
  exists t', mremove_cols_loop m rows cols js off t = Ok t'
   /\ layout t' (ts ++ map (fun j => remove_ents rows (nth (Z.to_nat j) cs [])) (filter (notin cols) js))
   /\ shape t' t.
Proof.
  intros Hs Hrows. induction js as [|j js IH]; intros lo cols ts t off Hjs Hlo Hend Hc HL Hr Hn Hts Hcap.
  - exists t. cbn [mremove_cols_loop filter map]. rewrite app_nil_r. repeat split; auto; apply HL.
  - cbn [length seq map] in Hjs, Hend. injection Hjs as Hj Hjs. rewrite Z.add_0_r in Hj. subst j.
    assert (Hjs' : js = map (fun k => lo + 1 + Z.of_nat k) (seq 0 (length js))).
    { rewrite Hjs at 1. rewrite <- seq_shift, map_map. apply map_ext. intros k. lia. }
    cbn [mremove_cols_loop].
    (* the case where column [lo] is kept *)
    assert (Hkeep : sorted_in (lo + 1) (mnc m) cols ->
      exists t', (t <- mat_push_col t (lo - off) ;; es <- col_entries m lo ;;
           t <- mremove_loop rows 0 es (lo - off) t ;; mremove_cols_loop m rows cols js off t) = Ok t'
        /\ layout t' (ts ++ map (fun j => remove_ents rows (nth (Z.to_nat j) cs [])) (filter (notin cols) (lo :: js)))
        /\ shape t' t).
    { intros Hc'. assert (Hk : notin cols lo = true).
      { unfold notin. destruct (existsb (Z.eqb lo) cols) eqn:E; auto. apply existsb_In in E.
        pose proof (sorted_in_In _ _ _ _ Hc' E). lia. }
      cbn [filter] in Hcap |- *. rewrite Hk in Hcap |- *. cbn [map concat] in Hcap |- *. rewrite app_length in Hcap.
      assert (Hlc : len cols <= mnc m - (lo + 1)).
      { pose proof (sorted_in_length _ _ _ Hc'). lia. }
      destruct (copy_col_removed m cs t ts lo (lo - off) rows) as (t1 & E & HL1 & Hsh); auto; try lia.
      pose proof Hsh as (S1 & S2 & S3).
      destruct (mat_push_col t (lo - off)) as [u| |]; cbn [rbind] in E |- *; try discriminate.
      destruct (col_entries m lo) as [es| |]; cbn [rbind] in E |- *; try discriminate.
      rewrite E. cbn [rbind].
      destruct (IH (lo + 1) cols (ts ++ [remove_ents rows (nth (Z.to_nat lo) cs [])]) t1 off)
        as (t2 & E2 & HL2 & Hsh2); auto; try lia.
      - rewrite app_length. cbn [length]. lia.
      - destruct HL1 as (_ & _ & _ & -> & _). destruct HL as (_ & _ & _ & HN & _).
        rewrite concat_app, app_length. cbn [concat]. rewrite app_nil_r. lia.
      - exists t2. split; [exact E2|]. rewrite <- app_assoc in HL2. split; [exact HL2|]. eapply shape_trans; eauto. }
    destruct cols as [|c cols]; [now apply Hkeep|].
    destruct (Z.leb_spec c lo) as [Hle|Hgt].
    + destruct Hc as [Hc1 Hc]. assert (c = lo) as -> by lia.
      destruct (IH (lo + 1) cols ts t (off + 1)) as (t2 & E2 & HL2 & Hsh2); auto; try lia.
      * cbn [length] in Hn. lia.
      * eapply Z.le_trans; [|exact Hcap]. apply Z.add_le_mono_l. apply inj_le.
        cbn [filter]. unfold notin at 2. cbn [existsb]. rewrite Z.eqb_refl. cbn [orb negb].
        erewrite filter_ext_in; [apply le_n|]. intros k Hk. unfold notin. cbn [existsb].
        destruct (Z.eqb_spec k lo) as [->|]; auto. rewrite Hjs' in Hk. apply in_map_iff in Hk. destruct Hk as (q & ? & _). lia.
      * exists t2. split; [exact E2|]. split; auto. cbn [filter]. unfold notin at 1. cbn [existsb]. rewrite Z.eqb_refl. cbn [orb negb].
        erewrite filter_ext_in; [exact HL2|]. intros k Hk. unfold notin. cbn [existsb].
        destruct (Z.eqb_spec k lo) as [->|]; auto. rewrite Hjs' in Hk. apply in_map_iff in Hk. destruct Hk as (q & ? & _). lia.
    + apply Hkeep. destruct Hc as [Hc1 Hc]. split; auto. lia.
Qed.

Lemma concat_filter_le {A B} (f : Z -> list A) (g : Z -> list B) P (l : list Z) :
  (forall j, (length (f j) <= length (g j))%nat) ->
  (length (concat (map f (filter P l))) <= length (concat (map g l)))%nat.
Proof.
  intros H. induction l as [|j l IH]; cbn [filter map concat length]; [lia|]. rewrite app_length.
  destruct (P j); cbn [map concat]; rewrite ?app_length; specialize (H j); lia.
Qed.

Lemma mremove_cols_stores m cs t rows cols : stores m cs -> mwf t ->
  sorted_in 0 (mnr m) rows -> sorted_in 0 (mnc m) cols ->
  mnc m = mnc t + len cols -> mnr m = mnr t + len rows ->
  exists t0 t', mat_reserve t (mnnz m) = Ok t0 /\ mnr t0 = mnr t /\ mnc t0 = mnc t
    /\ mremove_cols_loop m rows cols (zrange (mnc m)) 0 (mat_clear t0) = Ok t'
    /\ stores t' (map (fun j => remove_ents rows (nth (Z.to_nat j) cs [])) (filter (notin cols) (zrange (mnc m))))
    /\ mnr t' = mnr t /\ mnc t' = mnc t.
Proof.
  intros Hs (ts & Ht) Hr Hc Hnc Hnr.
  pose proof (layout_facts m cs Hs) as (Hr0 & Hc0 & Hnn & HN & HF).
  pose proof (layout_facts t ts Ht) as (Hr0' & Hc0' & Hnn' & _).
  destruct (mat_reserve_spec t (mnnz m) ts) as (t1 & E1 & HL1 & R1 & R2 & R3 & R4); [apply Ht|lia|].
  destruct (mat_clear_spec t1) as (HL2 & S1 & S2 & S3); try lia.
  destruct (mremove_cols_loop_spec m cs rows (zrange (mnc m)) Hs Hr 0 cols [] (mat_clear t1) 0) as (t' & E & HL' & Hsh);
    auto; try (cbn [length]; lia).
  - unfold zrange at 1. rewrite zrange_length. apply map_ext. intros k; lia.
  - rewrite zrange_length. lia.
  - unfold mat_clear at 1. cbn [mnnz]. rewrite S3.
    pose proof (concat_filter_le (fun j => remove_ents rows (nth (Z.to_nat j) cs [])) (fun j => nth (Z.to_nat j) cs [])
      (notin cols) (zrange (mnc m)) (fun j => remove_ents_length rows _)) as H.
    rewrite map_nth_zrange in H by apply Hs. lia.
  - exists t1, t'. split; [exact E1|]. split; [exact R1|]. split; [exact R2|]. split; [exact E|].
    destruct Hsh as (T1 & T2 & T3). split; [|lia]. split; [exact HL'|].
    rewrite map_length, (count_kept cols 0 (mnc m)) by (auto; lia).
    rewrite count_lt_all. { lia. } intros f Hf. apply (sorted_in_In _ _ _ _ Hc Hf).
Qed.

Lemma mat_remove_entries_layout m cs t rows cols : stores m cs -> mwf t ->
  sorted_in 0 (mnr m) rows -> sorted_in 0 (mnc m) cols ->
  mnc m = mnc t + len cols -> mnr m = mnr t + len rows ->
  exists t', mat_remove_entries m t cols rows = Ok t'
    /\ stores t' (map (fun j => remove_ents rows (nth (Z.to_nat j) cs [])) (filter (notin cols) (zrange (mnc m))))
    /\ mnr t' = mnr t /\ mnc t' = mnc t.
Proof.
  intros Hs Ht Hr Hc Hnc Hnr.
  destruct (mremove_cols_stores m cs t rows cols) as (t0 & t' & E0 & R & C & E & HS & R' & C'); auto.
  exists t'. split; [|auto]. unfold mat_remove_entries. rewrite E0. cbn [rbind mat_clear mnc mnr].
  rewrite R, C. destruct (Z.eqb_spec (mnc m) (mnc t + len cols)); [|lia].
  destruct (Z.eqb_spec (mnr m) (mnr t + len rows)); [|lia]. cbn [check rbind]. exact E.
Qed.

Lemma mat_remove_cols_layout m cs t cols : stores m cs -> mwf t ->
  sorted_in 0 (mnc m) cols -> mnc m = mnc t + len cols -> mnr m = mnr t ->
  exists t', mat_remove_cols m t cols = Ok t'
    /\ stores t' (map (fun j => remove_ents [] (nth (Z.to_nat j) cs [])) (filter (notin cols) (zrange (mnc m))))
    /\ mnr t' = mnr t /\ mnc t' = mnc t.
Proof.
  intros Hs Ht Hc Hnc Hnr.
  destruct (mremove_cols_stores m cs t [] cols) as (t0 & t' & E0 & R & C & E & HS & R' & C'); auto.
  { exact I. } { cbn [length]. lia. }
  exists t'. split; [|auto]. unfold mat_remove_cols. rewrite E0. cbn [rbind mat_clear mnc mnr].
  rewrite R, C. destruct (Z.eqb_spec (mnc m) (mnc t + len cols)); [|lia].
  destruct (Z.eqb_spec (mnr m) (mnr t)); [|lia]. cbn [check rbind]. exact E.
Qed.

(** The entries of a column/row-reduced matrix. *)
Lemma remove_both_entry cs rows cols nr nc i j i' j' :
  Forall (fun c => sorted_in 0 nr (keys c)) cs -> nc = len cs ->
  sorted_in 0 nr rows -> sorted_in 0 nc cols -> 0 <= j < nc ->
  kept rows i i' -> kept cols j j' ->
  mget (map (fun j => remove_ents rows (nth (Z.to_nat j) cs [])) (filter (notin cols) (zrange nc))) i' j' = mget cs i j.
Proof.
  intros HF Hnc Hr Hc Hj Hi Hk. unfold mget.
  pose proof (kept_nth cols nc j j' Hc Hj Hk) as Hn.
  erewrite (nth_error_nth (map _ _)) by (apply map_nth_error, Hn).
  assert (Hsc : sorted_in 0 nr (keys (nth (Z.to_nat j) cs []))).
  { rewrite Forall_forall in HF. apply HF. apply nth_In. lia. }
  destruct (get (nth (Z.to_nat j) cs []) i) as [x|] eqn:E.
  - apply (remove_ents_get rows nr 0); eauto.
  - destruct (get (remove_ents rows (nth (Z.to_nat j) cs [])) i') as [y|] eqn:E'; [|reflexivity].
    apply (remove_ents_get rows nr 0) in E'; auto. destruct E' as (k & Hk' & Hg).
    rewrite (kept_inj rows 0 nr i k i') in E by auto. congruence.
Qed.

Lemma remove_rows_entry cs rows nr i j i' :
  Forall (fun c => sorted_in 0 nr (keys c)) cs -> sorted_in 0 nr rows -> kept rows i i' ->
  mget (map (remove_ents rows) cs) i' j = mget cs i j.
Proof.
  intros HF Hr Hi. unfold mget. change [] with (@remove_ents N rows []) at 1. rewrite map_nth.
  assert (Hsc : sorted_in 0 nr (keys (nth (Z.to_nat j) cs []))).
  { rewrite Forall_forall in HF. destruct (Nat.lt_ge_cases (Z.to_nat j) (length cs)).
    - apply HF. apply nth_In. lia.
    - rewrite nth_overflow by lia. exact I. }
  destruct (get (nth (Z.to_nat j) cs []) i) as [x|] eqn:E.
  - apply (remove_ents_get rows nr 0); eauto.
  - destruct (get (remove_ents rows (nth (Z.to_nat j) cs [])) i') as [y|] eqn:E'; [|reflexivity].
    apply (remove_ents_get rows nr 0) in E'; auto. destruct E' as (k & Hk' & Hg).
    rewrite (kept_inj rows 0 nr i k i') in E by auto. congruence.
Qed.

(** ** Vertical stacking *)

Lemma get_shift d (l : list (Z * num)) i : get (map (fun e => (d + fst e, snd e)) l) i = get l (i - d).
Proof.
  induction l as [|[k x] l IH]; [reflexivity|]. cbn [map get fst snd]. rewrite IH.
  destruct (Z.eqb_spec (d + k) i), (Z.eqb_spec k (i - d)); auto; lia.
Qed.

Lemma sorted_shift d lo hi (l : list (Z * num)) : sorted_in lo hi (keys l) ->
  sorted_in (d + lo) (d + hi) (keys (map (fun e => (d + fst e, snd e)) l)).
Proof.
  revert lo; induction l as [|[k x] l IH]; intros lo H; [exact I|]. cbn [keys map fst sorted_in] in *.
  destruct H as [H1 H2]. split; [lia|]. specialize (IH _ H2). replace (d + k + 1) with (d + (k + 1)) by lia. exact IH.
Qed.

Lemma sorted_cat lo mid hi l1 l2 : lo <= mid -> sorted_in lo mid l1 -> sorted_in mid hi l2 -> mid <= hi -> sorted_in lo hi (l1 ++ l2).
Proof.
  intros Hlm H1 H2 Hm. revert lo Hlm H1; induction l1 as [|i l1 IH]; intros lo Hlm H1; cbn [app].
  - eapply sorted_in_weaken; [| |exact H2]; lia.
  - destruct H1 as [Hi H1]. split; [lia|]. apply IH; auto. lia.
Qed.

Definition stack_col (d : Z) (c1 c2 : list (Z * num)) := c1 ++ map (fun e => (d + fst e, snd e)) c2.

Lemma len_map2 d cs1 cs2 n : n = len cs1 -> n = len cs2 ->
  len (concat (map (fun j => stack_col d (nth (Z.to_nat j) cs1 []) (nth (Z.to_nat j) cs2 [])) (zrange n)))
  = len (concat cs1) + len (concat cs2).
Proof.
  intros H1 H2.
  assert (E1 : concat cs1 = concat (map (fun j => nth (Z.to_nat j) cs1 []) (zrange n))) by now rewrite map_nth_zrange.
  assert (E2 : concat cs2 = concat (map (fun j => nth (Z.to_nat j) cs2 []) (zrange n))) by now rewrite map_nth_zrange.
  rewrite E1, E2.
  generalize (zrange n) as zs. induction zs as [|z zs IH]; cbn [map concat]; [reflexivity|].
  rewrite !app_length. unfold stack_col at 1. rewrite app_length, map_length. lia.
Qed.

Lemma mat_resize_clear m r c : mwf m -> 0 <= r -> 0 <= c -> (mnc m <= c \/ mnnz m = 0) ->
  exists m', mat_resize (mkmat (mnr m) (mnc m) 0 (mcap m) (mcols m) (ment m)) r c = Ok m'
    /\ layout m' [] /\ mnr m' = r /\ mnc m' = c /\ mcap m' = mcap m.
Proof.
  intros (cs & HS) Hr Hc Hcase. pose proof (layout_facts m cs HS) as (H1 & H2 & H3 & H4 & H5).
  destruct HS as [HL Hn]. pose proof HL as (_ & HLl & HLc & _).
  unfold mat_resize. cbn [mnc mnr mcols mnnz mcap ment].
  destruct (Z.leb_spec 0 r), (Z.leb_spec 0 c); try lia. cbn [andb check rbind].
  destruct (Z.ltb_spec (mnc m) c) as [Hg|Hg].
  - destruct (Z.eqb_spec (mnc m) 0) as [E0|Hne].
    + cbn [rbind]. eexists. split; [reflexivity|]. cbn [mnr mnc mcap]. split; [|auto].
      apply layout_empty; auto; try lia. rewrite app_length, repeat_length. cbn [length]. lia.
    + rewrite (layout_get m cs _ HL) by lia. cbn [rbind]. eexists. split; [reflexivity|]. cbn [mnr mnc mcap].
      split; [|auto]. apply layout_empty; auto; try lia.
      * rewrite app_length, repeat_length, firstn_length. lia.
      * pose proof (HLc 0%nat ltac:(lia)) as H0'. destruct (mcols m) as [|c0 cols]; [discriminate|].
        cbn [firstn app nth_error] in *. exact H0'.
  - destruct (Z.ltb_spec c (mnc m)) as [Hs|Hs].
    + destruct Hcase as [?|Hz]; [lia|]. rewrite (layout_get m cs _ HL) by lia. cbn [rbind].
      assert (Hz' : len (concat (firstn (Z.to_nat c) cs)) = 0).
      { rewrite H4, (concat_firstn_skipn cs (Z.to_nat c)), app_length in Hz. lia. }
      rewrite Hz'. eexists. split; [reflexivity|]. cbn [mnr mnc mcap]. split; [|auto].
      apply layout_empty; auto; try lia. apply HLc. lia.
    + eexists. split; [reflexivity|]. cbn [mnr mnc mcap]. split; [|auto].
      apply layout_empty; auto; try lia. apply HLc. lia.
Qed.

Lemma mat_vstack_layout m1 m2 r cs1 cs2 : stores m1 cs1 -> stores m2 cs2 -> mwf r ->
  mnc m1 = mnc m2 -> (mnc r <= mnc m1 \/ mnnz r = 0) ->
  exists t, mat_vstack m1 m2 r = Ok t
    /\ stores t (map (fun j => stack_col (mnr m1) (nth (Z.to_nat j) cs1 []) (nth (Z.to_nat j) cs2 [])) (zrange (mnc m1)))
    /\ mnr t = mnr m1 + mnr m2 /\ mnc t = mnc m1.
Proof.
  intros Hs1 Hs2 Hr Hc Hcase.
  pose proof (layout_facts m1 cs1 Hs1) as (Hr1 & Hc1 & Hn1 & HN1 & HF1).
  pose proof (layout_facts m2 cs2 Hs2) as (Hr2 & Hc2 & Hn2 & HN2 & HF2).
  unfold mat_vstack. destruct (Z.eqb_spec (mnc m1) (mnc m2)); [|lia]. cbn [check rbind].
  destruct (mat_resize_clear r (mnr m1 + mnr m2) (mnc m1) Hr) as (t1 & -> & HL1 & R1 & C1 & K1); auto; try lia.
  cbn [rbind]. destruct (mat_reserve_spec t1 (mnnz m1 + mnnz m2) []) as (t2 & -> & HL2 & R2 & C2 & K2 & K3); auto; try lia.
  cbn [rbind].
  destruct (build_loop (fun r col => r <- mat_push_col r col ;; es1 <- col_entries m1 col ;;
      r <- push_entries r col es1 ;; es2 <- col_entries m2 col ;;
      push_entries r col (map (fun e => (mnr m1 + fst e, snd e)) es2))
    (fun j => stack_col (mnr m1) (nth (Z.to_nat j) cs1 []) (nth (Z.to_nat j) cs2 [])) t2 (mnc m1)) as (t3 & E & Hst & Hsh).
  - intros u us j HLu (U1 & U2 & U3) Hj Hj' Hcap.
    destruct (layout_push_col u us HLu) as (u1 & E1 & HLu1 & Hsh1); [lia|]. subst j. rewrite E1. cbn [rbind].
    destruct (nth_col m1 cs1 (len us) Hs1 Hj') as [-> Hsc1]. cbn [rbind].
    destruct (nth_col m2 cs2 (len us) Hs2) as [E2 Hsc2]; [lia|]. rewrite E2.
    pose proof Hsh1 as (V1 & V2 & V3).
    unfold stack_col in Hcap. rewrite app_length, map_length in Hcap.
    assert (Hnn : mnnz u1 = mnnz u).
    { destruct HLu1 as (_ & _ & _ & -> & _). destruct HLu as (_ & _ & _ & -> & _).
      rewrite concat_app. cbn [concat]. now rewrite app_nil_r. }
    destruct (layout_push_entries (nth (Z.to_nat (len us)) cs1 []) u1 us [] HLu1) as (u2 & E3 & HLu2 & Hsh2).
    { cbn [app]. eapply sorted_in_weaken; [| |exact Hsc1]; lia. } { lia. }
    rewrite E3. cbn [rbind]. cbn [app] in HLu2. pose proof Hsh2 as (W1 & W2 & W3).
    destruct (layout_push_entries (map (fun e => (mnr m1 + fst e, snd e)) (nth (Z.to_nat (len us)) cs2 [])) u2 us
      (nth (Z.to_nat (len us)) cs1 []) HLu2) as (u3 & E4 & HLu3 & Hsh3).
    { rewrite W1, V1, U1, R2, R1, keys_app. apply (sorted_cat 0 (mnr m1)); auto; try lia.
      pose proof (sorted_shift (mnr m1) 0 (mnr m2) (nth (Z.to_nat (len us)) cs2 []) Hsc2) as Hsh'.
      rewrite Z.add_0_r in Hsh'. exact Hsh'. }
    { rewrite map_length. 
      assert (mnnz u2 = mnnz u1 + len (nth (Z.to_nat (len us)) cs1 [])).
      { destruct HLu1 as (_ & _ & _ & -> & _). destruct HLu2 as (_ & _ & _ & -> & _).
        rewrite !concat_app. cbn [concat]. rewrite !app_nil_r, app_length. lia. }
      lia. }
    exists u3. split; [exact E4|]. split; [exact HLu3|].
    eapply shape_trans; eauto. eapply shape_trans; eauto. eapply shape_trans; eauto. now repeat split.
  - exact HL2.
  - lia.
  - rewrite (len_map2 (mnr m1) cs1 cs2 (mnc m1)); try lia; [apply Hs1|]. rewrite Hc. apply Hs2.
  - exists t3. split; [exact E|]. split; [exact Hst|]. destruct Hsh as (? & ? & ?). lia.
Qed.

Lemma nth_map_zrange {B} (F : Z -> list B) n j : 0 <= j < n ->
  nth (Z.to_nat j) (map F (zrange n)) [] = F j.
Proof.
  intros Hj. apply nth_error_nth. rewrite nth_error_map, zrange_nth by lia. cbn. f_equal. f_equal. lia.
Qed.

(** Entry of the stacked matrix. *)
Lemma stack_entry cs1 cs2 r1 r2 n i j : 
  Forall (fun c => sorted_in 0 r1 (keys c)) cs1 -> Forall (fun c => sorted_in 0 r2 (keys c)) cs2 ->
  n = len cs1 -> n = len cs2 -> 0 <= i < r1 + r2 -> 0 <= j < n ->
  mget (map (fun j => stack_col r1 (nth (Z.to_nat j) cs1 []) (nth (Z.to_nat j) cs2 [])) (zrange n)) i j
  = if i <? r1 then mget cs1 i j else mget cs2 (i - r1) j.
Proof.
  intros H1 H2 L1 L2 Hi Hj. unfold mget. rewrite nth_map_zrange by lia. unfold stack_col.
  assert (S1 : sorted_in 0 r1 (keys (nth (Z.to_nat j) cs1 []))).
  { rewrite Forall_forall in H1. apply H1, nth_In. lia. }
  assert (S2 : sorted_in 0 r2 (keys (nth (Z.to_nat j) cs2 []))).
  { rewrite Forall_forall in H2. apply H2, nth_In. lia. }
  rewrite get_app, get_shift. destruct (Z.ltb_spec i r1).
  - destruct (get (nth (Z.to_nat j) cs1 []) i); auto. apply (get_below 0 r2); auto. lia.
  - assert (get (nth (Z.to_nat j) cs1 []) i = None) as ->; auto.
    apply get_None. intros Hin. pose proof (sorted_in_In _ _ _ _ S1 Hin). lia.
Qed.

(** ** C13: the equality test *)

Definition close (x y eps : num) : Prop :=
  is_eq x y eps = true \/ (is_zero x eps = true /\ is_zero y eps = true).

Definition olose (a b : option num) (eps : num) : Prop :=
  match a, b with
  | Some x, Some y => close x y eps
  | Some x, None => is_zero x eps = true
  | None, Some y => is_zero y eps = true
  | None, None => True
  end.

Lemma eq_loop_sound fuel l1 l2 eps lo1 lo2 hi : eq_loop fuel l1 l2 eps = Ok true ->
  sorted_in lo1 hi (keys l1) -> sorted_in lo2 hi (keys l2) ->
  forall i, olose (get l1 i) (get l2 i) eps.
Proof.
  (* entries of the first list are matched with an equal row or are zero; those of the second likewise *)
  intros H Hs1 Hs2.
  assert (HH : (forall i x, get l1 i = Some x -> is_zero x eps = true \/ exists y, get l2 i = Some y /\ is_eq x y eps = true)
     /\ (forall i y, get l2 i = Some y -> is_zero y eps = true \/ exists x, get l1 i = Some x /\ is_eq x y eps = true)).
  { revert lo1 lo2 l1 l2 H Hs1 Hs2; induction fuel as [|f IH]; intros lo1 lo2 l1 l2 H Hs1 Hs2; [discriminate|].
    destruct l1 as [|[i x] l1], l2 as [|[j y] l2]; cbn [eq_loop] in H.
    - split; discriminate.
    - destruct (is_zero y eps) eqn:Ez; [|discriminate]. destruct Hs2 as [Hj Hs2].
      destruct (IH lo1 _ _ _ H I Hs2) as [A B]. split; [discriminate|]. intros k z Hk. cbn [get] in Hk.
      destruct (Z.eqb_spec j k); [injection Hk as <-; auto|]. now apply B.
    - destruct (is_zero x eps) eqn:Ez; [|discriminate]. destruct Hs1 as [Hi Hs1].
      destruct (IH _ lo2 _ _ H Hs1 I) as [A B]. split; [|discriminate]. intros k z Hk. cbn [get] in Hk.
      destruct (Z.eqb_spec i k); [injection Hk as <-; auto|]. now apply A.
    - cbn [keys map fst sorted_in] in Hs1, Hs2. destruct (Z.eqb_spec i j) as [->|Hne].
      + destruct (is_eq x y eps) eqn:Ee; [|discriminate]. destruct Hs1 as [Hi Hs1]. destruct Hs2 as [Hj Hs2].
        destruct (IH _ _ _ _ H Hs1 Hs2) as [A B]. split; intros k z Hk; cbn [get] in *; destruct (Z.eqb_spec j k) as [->|].
        * injection Hk as <-. right. exists y. auto.
        * apply A in Hk. tauto.
        * injection Hk as <-. right. exists x. auto.
        * apply B in Hk. tauto.
      + destruct (is_zero x eps) eqn:Ez; [|discriminate]. destruct Hs1 as [Hi Hs1].
        destruct (IH _ lo2 _ ((j, y) :: l2) H Hs1 Hs2) as [A B]. split; intros k z Hk.
        * cbn [get] in Hk. destruct (Z.eqb_spec i k); [injection Hk as <-; auto|]. now apply A.
        * apply B in Hk. destruct Hk as [Hk|(w & Hw & He)]; auto. right. exists w. split; auto.
          cbn [get]. destruct (Z.eqb_spec i k) as [->|]; auto.
          rewrite (get_below (k + 1) hi l1 k Hs1) in Hw by lia. discriminate. }
  destruct HH as [A B]. intros i. unfold olose, close.
  destruct (get l1 i) as [x|] eqn:E1, (get l2 i) as [y|] eqn:E2; auto.
  - destruct (A _ _ E1) as [Hz|(y' & Hy & He)].
    + destruct (B _ _ E2) as [Hz'|(x' & Hx & He)]; auto. left. congruence.
    + left. congruence.
  - destruct (A _ _ E1) as [Hz|(y' & Hy & He)]; congruence.
  - destruct (B _ _ E2) as [Hz|(y' & Hy & He)]; congruence.
Qed.

(** With equal patterns the test is exact. *)
Lemma eq_loop_pattern l1 l2 eps : keys l1 = keys l2 -> forall fuel, (S (length l1 + length l2) <= fuel)%nat ->
  exists b, eq_loop fuel l1 l2 eps = Ok b /\
   (b = true <-> Forall2 (fun e1 e2 => is_eq (snd e1) (snd e2) eps = true) l1 l2).
Proof.
  revert l2; induction l1 as [|[i x] l1 IH]; intros [|[j y] l2] Hk fuel Hf; try discriminate.
  - destruct fuel; [lia|]. exists true. split; [reflexivity|]. split; auto.
  - cbn [keys map fst] in Hk. injection Hk as <- Hk. cbn [length] in Hf. destruct fuel as [|f]; [lia|].
    cbn [eq_loop]. rewrite Z.eqb_refl. destruct (is_eq x y eps) eqn:E.
    + destruct (IH l2 Hk f) as (b & Eb & Hb); [lia|]. exists b. split; auto. rewrite Hb. split; intros H.
      * constructor; auto.
      * now inv H.
    + exists false. split; auto. split; [discriminate|]. intros H. inv H. cbn in *. congruence.
Qed.

Lemma eq_loop_total l1 l2 eps fuel : (S (length l1 + length l2) <= fuel)%nat -> exists b, eq_loop fuel l1 l2 eps = Ok b.
Proof.
  revert l1 l2; induction fuel as [|f IH]; intros l1 l2 Hf; [lia|].
  destruct l1 as [|[i x] l1], l2 as [|[j y] l2]; cbn [eq_loop length] in *; eauto.
  - destruct (is_zero y eps); eauto. apply IH. cbn [length]. lia.
  - destruct (is_zero x eps); eauto. apply IH. cbn [length]. lia.
  - destruct (i =? j); [destruct (is_eq x y eps)|destruct (is_zero x eps)]; eauto; apply IH; cbn [length]; lia.
Qed.

Lemma mat_eq_sound m1 m2 cs1 cs2 eps : stores m1 cs1 -> stores m2 cs2 ->
  mat_eq m1 m2 eps = Ok true ->
  forall i j, 0 <= j < mnc m1 -> olose (mget cs1 i j) (mget cs2 i j) eps.
Proof.
  intros H1 H2. unfold mat_eq. destruct (Z.eqb_spec (mnr m1) (mnr m2)); [|discriminate].
  destruct (Z.eqb_spec (mnc m1) (mnc m2)); [|discriminate]. cbn [check rbind]. intros E i j Hj.
  destruct (zrange_split (mnc m1) j Hj) as (k & Hk). rewrite Hk, rfold_app in E. cbn [rfold] in E.
  match type of E with rbind (rfold ?f true (zrange j)) _ = _ => set (F := f) in E end.
  destruct (rfold F true (zrange j)) as [b| |]; cbn [rbind] in E; try discriminate.
  assert (Hf : forall l, rfold F false l = Ok false) by (induction l as [|a l IHl]; [reflexivity|exact IHl]).
  destruct b; [|cbn [F rbind] in E; rewrite Hf in E; discriminate].
  destruct (nth_col m1 cs1 j H1 Hj) as [C1 S1]. destruct (nth_col m2 cs2 j H2) as [C2 S2]; [lia|].
  cbn [F] in E. rewrite C1, C2 in E. cbn [rbind] in E.
  destruct (eq_loop _ _ _ _) as [b| |] eqn:El in E; cbn [rbind] in E; try discriminate.
  destruct b; [|rewrite Hf in E; discriminate].
  unfold mget. apply (eq_loop_sound _ _ _ _ 0 0 (mnr m1) El); [exact S1|now rewrite e].
Qed.

Lemma mat_eq_pattern m1 m2 cs1 cs2 eps : stores m1 cs1 -> stores m2 cs2 ->
  mnr m1 = mnr m2 -> map keys cs1 = map keys cs2 ->
  exists b, mat_eq m1 m2 eps = Ok b /\
   (b = true <-> forall i j x y, mget cs1 i j = Some x -> mget cs2 i j = Some y -> is_eq x y eps = true).
Proof.
  intros H1 H2 Hr Hk.
  assert (Hlen : length cs1 = length cs2) by (rewrite <- (map_length keys cs1), Hk, map_length; auto).
  assert (Hc : mnc m1 = mnc m2) by (destruct H1, H2; lia).
  unfold mat_eq. rewrite Hr, Hc, !Z.eqb_refl. cbn [check rbind]. rewrite <- Hc.
  pose proof (layout_facts m1 cs1 H1) as (_ & Hc0 & _ & _ & HF1).
  destruct (zrange_loop (fun j (b : bool) => b = true <-> 
     (forall i k x y, 0 <= k < j -> mget cs1 i k = Some x -> mget cs2 i k = Some y -> is_eq x y eps = true))
    (fun (b : bool) col => if b then es1 <- col_entries m1 col ;; es2 <- col_entries m2 col ;;
        eq_loop (S (length es1 + length es2)) es1 es2 eps else Ok false) (mnc m1) true) as (b & E & Hb).
  - auto.
  - split; auto. intros _ i k x y Hk0. lia.
  - intros j b Hj Hb. destruct b.
    + destruct (nth_col m1 cs1 j H1 Hj) as [-> S1]. destruct (nth_col m2 cs2 j H2) as [-> S2]; [lia|]. cbn [rbind].
      assert (Hkk : keys (nth (Z.to_nat j) cs1 []) = keys (nth (Z.to_nat j) cs2 [])).
      { rewrite <- (map_nth keys cs1), <- (map_nth keys cs2), Hk. reflexivity. }
      destruct (eq_loop_pattern _ _ eps Hkk _ (le_n _)) as (b' & E' & Hb'). exists b'. split; auto. rewrite Hb'.
      split.
      * intros HFF i k x y Hk' G1 G2. destruct (Z.eq_dec k j) as [->|Hne].
        { unfold mget in *. clear -HFF G1 G2 Hkk. revert Hkk G1 G2. induction HFF as [|[i1 x1] [i2 x2] l1 l2 He HFF IH]; intros Hkk G1 G2; [discriminate|].
          cbn [keys map fst get] in *. injection Hkk as -> Hkk. destruct (Z.eqb_spec i2 i); [cbn [snd] in He; congruence|]. auto. }
        { apply (proj1 Hb eq_refl i k x y); auto. lia. }
      * intros HH. specialize (fun i x y => HH i j x y ltac:(lia)). unfold mget in HH.
        clear -HH Hkk S1. revert HH Hkk S1. generalize 0 at 1 as lo.
        generalize (nth (Z.to_nat j) cs1 []) as l1, (nth (Z.to_nat j) cs2 []) as l2.
        induction l1 as [|[i x] l1 IH]; intros [|[i' y] l2] lo HH Hkk S1; try discriminate; constructor.
        { cbn [keys map fst] in Hkk. injection Hkk as <- _. apply (HH i); cbn [get]; now rewrite Z.eqb_refl. }
        { cbn [keys map fst sorted_in] in *. injection Hkk as <- Hkk. destruct S1 as [Hi S1]. apply (IH l2 (i + 1)); auto.
          intros k a b G1 G2. apply (HH k); cbn [get]; destruct (Z.eqb_spec i k) as [->|]; auto.
          - rewrite (get_below (k + 1) (mnr m1) l1 k S1) in G1 by lia. discriminate.
          - apply get_Some_In, In_keys in G2. change (map fst l2) with (keys l2) in Hkk. rewrite <- Hkk in G2.
            pose proof (sorted_in_In _ _ _ _ S1 G2). lia. }
    + exists false. split; auto. split; [discriminate|]. intros HH. apply Hb. intros i k x y Hk'. apply HH. lia.
  - exists b. split; [exact E|]. rewrite Hb. split; intros HH i j x y.
    + intros G1 G2. unfold mget in *. destruct (Z.lt_ge_cases j 0).
      { replace (Z.to_nat j) with (Z.to_nat 0) in * by lia. 
        destruct cs1 as [|c cs1]; [discriminate|]. apply (HH i 0 x y); auto. destruct H1. cbn [length] in *. lia. }
      apply (HH i j x y); auto. split; auto. destruct (Z.lt_ge_cases j (mnc m1)); auto.
      rewrite nth_overflow in G1 by (destruct H1; lia). discriminate.
    + intros _. apply HH.
Qed.

(** ** C11: validity *)

Lemma valid_of_wf m cs : stores m cs -> mat_is_valid m = Ok true.
Proof.
  intros Hs. pose proof (layout_facts m cs Hs) as (H1 & H2 & H3 & H4 & H5). unfold mat_is_valid.
  destruct (Z.ltb_spec (mcap m) (mnnz m)); [lia|]. destruct (Z.ltb_spec (mnc m) 0), (Z.ltb_spec (mnr m) 0); try lia.
  cbn [orb]. destruct (mnnz m =? 0); [reflexivity|].
  match goal with |- rbind (rfold ?f true _) _ = _ => set (F := f) end.
  destruct (zrange_loop (fun _ b => b = true) F (mnc m) true) as (b & -> & ->); auto.
  - intros j t Hj ->. cbn [F]. destruct Hs as [HL Hn]. rewrite !(layout_get m cs _ HL) by lia. cbn [rbind].
    destruct (nth_col m cs j (conj HL Hn) Hj) as [E S].
    replace (Z.to_nat (j + 1)) with (Datatypes.S (Z.to_nat j)) by lia.
    destruct (nth_error cs (Z.to_nat j)) as [c|] eqn:Ec; [|apply nth_error_None in Ec; lia].
    rewrite (concat_firstn_S cs _ c Ec), app_length.
    match goal with |- context [?a <? ?b] => destruct (Z.ltb_spec a b); [lia|] end.
    rewrite E. cbn [rbind]. eexists. split; [reflexivity|]. apply andb_true_iff. split.
    + eapply sorted_idx_increasing, S.
    + apply forallb_forall. intros e He. apply (in_map fst) in He. pose proof (sorted_in_In _ _ _ _ S He).
      apply andb_true_iff. rewrite Z.leb_le, Z.ltb_lt. lia.
  - cbn [rbind]. destruct Hs as [HL Hn]. rewrite (layout_get m cs _ HL) by lia. cbn [rbind].
    rewrite firstn_all2 by lia. rewrite H4, Z.eqb_refl. reflexivity.
Qed.

Lemma firstn_add {A} (l : list A) a b : firstn (a + b) l = firstn a l ++ firstn b (skipn a l).
Proof.
  revert l; induction a as [|a IH]; intros l; [reflexivity|]. destruct l as [|x l].
  - now rewrite skipn_nil, !firstn_nil.
  - cbn [plus]. rewrite !firstn_cons, skipn_cons. cbn [app]. now rewrite IH.
Qed.

Lemma wf_of_valid m : mat_is_valid m = Ok true -> mnnz m <> 0 -> mnc m < len (mcols m) ->
  nth_error (mcols m) 0 = Some 0 -> mwf m.
Proof.
  unfold mat_is_valid. destruct (Z.ltb_spec (mcap m) (mnnz m)) as [|Hcap]; [discriminate|].
  destruct (Z.ltb_spec (mnc m) 0) as [|Hc]; [discriminate|]. destruct (Z.ltb_spec (mnr m) 0) as [|Hr]; [discriminate|].
  cbn [orb]. destruct (Z.eqb_spec (mnnz m) 0) as [|Hz]; [intros _ ?; contradiction|]. intros H _ Hlen H0.
  match type of H with rbind (rfold ?f true _) _ = _ => set (F := f) in H end.
  destruct (rfold F true (zrange (mnc m))) as [b| |] eqn:E; cbn [rbind] in H; try discriminate.
  destruct b; [|discriminate].
  destruct (arr_get (mcols m) (mnc m)) as [cn| |] eqn:En; cbn [rbind] in H; try discriminate.
  injection H as H. apply Z.eqb_eq in H. subst cn.
  assert (Hf : forall l, rfold F false l = Ok false) by (induction l as [|a l IHl]; [reflexivity|exact IHl]).
  (* build the columns one by one *)
  assert (HH : forall n, (n <= Z.to_nat (mnc m))%nat ->
    exists cs, length cs = n
      /\ (forall j, (j <= n)%nat -> nth_error (mcols m) j = Some (len (concat (firstn j cs))))
      /\ firstn (length (concat cs)) (ment m) = concat cs
      /\ Forall (fun c => sorted_in 0 (mnr m) (keys c)) cs).
  { induction n as [|n IH]; intros Hn.
    - exists []. repeat split; auto. intros j Hj. replace j with 0%nat by lia. exact H0.
    - destruct IH as (cs & L & C & P & S); [lia|].
      destruct (zrange_split (mnc m) (Z.of_nat n)) as (k & Hk); [lia|].
      rewrite Hk, rfold_app in E. cbn [rfold] in E.
      destruct (rfold F true (zrange (Z.of_nat n))) as [b| |]; cbn [rbind] in E; try discriminate.
      destruct b; [|cbn [F rbind] in E; rewrite Hf in E; discriminate].
      assert (Hcn : arr_get (mcols m) (Z.of_nat n) = Ok (len (concat cs))).
      { apply arr_get_nth; [lia|]. rewrite Nat2Z.id, (C n) by lia. rewrite firstn_all2 by lia. reflexivity. }
      cbn [F] in E. unfold col_entries in E. rewrite Hcn in E. cbn [rbind] in E.
      destruct (arr_get (mcols m) (Z.of_nat n + 1)) as [c1| |] eqn:Ec1; cbn [rbind] in E; try discriminate.
      destruct (Z.ltb_spec c1 (len (concat cs))) as [|Hle]; [cbn [rbind] in E; rewrite Hf in E; discriminate|].
      destruct (slice (ment m) (len (concat cs)) c1) as [es| |] eqn:Es; cbn [rbind] in E; try discriminate.
      destruct (idx_increasing (keys es) && forallb (fun e : Z * num => (0 <=? fst e) && (fst e <? mnr m)) es) eqn:Ev;
        [|rewrite Hf in E; discriminate].
      apply andb_true_iff in Ev. destruct Ev as [Ev1 Ev2]. rewrite forallb_forall in Ev2.
      assert (Hes : c1 = len (concat cs) + len es /\ firstn (length es) (skipn (length (concat cs)) (ment m)) = es).
      { unfold slice in Es. destruct (Z.leb_spec c1 (len (concat cs))) as [Hle'|Hgt].
        - injection Es as <-. cbn [length]. split; [lia|reflexivity].
        - destruct ((0 <=? len (concat cs)) && (c1 <=? len (ment m))) eqn:Eb; [|discriminate].
          apply andb_true_iff in Eb. destruct Eb as [_ Eb]. apply Z.leb_le in Eb. injection Es as Es.
          rewrite Nat2Z.id in Es.
          assert (Hle2 : length es = Z.to_nat (c1 - len (concat cs))).
          { rewrite <- Es, firstn_length, skipn_length. lia. }
          split; [lia|]. rewrite Hle2. exact Es. }
      destruct Hes as [Hc1 Hes].
      exists (cs ++ [es]). split; [rewrite app_length; cbn; lia|]. split; [|split].
      + intros j Hj. destruct (Nat.eq_dec j (Datatypes.S n)) as [->|Hne].
        * rewrite firstn_all2 by (rewrite app_length; cbn; lia). rewrite concat_app, app_length. cbn [concat]. rewrite app_nil_r.
          apply arr_get_nth in Ec1; [|lia]. replace (Z.to_nat (Z.of_nat n + 1)) with (Datatypes.S n) in Ec1 by lia.
          rewrite Ec1. f_equal. lia.
        * rewrite C by lia. rewrite firstn_app. replace (j - length cs)%nat with 0%nat by lia. cbn. now rewrite app_nil_r.
      + rewrite concat_app. cbn [concat]. rewrite app_nil_r, app_length, firstn_add, P, Hes. reflexivity.
      + apply Forall_app. split; auto. constructor; auto. apply idx_increasing_sorted; auto.
        * intros i Hi. apply in_map_iff in Hi. destruct Hi as (e & <- & He). specialize (Ev2 e He).
          apply andb_true_iff in Ev2. destruct Ev2 as [Ev2 _]. now apply Z.leb_le.
        * destruct (rev (keys es)) as [|i l] eqn:Er; auto. assert (Hi : In i (keys es)) by (apply in_rev; rewrite Er; now left).
          apply in_map_iff in Hi. destruct Hi as (e & <- & He). specialize (Ev2 e He).
          apply andb_true_iff in Ev2. destruct Ev2 as [_ Ev2]. now apply Z.ltb_lt. }
  destruct (HH (Z.to_nat (mnc m)) (le_n _)) as (cs & L & C & P & S).
  exists cs. split; [|lia]. unfold layout. split; [auto|]. split; [lia|]. split; [intros j Hj; apply C; lia|].
  assert (Hnn : mnnz m = len (concat cs)).
  { apply arr_get_nth in En; [|lia]. rewrite C in En by lia. injection En as En.
    rewrite firstn_all2 in En by lia. auto. }
  split; [exact Hnn|]. split; [|auto].
  exists (skipn (length (concat cs)) (ment m)). rewrite <- P at 1. symmetry. rewrite P at 1. rewrite <- P at 1. apply firstn_skipn.
Qed.

End MatFacts3.
