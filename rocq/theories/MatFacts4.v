(** Transposition, scaling, resizing, copying; products over the reals. *)
From Coq Require Import Reals Lra.
From Verif Require Import Base Num Cmp Sparse Vec VecFacts VecFacts2 VecFacts3 RSum VecReal Mat MatFacts MatFacts2 MatFacts3.
Local Open Scope Z_scope.

(** ** Bucket sort *)
Section Bucket.
Context {B : Type}.
Implicit Types (E P : list (Z * B)).

Definition bucket (i : Z) (E : list (Z * B)) : list B := map snd (filter (fun e => fst e =? i) E).

Lemma bucket_app i E1 E2 : bucket i (E1 ++ E2) = bucket i E1 ++ bucket i E2.
Proof. unfold bucket. now rewrite filter_app, map_app. Qed.

Lemma bucket_cons i r b E : bucket i ((r, b) :: E) = (if r =? i then [b] else []) ++ bucket i E.
Proof. unfold bucket. cbn [filter fst]. destruct (r =? i); reflexivity. Qed.

Definition block (E P : list (Z * B)) (i : Z) : list (option B) :=
  map Some (bucket i P) ++ repeat None (length (bucket i E) - length (bucket i P)).

Lemma concat_blocks_length E P (zs : list Z) : (forall i, (length (bucket i P) <= length (bucket i E))%nat) ->
  length (concat (map (block E P) zs)) = length (concat (map (fun i => bucket i E) zs)).
Proof.
  intros H. induction zs as [|i zs IH]; cbn [map concat]; [reflexivity|]. rewrite !app_length, IH. f_equal.
  unfold block. rewrite app_length, map_length, repeat_length. specialize (H i). lia.
Qed.

(** The placement loop: [starts] are the bucket offsets, [cnt] the running counters. *)
Lemma bucket_place n starts E :
  length starts = S (Z.to_nat n) ->
  (forall i, 0 <= i < n -> nth_error starts (Z.to_nat i) = Some (len (concat (map (fun k => bucket k E) (zrange i))))) ->
  (forall e, In e E -> 0 <= fst e < n) ->
  forall rest P, E = P ++ rest ->
  forall cnt, cnt = map (fun i => len (bucket i P)) (zrange n) ->
  exists cnt', rfold (fun (s : list Z * list (option B)) (e : Z * B) =>
       let (sums, arr) := s in
       c <- arr_get starts (fst e) ;; k <- arr_get sums (fst e) ;;
       sums <- arr_set sums (fst e) (k + 1) ;; arr <- arr_set arr (c + k) (Some (snd e)) ;;
       Ok (sums, arr)) (cnt, concat (map (block E P) (zrange n))) rest
    = Ok (cnt', concat (map (block E E) (zrange n))).
Proof.
  intros Hl Hst Hin. induction rest as [|[r b] rest IH]; intros P HE cnt Hcnt.
  - rewrite app_nil_r in HE. subst P. exists cnt. reflexivity.
  - cbn [rfold]. assert (Hr : 0 <= r < n). { apply (Hin (r, b)). rewrite HE. apply in_or_app. right. now left. }
    cbn [fst snd].
    assert (E1 : arr_get starts r = Ok (len (concat (map (fun k => bucket k E) (zrange r))))).
    { apply arr_get_nth; [lia|]. now apply Hst. }
    rewrite E1. cbn [rbind].
    assert (E2 : arr_get cnt r = Ok (len (bucket r P))).
    { apply arr_get_nth; [lia|]. subst cnt. rewrite nth_error_map, zrange_nth by lia. cbn [option_map]. rewrite Z2Nat.id by lia. reflexivity. }
    rewrite E2. cbn [rbind]. rewrite arr_set_ok by (subst cnt; rewrite map_length, zrange_length; lia). cbn [rbind].
    assert (Hle : forall i, (length (bucket i P) <= length (bucket i E))%nat).
    { intros i. rewrite HE, bucket_app, app_length. lia. }
    destruct (zrange_split n r Hr) as (post & Hz).
    set (pre := concat (map (block E P) (zrange r))).
    assert (Hpre : length pre = length (concat (map (fun k => bucket k E) (zrange r)))).
    { apply concat_blocks_length; auto. }
    assert (Hblk : exists q, length (bucket r E) = (length (bucket r P) + S q)%nat).
    { exists (length (bucket r rest)). rewrite HE, bucket_app, bucket_cons, Z.eqb_refl, !app_length. cbn [length]. lia. }
    destruct Hblk as (q & Hq).
    assert (Harr : concat (map (block E P) (zrange n))
       = (pre ++ map Some (bucket r P)) ++ None :: (repeat None q ++ concat (map (block E P) post))).
    { rewrite Hz, map_app, concat_app. cbn [map concat]. fold pre. unfold block at 1.
      replace (length (bucket r E) - length (bucket r P))%nat with (S q) by lia.
      cbn [repeat]. rewrite <- !app_assoc. reflexivity. }
    rewrite Harr. rewrite arr_set_ok by (rewrite !app_length, map_length; cbn [length]; lia). cbn [rbind].
    replace (Z.to_nat (len (concat (map (fun k => bucket k E) (zrange r))) + len (bucket r P)))
      with (length (pre ++ map Some (bucket r P))) by (rewrite app_length, map_length; lia).
    rewrite set_nth_app.
    (* the new array and counters are those of P ++ [(r,b)] *)
    assert (Hother : forall i, i <> r -> bucket i (P ++ [(r, b)]) = bucket i P).
    { intros i Hi. rewrite bucket_app, bucket_cons. destruct (Z.eqb_spec r i); [congruence|]. cbn. apply app_nil_r. }
    assert (Hself : bucket r (P ++ [(r, b)]) = bucket r P ++ [b]).
    { rewrite bucket_app, bucket_cons, Z.eqb_refl. reflexivity. }
    assert (Hnr : forall i, In i (zrange r) -> i <> r) by (intros i Hi; apply zrange_In in Hi; lia).
    assert (Hnp : forall i, In i post -> i <> r).
    { intros i Hi Heq. subst i. pose proof (zrange_sorted n) as Hs. apply sorted_in_NoDup in Hs. rewrite Hz in Hs.
      apply NoDup_remove_2 in Hs. apply Hs. apply in_or_app. now right. }
    destruct (IH (P ++ [(r, b)])) with (cnt := set_nth cnt (Z.to_nat r) (len (bucket r P) + 1)) as (cnt' & Hc').
    + rewrite <- app_assoc. exact HE.
    + subst cnt. apply nth_error_ext. intros k.
      rewrite set_nth_spec by (rewrite map_length, zrange_length; lia). rewrite !nth_error_map.
      destruct (Nat.lt_ge_cases k (Z.to_nat n)).
      * rewrite zrange_nth by lia. cbn [option_map]. destruct (Nat.eqb_spec k (Z.to_nat r)) as [->|Hne].
        { rewrite Z2Nat.id by lia. rewrite Hself, app_length. cbn [length]. f_equal. lia. }
        { rewrite Hother by lia. reflexivity. }
      * destruct (Nat.eqb_spec k (Z.to_nat r)); [lia|].
        replace (nth_error (zrange n) k) with (@None Z); [reflexivity|]. symmetry. apply nth_error_None. rewrite zrange_length. lia.
    + exists cnt'. 
      match goal with |- rfold _ (_, ?a) _ = _ => replace a with (concat (map (block E (P ++ [(r, b)])) (zrange n))); [exact Hc'|] end.
      rewrite Hz, map_app, concat_app. cbn [map concat]. unfold block at 2.
      rewrite Hself, map_app, app_length, <- !app_assoc. cbn [map length app].
      replace (length (bucket r E) - (length (bucket r P) + 1))%nat with q by lia.
      unfold pre. f_equal.
      * f_equal. apply map_ext_in. intros i Hi. unfold block. now rewrite (Hother i (Hnr i Hi)).
      * do 4 f_equal. apply map_ext_in. intros i Hi. unfold block. now rewrite (Hother i (Hnp i Hi)).
Qed.

Lemma block_full E i : block E E i = map Some (bucket i E).
Proof. unfold block. rewrite Nat.sub_diag. apply app_nil_r. Qed.

Lemma block_empty E i : block E [] i = repeat None (length (bucket i E)).
Proof. unfold block. cbn. now rewrite Nat.sub_0_r. Qed.

Lemma repeat_app' {A} (x : A) a b : repeat x (a + b) = repeat x a ++ repeat x b.
Proof. induction a; cbn; congruence. Qed.

Lemma concat_block_empty E (zs : list Z) :
  concat (map (block E []) zs) = repeat None (length (concat (map (fun i => bucket i E) zs))).
Proof.
  induction zs as [|i zs IH]; cbn [map concat]; [reflexivity|].
  rewrite block_empty, IH, app_length, repeat_app'. reflexivity.
Qed.

Lemma bucket_total E n : (forall e, In e E -> 0 <= fst e < n) ->
  length (concat (map (fun i => bucket i E) (zrange n))) = length E.
Proof.
  induction E as [|[r b] E IH]; intros Hin.
  - induction (zrange n) as [|i zs IHz]; cbn; auto.
  - cbn [length]. rewrite <- IH by (intros e He; apply Hin; now right).
    assert (Hr : 0 <= r < n) by (apply (Hin (r, b)); now left).
    destruct (zrange_split n r Hr) as (post & Hz). 
    assert (Hnp : forall i, In i post -> i <> r).
    { intros i Hi Heq. subst i. pose proof (zrange_sorted n) as Hs. apply sorted_in_NoDup in Hs. rewrite Hz in Hs.
      apply NoDup_remove_2 in Hs. apply Hs. apply in_or_app. now right. }
    rewrite Hz, !map_app, !concat_app. cbn [map concat]. rewrite bucket_cons, Z.eqb_refl, !app_length. cbn [length].
    rewrite (map_ext_in (fun i => bucket i ((r, b) :: E)) (fun i => bucket i E) (zrange r)).
    2:{ intros i Hi. apply zrange_In in Hi. rewrite bucket_cons. destruct (Z.eqb_spec r i); [lia|reflexivity]. }
    rewrite (map_ext_in (fun i => bucket i ((r, b) :: E)) (fun i => bucket i E) post).
    2:{ intros i Hi. specialize (Hnp i Hi). rewrite bucket_cons. destruct (Z.eqb_spec r i); [congruence|reflexivity]. }
    lia.
Qed.

Lemma rmapM_some (l : list B) :
  rmapM (fun o : option B => match o with Some e => Ok e | None => Trap end) (map Some l) = Ok l.
Proof. induction l as [|b l IH]; cbn; [reflexivity|]. rewrite IH. reflexivity. Qed.

End Bucket.

Section MatFacts4.
Context {N : Num}.
Implicit Types (m : mat) (cs : list (list (Z * num))).

(** The entries in storage order, keyed by row, carrying (column, value). *)
Definition triples cs (n : Z) : list (Z * (Z * num)) :=
  concat (map (fun j => map (fun e => (fst e, (j, snd e))) (nth (Z.to_nat j) cs [])) (zrange n)).

Definition trans_cols cs (nr nc : Z) : list (list (Z * num)) :=
  map (fun i => bucket i (triples cs nc)) (zrange nr).

Lemma col_bucket lo hi (l : list (Z * num)) i (j : Z) : sorted_in lo hi (keys l) ->
  bucket i (map (fun e => (fst e, (j, snd e))) l) = match get l i with Some x => [(j, x)] | None => [] end.
Proof.
  revert lo; induction l as [|[k x] l IH]; intros lo H; [reflexivity|].
  cbn [keys map fst snd sorted_in] in *. destruct H as [Hk H]. rewrite bucket_cons. cbn [get]. rewrite (IH _ H).
  destruct (Z.eqb_spec k i) as [->|]; [|reflexivity].
  rewrite (get_below (i + 1) hi l i H) by lia. reflexivity.
Qed.

Lemma bucket_concat {B} i (ls : list (list (Z * B))) : bucket i (concat ls) = concat (map (bucket i) ls).
Proof. induction ls as [|l ls IH]; cbn [map concat]; [reflexivity|]. now rewrite bucket_app, IH. Qed.

Definition trow cs i (js : list Z) : list (Z * num) :=
  concat (map (fun j => match mget cs i j with Some x => [(j, x)] | None => [] end) js).

Lemma bucket_triples cs nr nc i : Forall (fun c => sorted_in 0 nr (keys c)) cs ->
  bucket i (triples cs nc) = trow cs i (zrange nc).
Proof.
  intros HF. unfold triples, trow. rewrite bucket_concat, map_map. f_equal. apply map_ext. intros j.
  unfold mget. apply (col_bucket 0 nr). rewrite Forall_forall in HF.
  destruct (Nat.lt_ge_cases (Z.to_nat j) (length cs)); [apply HF, nth_In; lia|].
  rewrite nth_overflow by lia. exact I.
Qed.

Lemma trow_sorted cs i js lo hi : sorted_in lo hi js -> sorted_in lo hi (keys (trow cs i js)).
Proof.
  revert lo; induction js as [|j js IH]; intros lo H; [exact I|]. destruct H as [Hj H]. unfold trow.
  cbn [map concat]. fold (trow cs i js). destruct (mget cs i j); cbn [app].
  - split; [exact Hj|]. now apply IH.
  - eapply sorted_in_weaken; [| |apply IH; exact H]; lia.
Qed.

Lemma trow_get cs i js lo hi j : sorted_in lo hi js ->
  get (trow cs i js) j = if existsb (Z.eqb j) js then mget cs i j else None.
Proof.
  revert lo; induction js as [|k js IH]; intros lo H; [reflexivity|]. destruct H as [Hk H]. unfold trow.
  cbn [map concat existsb]. fold (trow cs i js). rewrite get_app, (IH _ H).
  destruct (Z.eqb_spec j k) as [->|Hne]; cbn [orb].
  - destruct (mget cs i k); cbn [get]; [now rewrite Z.eqb_refl|]. now destruct (existsb _ _).
  - destruct (mget cs i k); cbn [get]; [destruct (Z.eqb_spec k j); [congruence|]|]; reflexivity.
Qed.

Lemma slice_all m cs : stores m cs -> slice (ment m) 0 (mnnz m) = Ok (concat cs).
Proof.
  intros Hs. pose proof (layout_facts m cs Hs) as (_ & _ & Hn & HN & _). destruct Hs as [(_ & _ & _ & _ & (rest & Hent) & _) _].
  unfold slice. destruct (Z.leb_spec (mnnz m) 0).
  - destruct (concat cs); [reflexivity|]. cbn [length] in HN. lia.
  - rewrite Hent, app_length. rewrite Z.leb_refl. cbn [andb]. destruct (Z.leb_spec (mnnz m) (Z.of_nat (length (concat cs) + length rest))); [|lia].
    f_equal. cbn [skipn Z.to_nat]. rewrite Z.sub_0_r. replace (Z.to_nat (mnnz m)) with (length (concat cs)) by lia.
    apply firstn_len_app.
Qed.

(** Counting loop of compute_row_sums. *)
Lemma count_loop {B} n (E : list (Z * B)) : (forall e, In e E -> 0 <= fst e < n) ->
  forall P cnt, cnt = map (fun i => len (bucket i P)) (zrange n) ->
  rfold (fun rs (e : Z * B) => c <- arr_get rs (fst e) ;; arr_set rs (fst e) (c + 1)) cnt E
  = Ok (map (fun i => len (bucket i (P ++ E))) (zrange n)).
Proof.
  induction E as [|[r b] E IH]; intros Hin P cnt Hcnt.
  - rewrite app_nil_r. subst. reflexivity.
  - cbn [rfold fst]. assert (Hr : 0 <= r < n) by (apply (Hin (r, b)); now left).
    assert (E2 : arr_get cnt r = Ok (len (bucket r P))).
    { apply arr_get_nth; [lia|]. subst cnt. rewrite nth_error_map, zrange_nth by lia. cbn [option_map]. rewrite Z2Nat.id by lia. reflexivity. }
    rewrite E2. cbn [rbind]. rewrite arr_set_ok by (subst cnt; rewrite map_length, zrange_length; lia). cbn [rbind].
    rewrite (IH ltac:(intros e He; apply Hin; now right) (P ++ [(r, b)])).
    { rewrite <- app_assoc. reflexivity. }
    subst cnt. apply nth_error_ext. intros k.
    rewrite set_nth_spec by (rewrite map_length, zrange_length; lia). rewrite !nth_error_map.
    destruct (Nat.lt_ge_cases k (Z.to_nat n)).
    + rewrite zrange_nth by lia. cbn [option_map]. rewrite bucket_app, bucket_cons, app_length.
      destruct (Nat.eqb_spec k (Z.to_nat r)) as [->|Hne].
      * rewrite Z2Nat.id by lia. rewrite Z.eqb_refl. cbn [app length]. f_equal. cbn. lia.
      * destruct (Z.eqb_spec r (Z.of_nat k)); [lia|]. cbn [app length bucket filter map]. f_equal. cbn. lia.
    + destruct (Nat.eqb_spec k (Z.to_nat r)); [lia|].
      replace (nth_error (zrange n) k) with (@None Z); [reflexivity|]. symmetry. apply nth_error_None. rewrite zrange_length. lia.
Qed.

Lemma rfold_concat {A S} (f : S -> A -> res S) (ls : list (list A)) s :
  rfold f s (concat ls) = rfold (fun s l => rfold f s l) s ls.
Proof.
  revert s; induction ls as [|l ls IH]; intros s; cbn [concat rfold]; [reflexivity|].
  rewrite rfold_app. destruct (rfold f s l); cbn [rbind]; auto.
Qed.

Lemma rfold_map {A A' S} (f : S -> A -> res S) (g : A' -> A) (l : list A') s :
  rfold f s (map g l) = rfold (fun s a => f s (g a)) s l.
Proof. revert s; induction l as [|a l IH]; intros s; cbn; [reflexivity|]. destruct (f s (g a)); cbn; auto. Qed.

Lemma map_fst_triples cs n : map fst (triples cs n) = map fst (concat (map (fun j => nth (Z.to_nat j) cs []) (zrange n))).
Proof.
  unfold triples. rewrite !concat_map, !map_map. f_equal. apply map_ext. intros j. rewrite map_map. reflexivity.
Qed.

Lemma bucket_len_keys {B B'} i (E : list (Z * B)) (E' : list (Z * B')) : map fst E = map fst E' ->
  length (bucket i E) = length (bucket i E').
Proof.
  revert E'; induction E as [|[r b] E IH]; intros [|[r' b'] E'] H; try discriminate; [reflexivity|].
  cbn [map fst] in H. injection H as <- H. rewrite !bucket_cons, !app_length, (IH E' H). destruct (r =? i); reflexivity.
Qed.

Lemma triples_fst cs n (F : Z -> Prop) : (forall e, In e (concat cs) -> F (fst e)) -> n = len cs ->
  forall e, In e (triples cs n) -> F (fst e).
Proof.
  intros H Hn e He. assert (Hi : In (fst e) (map fst (triples cs n))) by now apply in_map.
  rewrite map_fst_triples, map_nth_zrange in Hi by auto. apply in_map_iff in Hi. destruct Hi as (e' & <- & He').
  now apply H.
Qed.

(** Resizing an empty matrix keeps the column array long enough. *)
Lemma mat_resize_empty m r c : layout m [] -> mnnz m = 0 -> (forall k, (k <= Z.to_nat (mnc m))%nat -> nth_error (mcols m) k = Some 0) ->
  0 <= r -> 0 <= c ->
  exists m', mat_resize m r c = Ok m' /\ mnr m' = r /\ mnc m' = c /\ mcap m' = mcap m /\ c < len (mcols m')
    /\ nth_error (mcols m') 0 = Some 0.
Proof.
  intros HL Hz Hcols Hr Hc. pose proof HL as (_ & Hl & _). cbn [length] in Hl. unfold mat_resize.
  destruct (Z.leb_spec 0 r), (Z.leb_spec 0 c); try lia. cbn [andb check rbind].
  destruct (Z.ltb_spec (mnc m) c) as [Hg|Hg].
  - destruct (Z.eqb_spec (mnc m) 0) as [E0|Hne].
    + cbn [rbind]. eexists. split; [reflexivity|]. cbn [mnr mnc mcap mcols]. repeat split; auto.
      rewrite app_length, repeat_length. cbn [length]. lia.
    + assert (arr_get (mcols m) (mnc m) = Ok 0) as ->. { apply arr_get_nth; [lia|]. apply Hcols. lia. }
      cbn [rbind]. eexists. split; [reflexivity|]. cbn [mnr mnc mcap mcols]. repeat split; auto.
      * rewrite app_length, repeat_length, firstn_length. lia.
      * pose proof (Hcols 0%nat ltac:(lia)) as H0'. destruct (mcols m) as [|c0 cols]; [discriminate|].
        cbn [firstn app nth_error] in *. exact H0'.
  - destruct (Z.ltb_spec c (mnc m)) as [Hs|Hs].
    + assert (arr_get (mcols m) c = Ok 0) as ->. { apply arr_get_nth; [lia|]. apply Hcols. lia. }
      cbn [rbind]. eexists. split; [reflexivity|]. cbn [mnr mnc mcap mcols]. repeat split; auto; try lia. apply Hcols; lia.
    + eexists. split; [reflexivity|]. cbn [mnr mnc mcap mcols]. repeat split; auto; try lia. apply Hcols; lia.
Qed.

Lemma concat_firstn_map {B} (F : Z -> list B) n j : 0 <= j <= n ->
  concat (firstn (Z.to_nat j) (map F (zrange n))) = concat (map F (zrange j)).
Proof.
  intros Hj. rewrite firstn_map. do 2 f_equal. unfold zrange. rewrite firstn_map. f_equal.
  replace (Z.to_nat n) with (Z.to_nat j + (Z.to_nat n - Z.to_nat j))%nat by lia. rewrite seq_app.
  rewrite firstn_app, seq_length, Nat.sub_diag. cbn [firstn]. rewrite app_nil_r. apply firstn_all2. rewrite seq_length. lia.
Qed.

Theorem mat_trans_spec m cs t : stores m cs -> mwf t ->
  exists t', mat_trans m t = Ok t' /\ stores t' (trans_cols cs (mnr m) (mnc m))
    /\ mnr t' = mnc m /\ mnc t' = mnr m.
Proof.
  intros Hs (ts & Ht). pose proof (layout_facts m cs Hs) as (Hr & Hc & Hn & HN & HF).
  pose proof (layout_facts t ts Ht) as (Hr' & Hc' & Hn' & _). pose proof Hs as [_ Hlen].
  assert (Hin : forall e, In e (concat cs) -> 0 <= fst e < mnr m).
  { intros e He. apply in_concat in He. destruct He as (c & Hc1 & He). rewrite Forall_forall in HF.
    apply (sorted_in_In _ _ _ _ (HF c Hc1)). now apply in_map. }
  set (E := triples cs (mnc m)).
  assert (HinE : forall e, In e E -> 0 <= fst e < mnr m).
  { intros e. apply (triples_fst cs (mnc m) (fun r => 0 <= r < mnr m)); auto. }
  unfold mat_trans, row_sums. rewrite (slice_all m cs Hs). cbn [rbind].
  assert (Hsums : rfold (fun rs (e : Z * num) => c <- arr_get rs (fst e) ;; arr_set rs (fst e) (c + 1))
        (repeat 0 (Z.to_nat (mnr m))) (concat cs) = Ok (map (fun i => len (bucket i E)) (zrange (mnr m)))).
  { rewrite (count_loop (mnr m) (concat cs) Hin []).
    - f_equal. apply map_ext. intros i. cbn [app]. f_equal. apply bucket_len_keys. unfold E.
      rewrite map_fst_triples, map_nth_zrange; auto.
    - unfold zrange. rewrite map_map. cbn. clear. generalize 0%nat. induction (Z.to_nat (mnr m)) as [|k IH]; intros s; cbn; [reflexivity|].
      f_equal. apply IH. }
  rewrite Hsums. cbn [rbind].
  destruct (mat_clear_spec t) as (HLc & C1 & C2 & C3); try lia.
  destruct (mat_reserve_spec (mat_clear t) (mnnz m) [] HLc) as (t1 & Et1 & HL1 & R1 & R2 & R3 & R4); [lia|]. rewrite Et1. cbn [rbind].
  assert (Hcols1 : mcols t1 = repeat 0 (S (Z.to_nat (mnc t))) /\ mnnz t1 = 0).
  { revert Et1. unfold mat_reserve. destruct (0 <=? mnnz m); [|discriminate]. cbn [check rbind].
    destruct (_ <=? _); intros E0; injection E0 as <-; auto. }
  destruct Hcols1 as [Hcols1 Hz1].
  destruct (mat_resize_empty t1 (mnc m) (mnr m)) as (t2 & -> & T1 & T2 & T3 & T4 & T5); auto.
  { intros k Hk. rewrite R2, C2 in Hk. rewrite Hcols1. rewrite nth_error_repeat by lia. reflexivity. }
  cbn [rbind].
  (* offsets *)
  set (F := fun i => bucket i E).
  destruct (zrange_loop (fun j (s : list Z * Z) => length (fst s) = length (mcols t2)
      /\ snd s = len (concat (map F (zrange j)))
      /\ forall k, 0 <= k <= j -> nth_error (fst s) (Z.to_nat k) = Some (len (concat (map F (zrange k)))))
    (fun (s : list Z * Z) j => let (cols, offset) := s in
            x <- arr_get (map (fun i => len (bucket i E)) (zrange (mnr m))) j ;;
            cols <- arr_set cols (j + 1) (offset + x) ;;
            Ok (cols, offset + x)) (mnr m) (0 :: tl (mcols t2), 0)) as ([cols off] & -> & Hl & Ho & Hcols).
  - lia.
  - cbn [fst snd]. destruct (mcols t2) as [|c0 cl]; [discriminate|]. cbn [tl]. split; [reflexivity|]. split; [reflexivity|].
    intros k Hk. replace k with 0 by lia. reflexivity.
  - intros j [cols off] Hj (Hl & Ho & Hk). cbn [fst snd] in *.
    assert (arr_get (map (fun i => len (bucket i E)) (zrange (mnr m))) j = Ok (len (bucket j E))) as ->.
    { apply arr_get_nth; [lia|]. rewrite nth_error_map, zrange_nth by lia. cbn [option_map]. rewrite Z2Nat.id by lia. reflexivity. }
    cbn [rbind]. rewrite arr_set_ok by lia. cbn [rbind]. eexists. split; [reflexivity|]. cbn [fst snd].
    assert (Hsum : off + len (bucket j E) = len (concat (map F (zrange (j + 1))))).
    { rewrite zrange_succ, map_app, concat_app, app_length by lia. cbn [map concat]. rewrite app_nil_r. unfold F at 2. lia. }
    rewrite set_nth_length. split; [auto|]. split; [auto|]. intros k Hk'.
    rewrite set_nth_spec by lia. destruct (Nat.eqb_spec (Z.to_nat k) (Z.to_nat (j + 1))).
    + assert (k = j + 1) as -> by lia. now rewrite Hsum.
    + apply Hk. lia.
  - cbn [rbind fst snd] in *.
    (* placement *)
    assert (Htot : length (concat (map F (zrange (mnr m)))) = Z.to_nat (mnnz m)).
    { unfold F. rewrite (bucket_total E (mnr m) HinE). unfold E.
      rewrite <- (map_length fst), map_fst_triples, map_nth_zrange, map_length by auto. lia. }
    assert (Hplace : exists cnt', rfold (fun (s : list Z * list (option (Z * num))) col =>
         es <- col_entries m col ;;
         rfold (fun (s : list Z * list (option (Z * num))) e =>
           let (sums, arr) := s in
           c <- arr_get cols (fst e) ;;
           k <- arr_get sums (fst e) ;;
           sums <- arr_set sums (fst e) (k + 1) ;;
           arr <- arr_set arr (c + k) (Some (col, snd e)) ;;
           Ok (sums, arr)) s es)
       (repeat 0 (Z.to_nat (mnr m)), repeat None (Z.to_nat (mnnz m))) (zrange (mnc m))
       = Ok (cnt', concat (map (block E E) (zrange (mnr m))))).
    { (* only the first [mnr m + 1] elements of [cols] matter *)
      set (starts := firstn (S (Z.to_nat (mnr m))) cols).
      assert (Hstl : length starts = S (Z.to_nat (mnr m))) by (unfold starts; rewrite firstn_length; lia).
      assert (Hfn : forall k, (k <= Z.to_nat (mnr m))%nat -> nth_error starts k = nth_error cols k).
      { intros k Hk. unfold starts. clear -Hk. revert cols Hk. generalize (Z.to_nat (mnr m)). revert k.
        induction k as [|k IH]; intros n [|c l] Hk; try reflexivity; destruct n; try lia; try reflexivity.
        cbn [firstn nth_error]. change (match l with [] => [] | a :: l0 => a :: firstn n l0 end) with (firstn (S n) l). apply IH. lia. }
      assert (Hst : forall i, 0 <= i < mnr m -> nth_error starts (Z.to_nat i) = Some (len (concat (map (fun k => bucket k E) (zrange i))))).
      { intros i Hi. rewrite Hfn by lia. apply Hcols. lia. }
      destruct (bucket_place (mnr m) starts E Hstl Hst HinE E [] eq_refl
        (map (fun i => len (bucket i [])) (zrange (mnr m))) eq_refl) as (cnt' & Hb).
      exists cnt'. rewrite <- Hb. rewrite concat_block_empty. fold F. rewrite Htot.
      replace (map (fun i => len (@bucket (Z * num) i [])) (zrange (mnr m))) with (repeat 0 (Z.to_nat (mnr m))).
      2:{ unfold zrange. rewrite map_map. cbn. clear. generalize 0%nat. induction (Z.to_nat (mnr m)) as [|k IH]; intros s; cbn; [reflexivity|].
          f_equal. apply IH. }
      unfold E, triples. rewrite rfold_concat, rfold_map. apply rfold_ext. intros s j Hj.
      apply zrange_In in Hj. destruct (nth_col m cs j Hs Hj) as [-> Hsc]. cbn [rbind]. rewrite rfold_map.
      apply rfold_ext. intros [sums arr] e He. cbn [fst snd].
      assert (He' : 0 <= fst e < mnr m). { apply (sorted_in_In _ _ _ _ Hsc). now apply in_map. }
      assert (arr_get starts (fst e) = arr_get cols (fst e)) as ->; [|reflexivity].
      unfold arr_get. destruct (0 <=? fst e); auto. rewrite Hfn by lia. reflexivity. }
    destruct Hplace as (cnt' & ->). cbn [rbind snd].
    rewrite (map_ext _ _ (fun i => block_full E i)).
    replace (map (fun a => map Some (bucket a E)) (zrange (mnr m))) with (map (map Some) (map F (zrange (mnr m)))) by (rewrite map_map; reflexivity).
    rewrite <- concat_map. rewrite rmapM_some. cbn [rbind].
    match goal with |- context [mat_is_valid ?x] => set (t3 := x) end.
    assert (HS : stores t3 (trans_cols cs (mnr m) (mnc m))).
    { unfold trans_cols. fold E. fold F. split.
      2:{ cbn [mnc t3]. rewrite map_length, zrange_length. lia. }
      unfold layout, t3; cbn [mnr mnc mnnz mcap mcols ment].
      split; [lia|]. split; [rewrite map_length, zrange_length; lia|]. split.
      { intros j Hj. rewrite map_length, zrange_length in Hj.
        pose proof (Hcols (Z.of_nat j) ltac:(lia)) as H. rewrite Nat2Z.id in H. rewrite H. do 2 f_equal.
        rewrite <- (Nat2Z.id j) at 2. rewrite concat_firstn_map by lia. reflexivity. }
      split; [lia|]. split; [exists []; now rewrite app_nil_r|]. split; [lia|].
      apply Forall_forall. intros c Hc1. apply in_map_iff in Hc1. destruct Hc1 as (i & <- & _).
      unfold F, E. rewrite (bucket_triples cs (mnr m)) by auto. apply trow_sorted, zrange_sorted. }
    rewrite (valid_of_wf t3 _ HS). cbn [rbind check]. exists t3. split; [reflexivity|]. split; [exact HS|]. split; reflexivity.
Qed.

Lemma trans_entry cs nr nc i j : Forall (fun c => sorted_in 0 nr (keys c)) cs -> 
  0 <= i < nr -> 0 <= j < nc -> mget (trans_cols cs nr nc) j i = mget cs i j.
Proof.
  intros HF Hi Hj. unfold mget at 1, trans_cols. rewrite nth_map_zrange by lia.
  rewrite (bucket_triples cs nr) by auto. rewrite (trow_get cs i _ 0 nc) by apply zrange_sorted.
  rewrite existsb_zrange. destruct (Z.leb_spec 0 j), (Z.ltb_spec j nc); try lia. reflexivity.
Qed.

(** ** Scaling *)

Lemma concat_map_map {A B} (f : A -> B) (ls : list (list A)) : concat (map (map f) ls) = map f (concat ls).
Proof. now rewrite concat_map. Qed.

Lemma mat_scale_spec m cs f : stores m cs -> neqb f n0 = false ->
  stores (mat_scale m f) (map (map (fun e => (fst e, nmul (snd e) f))) cs).
Proof.
  intros Hs Hf. pose proof (layout_facts m cs Hs) as (H1 & H2 & H3 & H4 & H5).
  destruct Hs as [(L1 & L2 & L3 & L4 & (rest & L5) & L6 & L7) Hn]. unfold mat_scale. rewrite Hf.
  split; cbn [mnc]; [|rewrite map_length; exact Hn]. unfold layout; cbn [mnr mnc mnnz mcap mcols ment].
  rewrite map_length, concat_map_map, map_length. repeat split; auto; try lia.
  - intros j Hj. rewrite L3 by auto. rewrite firstn_map, concat_map_map, map_length. reflexivity.
  - exists rest. rewrite L5. replace (Z.to_nat (mnnz m)) with (length (concat cs)) by lia.
    now rewrite firstn_len_app, skipn_len_app.
  - apply Forall_forall. intros c Hc. apply in_map_iff in Hc. destruct Hc as (d & <- & Hd).
    rewrite Forall_forall in L7. specialize (L7 d Hd). unfold keys in *. rewrite map_map. exact L7.
Qed.

Lemma mat_scale_zero m cs f : stores m cs -> neqb f n0 = true ->
  stores (mat_scale m f) (repeat [] (length cs)).
Proof.
  intros Hs Hf. pose proof (layout_facts m cs Hs) as (H1 & H2 & H3 & H4 & H5). destruct Hs as [_ Hn].
  unfold mat_scale. rewrite Hf. assert (Hcz : forall k, concat (repeat (@nil (Z * num)) k) = []) by (induction k; auto).
  split; cbn [mnc]; [|rewrite repeat_length; exact Hn]. unfold layout, mat_clear; cbn [mnr mnc mnnz mcap mcols ment].
  rewrite !repeat_length, Hcz. repeat split; auto; try lia.
  - intros j Hj. assert (Hfr : forall j k, (j <= k)%nat -> firstn j (repeat (@nil (Z * num)) k) = repeat [] j).
    { induction j0 as [|j0 IH]; intros [|k] Hk; try lia; try reflexivity. cbn [repeat]. rewrite firstn_cons. cbn [repeat]. f_equal. apply IH. lia. }
    rewrite Hfr by lia. rewrite Hcz. cbn [length]. rewrite nth_error_repeat by lia. reflexivity.
  - now exists (ment m).
  - apply Forall_forall. intros c Hc. apply repeat_spec in Hc. subst. exact I.
Qed.

(** ** Resizing *)

Lemma mat_resize_spec m cs r c : stores m cs -> 0 <= c ->
  (forall j cc, (j < Z.to_nat c)%nat -> nth_error cs j = Some cc -> sorted_in 0 r (keys cc)) -> 0 <= r ->
  exists m', mat_resize m r c = Ok m' /\ mnr m' = r /\ mnc m' = c
    /\ stores m' (firstn (Z.to_nat c) cs ++ repeat [] (Z.to_nat c - length cs)).
Proof.
  intros Hs Hc Hrows Hr. pose proof (layout_facts m cs Hs) as (H1 & H2 & H3 & H4 & H5).
  destruct Hs as [(L1 & L2 & L3 & L4 & (rest & L5) & L6 & L7) Hn]. 
  assert (Hcz : forall k, concat (repeat (@nil (Z * num)) k) = []) by (induction k; auto).
  unfold mat_resize. destruct (Z.leb_spec 0 r), (Z.leb_spec 0 c); try lia. cbn [andb check rbind].
  destruct (Z.ltb_spec (mnc m) c) as [Hg|Hg].
  - assert (Hkept : exists c0 kept, (if mnc m =? 0 then Ok 0 else arr_get (mcols m) (mnc m)) = Ok c0
       /\ (if mnc m =? 0 then [0] else firstn (S (Z.to_nat (mnc m))) (mcols m)) = kept
       /\ c0 = len (concat cs) /\ length kept = S (length cs)
       /\ forall j, (j <= length cs)%nat -> nth_error kept j = Some (len (concat (firstn j cs)))).
    { destruct (Z.eqb_spec (mnc m) 0) as [E0|Hne].
      - exists 0, [0]. destruct cs as [|c1 cs]; [|cbn [length] in Hn; lia]. repeat split; auto.
        intros j Hj. cbn [length] in Hj. replace j with 0%nat by lia. reflexivity.
      - exists (len (concat cs)), (firstn (S (Z.to_nat (mnc m))) (mcols m)). repeat split; auto.
        + apply arr_get_nth; [lia|]. rewrite L3 by lia. rewrite firstn_all2 by lia. reflexivity.
        + rewrite firstn_length. lia.
        + intros j Hj. rewrite <- L3 by auto.
          assert (Hfn : forall k n (l : list Z), (k < n)%nat -> nth_error (firstn n l) k = nth_error l k).
          { clear. induction k as [|k IH]; intros [|n] [|a l] Hk; try lia; try reflexivity. rewrite firstn_cons. cbn [nth_error]. apply IH. lia. }
          apply Hfn. lia. }
    destruct Hkept as (c0 & kept & -> & -> & Hc0 & Hkl & Hkn). cbn [rbind]. eexists. split; [reflexivity|]. cbn [mnr mnc].
    split; [auto|]. split; [auto|]. rewrite firstn_all2 by lia. split.
    2:{ cbn [mnc]. rewrite app_length, repeat_length. lia. }
    unfold layout; cbn [mnr mnc mnnz mcap mcols ment]. rewrite concat_app, Hcz, app_nil_r.
    rewrite !app_length, !repeat_length. repeat split; auto; try lia.
    + intros j Hj. rewrite firstn_app, concat_app.
      assert (concat (firstn (j - length cs) (repeat (@nil (Z * num)) (Z.to_nat c - length cs))) = []) as ->.
      { assert (Hfr : forall a b, exists k, firstn a (repeat (@nil (Z * num)) b) = repeat [] k).
        { clear. induction a as [|a IH]; intros b; [now exists 0%nat|]. destruct b as [|b]; [now exists 0%nat|].
          destruct (IH b) as (k & Hk). exists (S k). cbn [repeat]. rewrite firstn_cons, Hk. reflexivity. }
        destruct (Hfr (j - length cs)%nat (Z.to_nat c - length cs)%nat) as (k & ->). apply Hcz. }
      rewrite app_nil_r. destruct (Nat.le_gt_cases j (length cs)) as [Hle|Hgt].
      * rewrite nth_error_app1 by lia. apply Hkn. auto.
      * rewrite nth_error_app2 by lia. rewrite nth_error_repeat by lia. rewrite firstn_all2 by lia. now rewrite Hc0.
    + eauto.
    + apply Forall_app. split.
      * apply Forall_forall. intros cc Hin. apply In_nth_error in Hin. destruct Hin as (j & Hj).
        assert (j < length cs)%nat by (apply nth_error_Some; congruence). apply (Hrows j); auto. lia.
      * apply Forall_forall. intros cc Hin. apply repeat_spec in Hin. subst. exact I.
  - assert (Hfin : forall m', mnr m' = r -> mnc m' = c -> mnnz m' = len (concat (firstn (Z.to_nat c) cs)) -> mcap m' = mcap m ->
        mcols m' = mcols m -> ment m' = ment m -> stores m' (firstn (Z.to_nat c) cs ++ repeat [] (Z.to_nat c - length cs))).
    { intros m' M1 M2 M3 M4 M5 M6. replace (Z.to_nat c - length cs)%nat with 0%nat by lia. cbn [repeat]. rewrite app_nil_r.
      split; [|rewrite firstn_length; lia]. unfold layout. rewrite M1, M2, M3, M4, M5, M6.
      assert (Hsplit := concat_firstn_skipn cs (Z.to_nat c)).
      assert (length (concat cs) = length (concat (firstn (Z.to_nat c) cs)) + length (concat (skipn (Z.to_nat c) cs)))%nat
        by (rewrite Hsplit at 1; apply app_length).
      split; [auto|]. split; [rewrite firstn_length; lia|]. split; [|split; [auto|split; [|split; [lia|]]]].
      - intros j Hj. rewrite firstn_length in Hj. rewrite L3 by lia. rewrite firstn_firstn. replace (Nat.min j (Z.to_nat c)) with j by lia. reflexivity.
      - exists (concat (skipn (Z.to_nat c) cs) ++ rest). rewrite L5, Hsplit at 1. now rewrite <- app_assoc.
      - apply Forall_forall. intros cc Hin. apply In_nth_error in Hin. destruct Hin as (j & Hj).
        assert (Hjl : (j < length (firstn (Z.to_nat c) cs))%nat) by (apply nth_error_Some; congruence).
        rewrite firstn_length in Hjl. apply (Hrows j); [lia|].
        assert (Hfn : forall k n (l : list (list (Z * num))), (k < n)%nat -> nth_error (firstn n l) k = nth_error l k).
        { clear. induction k as [|k IH]; intros [|n] [|a l] Hk; try lia; try reflexivity. rewrite firstn_cons. cbn [nth_error]. apply IH. lia. }
        rewrite Hfn in Hj by lia. exact Hj. }
    destruct (Z.ltb_spec c (mnc m)) as [Hlt|Hge].
    + assert (arr_get (mcols m) c = Ok (len (concat (firstn (Z.to_nat c) cs)))) as ->.
      { apply arr_get_nth; [lia|]. apply L3. lia. }
      cbn [rbind]. eexists. split; [reflexivity|]. cbn [mnr mnc]. split; [auto|]. split; [auto|]. apply Hfin; reflexivity.
    + eexists. split; [reflexivity|]. cbn [mnr mnc]. split; [auto|]. split; [auto|]. apply Hfin; try reflexivity.
      cbn [mnnz]. rewrite firstn_all2 by lia. auto.
Qed.

(** ** Copying *)

Lemma cols_copy (src dst : list Z) n : (Z.to_nat n <= length src)%nat -> (Z.to_nat n <= length dst)%nat -> 0 <= n ->
  exists d, rfold (fun c i => x <- arr_get src i ;; arr_set c i x) dst (zrange n) = Ok d
    /\ length d = length dst /\ forall k, (k < Z.to_nat n)%nat -> nth_error d k = nth_error src k.
Proof.
  intros Hs Hd Hn.
  destruct (zrange_loop (fun j d => length d = length dst /\ forall k, (k < Z.to_nat j)%nat -> nth_error d k = nth_error src k)
    (fun c i => x <- arr_get src i ;; arr_set c i x) n dst) as (d & E & Hl & Hk); auto.
  - split; auto. intros k Hk. lia.
  - intros j t Hj [Hl Hk]. destruct (nth_error src (Z.to_nat j)) as [x|] eqn:Ex; [|apply nth_error_None in Ex; lia].
    assert (arr_get src j = Ok x) as -> by (apply arr_get_nth; auto; lia). cbn [rbind].
    rewrite arr_set_ok by lia. eexists. split; [reflexivity|]. rewrite set_nth_length. split; auto.
    intros k Hk'. rewrite set_nth_spec by lia. destruct (Nat.eqb_spec k (Z.to_nat j)) as [->|]; [auto|]. apply Hk. lia.
  - eauto.
Qed.

Lemma mat_copy_spec m cs t : stores m cs -> mwf t -> mnr t = mnr m -> mnc t = mnc m ->
  exists t', mat_copy m t = Ok t' /\ stores t' cs /\ mnr t' = mnr m /\ mnc t' = mnc m.
Proof.
  intros Hs (ts & Ht) Hr Hc. pose proof (layout_facts m cs Hs) as (Hr0 & Hc0 & Hn & HN & HF).
  pose proof (layout_facts t ts Ht) as (Hr' & Hc' & Hn' & _).
  unfold mat_copy. rewrite Hr, Hc, !Z.eqb_refl. cbn [check rbind]. rewrite (valid_of_wf m cs Hs). cbn [rbind check].
  destruct (mat_clear_spec t) as (HLc & C1 & C2 & C3); try lia.
  destruct (mat_reserve_spec (mat_clear t) (mnnz m) [] HLc) as (t1 & Et1 & HL1 & R1 & R2 & R3 & R4); [lia|]. rewrite Et1. cbn [rbind].
  rewrite (slice_all m cs Hs). cbn [rbind].
  destruct (put_all_end (concat cs) [] (ment t1) 0 eq_refl) as (rest & E). cbn [app] in E. rewrite E. cbn [rbind].
  assert (Hcols1 : mcols t1 = repeat 0 (S (Z.to_nat (mnc t)))).
  { revert Et1. unfold mat_reserve. destruct (0 <=? mnnz m); [|discriminate]. cbn [check rbind].
    destruct (_ <=? _); intros E0; injection E0 as <-; auto. }
  pose proof Hs as [(_ & Hl & HLC & _) Hlen].
  destruct (cols_copy (mcols m) (mcols t1) (mnc t1 + 1)) as (d & -> & Hld & Hkd); try lia.
  { rewrite Hcols1, repeat_length. lia. }
  cbn [rbind].
  match goal with |- context [mat_is_valid ?x] => set (t3 := x) end.
  assert (HS : stores t3 cs).
  { split; [|cbn [mnc t3]; lia]. unfold layout, t3; cbn [mnr mnc mnnz mcap mcols ment].
    rewrite Hld, Hcols1, repeat_length. split; [lia|]. split; [lia|]. split; [|split; [auto|split; [eauto|split; [lia|]]]].
    - intros j Hj. rewrite Hkd by lia. apply HLC. auto.
    - rewrite R1, C1, Hr. exact HF. }
  rewrite (valid_of_wf t3 _ HS). cbn [rbind check]. exists t3. split; [reflexivity|]. split; [exact HS|]. cbn; lia.
Qed.

End MatFacts4.

(** ** C12 over the reals *)
Notation rmat := (@mat RN).

Definition mR (cs : list (list (Z * R))) (i j : Z) : R := @mdense RN cs i j.

Lemma mult_vec_real (m : rmat) (cs : list (list (Z * R))) (v : rvec) : stores m cs -> wf v -> vdim v = mnc m ->
  exists r, mat_mult_vec m v = Ok r /\ length r = Z.to_nat (mnr m) /\
    forall i, 0 <= i < mnr m -> nth (Z.to_nat i) r 0%R = sumd (mnc m) (fun j => (mR cs i j * dense v j)%R).
Proof.
  intros Hs Hw Hd. destruct (mat_mult_vec_spec m cs v Hs Hw Hd) as (r & E & Hl & Hn).
  exists r. split; [exact E|]. split; [exact Hl|]. intros i Hi. specialize (Hn i Hi).
  rewrite rn_n0 in Hn. rnum. rewrite Hn.
  assert (Hacc : forall es a, fold_left (@row_acc RN cs i) es a = (a + esum es (fun j x => mR cs i j * x))%R).
  { induction es as [|[j x] es IH]; intros a; cbn [fold_left esum]; [lra|]. rewrite IH. unfold row_acc, mR, mdense. cbn [fst snd].
    rnum. destruct (@mget R cs i j); cbn [oval nadd nmul RN]; rewrite ?rn_n0; lra. }
  rewrite Hacc, Rplus_0_l. rewrite esum_vec by (auto; intros; lra). now rewrite Hd.
Qed.

Lemma mult_vec_trans_real (m : rmat) (cs : list (list (Z * R))) (v t : rvec) : stores m cs -> wf v -> vdim v = mnr m ->
  wf t -> vdim t = mnc m ->
  exists r, mat_mult_vec_trans m v (0%R : @num RN) t = Ok r /\ wf r /\ vdim r = mnc m /\
    forall j, 0 <= j < mnc m -> dense r j = sumd (mnr m) (fun i => (mR cs i j * dense v i)%R).
Proof.
  intros Hs Hw Hd Ht Hdt.
  destruct (mat_mult_vec_trans_spec m cs v (0%R : @num RN) t) as (r & E & Hwr & Hdr & Hg); auto.
  { apply rn_is_zero0, rn_n0. }
  exists r. split; [exact E|]. split; [auto|]. split; [auto|]. intros j Hj. unfold dense. rewrite Hg.
  destruct (Z.leb_spec 0 j), (Z.ltb_spec j (mnc m)); try lia. cbn [andb]. cbv zeta.
  assert (Hdot : @mdot RN (vent v) (nth (Z.to_nat j) cs []) = sumd (mnr m) (fun i => (mR cs i j * dense v i)%R)).
  { destruct (nth_col m cs j Hs Hj) as [_ Hsc]. unfold mdot. destruct Hw as (Hd0 & Hsv & Hcv).
    rewrite (dot_loop_sum _ _ _ _ 0 0 (mnr m)); auto; [|now rewrite <- Hd]. rewrite rn_n0, Rplus_0_l.
    transitivity (esum (vent v) (fun i x => x * mR cs i j)%R).
    - apply esum_ext. intros i x _. unfold mR, mdense, mget. rewrite oval_rn. reflexivity.
    - rewrite esum_vec; [|split; auto|intros; lra]. rewrite Hd. apply sumd_ext. intros i _. lra. }
  rnum. rewrite Hdot. destruct (@is_zero RN _ _) eqn:Ez.
  - apply rn_is_zero0 in Ez. cbn [oval]. rewrite rn_n0. symmetry. exact Ez.
  - reflexivity.
Qed.

(** Adjointness, stated through the vector library's own inner product. *)
Lemma adjoint (m : rmat) (cs : list (list (Z * R))) (x y t : rvec) : stores m cs -> wf x -> wf y -> wf t ->
  vdim x = mnc m -> vdim y = mnr m -> vdim t = mnc m ->
  exists ax aty, mat_mult_vec m x = Ok ax /\ mat_mult_vec_trans m y (0%R : @num RN) t = Ok aty
    /\ sumd (mnr m) (fun i => (nth (Z.to_nat i) ax 0 * dense y i)%R)
       = sumd (mnc m) (fun j => (dense x j * dense aty j)%R).
Proof.
  intros Hs Hx Hy Ht Dx Dy Dt. destruct (mult_vec_real m cs x Hs Hx Dx) as (ax & E1 & _ & H1).
  destruct (mult_vec_trans_real m cs y t Hs Hy Dy Ht Dt) as (aty & E2 & _ & _ & H2).
  exists ax, aty. split; [exact E1|]. split; [exact E2|].
  transitivity (sumd (mnr m) (fun i => sumd (mnc m) (fun j => (mR cs i j * dense x j * dense y i)%R))).
  - apply sumd_ext. intros i Hi. rewrite (H1 i Hi), Rmult_comm, <- sumd_scal. apply sumd_ext. intros j _. ring.
  - rewrite sumd_swap. apply sumd_ext. intros j Hj. rewrite (H2 j Hj), <- sumd_scal. apply sumd_ext. intros i _. ring.
Qed.
