(** The upper part of the augmented system: [add_upper] adds the transposed rows of the working set. *)
From Verif Require Import Base Num Cmp Sparse Vec VecFacts Order VecFacts2 Mat MatFacts MatFacts2 MatFacts3 MatFacts4 Arr
  WorkingSet WorkingSetFacts DualEst DualEstFacts AugJac AugJacFacts.
Local Open Scope Z_scope.

(** One step of the placement in buckets. *)
Lemma block_step {B} size (E P rest : list (Z * B)) r b tail : E = P ++ (r, b) :: rest -> 0 <= r < size ->
  arr_set (concat (map (block E P) (zrange size)) ++ tail)
    (len (concat (map (fun k => bucket k E) (zrange r))) + len (bucket r P)) (Some b)
  = Ok (concat (map (block E (P ++ [(r, b)])) (zrange size)) ++ tail).
Proof.
  intros HE Hr.
  assert (Hle : forall i, (length (bucket i P) <= length (bucket i E))%nat).
  { intros i. rewrite HE, bucket_app, app_length. lia. }
  destruct (zrange_split size r Hr) as (post & Hz).
  set (pre := concat (map (block E P) (zrange r))).
  assert (Hpre : length pre = length (concat (map (fun k => bucket k E) (zrange r)))).
  { apply concat_blocks_length; auto. }
  assert (Hblk : exists q, length (bucket r E) = (length (bucket r P) + S q)%nat).
  { exists (length (bucket r rest)). rewrite HE, bucket_app, bucket_cons, Z.eqb_refl, !app_length. cbn [length]. lia. }
  destruct Hblk as (q & Hq).
  assert (Harr : concat (map (block E P) (zrange size)) ++ tail
     = (pre ++ map Some (bucket r P)) ++ None :: ((repeat None q ++ concat (map (block E P) post)) ++ tail)).
  { rewrite Hz, map_app, concat_app. cbn [map concat]. fold pre. unfold block at 1.
    replace (length (bucket r E) - length (bucket r P))%nat with (S q) by lia.
    cbn [repeat]. rewrite <- !app_assoc. cbn [app]. reflexivity. }
  rewrite Harr. rewrite arr_set_ok by (rewrite !app_length, map_length; cbn [length]; lia).
  replace (Z.to_nat (len (concat (map (fun k => bucket k E) (zrange r))) + len (bucket r P)))
    with (length (pre ++ map Some (bucket r P))) by (rewrite app_length, map_length; lia).
  rewrite set_nth_app. f_equal.
  assert (Hother : forall i, i <> r -> bucket i (P ++ [(r, b)]) = bucket i P).
  { intros i Hi. rewrite bucket_app, bucket_cons. destruct (Z.eqb_spec r i); [congruence|]. cbn. apply app_nil_r. }
  assert (Hself : bucket r (P ++ [(r, b)]) = bucket r P ++ [b]).
  { rewrite bucket_app, bucket_cons, Z.eqb_refl. reflexivity. }
  assert (Hnr : forall i, In i (zrange r) -> i <> r) by (intros i Hi; apply zrange_In in Hi; lia).
  assert (Hnp : forall i, In i post -> i <> r).
  { intros i Hi Heq. subst i. pose proof (zrange_sorted size) as Hs. apply sorted_in_NoDup in Hs. rewrite Hz in Hs.
    apply NoDup_remove_2 in Hs. apply Hs. apply in_or_app. now right. }
  rewrite Hz, map_app, concat_app. cbn [map concat]. unfold block at 3.
  rewrite Hself, map_app, app_length, <- !app_assoc. cbn [map length app].
  replace (length (bucket r E) - (length (bucket r P) + 1))%nat with q by lia.
  unfold pre. f_equal.
  - f_equal. apply map_ext_in. intros i Hi. unfold block. now rewrite (Hother i (Hnr i Hi)).
  - do 5 f_equal. apply map_ext_in. intros i Hi. unfold block. now rewrite (Hother i (Hnp i Hi)).
Qed.

Section Upper.
Context {N : Num}.
Variables (m : mat) (n : Z) (LC : Z -> list (Z * num)) (ci : list Z).
Hypothesis Hn : 0 <= n <= mnc m.
Hypothesis HL : layout m (map LC (zrange n)).
Hypothesis Hsq : mnr m = mnc m.
Let size := mnc m.
Hypothesis Hci : size < len ci.

Definition low_of (j : Z) : list (Z * (Z * num)) := map (fun e => (j, e)) (LC j).
Definition up_of (j : Z) : list (Z * (Z * num)) := map (fun e => (fst e, (j, snd e))) (filter (fun e => n <=? fst e) (LC j)).
Definition ups (j : Z) := concat (map up_of (zrange j)).
Definition lows := concat (map low_of (zrange n)).
Definition allb := lows ++ ups n.
Definition Fc (i : Z) : list (Z * num) := bucket i allb.

Lemma ups_succ j : 0 <= j -> ups (j + 1) = ups j ++ up_of j.
Proof. intros H. unfold ups. rewrite zrange_succ, map_app, concat_app by lia. cbn [map concat]. now rewrite app_nil_r. Qed.

Lemma LC_sorted j : 0 <= j < n -> sorted_in 0 size (keys (LC j)).
Proof.
  intros Hj. destruct HL as (_ & _ & _ & _ & _ & _ & HF). rewrite Forall_forall in HF. unfold size. rewrite <- Hsq. apply HF.
  apply in_map. now apply zrange_In.
Qed.
Lemma LC_in j e : 0 <= j < n -> In e (LC j) -> 0 <= fst e < size.
Proof. intros Hj He. apply (sorted_in_In _ _ _ _ (LC_sorted j Hj)). now apply in_map. Qed.

(** Buckets *)
Lemma bucket_nil_keys {B} i (E : list (Z * B)) : (forall e, In e E -> fst e <> i) -> bucket i E = [].
Proof.
  induction E as [|[r b] E IH]; intros H; [reflexivity|]. rewrite bucket_cons.
  destruct (Z.eqb_spec r i) as [->|]; [exfalso; apply (H (i, b)); [now left|reflexivity]|]. cbn. apply IH. intros e He. apply H. now right.
Qed.
Lemma bucket_const {B} i j (l : list B) : bucket i (map (fun e => (j, e)) l) = if j =? i then l else [].
Proof. induction l as [|b l IH]; cbn [map]; [now destruct (j =? i)|]. rewrite bucket_cons, IH. destruct (j =? i); reflexivity. Qed.

Lemma lows_bucket i : bucket i lows = if (0 <=? i) && (i <? n) then LC i else [].
Proof.
  unfold lows. rewrite bucket_concat, map_map.
  rewrite (map_ext _ (fun j => if j =? i then LC i else [])).
  2:{ intros j. unfold low_of. rewrite bucket_const. destruct (Z.eqb_spec j i) as [->|]; reflexivity. }
  destruct (Z.leb_spec 0 i), (Z.ltb_spec i n); cbn [andb].
  - destruct (zrange_split n i) as (post & Hz); [lia|].
    rewrite Hz, map_app, concat_app. cbn [map concat]. rewrite Z.eqb_refl.
    assert (Hq : forall zs, ~ In i zs -> concat (map (fun j => if j =? i then LC i else []) zs) = []).
    { induction zs as [|k zs IH]; intros Hni; [reflexivity|]. cbn [map concat]. destruct (Z.eqb_spec k i) as [->|]; [exfalso; apply Hni; now left|].
      apply IH. intros Hk. apply Hni. now right. }
    pose proof (zrange_sorted n) as Hs. apply sorted_in_NoDup in Hs. rewrite Hz in Hs. apply NoDup_remove_2 in Hs.
    rewrite !Hq; [apply app_nil_r| |]; intros Hi; apply Hs, in_or_app; auto.
  - clear -H0. assert (Hni : ~ In i (zrange n)) by (intros Hi; apply zrange_In in Hi; lia). revert Hni.
    induction (zrange n) as [|k zs IH]; intros Hni; [reflexivity|]. cbn [map concat]. destruct (Z.eqb_spec k i) as [->|]; [exfalso; apply Hni; now left|].
    apply IH. intros Hk. apply Hni. now right.
  - clear -H. assert (Hni : ~ In i (zrange n)) by (intros Hi; apply zrange_In in Hi; lia). revert Hni.
    induction (zrange n) as [|k zs IH]; intros Hni; [reflexivity|]. cbn [map concat]. destruct (Z.eqb_spec k i) as [->|]; [exfalso; apply Hni; now left|].
    apply IH. intros Hk. apply Hni. now right.
  - clear -H. assert (Hni : ~ In i (zrange n)) by (intros Hi; apply zrange_In in Hi; lia). revert Hni.
    induction (zrange n) as [|k zs IH]; intros Hni; [reflexivity|]. cbn [map concat]. destruct (Z.eqb_spec k i) as [->|]; [exfalso; apply Hni; now left|].
    apply IH. intros Hk. apply Hni. now right.
Qed.

Lemma ups_in j e : 0 <= j <= n -> In e (ups j) -> n <= fst e < size.
Proof.
  intros Hj He. unfold ups in He. apply in_concat in He. destruct He as (l & Hl & He). apply in_map_iff in Hl. destruct Hl as (k & <- & Hk).
  apply zrange_In in Hk. unfold up_of in He. apply in_map_iff in He. destruct He as (e' & <- & He'). apply filter_In in He'. destruct He' as [H1 H2].
  cbn [fst]. apply Z.leb_le in H2. pose proof (LC_in k e' ltac:(lia) H1). lia.
Qed.

Lemma filter_get lo hi (es : list (Z * num)) a i : sorted_in lo hi (keys es) -> a <= i -> get (filter (fun e => a <=? fst e) es) i = get es i.
Proof.
  revert lo. induction es as [|[k x] es IH]; intros lo Hs Hi; [reflexivity|]. cbn [keys map fst sorted_in] in Hs. destruct Hs as [H1 H2].
  cbn [filter fst get]. destruct (Z.leb_spec a k) as [Hk|Hk]; cbn [get].
  - destruct (k =? i); [reflexivity|]. now apply (IH (k + 1)).
  - destruct (Z.eqb_spec k i); [lia|]. now apply (IH (k + 1)).
Qed.

Lemma filter_sorted_in lo hi (es : list (Z * num)) p : sorted_in lo hi (keys es) -> sorted_in lo hi (keys (filter (fun e => p (fst e)) es)).
Proof.
  revert lo. induction es as [|[k x] es IH]; intros lo Hs; [exact Hs|]. cbn [keys map fst sorted_in filter] in *. destruct Hs as [H1 H2].
  destruct (p k); cbn [keys map fst sorted_in].
  - split; [exact H1|]. now apply IH.
  - eapply sorted_in_weaken; [| |apply (IH (k + 1)); exact H2]; lia.
Qed.

Lemma ups_bucket i : n <= i -> bucket i (ups n) = concat (map (fun j => match get (LC j) i with Some x => [(j, x)] | None => [] end) (zrange n)).
Proof.
  intros Hi. unfold ups. rewrite bucket_concat, map_map. f_equal. apply map_ext_in. intros j Hj. apply zrange_In in Hj.
  unfold up_of. rewrite (col_bucket 0 size) by (apply filter_sorted_in with (p := fun k => n <=? k), LC_sorted; lia).
  rewrite (filter_get 0 size) by (auto using LC_sorted). reflexivity.
Qed.

Lemma Fc_low i : 0 <= i < n -> Fc i = LC i.
Proof.
  intros Hi. unfold Fc, allb. rewrite bucket_app, lows_bucket.
  destruct (Z.leb_spec 0 i), (Z.ltb_spec i n); try lia. cbn [andb].
  rewrite (bucket_nil_keys i (ups n)); [apply app_nil_r|]. intros e He. apply (ups_in n) in He; lia.
Qed.
Lemma Fc_up i : n <= i -> Fc i = concat (map (fun j => match get (LC j) i with Some x => [(j, x)] | None => [] end) (zrange n)).
Proof.
  intros Hi. unfold Fc, allb. rewrite bucket_app, lows_bucket. destruct (Z.ltb_spec i n); [lia|]. rewrite andb_false_r. cbn [app]. now apply ups_bucket.
Qed.
Lemma Fc_up_get i j : n <= i -> get (Fc i) j = if (0 <=? j) && (j <? n) then get (LC j) i else None.
Proof.
  intros Hi. rewrite Fc_up by auto. pose proof (trow_get (map LC (zrange n)) i (zrange n) 0 n j (zrange_sorted n)) as G.
  unfold trow in G. rewrite existsb_zrange in G. 
  rewrite (map_ext_in _ (fun k => match get (LC k) i with Some x => [(k, x)] | None => [] end)) in G.
  2:{ intros k Hk. apply zrange_In in Hk. unfold mget. rewrite (nth_map_zrange LC) by lia. reflexivity. }
  rewrite G. destruct (Z.leb_spec 0 j), (Z.ltb_spec j n); cbn [andb]; auto. unfold mget. now rewrite (nth_map_zrange LC) by lia.
Qed.
Lemma Fc_sorted i : 0 <= i -> sorted_in 0 size (keys (Fc i)).
Proof.
  intros Hi. destruct (Z.lt_ge_cases i n).
  - rewrite Fc_low by lia. apply LC_sorted. lia.
  - rewrite Fc_up by lia. eapply sorted_in_weaken; [| |apply (trow_sorted (map LC (zrange n)) i (zrange n) 0 n), zrange_sorted] || idtac.
    rewrite (map_ext_in _ (fun k => match mget (map LC (zrange n)) i k with Some x => [(k, x)] | None => [] end)).
    + eapply sorted_in_weaken; [| |apply (trow_sorted (map LC (zrange n)) i (zrange n) 0 n), zrange_sorted]; unfold size; lia.
    + intros k Hk. apply zrange_In in Hk. unfold mget. rewrite (nth_map_zrange LC) by lia. reflexivity.
Qed.

Lemma concat_lows j : 0 <= j <= n -> concat (map Fc (zrange j)) = concat (map LC (zrange j)).
Proof. intros Hj. f_equal. apply map_ext_in. intros i Hi. apply zrange_In in Hi. apply Fc_low. lia. Qed.

Lemma allb_in e : In e allb -> 0 <= fst e < size.
Proof.
  unfold allb. intros He. apply in_app_iff in He. destruct He as [He|He].
  - unfold lows in He. apply in_concat in He. destruct He as (l & Hl & He). apply in_map_iff in Hl. destruct Hl as (k & <- & Hk).
    apply zrange_In in Hk. unfold low_of in He. apply in_map_iff in He. destruct He as (e' & <- & _). cbn. unfold size. lia.
  - apply (ups_in n) in He; lia.
Qed.
Lemma lows_length : length lows = length (concat (map LC (zrange n))).
Proof. unfold lows. clear HL. generalize (zrange n). induction l as [|j zs IH]; cbn [map concat]; [reflexivity|]. rewrite !app_length, IH. unfold low_of. now rewrite map_length. Qed.

(** The columns before [n] do not depend on the offsets behind. *)
Definition agree (cols : list Z) : Prop := length cols = length (mcols m) /\
  forall k, 0 <= k <= n -> nth_error cols (Z.to_nat k) = nth_error (mcols m) (Z.to_nat k).

Lemma agree_col cols j : agree cols -> 0 <= j < n -> col_entries (set_cols m cols) j = Ok (LC j).
Proof.
  intros [_ Ha] Hj. transitivity (col_entries m j).
  - unfold col_entries. cbn [set_cols mcols ment]. assert (G : forall k, 0 <= k <= n -> arr_get cols k = arr_get (mcols m) k).
    { intros k Hk. unfold arr_get. destruct (0 <=? k); auto. now rewrite Ha. }
    now rewrite !G by lia.
  - apply (layout_col m (map LC (zrange n)) j (LC j) HL); [lia|]. rewrite nth_error_map, zrange_nth by lia. cbn [option_map]. do 2 f_equal. lia.
Qed.
Lemma base_col k : 0 <= k <= n -> nth_error (mcols m) (Z.to_nat k) = Some (len (concat (map Fc (zrange k)))).
Proof.
  intros Hk. destruct HL as (_ & _ & H & _). rewrite H by (rewrite map_length, zrange_length; lia).
  rewrite concat_firstn_map by lia. now rewrite concat_lows by lia.
Qed.
Lemma mcols_len : size < len (mcols m).
Proof. destruct HL as (_ & H & _). unfold size. lia. Qed.

(** *** Counting *)
Definition cinv (P : list (Z * (Z * num))) (cols : list Z) : Prop := agree cols /\
  forall k, n <= k < size -> nth_error cols (Z.to_nat (k + 1)) = Some (len (bucket k P)).

Lemma zero_loop : exists cols, rfold (fun c k => arr_set c k 0) (mcols m) (map (fun k => n + 1 + k) (zrange (size - n))) = Ok cols /\ cinv [] cols.
Proof.
  pose proof mcols_len as Hml. rewrite rfold_map.
  destruct (zrange_loop (fun j cols => agree cols /\ forall k, n <= k < n + j -> nth_error cols (Z.to_nat (k + 1)) = Some 0)
     (fun s a => arr_set s (n + 1 + a) 0) (size - n) (mcols m)) as (cols & E & Ha & Hz).
  - unfold size. lia.
  - split; [split; auto|]. intros; lia.
  - intros j t Hj [[Hl Ha] Hz]. rewrite arr_set_ok by (unfold size in *; lia). eexists. split; [reflexivity|]. split; [split|].
    + now rewrite set_nth_length.
    + intros k Hk. rewrite set_nth_spec by (unfold size in *; lia). destruct (Nat.eqb_spec (Z.to_nat k) (Z.to_nat (n + 1 + j))); [lia|]. auto.
    + intros k Hk. rewrite set_nth_spec by (unfold size in *; lia). destruct (Nat.eqb_spec (Z.to_nat (k + 1)) (Z.to_nat (n + 1 + j))); [reflexivity|].
      apply Hz. lia.
  - exists cols. split; [exact E|]. split; [exact Ha|]. intros k Hk. cbn. apply Hz. lia.
Qed.

Lemma count_inner j es : (forall e, In e es -> 0 <= fst e < size) -> forall P cols, cinv P cols ->
  exists cols', rfold (fun cols e => if fst e <? n then Ok cols else
              x <- arr_get cols (fst e + 1) ;; arr_set cols (fst e + 1) (x + 1)) cols es = Ok cols'
    /\ cinv (P ++ map (fun e : Z * num => (fst e, (j, snd e))) (filter (fun e => n <=? fst e) es)) cols'.
Proof.
  pose proof mcols_len as Hml. induction es as [|[r x] es IH]; intros Hin P cols HC.
  - cbn [filter map rfold]. exists cols. rewrite app_nil_r. auto.
  - cbn [rfold filter fst snd]. assert (Hr := Hin (r, x) (or_introl eq_refl)). cbn [fst] in Hr.
    assert (Hin' : forall e, In e es -> 0 <= fst e < size) by (intros e He; apply Hin; now right).
    destruct (Z.ltb_spec r n) as [H|H]; destruct (Z.leb_spec n r); try lia; cbn [map fst snd].
    + now apply IH.
    + destruct HC as [[Hl Ha] HC]. rewrite (proj2 (arr_get_nth cols (r + 1) (len (bucket r P)) ltac:(lia))) by (apply HC; lia). cbn [rbind].
      rewrite arr_set_ok by lia.
      change (P ++ (r, (j, x)) :: map (fun e : Z * num => (fst e, (j, snd e))) (filter (fun e => n <=? fst e) es))
        with (P ++ [(r, (j, x))] ++ map (fun e : Z * num => (fst e, (j, snd e))) (filter (fun e => n <=? fst e) es)).
      rewrite app_assoc. cbn [rbind]. apply IH; auto. split; [split|].
      * now rewrite set_nth_length.
      * intros k Hk. rewrite set_nth_spec by lia. destruct (Nat.eqb_spec (Z.to_nat k) (Z.to_nat (r + 1))); [lia|]. auto.
      * intros k Hk. rewrite set_nth_spec by lia. rewrite bucket_app, bucket_cons, app_length. destruct (Nat.eqb_spec (Z.to_nat (k + 1)) (Z.to_nat (r + 1))).
        { assert (k = r) as -> by lia. rewrite Z.eqb_refl. cbn. f_equal. lia. }
        { rewrite HC by lia. destruct (Z.eqb_spec r k); [lia|]. cbn. f_equal. lia. }
Qed.

Lemma count_upper cols : cinv [] cols ->
  exists cols', rfold (fun cols col =>
            es <- col_entries (set_cols m cols) col ;;
            rfold (fun cols e =>
              if fst e <? n then Ok cols else
              x <- arr_get cols (fst e + 1) ;; arr_set cols (fst e + 1) (x + 1)) cols es)
          cols (zrange n) = Ok cols' /\ cinv (ups n) cols'.
Proof.
  intros HC.
  match goal with |- context [rfold ?f _ _] => destruct (zrange_loop (fun j t => cinv (ups j) t) f n cols) as (cols' & E & H) end.
  - lia.
  - exact HC.
  - intros j t Hj Ht. rewrite (agree_col t j (proj1 Ht) Hj). cbn [rbind].
    destruct (count_inner j (LC j)) with (P := ups j) (cols := t) as (t' & -> & Ht'); auto.
    + intros e. apply LC_in. lia.
    + exists t'. split; [reflexivity|]. rewrite ups_succ by lia. exact Ht'.
  - exists cols'. auto.
Qed.

(** *** Offsets *)
Definition offs (cols : list Z) : Prop := length cols = length (mcols m) /\
  forall k, 0 <= k <= size -> nth_error cols (Z.to_nat k) = Some (len (concat (map Fc (zrange k)))).

Definition zeroed (P : list (Z * (Z * num))) (c : list Z) : Prop := length c = length ci /\
  forall k, n <= k < size -> nth_error c (Z.to_nat (k + 1)) = Some (len (bucket k P)).

Lemma bucket_up k : n <= k < size -> Fc k = bucket k (ups n).
Proof. intros Hk. unfold Fc, allb. rewrite bucket_app, lows_bucket. destruct (Z.ltb_spec k n); [lia|]. now rewrite andb_false_r. Qed.

Lemma offset_loop cols : cinv (ups n) cols ->
  exists cols' ci', rfold (fun (s : list Z * list Z) col =>
         let (cols, ci) := s in
         x <- arr_get cols col ;; y <- arr_get cols (col - 1) ;;
         cols <- arr_set cols col (x + y) ;;
         ci <- arr_set ci col 0 ;;
         Ok (cols, ci)) (cols, ci) (map (fun k => n + 1 + k) (zrange (size - n))) = Ok (cols', ci')
    /\ offs cols' /\ zeroed [] ci'.
Proof.
  intros HC. pose proof mcols_len as Hml. rewrite rfold_map.
  match goal with |- context [rfold ?f _ _] => destruct (zrange_loop (fun j (s : list Z * list Z) =>
     length (fst s) = length (mcols m) /\ length (snd s) = length ci
     /\ (forall k, 0 <= k <= n + j -> nth_error (fst s) (Z.to_nat k) = Some (len (concat (map Fc (zrange k)))))
     /\ (forall k, n + j <= k < size -> nth_error (fst s) (Z.to_nat (k + 1)) = Some (len (bucket k (ups n))))
     /\ (forall k, n <= k < n + j -> nth_error (snd s) (Z.to_nat (k + 1)) = Some 0)) f (size - n) (cols, ci)) as ([cols' ci'] & E & H1 & H2 & H3 & H4 & H5) end.
  - unfold size. lia.
  - cbn [fst snd]. destruct HC as [[Hl Ha] HC]. repeat split; auto.
    + intros k Hk. rewrite Ha by lia. apply base_col. lia.
    + intros k Hk. apply HC. lia.
    + intros; lia.
  - intros j [c d] Hj (H1 & H2 & H3 & H4 & H5). cbn [fst snd] in *.
    rewrite (proj2 (arr_get_nth c (n + 1 + j) (len (bucket (n + j) (ups n))) ltac:(lia)))
      by (rewrite <- (H4 (n + j)) by lia; do 2 f_equal; lia).
    cbn [rbind]. rewrite (proj2 (arr_get_nth c (n + 1 + j - 1) (len (concat (map Fc (zrange (n + j))))) ltac:(lia)))
      by (rewrite <- (H3 (n + j)) by lia; do 2 f_equal; lia).
    cbn [rbind]. rewrite !arr_set_ok by lia. cbn [rbind]. eexists. split; [reflexivity|]. cbn [fst snd]. rewrite !set_nth_length.
    split; [auto|]. split; [auto|]. split; [|split].
    + intros k Hk. rewrite set_nth_spec by lia. destruct (Nat.eqb_spec (Z.to_nat k) (Z.to_nat (n + 1 + j))).
      * assert (k = n + j + 1) as -> by lia. rewrite zrange_succ, map_app, concat_app, app_length by lia. cbn [map concat].
        rewrite app_nil_r, bucket_up by lia. f_equal. lia.
      * apply H3. lia.
    + intros k Hk. rewrite set_nth_spec by lia. destruct (Nat.eqb_spec (Z.to_nat (k + 1)) (Z.to_nat (n + 1 + j))); [lia|]. apply H4. lia.
    + intros k Hk. rewrite set_nth_spec by lia. destruct (Nat.eqb_spec (Z.to_nat (k + 1)) (Z.to_nat (n + 1 + j))); [reflexivity|]. apply H5. lia.
  - cbn [fst snd] in *. exists cols', ci'. split; [exact E|]. split; [split; [auto|]|split; [auto|]].
    + intros k Hk. apply H3. lia.
    + intros k Hk. apply H5. lia.
Qed.

Lemma offs_agree cols : offs cols -> agree cols.
Proof. intros [Hl H]. split; [exact Hl|]. intros k Hk. rewrite H by (unfold size; lia). now rewrite base_col. Qed.

(** *** Placement *)
Definition store_at (P : list (Z * (Z * num))) (q : nat) : list (option (Z * num)) :=
  concat (map (block allb P) (zrange size)) ++ repeat None q.

Lemma place_inner cols j q es : (forall e, In e es -> 0 <= fst e < size) -> offs cols ->
  forall Q rest, ups n = Q ++ map (fun e : Z * num => (fst e, (j, snd e))) (filter (fun e => n <=? fst e) es) ++ rest ->
  forall c, zeroed Q c ->
  exists c', rfold (fun (s : list Z * list (option (Z * num)) * Z) e =>
           let '(ci, store, nnz) := s in
           if fst e <? n then Ok s else
           c <- arr_get cols (fst e) ;;
           k <- arr_get ci (fst e + 1) ;;
           ci <- arr_set ci (fst e + 1) (k + 1) ;;
           store <- arr_set store (c + k) (Some (j, snd e)) ;;
           Ok (ci, store, nnz + 1)) (c, store_at (lows ++ Q) q, len (lows ++ Q)) es
   = Ok (c', store_at (lows ++ Q ++ map (fun e : Z * num => (fst e, (j, snd e))) (filter (fun e => n <=? fst e) es)) q,
          len (lows ++ Q ++ map (fun e : Z * num => (fst e, (j, snd e))) (filter (fun e => n <=? fst e) es)))
    /\ zeroed (Q ++ map (fun e : Z * num => (fst e, (j, snd e))) (filter (fun e => n <=? fst e) es)) c'.
Proof.
  intros Hin [Hl Ho]. induction es as [|[r x] es IH]; intros Q rest HQ c HZ.
  - cbn [filter map rfold]. exists c. rewrite !app_nil_r. auto.
  - assert (Hr := Hin (r, x) (or_introl eq_refl)). cbn [fst] in Hr.
    assert (Hin' : forall e, In e es -> 0 <= fst e < size) by (intros e He; apply Hin; now right). specialize (IH Hin').
    revert HQ. cbn [rfold filter fst snd]. destruct (Z.ltb_spec r n) as [H|H]; destruct (Z.leb_spec n r); try lia; cbn [map fst snd]; intros HQ.
    + apply (IH Q rest HQ c HZ).
    + rewrite (proj2 (arr_get_nth cols r _ ltac:(lia)) (Ho r ltac:(lia))). cbn [rbind].
      destruct HZ as [Hz1 Hz2]. rewrite (proj2 (arr_get_nth c (r + 1) _ ltac:(lia)) (Hz2 r ltac:(lia))). cbn [rbind].
      rewrite arr_set_ok by lia. cbn [rbind].
      assert (Hbk : bucket r (lows ++ Q) = bucket r Q).
      { rewrite bucket_app, lows_bucket. destruct (Z.ltb_spec r n); [lia|]. now rewrite andb_false_r. }
      assert (Hst : arr_set (store_at (lows ++ Q) q) (len (concat (map Fc (zrange r))) + len (bucket r Q)) (Some (j, x))
         = Ok (store_at ((lows ++ Q) ++ [(r, (j, x))]) q)).
      { unfold store_at. rewrite <- Hbk. eapply (block_step size allb (lows ++ Q)); [|exact Hr].
        unfold allb. rewrite HQ. rewrite <- app_assoc. do 2 f_equal. cbn [app]. reflexivity. }
      rewrite Hst. cbn [rbind].
      set (T := map (fun e : Z * num => (fst e, (j, snd e))) (filter (fun e => n <=? fst e) es)) in *.
      destruct (IH (Q ++ [(r, (j, x))]) rest) with (c := set_nth c (Z.to_nat (r + 1)) (len (bucket r Q) + 1)) as (c' & Ec & HZ').
      * rewrite HQ. rewrite <- app_assoc. reflexivity.
      * split; [now rewrite set_nth_length|]. intros k Hk. rewrite set_nth_spec by lia. rewrite bucket_app, bucket_cons, app_length.
        destruct (Nat.eqb_spec (Z.to_nat (k + 1)) (Z.to_nat (r + 1))).
        { assert (k = r) as -> by lia. rewrite Z.eqb_refl. cbn. f_equal. lia. }
        { rewrite Hz2 by lia. destruct (Z.eqb_spec r k); [lia|]. cbn. f_equal. lia. }
      * exists c'. split.
        { rewrite <- app_assoc. rewrite <- app_assoc in Ec. cbn [app] in Ec. 
          replace (len (lows ++ Q) + 1) with (len (lows ++ Q ++ [(r, (j, x))])) by (rewrite !app_length; cbn [length]; lia).
          exact Ec. }
        { rewrite <- app_assoc in HZ'. exact HZ'. }
Qed.

Lemma ups_prefix j : 0 <= j < n -> exists rest, ups n = ups j ++ up_of j ++ rest.
Proof.
  intros Hj. destruct (zrange_split n j Hj) as (post & Hz). exists (concat (map up_of post)). unfold ups. rewrite Hz, map_app, concat_app. reflexivity.
Qed.

Lemma place_upper cols c q : offs cols -> zeroed [] c ->
  exists c', rfold (fun (s : list Z * list (option (Z * num)) * Z) col =>
         es <- col_entries (set_cols m cols) col ;;
         rfold (fun (s : list Z * list (option (Z * num)) * Z) e =>
           let '(ci, store, nnz) := s in
           if fst e <? n then Ok s else
           c <- arr_get cols (fst e) ;;
           k <- arr_get ci (fst e + 1) ;;
           ci <- arr_set ci (fst e + 1) (k + 1) ;;
           store <- arr_set store (c + k) (Some (col, snd e)) ;;
           Ok (ci, store, nnz + 1)) s es) (c, store_at lows q, len lows) (zrange n)
   = Ok (c', store_at allb q, len allb) /\ zeroed (ups n) c'.
Proof.
  intros Ho HZ.
  match goal with |- context [rfold ?f _ _] => destruct (zrange_loop (fun j (s : list Z * list (option (Z * num)) * Z) =>
      snd (fst s) = store_at (lows ++ ups j) q /\ snd s = len (lows ++ ups j) /\ zeroed (ups j) (fst (fst s))) f n (c, store_at lows q, len lows))
     as ([[c' st] nz] & E & H1 & H2 & H3) end.
  - lia.
  - cbn [fst snd]. change (ups 0) with (@nil (Z * (Z * num))). rewrite app_nil_r. auto.
  - intros j [[d st] nz] Hj (H1 & H2 & H3). cbn [fst snd] in *. subst st nz. rewrite (agree_col cols j (offs_agree cols Ho) Hj). cbn [rbind].
    destruct (ups_prefix j Hj) as (rest & Hu). destruct (place_inner cols j q (LC j)) with (Q := ups j) (rest := rest) (c := d) as (c' & E & HZ'); auto.
    + intros e. apply LC_in. lia.
    + eexists. split; [exact E|]. cbn [fst snd]. rewrite ups_succ by lia. unfold up_of. auto.
  - cbn [fst snd] in *. subst st nz. exists c'. auto.
Qed.

Lemma add_upper_spec : len allb <= mcap m ->
  exists m' ci', add_upper n m ci = Ok (m', ci') /\ stores m' (map Fc (zrange size)) /\ mnr m' = size /\ mnc m' = size /\ length ci' = length ci
    /\ mcap m' = mcap m.
Proof.
  intros Hcap. pose proof mcols_len as Hml. pose proof HL as (L1 & L2 & L3 & L4 & (rest & L5) & L6 & L7).
  unfold add_upper. fold size. destruct zero_loop as (c1 & -> & C1). cbn [rbind].
  destruct (count_upper c1 C1) as (c2 & -> & C2). cbn [rbind].
  destruct (offset_loop c2 C2) as (c3 & d3 & -> & C3 & D3). cbn [rbind].
  assert (Hold : slice (ment m) 0 (mnnz m) = Ok (concat (map LC (zrange n)))).
  { unfold slice. destruct (Z.leb_spec (mnnz m) 0).
    - destruct (concat (map LC (zrange n))); [reflexivity|]. cbn [length] in L4. lia.
    - rewrite L5, app_length. rewrite Z.leb_refl. cbn [andb]. destruct (Z.leb_spec (mnnz m) (Z.of_nat (length (concat (map LC (zrange n))) + length rest))); [|lia].
      f_equal. cbn [skipn Z.to_nat]. rewrite Z.sub_0_r. replace (Z.to_nat (mnnz m)) with (length (concat (map LC (zrange n)))) by lia.
      apply firstn_len_app. }
  rewrite Hold. cbn [rbind].
  assert (Htot : length (concat (map Fc (zrange size))) = length allb).
  { unfold Fc. apply bucket_total. apply allb_in. }
  assert (Hst : map Some (concat (map LC (zrange n))) ++ repeat None (Z.to_nat (mcap m - mnnz m)) = store_at lows (Z.to_nat (mcap m - len allb))).
  { unfold store_at. replace size with (n + (size - n)) by lia. rewrite zrange_app by (unfold size; lia). rewrite map_app, concat_app, map_map.
    rewrite (map_ext_in (block allb lows) (fun i => map Some (LC i)) (zrange n)).
    2:{ intros i Hi. apply zrange_In in Hi. unfold block. change (bucket i allb) with (Fc i). rewrite Fc_low by lia. rewrite lows_bucket.
        destruct (Z.leb_spec 0 i), (Z.ltb_spec i n); try lia. cbn [andb]. rewrite Nat.sub_diag. apply app_nil_r. }
    rewrite (map_ext_in (fun k => block allb lows (n + k)) (fun k => repeat None (length (Fc (n + k)))) (zrange (size - n))).
    2:{ intros i Hi. apply zrange_In in Hi. unfold block. rewrite lows_bucket. destruct (Z.ltb_spec (n + i) n); [lia|]. rewrite andb_false_r. cbn [map app length].
        now rewrite Nat.sub_0_r. }
    rewrite <- (map_map LC (map Some)), <- concat_map, <- app_assoc. f_equal.
    assert (Hr : forall zs, concat (map (fun k => repeat (@None (Z * num)) (length (Fc (n + k)))) zs) = repeat None (length (concat (map (fun k => Fc (n + k)) zs)))).
    { induction zs as [|k zs IH]; cbn [map concat]; [reflexivity|]. now rewrite app_length, repeat_app', IH. }
    rewrite Hr, <- repeat_app'. f_equal.
    replace size with (n + (size - n)) in Htot by lia. rewrite zrange_app, map_app, concat_app, app_length, concat_lows in Htot by (unfold size; lia).
    rewrite map_map in Htot. unfold size in *. lia. }
  rewrite Hst. replace (mnnz m) with (len lows) by (rewrite lows_length; lia).
  destruct (place_upper c3 d3 (Z.to_nat (mcap m - len allb)) C3 D3) as (d4 & -> & D4). cbn [rbind].
  assert (Hfull : firstn (Z.to_nat (len allb)) (store_at allb (Z.to_nat (mcap m - len allb))) = map Some (concat (map Fc (zrange size)))).
  { unfold store_at. rewrite (map_ext _ _ (fun i => block_full allb i)).
    replace (map (fun a => map Some (bucket a allb)) (zrange size)) with (map (map (@Some (Z * num))) (map Fc (zrange size))) by (rewrite map_map; reflexivity).
    rewrite <- concat_map. rewrite Nat2Z.id. replace (length allb) with (length (map (@Some (Z * num)) (concat (map Fc (zrange size))))) by (rewrite map_length; exact Htot).
    apply firstn_len_app. }
  rewrite Hfull, rmapM_some. cbn [rbind].
  eexists _, d4. split; [reflexivity|]. destruct C3 as [K1 K2]. destruct D4 as [K3 _]. split; [split|].
  - unfold layout. cbn [mnr mnc mnnz mcap mcols ment]. rewrite map_length, zrange_length. split; [lia|]. split; [unfold size in *; lia|]. split; [|split; [|split; [|split]]].
    + intros j Hj. pose proof (K2 (Z.of_nat j) ltac:(unfold size; lia)) as H. rewrite Nat2Z.id in H. rewrite H. do 2 f_equal.
      rewrite <- (Nat2Z.id j) at 2. rewrite concat_firstn_map by (unfold size; lia). reflexivity.
    + now rewrite Htot.
    + exists []. now rewrite app_nil_r.
    + exact Hcap.
    + apply Forall_forall. intros c Hc. apply in_map_iff in Hc. destruct Hc as (i & <- & Hi). apply zrange_In in Hi. rewrite Hsq. apply Fc_sorted. lia.
  - cbn [mnc]. rewrite map_length, zrange_length. unfold size. lia.
  - cbn [mnr mnc mcap]. unfold size in *. auto.
Qed.
End Upper.
