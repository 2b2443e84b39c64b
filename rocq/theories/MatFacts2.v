(** Products, removal of rows and columns, stacking, equality and validity of matrices. *)
From Coq Require Import Reals Lra.
From Verif Require Import Base Num Cmp Sparse Vec VecFacts VecFacts2 RSum VecReal Mat MatFacts.
Local Open Scope Z_scope.

(** The [(i,j)] entry (if stored) of the matrix with columns [cs]. *)
Definition mget {V} (cs : list (list (Z * V))) (i j : Z) : option V :=
  get (nth (Z.to_nat j) cs []) i.

Section MatFacts2.
Context {N : Num}.
Implicit Types (m : mat) (cs : list (list (Z * num))).

Definition mdense cs i j : num := oval (mget cs i j).

Lemma nth_col m cs j : stores m cs -> 0 <= j < mnc m ->
  col_entries m j = Ok (nth (Z.to_nat j) cs []) /\ sorted_in 0 (mnr m) (keys (nth (Z.to_nat j) cs [])).
Proof.
  intros Hs Hj. destruct (stores_col m cs j Hs Hj) as (c & E1 & E2 & H).
  assert (nth (Z.to_nat j) cs [] = c) as -> by (apply nth_error_nth; auto). auto.
Qed.

Lemma map_nth_zrange cs n : n = len cs -> map (fun j => nth (Z.to_nat j) cs []) (zrange n) = cs.
Proof.
  intros ->. apply nth_error_ext. intros k. rewrite nth_error_map.
  destruct (Nat.lt_ge_cases k (length cs)) as [Hlt|Hge].
  - rewrite zrange_nth by lia. cbn [option_map]. rewrite Nat2Z.id.
    symmetry. apply nth_error_nth'. auto.
  - replace (nth_error (zrange _) k) with (@None Z). { cbn. symmetry. now apply nth_error_None. }
    symmetry. apply nth_error_None. rewrite zrange_length. lia.
Qed.

Lemma layout_facts m cs : stores m cs -> 0 <= mnr m /\ 0 <= mnc m /\ 0 <= mnnz m <= mcap m
  /\ mnnz m = len (concat cs) /\ Forall (fun c => sorted_in 0 (mnr m) (keys c)) cs.
Proof. intros [(H1 & H2 & H3 & H4 & H5 & H6 & H7) Hn]. repeat split; auto; lia. Qed.

(** ** C12: products *)

(** Adding the multiples [f * a] of one column into the result array. *)
Lemma col_axpy (f : num) es (r : list num) lo : 0 <= lo ->
  sorted_in lo (len r) (keys es) ->
  exists r', rfold (fun r (me : Z * num) => old <- arr_get r (fst me) ;;
                                 arr_set r (fst me) (nadd old (nmul f (snd me)))) r es = Ok r'
    /\ length r' = length r
    /\ forall i, nth i r' n0 = match get es (Z.of_nat i) with
                               | Some a => if (i <? length r)%nat then nadd (nth i r n0) (nmul f a) else n0
                               | None => nth i r n0 end.
Proof.
  revert r lo; induction es as [|[k a] es IH]; intros r lo Hlo Hs.
  - exists r. repeat split; auto.
  - cbn [keys map fst sorted_in] in Hs. destruct Hs as [Hk Hs]. cbn [rfold fst snd].
    assert (Hkl : (Z.to_nat k < length r)%nat).
    { lia. }
    destruct (nth_error r (Z.to_nat k)) as [old|] eqn:E; [|apply nth_error_None in E; lia].
    assert (Eg : arr_get r k = Ok old) by (apply arr_get_nth; auto; lia). rewrite Eg. cbn [rbind].
    rewrite arr_set_ok by lia. cbn [rbind].
    destruct (IH (set_nth r (Z.to_nat k) (nadd old (nmul f a))) (k + 1)) as (r' & -> & Hl & Hn); [lia| |].
    { rewrite set_nth_length. exact Hs. }
    exists r'. split; [reflexivity|]. rewrite set_nth_length in *. split; [auto|].
    intros i. rewrite Hn. cbn [get].
    assert (Hset : nth i (set_nth r (Z.to_nat k) (nadd old (nmul f a))) n0
              = if Nat.eqb i (Z.to_nat k) then nadd old (nmul f a) else nth i r n0).
    { destruct (Nat.lt_ge_cases i (length r)) as [Hi|Hi].
      - apply nth_error_nth. rewrite set_nth_spec by auto. destruct (Nat.eqb i (Z.to_nat k)); auto.
        apply nth_error_nth'. auto.
      - rewrite !nth_overflow by (rewrite ?set_nth_length; auto).
        destruct (Nat.eqb_spec i (Z.to_nat k)); [lia|reflexivity]. }
    rewrite Hset. destruct (Z.eqb_spec k (Z.of_nat i)) as [->|Hne].
    + rewrite (get_below (Z.of_nat i + 1) (len r) es) by (auto; lia). rewrite Nat2Z.id, Nat.eqb_refl.
      rewrite Nat2Z.id in *. destruct (Nat.ltb_spec i (length r)); [|lia]. do 2 f_equal.
      symmetry. now apply nth_error_nth.
    + destruct (Nat.eqb_spec i (Z.to_nat k)); [lia|]. reflexivity.
Qed.

(** Bit-exact: each component of the product is accumulated over the entries of the
    vector, in order. *)
Definition row_acc cs (i : Z) (acc : num) (e : Z * num) : num :=
  match mget cs i (fst e) with Some a => nadd acc (nmul (snd e) a) | None => acc end.

Lemma mat_mult_vec_spec m cs v : stores m cs -> wf v -> vdim v = mnc m ->
  exists r, mat_mult_vec m v = Ok r /\ length r = Z.to_nat (mnr m) /\
    forall i, 0 <= i < mnr m -> nth (Z.to_nat i) r n0 = fold_left (row_acc cs i) (vent v) n0.
Proof.
  intros Hs (Hd & Hsv & _) Hdim. unfold mat_mult_vec.
  destruct (Z.eqb_spec (mnc m) (vdim v)); [|lia]. cbn [check rbind].
  pose proof (layout_facts m cs Hs) as (Hr & _).
  assert (H : forall es r0, (forall j, In j (keys es) -> 0 <= j < mnc m) -> length r0 = Z.to_nat (mnr m) ->
    exists r, rfold (fun r (e : Z * num) => es <- col_entries m (fst e) ;;
       rfold (fun r me => old <- arr_get r (fst me) ;;
                          arr_set r (fst me) (nadd old (nmul (snd e) (snd me)))) r es) r0 es = Ok r
    /\ length r = Z.to_nat (mnr m)
    /\ forall i, 0 <= i < mnr m -> nth (Z.to_nat i) r n0 = fold_left (row_acc cs i) es (nth (Z.to_nat i) r0 n0)).
  { induction es as [|[j f] es IH]; intros r0 Hin Hl.
    - exists r0. repeat split; auto.
    - cbn [rfold fst snd]. destruct (nth_col m cs j Hs) as [-> Hsc]; [apply Hin; now left|]. cbn [rbind].
      destruct (col_axpy f (nth (Z.to_nat j) cs []) r0 0) as (r1 & -> & Hl1 & Hn1); [lia| |].
      { rewrite Hl, Z2Nat.id by lia. exact Hsc. }
      cbn [rbind]. destruct (IH r1) as (r & -> & Hl2 & Hn2).
      { intros k Hk. apply Hin. now right. } { lia. }
      exists r. split; [reflexivity|]. split; [auto|]. intros i Hi. rewrite Hn2 by auto. cbn [fold_left]. f_equal.
      rewrite Hn1. unfold row_acc, mget. cbn [fst snd]. rewrite Z2Nat.id by lia.
      destruct (get (nth (Z.to_nat j) cs []) i); auto.
      destruct (Nat.ltb_spec (Z.to_nat i) (length r0)); [reflexivity|lia]. }
  destruct (H (vent v) (repeat n0 (Z.to_nat (mnr m)))) as (r & E & Hl & Hn).
  - intros j Hj. rewrite <- Hdim. apply (sorted_in_In _ _ _ _ Hsv Hj).
  - apply repeat_length.
  - exists r. split; [exact E|]. split; [exact Hl|]. intros i Hi. rewrite Hn by auto. f_equal.
    apply nth_repeat.
Qed.

Lemma nonempty_cols_spec m cs : stores m cs ->
  nonempty_cols m = Ok (len (filter (fun c => match c with [] => false | _ => true end) cs)).
Proof.
  intros Hs. pose proof Hs as [HL Hn]. unfold nonempty_cols.
  set (P := fun c : list (Z * num) => match c with [] => false | _ => true end).
  destruct (zrange_loop (fun j n => n = len (filter P (firstn (Z.to_nat j) cs)))
     (fun n col => a <- arr_get (mcols m) col ;; b <- arr_get (mcols m) (col + 1) ;;
                   Ok (if 0 <? b - a then n + 1 else n)) (mnc m) 0) as (n & E & Hn').
  - lia.
  - reflexivity.
  - intros j t Hj ->. rewrite !(layout_get m cs _ HL) by lia. cbn [rbind]. eexists. split; [reflexivity|].
    replace (Z.to_nat (j + 1)) with (S (Z.to_nat j)) by lia.
    destruct (stores_col m cs j Hs Hj) as (c & Ec & _). rewrite (concat_firstn_S cs _ c Ec).
    assert (Hf : firstn (S (Z.to_nat j)) cs = firstn (Z.to_nat j) cs ++ [c]).
    { clear -Ec. revert Ec. generalize (Z.to_nat j) as k. intros k; revert cs. induction k as [|k IH]; intros [|d cs] E; try discriminate.
      - injection E as ->. reflexivity.
      - rewrite firstn_cons. rewrite (IH cs E). reflexivity. }
    rewrite Hf, filter_app, !app_length. cbn [filter].
    destruct c as [|e c]; cbn [length P];
      [change (P []) with false|change (P (e :: c)) with true]; cbn [length];
      match goal with |- context [0 <? ?q] => destruct (Z.ltb_spec 0 q) end; lia.
  - rewrite E, Hn'. rewrite firstn_all2 by lia. reflexivity.
Qed.

(** Generic push-or-drop loop over an index range. *)
Lemma rfold_zrange_push (g : Z -> num) (drop : Z -> bool) body n (r : vec) :
  (forall t j, 0 <= j < n -> body t j = if drop j then Ok t else vec_push t j (g j)) ->
  rfold body r (zrange n)
  = push_all r (map (fun j => (j, g j)) (filter (fun j => negb (drop j)) (zrange n))).
Proof.
  intros H. rewrite <- (rfold_filter_push drop (fun j => j) g). apply rfold_ext.
  intros t j Hj. apply H. now apply zrange_In.
Qed.

Lemma zrange_sorted n : sorted_in 0 n (zrange n).
Proof.
  destruct (Z.le_gt_cases 0 n).
  - unfold zrange. pose proof (sorted_enum_from 0 (repeat tt (Z.to_nat n))) as Hs.
    rewrite keys_enum_from, repeat_length in Hs. rewrite Z.add_0_l, Z2Nat.id in Hs by lia. exact Hs.
  - rewrite zrange_neg by lia. exact I.
Qed.

Lemma existsb_zrange n i : existsb (Z.eqb i) (zrange n) = (0 <=? i) && (i <? n).
Proof.
  apply eq_true_iff_eq. rewrite existsb_In, zrange_In, andb_true_iff, Z.leb_le, Z.ltb_lt. reflexivity.
Qed.

(** The merge of vector and column. *)
Definition mdot (l1 l2 : list (Z * num)) : num := dot_loop (length l1 + length l2) l1 l2 n0.

Lemma mdot_nil_r l : mdot l [] = n0.
Proof. unfold mdot. destruct l as [|[i x] l]; reflexivity. Qed.

Lemma mat_mult_vec_trans_spec m cs v eps t : stores m cs -> wf v -> vdim v = mnr m ->
  wf t -> vdim t = mnc m -> is_zero n0 eps = true ->
  exists r, mat_mult_vec_trans m v eps t = Ok r /\ wf r /\ vdim r = mnc m /\
    forall j, get (vent r) j =
      if (0 <=? j) && (j <? mnc m) then
        let s := mdot (vent v) (nth (Z.to_nat j) cs []) in
        if is_zero s eps then None else Some s
      else None.
Proof.
  intros Hs Hw Hd Ht Hdt Hz. unfold mat_mult_vec_trans.
  destruct (Z.eqb_spec (mnr m) (vdim v)); [|lia]. destruct (Z.eqb_spec (mnc m) (vdim t)); [|lia]. cbn [check rbind].
  rewrite (nonempty_cols_spec m cs Hs). cbn [rbind].
  set (P := fun c : list (Z * num) => match c with [] => false | _ => true end).
  destruct (vec_reserve_spec (vec_clear t) (len (filter P cs))) as (t1 & -> & Hw1 & Hd1 & He1 & Hc1);
    [now apply wf_clear|lia|]. cbn [rbind].
  set (g := fun j => mdot (vent v) (nth (Z.to_nat j) cs [])).
  rewrite (rfold_zrange_push g (fun j => is_zero (g j) eps)).
  2:{ intros u j Hj. destruct (nth_col m cs j Hs Hj) as [-> _]. cbn [rbind]. fold (mdot (vent v) (nth (Z.to_nat j) cs [])).
      reflexivity. }
  set (idx := filter (fun j => negb (is_zero (g j) eps)) (zrange (mnc m))).
  pose proof (layout_facts m cs Hs) as (_ & Hnc & _). pose proof Hs as [_ Hlen].
  assert (Hidx : sorted_in 0 (mnc m) idx) by (apply sorted_filter, zrange_sorted).
  assert (Hcount : (length idx <= length (filter P cs))%nat).
  { unfold idx. rewrite <- (map_nth_zrange cs (mnc m) Hlen) at 1.
    generalize (zrange (mnc m)) as zs. induction zs as [|z zs IH]; cbn [filter map length]; [lia|].
    unfold g at 1. unfold P at 1. destruct (nth (Z.to_nat z) cs []) as [|e' c] eqn:Ec.
    - rewrite mdot_nil_r, Hz. cbn [negb]. exact IH.
    - destruct (negb _); cbn [length]; lia. }
  assert (Hk : keys (map (fun j => (j, g j)) idx) = idx).
  { unfold keys. rewrite map_map. cbn. apply map_id. }
  rewrite push_all_ok; rewrite ?He1; cbn [vec_clear vent app].
  - eexists. split; [reflexivity|]. cbn [vdim vent]. rewrite Hd1. cbn [vec_clear vdim].
    split; [|split; [auto|]].
    + unfold wf; cbn [vdim vcap vent]. cbn [vec_clear vdim]. rewrite Hk, map_length. repeat split; try lia.
      now rewrite Hdt.
    + intros j. unfold idx. rewrite (get_map_filter (fun j => negb (is_zero (g j) eps)) g 0 (mnc m)) by apply zrange_sorted.
      rewrite existsb_zrange. unfold g. destruct ((0 <=? j) && (j <? mnc m)); cbn [andb negb]; [|reflexivity].
      cbv zeta. destruct (is_zero (mdot (vent v) (nth (Z.to_nat j) cs [])) eps); reflexivity.
  - cbn [vec_clear vdim] in Hd1. rewrite Hd1, Hdt, Hk. exact Hidx.
  - unfold vnnz. rewrite He1. cbn [vec_clear vent length]. rewrite map_length. lia.
Qed.

(** ** C14: removal of rows and columns *)

Lemma mremove_loop_spec pre fs es lo lo' hi hi' col t :
  sorted_in lo hi (pre ++ fs) -> sorted_in lo' hi' (keys es) ->
  (forall f, In f pre -> forall i, In i (keys es) -> f < i) ->
  mremove_loop fs (len pre) es col t = push_entries t col (remove_ents (pre ++ fs) es).
Proof.
  revert pre fs lo' t; induction es as [|[i x] es IH]; intros pre fs lo' t Hf He Hpre; [reflexivity|].
  cbn [mremove_loop remove_ents]. destruct (skip_lt fs (len pre) i) as [fs' off'] eqn:Esk.
  assert (Hfs : exists l, sorted_in l hi fs). { apply sorted_in_app in Hf. destruct Hf as [_ Hf]. eauto. }
  destruct Hfs as (l & Hfs).
  destruct (skip_lt_spec _ _ _ _ _ _ _ Hfs Esk) as (p & -> & -> & Hp1 & Hp2).
  cbn [keys map fst sorted_in] in He. destruct He as [Hi He].
  assert (Hpre' : forall f, In f (pre ++ p) -> forall k, In k (keys es) -> f < k).
  { intros f Hin k Hk. pose proof (sorted_in_In _ _ _ _ He Hk). apply in_app_iff in Hin. destruct Hin as [Hin|Hin].
    - apply Hpre; auto. right. exact Hk.
    - specialize (Hp1 f Hin). lia. }
  assert (Hlt : forall f, In f (pre ++ p) -> f < i).
  { intros f Hin. apply in_app_iff in Hin. destruct Hin as [Hin|Hin]; auto. apply Hpre; auto. now left. }
  rewrite app_assoc in Hf. 
  assert (Hc : count_lt (pre ++ p ++ fs') i = len pre + len p).
  { rewrite app_assoc, count_lt_app, count_lt_all, count_lt_none by auto.
    rewrite app_length. lia. }
  replace (len pre + len p) with (len (pre ++ p)) in * by (rewrite app_length; lia).
  destruct (existsb (Z.eqb i) (pre ++ p ++ fs')) eqn:Ex.
  - apply existsb_In in Ex. rewrite app_assoc in Ex. apply in_app_iff in Ex. destruct Ex as [Ex|Ex].
    { specialize (Hlt i Ex). lia. }
    destruct fs' as [|f fs']; [destruct Ex|].
    assert (f = i) as ->.
    { destruct Ex as [->|Ex]; auto. assert (Hfi : i <= f) by (apply Hp2; now left).
      apply sorted_in_app in Hf. destruct Hf as [_ Hf]. destruct Hf as [_ Hf].
      pose proof (sorted_in_In _ _ _ _ Hf Ex). lia. }
    rewrite Z.eqb_refl. rewrite (IH (pre ++ p) (i :: fs') (i + 1)); auto. now rewrite <- app_assoc.
  - assert (Hni : ~ In i fs').
    { intros H. assert (In i (pre ++ p ++ fs')) by (rewrite !in_app_iff; auto).
      apply existsb_In in H0. congruence. }
    rewrite Hc. unfold push_entries at 1. cbn [rfold fst snd].
    assert (IH' : forall t, mremove_loop fs' (len (pre ++ p)) es col t
       = push_entries t col (remove_ents (pre ++ p ++ fs') es)).
    { intros u. rewrite (IH (pre ++ p) fs' (i + 1)); auto. now rewrite <- app_assoc. }
    destruct fs' as [|f fs'].
    + destruct (mat_push t (i - len (pre ++ p)) col x); cbn [rbind]; auto. apply IH'.
    + destruct (Z.eqb_spec f i) as [->|]; [exfalso; apply Hni; now left|].
      destruct (mat_push t (i - len (pre ++ p)) col x); cbn [rbind]; auto. apply IH'.
Qed.

Lemma remove_ents_sorted0 fs dim (es : list (Z * num)) :
  sorted_in 0 dim fs -> sorted_in 0 dim (keys es) ->
  sorted_in 0 (dim - len fs) (keys (remove_ents fs es)).
Proof.
  intros Hf He. apply (remove_ents_sorted fs dim 0 es Hf He); [lia|].
  rewrite count_lt_none; [lia|]. intros f Hin. apply (sorted_in_In _ _ _ _ Hf Hin).
Qed.

(** One column copied into the target with rows [fs] removed. *)
Lemma copy_col_removed m cs t ts j k fs : stores m cs -> 0 <= j < mnc m ->
  sorted_in 0 (mnr m) fs -> mnr m = mnr t + len fs ->
  layout t ts -> k = len ts -> k < mnc t -> mnnz t + len (remove_ents fs (nth (Z.to_nat j) cs [])) <= mcap t ->
  exists t', (t <- mat_push_col t k ;; es <- col_entries m j ;; mremove_loop fs 0 es k t) = Ok t'
    /\ layout t' (ts ++ [remove_ents fs (nth (Z.to_nat j) cs [])]) /\ shape t' t.
Proof.
  intros Hs Hj Hf Hr HL -> Hk Hcap.
  destruct (layout_push_col t ts HL Hk) as (t1 & -> & HL1 & Hsh1). cbn [rbind].
  destruct (nth_col m cs j Hs Hj) as [-> Hsc]. cbn [rbind].
  pose proof (mremove_loop_spec [] fs (nth (Z.to_nat j) cs []) 0 0 (mnr m) (mnr m) (len ts) t1 Hf Hsc) as Hloop.
  cbn [length app] in Hloop. change (Z.of_nat 0) with 0 in Hloop. rewrite Hloop by (intros f []).
  pose proof Hsh1 as (S1 & S2 & S3).
  destruct (layout_push_entries (remove_ents fs (nth (Z.to_nat j) cs [])) t1 ts [] HL1) as (t2 & -> & HL2 & Hsh2).
  - cbn [app]. rewrite S1. replace (mnr t) with (mnr m - len fs) by lia. now apply remove_ents_sorted0.
  - rewrite S3.
    destruct HL as (_ & _ & _ & HN & _). destruct HL1 as (_ & _ & _ & -> & _).
    rewrite concat_app, app_length. cbn [concat length app]. lia.
  - exists t2. split; [reflexivity|]. split; [exact HL2|]. eapply shape_trans; eauto.
Qed.

Lemma concat_map_le {A B} (f : list A -> list B) (l : list (list A)) :
  (forall c, (length (f c) <= length c)%nat) -> (length (concat (map f l)) <= length (concat l))%nat.
Proof. intros H. induction l as [|c l IH]; cbn; [lia|]. rewrite !app_length. specialize (H c). lia. Qed.

Lemma mat_remove_rows_layout m cs t fs : stores m cs -> mwf t -> sorted_in 0 (mnr m) fs ->
  mnc t = mnc m -> mnr m = mnr t + len fs ->
  exists t', mat_remove_rows m t fs = Ok t' /\ stores t' (map (remove_ents fs) cs)
    /\ mnr t' = mnr t /\ mnc t' = mnc t.
Proof.
  intros Hs (ts & Ht) Hf Hc Hr. unfold mat_remove_rows.
  pose proof (layout_facts m cs Hs) as (Hr0 & Hc0 & Hnn & HN & HF).
  pose proof (layout_facts t ts Ht) as (Hr0' & Hc0' & Hnn' & _).
  destruct (mat_reserve_spec t (mnnz m) ts) as (t1 & -> & HL1 & R1 & R2 & R3 & R4); [apply Ht|lia|]. cbn [rbind].
  destruct (mat_clear_spec t1) as (HL2 & S1 & S2 & S3); try lia.
  rewrite S1, S2, R1, R2. destruct (Z.eqb_spec (mnc m) (mnc t)); [|lia].
  destruct (Z.eqb_spec (mnr m) (mnr t + len fs)); [|lia]. cbn [check rbind].
  destruct (build_loop (fun t col => t <- mat_push_col t col ;; es <- col_entries m col ;; mremove_loop fs 0 es col t)
    (fun j => remove_ents fs (nth (Z.to_nat j) cs [])) (mat_clear t1) (mnc m)) as (t3 & E & Hst & Hsh).
  - intros u us j HLu (U1 & U2 & U3) Hj Hj' Hcap.
    destruct (copy_col_removed m cs u us j j fs) as (u' & Eu & HLu' & Hshu); auto; try lia.
    exists u'. split; [exact Eu|]. split; [exact HLu'|]. eapply shape_trans; eauto. now repeat split.
  - exact HL2.
  - lia.
  - rewrite <- map_map with (g := remove_ents fs), map_nth_zrange by apply Hs.
    pose proof (concat_map_le (remove_ents fs) cs (remove_ents_length fs)). lia.
  - rewrite <- map_map with (g := remove_ents fs), map_nth_zrange in Hst by apply Hs.
    exists t3. split; [exact E|]. split; [exact Hst|]. destruct Hsh as (? & ? & ?). lia.
Qed.
End MatFacts2.
