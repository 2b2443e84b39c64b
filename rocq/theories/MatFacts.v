(** Facts about the sparse matrix model. *)
From Verif Require Import Base Num Cmp Sparse Vec VecFacts VecFacts2 Mat.
Local Open Scope Z_scope.

Notation len l := (Z.of_nat (length l)).

Lemma set_nth_app {A} (a b : list A) x y : set_nth (a ++ x :: b) (length a) y = a ++ y :: b.
Proof. induction a as [|c a IH]; simpl; [reflexivity|]. now rewrite IH. Qed.

Lemma arr_get_nth {A} (l : list A) i a : 0 <= i -> (arr_get l i = Ok a <-> nth_error l (Z.to_nat i) = Some a).
Proof.
  intros Hi. unfold arr_get. destruct (Z.leb_spec 0 i); [|lia].
  destruct (nth_error l (Z.to_nat i)); split; intros E; congruence.
Qed.

Lemma zrange_length n : length (zrange n) = Z.to_nat n.
Proof. unfold zrange. now rewrite map_length, seq_length. Qed.

Lemma zrange_In n i : In i (zrange n) <-> 0 <= i < n.
Proof.
  unfold zrange. rewrite in_map_iff. split.
  - intros (k & <- & Hk). apply in_seq in Hk. lia.
  - intros H. exists (Z.to_nat i). split; [lia|]. apply in_seq. lia.
Qed.

Lemma zrange_succ n : 0 <= n -> zrange (n + 1) = zrange n ++ [n].
Proof.
  intros H. unfold zrange. replace (Z.to_nat (n + 1)) with (S (Z.to_nat n)) by lia.
  rewrite seq_S, map_app. simpl. f_equal. f_equal. lia.
Qed.

Lemma zrange_neg n : n <= 0 -> zrange n = [].
Proof. intros H. unfold zrange. replace (Z.to_nat n) with 0%nat by lia. reflexivity. Qed.

Lemma zrange_nth n k : (k < Z.to_nat n)%nat -> nth_error (zrange n) k = Some (Z.of_nat k).
Proof.
  intros H. unfold zrange. apply map_nth_error.
  rewrite nth_error_nth' with (d := 0%nat) by (rewrite seq_length; lia). now rewrite seq_nth by lia.
Qed.

(** Invariant rule for counting loops. *)
Lemma zrange_loop {S} (I : Z -> S -> Prop) (f : S -> Z -> res S) n s :
  0 <= n -> I 0 s ->
  (forall j t, 0 <= j < n -> I j t -> exists t', f t j = Ok t' /\ I (j + 1) t') ->
  exists s', rfold f s (zrange n) = Ok s' /\ I n s'.
Proof.
  intros Hn H0 Hstep.
  assert (H : forall k, (k <= Z.to_nat n)%nat -> exists s', rfold f s (zrange (Z.of_nat k)) = Ok s' /\ I (Z.of_nat k) s').
  { induction k as [|k IH]; intros Hk.
    - exists s. split; [reflexivity|exact H0].
    - destruct IH as (t & E & Ht); [lia|].
      destruct (Hstep (Z.of_nat k) t) as (t' & E' & Ht'); [lia|exact Ht|].
      exists t'. replace (Z.of_nat (Datatypes.S k)) with (Z.of_nat k + 1) by lia. split; [|exact Ht'].
      rewrite zrange_succ by lia. rewrite rfold_app, E. cbn [rbind rfold]. rewrite E'. reflexivity. }
  destruct (H (Z.to_nat n)) as (s' & E & Hs'); [lia|]. exists s'. rewrite Z2Nat.id in * by lia. auto.
Qed.

Lemma firstn_len_app {A} (a b : list A) : firstn (length a) (a ++ b) = a.
Proof. rewrite firstn_app, firstn_all, Nat.sub_diag. simpl. apply app_nil_r. Qed.

Lemma skipn_len_app {A} (a b : list A) : skipn (length a) (a ++ b) = b.
Proof. rewrite skipn_app, skipn_all, Nat.sub_diag. reflexivity. Qed.

Lemma concat_firstn_S {A} (cs : list (list A)) j c : nth_error cs j = Some c ->
  concat (firstn (S j) cs) = concat (firstn j cs) ++ c.
Proof.
  revert j; induction cs as [|d cs IH]; intros [|j] H; cbn [nth_error] in H; try discriminate.
  - injection H as ->. cbn. now rewrite app_nil_r.
  - rewrite !firstn_cons. cbn [concat]. rewrite (IH j H). now rewrite app_assoc.
Qed.

Lemma concat_firstn_skipn {A} (cs : list (list A)) j : concat cs = concat (firstn j cs) ++ concat (skipn j cs).
Proof. rewrite <- concat_app, firstn_skipn. reflexivity. Qed.

Lemma nth_error_skipn_hd {A} (cs : list A) j c : nth_error cs j = Some c ->
  skipn j cs = c :: skipn (S j) cs.
Proof.
  revert j; induction cs as [|d cs IH]; intros [|j] H; cbn [nth_error] in H; try discriminate.
  - injection H as ->. reflexivity.
  - rewrite !skipn_cons. now apply IH.
Qed.

Section MatFacts.
Context {N : Num}.
Implicit Types (m : mat) (cs : list (list (Z * num))).

(** The arrays of [m] store the columns [cs] (the first [length cs] columns) and
    nothing else: column [j] starts where the first [j] columns end. *)
Definition layout m cs : Prop :=
  0 <= mnr m /\ len cs <= mnc m < len (mcols m)
  /\ (forall j, (j <= length cs)%nat -> nth_error (mcols m) j = Some (len (concat (firstn j cs))))
  /\ mnnz m = len (concat cs)
  /\ (exists rest, ment m = concat cs ++ rest)
  /\ mnnz m <= mcap m
  /\ Forall (fun c => sorted_in 0 (mnr m) (keys c)) cs.

(** [m] stores exactly the columns [cs]. *)
Definition stores m cs : Prop := layout m cs /\ mnc m = len cs.

Definition mwf m : Prop := exists cs, stores m cs.

Definition shape m m' : Prop := mnr m = mnr m' /\ mnc m = mnc m' /\ mcap m = mcap m'.

Lemma layout_get m cs j : layout m cs -> 0 <= j <= len cs ->
  arr_get (mcols m) j = Ok (len (concat (firstn (Z.to_nat j) cs))).
Proof.
  intros (_ & _ & H & _) Hj. apply arr_get_nth; [lia|]. apply H. lia.
Qed.

Lemma layout_col m cs j c : layout m cs -> 0 <= j -> nth_error cs (Z.to_nat j) = Some c ->
  col_entries m j = Ok c.
Proof.
  intros HL Hj Hc. assert (Hlt : (Z.to_nat j < length cs)%nat) by (apply nth_error_Some; congruence).
  unfold col_entries. rewrite (layout_get m cs j HL) by lia. rewrite (layout_get m cs (j + 1) HL) by lia.
  cbn [rbind]. replace (Z.to_nat (j + 1)) with (S (Z.to_nat j)) by lia.
  rewrite (concat_firstn_S cs _ c Hc). rewrite app_length.
  destruct HL as (_ & _ & _ & _ & (rest & Hent) & _).
  unfold slice. destruct (Z.leb_spec (Z.of_nat (length (concat (firstn (Z.to_nat j) cs)) + length c))
     (len (concat (firstn (Z.to_nat j) cs)))) as [Hle|Hgt].
  - destruct c; [reflexivity|]. cbn [length] in Hle. lia.
  - assert (Hm : ment m = concat (firstn (Z.to_nat j) cs) ++ c ++ (concat (skipn (S (Z.to_nat j)) cs) ++ rest)).
    { rewrite Hent, (concat_firstn_skipn cs (Z.to_nat j)), (nth_error_skipn_hd cs _ c Hc). cbn [concat].
      now rewrite <- !app_assoc. }
    rewrite Hm. rewrite !app_length.
    destruct (Z.leb_spec 0 (len (concat (firstn (Z.to_nat j) cs)))); [|lia].
    destruct (Z.leb_spec (Z.of_nat (length (concat (firstn (Z.to_nat j) cs)) + length c))
      (Z.of_nat (length (concat (firstn (Z.to_nat j) cs)) + (length c + (length (concat (skipn (S (Z.to_nat j)) cs)) + length rest))))); [|lia].
    cbn [andb]. f_equal. rewrite Nat2Z.id, skipn_len_app.
    replace (Z.to_nat _) with (length c) by lia. apply firstn_len_app.
Qed.

Lemma stores_col m cs j : stores m cs -> 0 <= j < mnc m ->
  exists c, nth_error cs (Z.to_nat j) = Some c /\ col_entries m j = Ok c /\ sorted_in 0 (mnr m) (keys c).
Proof.
  intros [HL Hn] Hj. destruct (nth_error cs (Z.to_nat j)) as [c|] eqn:E.
  - exists c. split; [reflexivity|]. split; [eapply layout_col; eauto; lia|].
    destruct HL as (_ & _ & _ & _ & _ & _ & Hs). rewrite Forall_forall in Hs. apply Hs.
    eapply nth_error_In, E.
  - apply nth_error_None in E. lia.
Qed.

(** The stored columns are determined by the arrays. *)
Lemma stores_unique m cs cs' : stores m cs -> stores m cs' -> cs = cs'.
Proof.
  intros [HL Hn] [HL' Hn']. apply nth_error_ext. intros k.
  destruct (nth_error cs k) as [c|] eqn:E, (nth_error cs' k) as [c'|] eqn:E'; auto.
  - rewrite <- (Nat2Z.id k) in E, E'. 
    pose proof (layout_col _ _ _ _ HL (Nat2Z.is_nonneg k) E).
    pose proof (layout_col _ _ _ _ HL' (Nat2Z.is_nonneg k) E'). congruence.
  - apply nth_error_None in E'. assert (k < length cs)%nat by (apply nth_error_Some; congruence). lia.
  - apply nth_error_None in E. assert (k < length cs')%nat by (apply nth_error_Some; congruence). lia.
Qed.

(** ** C11: building *)

Lemma layout_empty r c cap cols ent :
  0 <= r -> 0 <= c < len cols -> nth_error cols 0 = Some 0 -> 0 <= cap ->
  layout (mkmat r c 0 cap cols ent) [].
Proof.
  intros Hr Hc H0 Hcap. unfold layout; cbn [mnr mnc mnnz mcap mcols ment length concat].
  repeat split; auto; try lia.
  - intros j Hj. replace j with 0%nat by lia. rewrite H0. reflexivity.
  - now exists ent.
Qed.

Lemma mat_create_spec r c cap : 0 <= r -> 0 <= c -> 0 <= cap ->
  exists m, mat_create r c cap = Ok m /\ layout m [] /\ mnr m = r /\ mnc m = c /\ mcap m = cap.
Proof.
  intros Hr Hc Hcap. unfold mat_create.
  destruct (Z.leb_spec 0 r), (Z.leb_spec 0 c), (Z.leb_spec 0 cap); try lia. cbn [andb check rbind].
  eexists. split; [reflexivity|]. split; [|cbn; auto].
  apply layout_empty; auto. rewrite repeat_length. lia.
Qed.

Lemma mat_clear_spec m : 0 <= mnr m -> 0 <= mnc m -> 0 <= mcap m ->
  layout (mat_clear m) [] /\ shape (mat_clear m) m.
Proof.
  intros. split; [|now repeat split]. apply layout_empty; auto. rewrite repeat_length. lia.
Qed.

Lemma mat_reserve_spec m n cs : layout m cs -> 0 <= n ->
  exists m', mat_reserve m n = Ok m' /\ layout m' cs /\ mnr m' = mnr m /\ mnc m' = mnc m
    /\ mcap m <= mcap m' /\ n <= mcap m'.
Proof.
  intros HL Hn. unfold mat_reserve. destruct (Z.leb_spec 0 n); [|lia]. cbn [check rbind].
  destruct (Z.leb_spec n (mcap m)).
  - exists m. repeat split; auto; try apply HL; try lia.
  - eexists. split; [reflexivity|]. cbn [mnr mnc mcap]. split; [|lia].
    destruct HL as (H1 & H2 & H3 & H4 & H5 & H6 & H7). unfold layout; cbn. intuition lia.
Qed.

Lemma layout_push_col m cs : layout m cs -> len cs < mnc m ->
  exists m', mat_push_col m (len cs) = Ok m' /\ layout m' (cs ++ [[]]) /\ shape m' m.
Proof.
  intros HL Hlt. unfold mat_push_col. destruct (Z.ltb_spec (len cs) (mnc m)); [|lia]. cbn [check rbind].
  rewrite (layout_get m cs _ HL) by lia. cbn [rbind]. rewrite Nat2Z.id, firstn_all.
  pose proof HL as (H1 & H2 & H3 & H4 & (rest & H5) & H6 & H7).
  rewrite arr_set_ok by lia. cbn [rbind]. eexists. split; [reflexivity|].
  split; [|now repeat split].
  unfold layout; cbn [mnr mnc mnnz mcap mcols ment].
  rewrite app_length, set_nth_length, concat_app. cbn [length concat]. rewrite !app_nil_r.
  split; [auto|]. split; [lia|]. split; [|split; [auto|split; [eauto|split; [auto|]]]].
  - intros j Hj. rewrite set_nth_spec by lia. replace (Z.to_nat (len cs + 1)) with (S (length cs)) by lia.
    destruct (Nat.eqb_spec j (S (length cs))) as [->|Hne].
    + rewrite firstn_all2 by (rewrite app_length; cbn; lia). rewrite concat_app. cbn. now rewrite app_nil_r.
    + rewrite firstn_app. replace (j - length cs)%nat with 0%nat by lia. cbn. rewrite app_nil_r. apply H3. lia.
  - apply Forall_app. split; auto. constructor; auto. exact I.
Qed.

Lemma put_end (l rest : list (Z * num)) n e : n = len l ->
  exists rest', put (l ++ rest) n e = Ok ((l ++ [e]) ++ rest').
Proof.
  intros ->. unfold put. rewrite app_length.
  destruct (Z.leb_spec 0 (len l)), (Z.leb_spec (len l) (Z.of_nat (length l + length rest))); try lia.
  cbn [andb]. rewrite Nat2Z.id, firstn_len_app. eexists. rewrite <- app_assoc. cbn [app]. reflexivity.
Qed.

Lemma layout_push m cs c r x : layout m (cs ++ [c]) ->
  sorted_in 0 (mnr m) (keys (c ++ [(r, x)])) -> mnnz m < mcap m ->
  exists m', mat_push m r (len cs) x = Ok m' /\ layout m' (cs ++ [c ++ [(r, x)]]) /\ shape m' m.
Proof.
  intros HL Hs Hc. pose proof HL as (H1 & H2 & H3 & H4 & (rest & H5) & H6 & H7).
  rewrite app_length in H2. cbn [length] in H2.
  assert (Hr : 0 <= r < mnr m).
  { apply (sorted_in_In _ _ _ _ Hs). rewrite keys_app. apply in_or_app. right. now left. }
  unfold mat_push. destruct (Z.ltb_spec (mnnz m) (mcap m)); [|lia].
  destruct (Z.ltb_spec r (mnr m)); [|lia]. destruct (Z.ltb_spec (len cs) (mnc m)); [|lia]. cbn [check rbind].
  rewrite H5. destruct (put_end (concat (cs ++ [c])) rest (mnnz m) (r, x)) as (rest' & ->); [auto|]. cbn [rbind].
  rewrite (layout_get m _ (len cs + 1) HL) by (rewrite app_length; cbn [length]; lia). cbn [rbind].
  rewrite firstn_all2 by (rewrite app_length; cbn [length]; lia).
  rewrite arr_set_ok by lia. cbn [rbind]. eexists. split; [reflexivity|]. split; [|now repeat split].
  unfold layout; cbn [mnr mnc mnnz mcap mcols ment].
  assert (Hcat : concat (cs ++ [c ++ [(r, x)]]) = concat (cs ++ [c]) ++ [(r, x)]).
  { rewrite !concat_app. cbn [concat]. rewrite !app_nil_r. now rewrite app_assoc. }
  rewrite Hcat, (app_length _ [(r, x)]), set_nth_length, app_length. cbn [length].
  split; [auto|]. split; [lia|]. split; [|split; [lia|split; [eauto|split; [lia|]]]].
  - intros j Hj. rewrite set_nth_spec by lia. replace (Z.to_nat (len cs + 1)) with (S (length cs)) by lia.
    destruct (Nat.eqb_spec j (S (length cs))) as [->|Hne].
    + rewrite firstn_all2 by (rewrite app_length; cbn; lia). rewrite Hcat, app_length. cbn [length]. f_equal. lia.
    + rewrite H3 by (rewrite app_length; cbn; lia).
      rewrite !firstn_app. replace (j - length cs)%nat with 0%nat by lia. reflexivity.
  - apply Forall_app in H7. apply Forall_app. split; [apply H7|]. constructor; auto.
Qed.

Lemma shape_trans m1 m2 m3 : shape m1 m2 -> shape m2 m3 -> shape m1 m3.
Proof. intros (? & ? & ?) (? & ? & ?). repeat split; congruence. Qed.

Lemma layout_push_entries es m cs c : layout m (cs ++ [c]) ->
  sorted_in 0 (mnr m) (keys (c ++ es)) -> mnnz m + len es <= mcap m ->
  exists m', push_entries m (len cs) es = Ok m' /\ layout m' (cs ++ [c ++ es]) /\ shape m' m.
Proof.
  revert m c; induction es as [|[r x] es IH]; intros m c HL Hs Hc.
  - exists m. rewrite app_nil_r. repeat split; auto; apply HL.
  - unfold push_entries. cbn [rfold fst snd]. cbn [length] in Hc.
    replace (c ++ (r, x) :: es) with ((c ++ [(r, x)]) ++ es) in * by now rewrite <- app_assoc.
    destruct (layout_push m cs c r x HL) as (m1 & E1 & HL1 & Hsh); [|lia|].
    { rewrite keys_app in Hs. apply sorted_in_app in Hs. destruct Hs as [Hs _].
      eapply sorted_in_shrink in Hs; [exact Hs|]. intros i Hi. 
      apply (sorted_in_In _ _ _ _ Hs Hi). }
    rewrite E1. cbn [rbind]. destruct Hsh as (S1 & S2 & S3).
    destruct (IH m1 (c ++ [(r, x)])) as (m2 & E2 & HL2 & Hsh2); auto.
    + now rewrite S1.
    + destruct HL as (_ & _ & _ & HN & _). destruct HL1 as (_ & _ & _ & HN1 & _).
      rewrite HN1. rewrite HN, concat_app, app_length in Hc. cbn [concat] in Hc. rewrite app_nil_r in Hc.
      rewrite concat_app, app_length. cbn [concat]. rewrite app_nil_r, app_length. cbn [length]. lia.
    + exists m2. split; [exact E2|]. split; auto. eapply shape_trans; eauto. now repeat split.
Qed.

(** Column loop: each iteration appends one column. *)
Lemma build_loop (body : mat -> Z -> res mat) (F : Z -> list (Z * num)) m nc :
  (forall m1 cs j, layout m1 cs -> shape m1 m -> len cs = j -> 0 <= j < nc ->
     mnnz m1 + len (F j) <= mcap m ->
     exists m', body m1 j = Ok m' /\ layout m' (cs ++ [F j]) /\ shape m' m) ->
  layout m [] -> mnc m = nc -> len (concat (map F (zrange nc))) <= mcap m ->
  exists m', rfold body m (zrange nc) = Ok m' /\ stores m' (map F (zrange nc)) /\ shape m' m.
Proof.
  intros Hb HL Hnc Hcap. pose proof HL as (_ & Hn0 & _). cbn [length] in Hn0.
  destruct (zrange_loop (fun j t => layout t (map F (zrange j)) /\ shape t m) body nc m) as (m' & E & HL' & Hsh).
  - lia.
  - split; [exact HL|now repeat split].
  - intros j t Hj [Ht Hsh]. 
    destruct (Hb t (map F (zrange j)) j Ht Hsh) as (t' & Et & HLt & Hst).
    + rewrite map_length, zrange_length. lia.
    + lia.
    + destruct Ht as (_ & _ & _ & -> & _).
      assert (Hpre : exists k, zrange nc = zrange (j + 1) ++ k).
      { exists (map Z.of_nat (seq (Z.to_nat (j + 1)) (Z.to_nat nc - Z.to_nat (j + 1)))).
        unfold zrange. rewrite <- map_app. f_equal.
        replace (Z.to_nat nc) with (Z.to_nat (j + 1) + (Z.to_nat nc - Z.to_nat (j + 1)))%nat at 1 by lia.
        rewrite seq_app. reflexivity. }
      destruct Hpre as (k & Hk). rewrite Hk, map_app, concat_app, zrange_succ, map_app, concat_app in Hcap by lia.
      cbn [map concat] in Hcap. rewrite app_nil_r, !app_length in Hcap. lia.
    + exists t'. split; [exact Et|]. split; [|exact Hst].
      rewrite zrange_succ by lia. rewrite map_app. exact HLt.
  - exists m'. split; [exact E|]. split; [|exact Hsh]. split; [exact HL'|].
    rewrite map_length, zrange_length. destruct Hsh as (_ & -> & _). lia.
Qed.

(** Building a matrix by the documented interface: push_col, then the column's entries. *)
Definition build (m : mat) (css : list (list (Z * num))) : res mat :=
  rfold (fun m ec => m <- mat_push_col m (fst ec) ;; push_entries m (fst ec) (snd ec)) m (enum css).

Lemma enum_from_app {A} i (l1 l2 : list A) : enum_from i (l1 ++ l2) = enum_from i l1 ++ enum_from (i + len l1) l2.
Proof.
  revert i; induction l1 as [|a l1 IH]; intros i; cbn [app enum_from length].
  - now rewrite Z.add_0_r.
  - f_equal. rewrite IH. do 2 f_equal. lia.
Qed.

Lemma build_layout css m : layout m [] -> len css <= mnc m -> len (concat css) <= mcap m ->
  Forall (fun c => sorted_in 0 (mnr m) (keys c)) css ->
  exists m', build m css = Ok m' /\ layout m' css /\ shape m' m.
Proof.
  intros HL. induction css as [|c css IH] using rev_ind; intros Hn Hc Hs.
  - exists m. repeat split; auto; apply HL.
  - rewrite app_length, concat_app, app_length in *. cbn [length concat] in *. rewrite app_nil_r in Hc.
    apply Forall_app in Hs. destruct Hs as [Hs Hsc].
    destruct IH as (m1 & E1 & HL1 & Hsh); auto; try lia. 
    unfold build, enum in *. rewrite enum_from_app, rfold_app. rewrite E1. cbn [rbind enum_from rfold fst snd].
    rewrite Z.add_0_l. destruct Hsh as (S1 & S2 & S3).
    destruct (layout_push_col m1 css HL1) as (m2 & -> & HL2 & Hsh2); [lia|]. cbn [rbind]. 
    pose proof Hsh2 as (T1 & T2 & T3).
    destruct (layout_push_entries c m2 css [] HL2) as (m3 & -> & HL3 & Hsh3).
    + cbn [app]. rewrite T1, S1. now inv Hsc.
    + destruct HL2 as (_ & _ & _ & -> & _). rewrite concat_app, app_length. cbn. lia.
    + exists m3. split; [reflexivity|]. split; [exact HL3|].
      eapply shape_trans; eauto. eapply shape_trans; eauto. now repeat split.
Qed.

Lemma build_spec r nc cap css : 0 <= r -> nc = len css -> len (concat css) <= cap ->
  Forall (fun c => sorted_in 0 r (keys c)) css ->
  exists m, (m <- mat_create r nc cap ;; build m css) = Ok m /\ stores m css
    /\ mnr m = r /\ mnc m = nc.
Proof.
  intros Hr -> Hc Hs. destruct (mat_create_spec r (len css) cap) as (m & -> & HL & Er & Ec & Ecap); try lia.
  cbn [rbind]. destruct (build_layout css m HL) as (m' & E & HL' & (S1 & S2 & S3)); try lia.
  { now rewrite Er. }
  exists m'. split; [exact E|]. split; [split; [exact HL'|lia]|]. split; congruence.
Qed.

(** One column pushed as a vector. *)
Lemma put_all_end es (l rest : list (Z * num)) n : n = len l ->
  exists rest', put_all (l ++ rest) n es = Ok ((l ++ es) ++ rest').
Proof.
  revert l rest n; induction es as [|e es IH]; intros l rest n Hn; cbn [put_all].
  - exists rest. now rewrite app_nil_r.
  - destruct (put_end l rest n e Hn) as (rest' & ->). cbn [rbind].
    destruct (IH (l ++ [e]) rest' (n + 1)) as (r2 & E2). { rewrite app_length. cbn. lia. }
    exists r2. rewrite E2. rewrite <- app_assoc with (m := [e]). reflexivity.
Qed.

Lemma layout_push_vec m cs v : layout m (cs ++ [[]]) -> wf v -> vdim v = mnr m ->
  mnnz m + vnnz v <= mcap m ->
  exists m', mat_push_vec m (len cs) v = Ok m' /\ layout m' (cs ++ [vent v]) /\ shape m' m.
Proof.
  intros HL (Hd & Hs & Hc) Hdim Hcap. pose proof HL as (H1 & H2 & H3 & H4 & (rest & H5) & H6 & H7).
  rewrite app_length in H2. cbn [length] in H2.
  unfold mat_push_vec. rewrite !(layout_get m _ _ HL) by (rewrite app_length; cbn [length]; lia). cbn [rbind].
  rewrite Nat2Z.id. replace (Z.to_nat (len cs + 1)) with (S (length cs)) by lia.
  rewrite (firstn_all2 (n := S (length cs))) by (rewrite app_length; cbn; lia).
  rewrite firstn_len_app. rewrite concat_app in *. cbn [concat app] in *. rewrite app_nil_r in *.
  rewrite Z.eqb_refl. destruct (Z.eqb_spec (vdim v) (mnr m)); [|lia].
  destruct (Z.leb_spec (vnnz v) (mcap m - mnnz m)); [|lia]. cbn [check rbind].
  rewrite H5. destruct (put_all_end (vent v) (concat cs) rest (mnnz m) H4) as (rest' & ->). cbn [rbind].
  rewrite arr_set_ok by lia. cbn [rbind]. eexists. split; [reflexivity|]. split; [|now repeat split].
  unfold layout; cbn [mnr mnc mnnz mcap mcols ment]. rewrite concat_app. cbn [concat]. rewrite app_nil_r.
  rewrite app_length, set_nth_length, app_length. cbn [length]. unfold vnnz in *.
  split; [auto|]. split; [lia|]. split; [|split; [lia|split; [eauto|split; [lia|]]]].
  - intros j Hj. rewrite set_nth_spec by lia. replace (Z.to_nat (len cs + 1)) with (S (length cs)) by lia.
    destruct (Nat.eqb_spec j (S (length cs))) as [->|Hne].
    + rewrite firstn_all2 by (rewrite app_length; cbn; lia).
      rewrite concat_app. cbn [concat]. rewrite app_nil_r, app_length. f_equal. lia.
    + rewrite H3 by (rewrite app_length; cbn; lia).
      rewrite !firstn_app. replace (j - length cs)%nat with 0%nat by lia. reflexivity.
  - apply Forall_app in H7. apply Forall_app. split; [apply H7|]. constructor; auto. now rewrite <- Hdim.
Qed.

Lemma mat_value_at_spec m cs i j c : stores m cs -> i < mnr m -> 0 <= j < mnc m ->
  nth_error cs (Z.to_nat j) = Some c -> mat_value_at m i j = Ok (oval (get c i)).
Proof.
  intros Hs Hi Hj Hc. unfold mat_value_at. destruct (Z.ltb_spec i (mnr m)); [|lia].
  destruct (Z.ltb_spec j (mnc m)); [|lia]. cbn [check rbind].
  destruct (stores_col m cs j Hs Hj) as (c' & E1 & E2 & _). rewrite E2. cbn [rbind]. congruence.
Qed.

Lemma mat_col_spec m cs j v c : stores m cs -> wf v -> vdim v = mnr m -> 0 <= j < mnc m ->
  nth_error cs (Z.to_nat j) = Some c ->
  exists v', mat_col m j v = Ok v' /\ wf v' /\ vdim v' = mnr m /\ vent v' = c.
Proof.
  intros Hs Hw Hd Hj Hc. unfold mat_col.
  destruct (Z.eqb_spec (mnr m) (vdim v)); [|lia]. destruct (Z.leb_spec 0 j); [|lia].
  destruct (Z.ltb_spec j (mnc m)); [|lia]. cbn [check rbind].
  pose proof Hs as [HL Hn]. rewrite !(layout_get m cs _ HL) by lia. cbn [rbind].
  replace (Z.to_nat (j + 1)) with (S (Z.to_nat j)) by lia. rewrite (concat_firstn_S cs _ c Hc), app_length.
  destruct (vec_reserve_spec v (Z.of_nat (length (concat (firstn (Z.to_nat j) cs)) + length c) -
    len (concat (firstn (Z.to_nat j) cs)))) as (v1 & -> & Hw1 & Hd1 & He1 & Hc1); auto; [lia|]. cbn [rbind].
  destruct (stores_col m cs j Hs Hj) as (c' & E1 & E2 & Hsc). rewrite E2. cbn [rbind].
  assert (c' = c) as -> by congruence.
  rewrite push_all_ok; unfold vec_clear; cbn [vent app vcap vdim].
  - eexists. split; [reflexivity|]. cbn. rewrite Hd1, Hd. unfold wf; cbn [vdim vcap vent]. repeat split; auto; try lia.
    destruct HL; lia.
  - rewrite Hd1, Hd. exact Hsc.
  - unfold vnnz; cbn [vent length]. lia.
Qed.

End MatFacts.
