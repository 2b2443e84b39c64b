(** The matrix of the reduced system and its reuse, for any arithmetic. *)
From Verif Require Import Base Num Cmp Sparse Vec VecFacts Order VecFacts2 Mat MatFacts MatFacts2 MatFacts3 MatFacts4 Arr
  WorkingSet WorkingSetFacts DualEst DualEstFacts Feas FeasFacts OptFacts AugJac AugJacFacts AugJacUpper AugJacMain AugJacRed.
Local Open Scope Z_scope.

(** Inner product of two rows of the working set, summed over the columns in increasing order. *)
Definition row_dot {N : Num} (w : wset) (cs : list (list (Z * num))) (k l : Z) : num :=
  fold_left (fun s j => match row_entry w cs k j, row_entry w cs l j with Some x, Some y => nadd s (nmul x y) | _, _ => s end)
    (zrange (wnv w)) n0.
Definition is_var_row (w : wset) (k : Z) : bool := match ws_content w k with Ok a => a <? wnv w | _ => false end.

(** [A A^T] or its lower part, with the rows [A] of the working set; in the lower part the diagonal
    entries of the variables are 1 without a computation. *)
Definition gram_entry {N : Num} (w : wset) (cs : list (list (Z * num))) (lower : bool) (k l : Z) : option num :=
  if lower && (k <? l) then None
  else Some (if lower && (k =? l) && is_var_row w k then n1 else row_dot w cs k l).
Definition gram {N : Num} (w : wset) (cs : list (list (Z * num))) (lower : bool) (m : mat) : Prop :=
  mnr m = ws_size w /\ mnc m = ws_size w /\
  exists ms, stores m ms /\ forall k l, 0 <= k < ws_size w -> 0 <= l < ws_size w -> mget ms k l = gram_entry w cs lower k l.

Section More.
Context {N : Num}.
Implicit Types (m : mat) (cs : list (list (Z * num))).

Lemma cols_length (cs : list (list (Z * num))) r : Forall (fun c => sorted_in 0 r (keys c)) cs -> 0 <= r -> len (concat cs) <= len cs * r.
Proof.
  intros H Hr. induction H as [|c cs Hc _ IH]; [cbn; lia|]. cbn [concat length]. rewrite app_length.
  pose proof (sorted_in_length _ _ _ Hc) as Hl. unfold keys in Hl. rewrite map_length in Hl. nia.
Qed.

Lemma layout_more m cs c r x : layout m (cs ++ [c]) -> sorted_in 0 (mnr m) (keys (c ++ [(r, x)])) ->
  exists m', more_and_push m r (len cs) x = Ok m' /\ layout m' (cs ++ [c ++ [(r, x)]]) /\ mnr m' = mnr m /\ mnc m' = mnc m.
Proof.
  intros HL Hs. pose proof HL as (H1 & H2 & H3 & H4 & H5 & H6 & H7). unfold more_and_push.
  destruct (Z.eqb_spec (mnnz m) (mcap m)) as [Ef|Ef].
  - assert (Hlt : mnnz m < mnc m * mnr m).
    { rewrite H4, concat_app, app_length. cbn [concat]. rewrite app_nil_r.
      apply Forall_app in H7 as [H7 _]. pose proof (cols_length cs (mnr m) H7 H1) as Hl.
      pose proof (sorted_in_length _ _ _ Hs) as Hc. rewrite keys_app, app_length in Hc. unfold keys in Hc at 1. rewrite map_length in Hc. cbn [keys map length] in Hc.
      rewrite app_length in H2. cbn [length] in H2. nia. }
    destruct (mat_reserve_spec m (Z.min (mnc m * mnr m) (2 * mnnz m + 1)) _ HL) as (m1 & E1 & L1 & R1 & R2 & R3 & R4); [lia|].
    rewrite E1. cbn [rbind]. assert (Hn : mnnz m1 = mnnz m). { destruct L1 as (_ & _ & _ & -> & _). now rewrite H4. }
    destruct (layout_push m1 cs c r x L1) as (m2 & E2 & L2 & (S1 & S2 & S3)); [now rewrite R1|lia|].
    exists m2. split; [exact E2|]. split; [exact L2|]. split; congruence.
  - cbn [rbind]. destruct (layout_push m cs c r x HL Hs) as (m2 & E2 & L2 & (S1 & S2 & S3)); [lia|].
    exists m2. split; [exact E2|]. split; [exact L2|]. split; congruence.
Qed.

Lemma more_entries es m cs c : layout m (cs ++ [c]) -> sorted_in 0 (mnr m) (keys (c ++ es)) ->
  exists m', rfold (fun m e => more_and_push m (fst e) (len cs) (snd e)) m es = Ok m' /\ layout m' (cs ++ [c ++ es]) /\ mnr m' = mnr m /\ mnc m' = mnc m.
Proof.
  revert m c; induction es as [|[r x] es IH]; intros m c HL Hs.
  - exists m. rewrite app_nil_r. auto.
  - cbn [rfold fst snd]. replace (c ++ (r, x) :: es) with ((c ++ [(r, x)]) ++ es) in * by now rewrite <- app_assoc.
    destruct (layout_more m cs c r x HL) as (m1 & E1 & L1 & R1 & R2).
    { rewrite keys_app in Hs. apply sorted_in_app in Hs. apply Hs. }
    rewrite E1. cbn [rbind]. destruct (IH m1 (c ++ [(r, x)]) L1) as (m2 & E2 & L2 & R3 & R4); [now rewrite R1|].
    exists m2. split; [exact E2|]. split; [exact L2|]. split; congruence.
Qed.

Lemma build_more (body : mat -> Z -> res mat) (F : Z -> list (Z * num)) m n :
  (forall m1 j, 0 <= j < n -> body m1 j = (m2 <- mat_push_col m1 j ;; rfold (fun m e => more_and_push m (fst e) j (snd e)) m2 (F j))) ->
  (forall j, 0 <= j < n -> sorted_in 0 (mnr m) (keys (F j))) ->
  layout m [] -> 0 <= n <= mnc m ->
  exists m', rfold body m (zrange n) = Ok m' /\ layout m' (map F (zrange n)) /\ mnr m' = mnr m /\ mnc m' = mnc m.
Proof.
  intros Hb Hs HL Hnc.
  destruct (zrange_loop (fun j t => layout t (map F (zrange j)) /\ mnr t = mnr m /\ mnc t = mnc m) body n m) as (m' & E & HL' & R1 & R2).
  - lia.
  - auto.
  - intros j t Hj (Ht & S1 & S2). rewrite Hb by auto.
    assert (Hlj : len (map F (zrange j)) = j) by (rewrite map_length, zrange_length; lia).
    destruct (layout_push_col t _ Ht) as (t1 & E1 & L1 & (T1 & T2 & T3)); [lia|]. rewrite Hlj in E1. rewrite E1. cbn [rbind].
    destruct (more_entries (F j) t1 (map F (zrange j)) [] L1) as (t2 & E2 & L2 & U1 & U2).
    + cbn [app]. rewrite T1, S1. apply Hs. lia.
    + rewrite Hlj in E2. exists t2. split; [exact E2|]. rewrite zrange_succ, map_app by lia. split; [exact L2|]. split; congruence.
  - exists m'. auto.
Qed.

(** A column computed entry by entry *)
Definition tabulate (v : Z -> num) (zs : list Z) : list (Z * num) := map (fun k => (k, v k)) zs.
Lemma tabulate_keys v zs : keys (tabulate v zs) = zs.
Proof. unfold keys, tabulate. rewrite map_map. cbn [fst]. apply map_id. Qed.
Lemma tabulate_get v zs i : get (tabulate v zs) i = if existsb (Z.eqb i) zs then Some (v i) else None.
Proof.
  induction zs as [|k zs IH]; [reflexivity|]. unfold tabulate in *. cbn [map get existsb]. rewrite (Z.eqb_sym i k). destruct (Z.eqb_spec k i) as [->|]; cbn [orb]; auto.
Qed.
Lemma fold_olist {A B} (g : A -> Z * B -> A) (f : Z -> option B) js acc :
  fold_left g (olist f js) acc = fold_left (fun s j => match f j with Some x => g s (j, x) | None => s end) js acc.
Proof.
  revert acc; induction js as [|j js IH]; intros acc; [reflexivity|]. unfold olist. cbn [map concat fold_left]. rewrite fold_left_app. fold (olist f js). rewrite IH.
  now destruct (f j).
Qed.
Lemma fold_left_ext_in {A B} (f g : A -> B -> A) l a : (forall s x, In x l -> f s x = g s x) -> fold_left f l a = fold_left g l a.
Proof. revert a; induction l as [|x l IH]; intros a H; [reflexivity|]. cbn [fold_left]. rewrite H by now left. apply IH. intros; apply H; now right. Qed.

Lemma inner_row w cs k l : inner (srow w cs k) (srow w cs l) = row_dot w cs k l.
Proof.
  unfold inner. rewrite (dot_loop_spdot _ _ _ _ 0 0 (wnv w)) by (try apply srow_sorted; lia). unfold spdot, srow at 2. rewrite fold_olist. unfold row_dot.
  apply fold_left_ext_in. intros s j Hj. apply zrange_In in Hj. cbn [fst snd]. rewrite srow_get by auto. now destruct (row_entry w cs k j).
Qed.
Lemma square_row w cs k : fold_left (fun s e => nadd s (nmul (snd e) (snd e))) (srow w cs k) n0 = row_dot w cs k k.
Proof.
  unfold srow. rewrite fold_olist. unfold row_dot. apply fold_left_ext_in. intros s j Hj. cbn [snd]. now destruct (row_entry w cs k j).
Qed.
End More.

Section Gram.
Context {N : Num}.
Variables (w : wset) (jac : mat) (cs : list (list (Z * num))).
Hypothesis C : consistent w.
Hypothesis I : in_order w.
Hypothesis HS : stores jac cs.
Hypothesis Hc : mnc jac = wnv w.
Hypothesis Hr : mnr jac = wnc w.
Let size := ws_size w.
Variables (starts : list Z) (sys : list (Z * num)).
Hypothesis Hrow : forall k, 0 <= k < size -> sys_row starts sys k = Ok (srow w cs k).

Lemma var_row k : 0 <= k < size -> is_var_row w k = (k <? wnav w).
Proof.
  intros Hk. unfold is_var_row. rewrite (cont_ok w C k Hk). destruct (cont_cases w C k Hk) as [[Hr1 Hi]|[Hr1 Hi]].
  - assert (Hv : vix w (cont w k) = k) by (unfold vix; now rewrite Hi). pose proof (vix_range w C (cont w k) Hr1 ltac:(rewrite Hv; unfold none; lia)).
    destruct (Z.ltb_spec (cont w k) (wnv w)), (Z.ltb_spec k (wnav w)); lia.
  - assert (Hv : cix w (cont w k - wnv w) = k) by (unfold cix; now rewrite Hi).
    pose proof (cix_range w C (cont w k - wnv w) ltac:(lia) ltac:(rewrite Hv; unfold none; lia)).
    destruct (Z.ltb_spec (cont w k) (wnv w)), (Z.ltb_spec k (wnav w)); lia.
Qed.

Lemma push_rows c col zs m : (forall k, In k zs -> 0 <= k < size) -> c = srow w cs col ->
  rfold (fun m row => r <- sys_row starts sys row ;; more_and_push m row col (inner r c)) m zs
  = rfold (fun m e => more_and_push m (fst e) col (snd e)) m (tabulate (fun k => row_dot w cs k col) zs).
Proof.
  intros Hz ->. revert m. induction zs as [|k zs IH]; intros m; [reflexivity|]. unfold tabulate in *. cbn [rfold map fst snd].
  rewrite Hrow by (apply Hz; now left). cbn [rbind]. rewrite inner_row. destruct (more_and_push m k col (row_dot w cs k col)); auto. cbn [rbind].
  apply IH. intros; apply Hz; now right.
Qed.

Lemma matrix_general_ok m : mwf m -> exists m', matrix_general m size starts sys = Ok m' /\ gram w cs false m' /\ mwf m'.
Proof.
  intros Hm. pose proof (nv0 w C) as (_ & _ & H3 & _). unfold matrix_general. destruct (clear_resize m size size Hm) as (m1 & E1 & L1 & R1 & R2 & R3); [unfold size; lia..|].
  rewrite E1. cbn [rbind].
  match goal with |- context [rfold ?b m1 _] => destruct (build_more b (fun l => tabulate (fun k => row_dot w cs k l) (zrange size)) m1 size) as (m2 & E2 & L2 & S1 & S2) end.
  - intros m2 j Hj. destruct (mat_push_col m2 j); auto. cbn [rbind]. rewrite Hrow by auto. cbn [rbind]. apply push_rows; [|reflexivity]. intros k Hk. now apply zrange_In in Hk.
  - intros j Hj. rewrite tabulate_keys, R1. apply zrange_sorted.
  - exact L1.
  - rewrite R2. unfold size. lia.
  - exists m2. split; [exact E2|].
    assert (HSt : stores m2 (map (fun l => tabulate (fun k => row_dot w cs k l) (zrange size)) (zrange size))).
    { split; [exact L2|]. rewrite map_length, zrange_length, S2, R2. unfold size. lia. }
    split; [|eexists; exact HSt]. split; [now rewrite S1, R1|]. split; [now rewrite S2, R2|]. eexists. split; [exact HSt|].
    intros k l Hk Hl. unfold mget. rewrite (nth_map_zrange (fun l => tabulate (fun k => row_dot w cs k l) (zrange size))) by exact Hl.
    rewrite tabulate_get, existsb_zrange. fold size in Hk. destruct (Z.leb_spec 0 k), (Z.ltb_spec k size); try lia. reflexivity.
Qed.

Definition low_col (l : Z) : list (Z * num) :=
  (l, if is_var_row w l then n1 else row_dot w cs l l) :: tabulate (fun k => row_dot w cs k l) (map (fun k => l + 1 + k) (zrange (size - (l + 1)))).
Lemma shifted_sorted lo d n : 0 <= n -> lo <= d -> sorted_in lo (d + n) (map (fun k => d + k) (zrange n)).
Proof.
  intros Hn. unfold zrange. intros Hlo. rewrite <- (Z2Nat.id n) at 1 by lia. rewrite map_map.
  assert (G : forall q s lo, lo <= d + Z.of_nat s -> sorted_in lo (d + Z.of_nat (s + q)) (map (fun x => d + Z.of_nat x) (seq s q))).
  { clear. induction q as [|q IH]; intros s lo H; [exact Logic.I|]. cbn [seq map sorted_in]. split; [lia|]. replace (s + S q)%nat with (S s + q)%nat by lia. apply IH. lia. }
  apply (G _ 0%nat). lia.
Qed.
Lemma existsb_shift d n i : 0 <= n -> existsb (Z.eqb i) (map (fun k => d + k) (zrange n)) = (d <=? i) && (i <? d + n).
Proof.
  intros Hn. destruct (existsb _ _) eqn:E.
  - apply existsb_exists in E as (x & Hx & Ex). apply Z.eqb_eq in Ex. subst x. apply in_map_iff in Hx as (k & <- & Hk). apply zrange_In in Hk.
    symmetry. apply andb_true_iff. split; [apply Z.leb_le|apply Z.ltb_lt]; lia.
  - symmetry. destruct (Z.leb_spec d i), (Z.ltb_spec i (d + n)); auto. exfalso.
    assert (existsb (Z.eqb i) (map (fun k => d + k) (zrange n)) = true); [|congruence]. apply existsb_exists. exists i. split; [|apply Z.eqb_refl].
    apply in_map_iff. exists (i - d). split; [lia|]. apply zrange_In. lia.
Qed.

Lemma matrix_lower_ok m : mwf m -> exists m', matrix_lower m (wnav w) size starts sys = Ok m' /\ gram w cs true m' /\ mwf m'.
Proof.
  intros Hm. pose proof (nv0 w C) as (_ & _ & H3 & _). unfold matrix_lower. destruct (clear_resize m size size Hm) as (m1 & E1 & L1 & R1 & R2 & R3); [unfold size; lia..|].
  rewrite E1. cbn [rbind].
  match goal with |- context [rfold ?b m1 _] => destruct (build_more b low_col m1 size) as (m2 & E2 & L2 & S1 & S2) end.
  - intros m2 j Hj. destruct (mat_push_col m2 j) as [m3| |]; auto. cbn [rbind]. rewrite Hrow by auto. cbn [rbind]. unfold low_col. cbn [rfold fst snd].
    rewrite <- (var_row j Hj). rewrite square_row.
    destruct (is_var_row w j).
    + destruct (more_and_push m3 j j n1); auto. cbn [rbind]. apply push_rows; [|reflexivity]. intros k Hk. apply in_map_iff in Hk as (i & <- & Hi). apply zrange_In in Hi. lia.
    + destruct (more_and_push m3 j j (row_dot w cs j j)); auto. cbn [rbind]. apply push_rows; [|reflexivity]. intros k Hk. apply in_map_iff in Hk as (i & <- & Hi). apply zrange_In in Hi. lia.
  - intros j Hj. unfold low_col. cbn [keys map fst]. fold (keys (tabulate (fun k => row_dot w cs k j) (map (fun k => j + 1 + k) (zrange (size - (j + 1)))))).
    rewrite tabulate_keys, R1. cbn [sorted_in]. split; [lia|]. replace size with (j + 1 + (size - (j + 1))) at 1 by lia. apply shifted_sorted; lia.
  - exact L1.
  - rewrite R2. unfold size. lia.
  - rewrite E2. cbn [rbind].
    assert (HSt : stores m2 (map low_col (zrange size))).
    { split; [exact L2|]. rewrite map_length, zrange_length, S2, R2. unfold size. lia. }
    rewrite (is_lower_spec m2 _ HSt).
    + cbn [rbind check]. exists m2. split; [reflexivity|]. split; [|eexists; exact HSt].
      split; [now rewrite S1, R1|]. split; [now rewrite S2, R2|]. eexists. split; [exact HSt|].
      intros k l Hk Hl. unfold mget. rewrite (nth_map_zrange low_col) by exact Hl. fold size in Hk, Hl. unfold low_col, gram_entry. cbn [get andb].
      rewrite tabulate_get, existsb_shift by lia. rewrite (Z.eqb_sym l k).
      destruct (Z.eqb_spec k l) as [->|Hne]; [rewrite Z.ltb_irrefl; reflexivity|]. cbn [andb].
      destruct (Z.ltb_spec k l), (Z.leb_spec (l + 1) k), (Z.ltb_spec k (l + 1 + (size - (l + 1)))); try lia; reflexivity.
    + intros j Hj. rewrite S2, R2 in Hj. rewrite (nth_map_zrange low_col) by exact Hj. unfold low_col. cbn [forallb fst]. rewrite Z.leb_refl. cbn [andb].
      apply forallb_forall. intros e He. unfold tabulate in He. apply in_map_iff in He as (k & <- & Hk). apply in_map_iff in Hk as (i & <- & Hi). apply zrange_In in Hi.
      cbn [fst]. apply Z.leb_le. lia.
Qed.
End Gram.
