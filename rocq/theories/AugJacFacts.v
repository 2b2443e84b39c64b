(** Facts about the systems with the rows of the working set: the matrices handed to the
    factorization, for any arithmetic. *)
From Verif Require Import Base Num Cmp Sparse Vec VecFacts Order VecFacts2 Mat MatFacts MatFacts2 MatFacts3 MatFacts4 Arr
  WorkingSet WorkingSetFacts DualEst DualEstFacts AugJac.
Local Open Scope Z_scope.

Lemma zrange_app n m : 0 <= n -> 0 <= m -> zrange (n + m) = zrange n ++ map (fun k => n + k) (zrange m).
Proof.
  intros Hn Hm. unfold zrange. rewrite Z2Nat.inj_add, seq_app, map_app by lia. f_equal. rewrite map_map. cbn [plus].
  rewrite <- (Nat.add_0_r (Z.to_nat n)) at 1. generalize 0%nat as s. induction (Z.to_nat m) as [|k IH]; intros s; [reflexivity|].
  cbn [seq map]. f_equal; [lia|]. rewrite <- (IH (S s)). do 2 f_equal. lia.
Qed.

Section Mat.
Context {N : Num}.
Implicit Types (m : mat) (cs : list (list (Z * num))).

Lemma clear_stores m : 0 <= mnr m -> 0 <= mnc m -> 0 <= mcap m -> stores (mat_clear m) (repeat [] (Z.to_nat (mnc m))).
Proof.
  intros Hr Hc Hk. split; [|cbn [mat_clear mnc]; rewrite repeat_length; lia].
  assert (Hz : forall k, @concat (Z * num) (repeat [] k) = []) by (induction k; cbn; auto).
  unfold layout, mat_clear; cbn [mnr mnc mnnz mcap mcols ment]. rewrite !repeat_length.
  split; [auto|]. split; [lia|]. split; [|split; [now rewrite Hz|split; [exists (ment m); now rewrite Hz|split; [lia|]]]].
  - intros j Hj. rewrite nth_error_repeat by lia. f_equal.
    assert (firstn j (repeat (@nil (Z * num)) (Z.to_nat (mnc m))) = repeat [] j) as ->; [|now rewrite Hz].
    apply nth_error_ext. intros k. destruct (Nat.lt_ge_cases k j).
    + rewrite nth_error_repeat by lia.
      rewrite <- (firstn_skipn j (repeat (@nil (Z * num)) (Z.to_nat (mnc m)))) at 1.
      assert (L : length (firstn j (repeat (@nil (Z * num)) (Z.to_nat (mnc m)))) = j) by (rewrite firstn_length, repeat_length; lia).
      pose proof (nth_error_repeat (@nil (Z * num)) (n := k) (m := Z.to_nat (mnc m)) ltac:(lia)) as Hn.
      rewrite <- (firstn_skipn j (repeat (@nil (Z * num)) (Z.to_nat (mnc m)))) in Hn.
      rewrite nth_error_app1 in Hn by lia. rewrite firstn_skipn. exact Hn.
    + rewrite !(proj2 (nth_error_None _ _)); auto; rewrite ?firstn_length, ?repeat_length; lia.
  - apply Forall_forall. intros c Hc'. apply repeat_spec in Hc'. subst. exact I.
Qed.

Lemma reserve_stores m cs k : stores m cs -> 0 <= k ->
  exists m', mat_reserve m k = Ok m' /\ stores m' cs /\ mnr m' = mnr m /\ mnc m' = mnc m /\ mcap m <= mcap m' /\ k <= mcap m'.
Proof.
  intros [HL Hn] Hk. destruct (mat_reserve_spec m k cs HL Hk) as (m' & E & HL' & R1 & R2 & R3 & R4).
  exists m'. split; [exact E|]. split; [split; [exact HL'|congruence]|]. auto.
Qed.

(** Clearing and resizing gives an empty matrix of the new shape. *)
Lemma clear_resize m r c : mwf m -> 0 <= r -> 0 <= c ->
  exists m', mat_resize (mat_clear m) r c = Ok m' /\ layout m' [] /\ mnr m' = r /\ mnc m' = c /\ mcap m' = mcap m.
Proof.
  intros (cs & HS) Hr Hc. pose proof (layout_facts m cs HS) as (H1 & H2 & H3 & _).
  destruct (mat_resize_clear (mat_clear m) r c) as (m' & E & HL & R1 & R2 & R3); auto.
  - exists (repeat [] (Z.to_nat (mnc m))). apply clear_stores; auto. lia.
  - exists m'. auto.
Qed.

(** Appending columns [n0], ..., each by [push_col] and pushes. *)
Lemma build_part (body : mat -> Z -> res mat) (F : Z -> list (Z * num)) m n :
  (forall m1 j, 0 <= j < n -> body m1 j = (m2 <- mat_push_col m1 j ;; push_entries m2 j (F j))) ->
  (forall j, 0 <= j < n -> sorted_in 0 (mnr m) (keys (F j))) ->
  layout m [] -> 0 <= n <= mnc m -> len (concat (map F (zrange n))) <= mcap m ->
  exists m', rfold body m (zrange n) = Ok m' /\ layout m' (map F (zrange n)) /\ shape m' m.
Proof.
  intros Hb Hs HL Hnc Hcap.
  destruct (zrange_loop (fun j t => layout t (map F (zrange j)) /\ shape t m) body n m) as (m' & E & HL' & Hsh).
  - lia.
  - split; [exact HL|now repeat split].
  - intros j t Hj [Ht Hsh]. rewrite Hb by auto. destruct Hsh as (S1 & S2 & S3).
    assert (Hlj : len (map F (zrange j)) = j) by (rewrite map_length, zrange_length; lia).
    destruct (layout_push_col t _ Ht) as (t1 & E1 & L1 & (T1 & T2 & T3)); [lia|]. rewrite Hlj in E1. rewrite E1. cbn [rbind].
    destruct (layout_push_entries (F j) t1 (map F (zrange j)) [] L1) as (t2 & E2 & L2 & (U1 & U2 & U3)).
    + cbn [app]. rewrite T1, S1. apply Hs. lia.
    + destruct L1 as (_ & _ & _ & -> & _). rewrite concat_app, app_length. cbn [concat app length].
      assert (Hpre : exists k, zrange n = zrange (j + 1) ++ k).
      { exists (map (fun k => j + 1 + k) (zrange (n - (j + 1)))). rewrite <- zrange_app by lia. f_equal. lia. }
      destruct Hpre as (k & Hk). rewrite Hk, map_app, concat_app, zrange_succ, map_app, concat_app in Hcap by lia.
      cbn [map concat] in Hcap. rewrite app_nil_r, !app_length in Hcap. lia.
    + rewrite Hlj in E2. exists t2. split; [exact E2|]. rewrite zrange_succ, map_app by lia. split; [exact L2|].
      repeat split; congruence.
  - exists m'. auto.
Qed.

Lemma layout_stores m cs : layout m cs -> mnc m = len cs -> stores m cs.
Proof. intros H E. now split. Qed.

Lemma is_lower_spec m cs : stores m cs -> (forall j, 0 <= j < mnc m -> forallb (fun e => j <=? fst e) (nth (Z.to_nat j) cs []) = true) ->
  mat_is_lower m = Ok true.
Proof.
  intros HS H. unfold mat_is_lower. 
  destruct (zrange_loop (fun _ b => b = true) (fun (b : bool) col => es <- col_entries m col ;; Ok (b && forallb (fun e => col <=? fst e) es)) (mnc m) true)
    as (b & E & ->); auto.
  - destruct (layout_facts m cs HS) as (_ & ? & _). lia.
  - intros j b Hj ->. destruct (nth_col m cs j HS Hj) as [-> _]. cbn [rbind]. eexists. split; [reflexivity|]. now rewrite H.
Qed.
End Mat.

(** ** The rows of the working set *)
Section Rows.
Context {N : Num}.
Variables (w : wset) (jac : mat) (cs : list (list (Z * num))).
Hypothesis C : consistent w.
Hypothesis I : in_order w.
Hypothesis HS : stores jac cs.
Hypothesis Hc : mnc jac = wnv w.
Hypothesis Hr : mnr jac = wnc w.
Let n := wnv w.

Definition vact (j : Z) : bool := negb (vix w j =? none).
Definition cact (i : Z) : bool := negb (cix w i =? none).

Lemma nv0 : 0 <= wnv w /\ 0 <= wnc w /\ 0 <= wnav w <= ws_size w /\ ws_size w = wnav w + wnac w.
Proof. unfold ws_size. destruct (cs_bound w C) as [? ?]. lia. Qed.

Lemma vact_iff j : vact j = true <-> vix w j <> none.
Proof. unfold vact. destruct (Z.eqb_spec (vix w j) none); cbn; split; congruence. Qed.
Lemma cact_iff i : cact i = true <-> cix w i <> none.
Proof. unfold cact. destruct (Z.eqb_spec (cix w i) none); cbn; split; congruence. Qed.

Lemma vix_range j : 0 <= j < n -> vix w j <> none -> 0 <= vix w j < wnav w.
Proof.
  intros Hj Hn. destruct (vix_cont w C j Hj Hn) as [R _]. destruct (vix_ok w C j Hj) as (E & _).
  pose proof (cs_vars_first w C j (vix w j) Hj E Hn). lia.
Qed.
Lemma cix_range i : 0 <= i < wnc w -> cix w i <> none -> wnav w <= cix w i < ws_size w.
Proof.
  intros Hi Hn. destruct (cix_cont w C i Hi Hn) as [R _]. destruct (cix_ok w C i Hi) as (E & _).
  pose proof (cs_cons_last w C i (cix w i) Hi E Hn). lia.
Qed.
Lemma cix_lt i k : 0 <= i < wnc w -> 0 <= k < wnc w -> cix w i <> none -> cix w k <> none -> i < k -> cix w i < cix w k.
Proof.
  intros Hi Hk Ni Nk H. destruct (cix_cont w C i Hi Ni) as [R1 E1]. destruct (cix_cont w C k Hk Nk) as [R2 E2].
  destruct (Z.lt_trichotomy (cix w i) (cix w k)) as [|[E|L]]; [assumption| |].
  - rewrite E in E1. lia.
  - pose proof (cont_lt w C I (cix w k) (cix w i)). lia.
Qed.

Lemma jcol j : 0 <= j < n -> col_entries jac j = Ok (nth (Z.to_nat j) cs []) /\ sorted_in 0 (wnc w) (keys (nth (Z.to_nat j) cs [])).
Proof. intros Hj. rewrite <- Hr. apply nth_col; auto. now rewrite Hc. Qed.

(** The entries of column [j] of the matrix with the rows of the working set, moved by [d]. *)
Definition wcol (d j : Z) : list (Z * num) :=
  (if vix w j =? none then [] else [(d + vix w j, n1)]) ++ moved cact (fun i => d + cix w i) (nth (Z.to_nat j) cs []).

Lemma cons_sorted d j : 0 <= j < n -> sorted_in (d + wnav w) (d + ws_size w) (keys (moved cact (fun i => d + cix w i) (nth (Z.to_nat j) cs []))).
Proof.
  intros Hj. destruct (jcol j Hj) as [_ Hs].
  eapply moved_sorted; [exact Hs| |].
  - intros i k Hi Hk Ai Ak Hik. apply (sorted_in_In _ _ _ _ Hs) in Hi. apply (sorted_in_In _ _ _ _ Hs) in Hk.
    pose proof (cix_lt i k Hi Hk (proj1 (cact_iff i) Ai) (proj1 (cact_iff k) Ak) Hik). lia.
  - intros i Hi Ai. apply (sorted_in_In _ _ _ _ Hs) in Hi. pose proof (cix_range i Hi (proj1 (cact_iff i) Ai)). lia.
Qed.

Lemma wcol_sorted d j : 0 <= j < n -> sorted_in d (d + ws_size w) (keys (wcol d j)).
Proof.
  intros Hj. pose proof nv0. unfold wcol. pose proof (cons_sorted d j Hj) as Hs.
  destruct (Z.eqb_spec (vix w j) none) as [E|E].
  - cbn [app]. eapply sorted_in_weaken; [| |exact Hs]; lia.
  - pose proof (vix_range j Hj E). cbn [app keys map fst sorted_in]. split; [lia|].
    eapply sorted_in_weaken; [| |exact Hs]; lia.
Qed.

(** ** The lower part *)
Definition lowcol (j : Z) : list (Z * num) := (j, n1) :: wcol n j.

Lemma lowcol_sorted j : 0 <= j < n -> sorted_in 0 (n + ws_size w) (keys (lowcol j)).
Proof.
  intros Hj. pose proof nv0. unfold lowcol. cbn [keys map fst sorted_in]. unfold n in *. split; [lia|].
  eapply sorted_in_weaken; [| |apply (wcol_sorted (wnv w) j Hj)]; lia.
Qed.

Lemma push_cons_eq col m es : (forall i, In i (keys es) -> 0 <= i < wnc w) ->
  push_cons w n col m es = push_entries m col (moved cact (fun i => n + cix w i) es).
Proof.
  intros Hin. revert m. unfold push_cons, push_entries, moved.
  induction es as [|[i x] es IH]; intros m; [reflexivity|].
  cbn [rfold filter fst snd]. destruct (cix_ok w C i) as (E1 & E2 & E3). { apply Hin. now left. }
  rewrite E1, E2. cbn [rbind]. assert (IH' := IH (fun k Hk => Hin k (or_intror Hk))). clear IH.
  unfold cact at 1. destruct (Z.eqb_spec (cix w i) none) as [En|En]; cbn [negb].
  - assert (active (cstate w i) = false) as -> by (rewrite (proj2 E3 En); reflexivity). cbn [negb check rbind]. apply IH'.
  - assert (active (cstate w i) = true) as ->. { destruct (cstate w i) eqn:Ec; try reflexivity. exfalso. apply En. now apply E3. }
    cbn [check rbind map rfold fst snd]. destruct (mat_push m (n + cix w i) col x); cbn [rbind]; auto.
Qed.

Lemma fill_col_eq m col : 0 <= col < n ->
  fill_col w n jac m col = (m2 <- mat_push_col m col ;; push_entries m2 col (lowcol col)).
Proof.
  intros Hj. unfold fill_col, lowcol, wcol. destruct (mat_push_col m col) as [m1| |]; cbn [rbind]; auto.
  unfold push_entries. cbn [rfold fst snd]. destruct (mat_push m1 col col n1) as [m2| |]; cbn [rbind]; auto.
  destruct (vix_ok w C col Hj) as (E1 & E2 & E3). rewrite E1, E2. cbn [rbind].
  destruct (jcol col Hj) as [Ec Hs]. 
  destruct (Z.eqb_spec (vix w col) none) as [En|En].
  - rewrite En. change (none =? -1) with true. cbn [negb].
    assert (active (vstate w col) = false) as -> by (rewrite (proj2 E3 En); reflexivity). cbn [negb check rbind app].
    rewrite Ec. cbn [rbind]. apply push_cons_eq. intros i Hi. apply (sorted_in_In _ _ _ _ Hs Hi).
  - destruct (Z.eqb_spec (vix w col) (-1)) as [E|_]; [exfalso; apply En; exact E|]. cbn [negb].
    assert (active (vstate w col) = true) as ->. { destruct (vstate w col) eqn:Ev; try reflexivity. exfalso. apply En. now apply E3. }
    cbn [check rbind app rfold fst snd]. destruct (mat_push m2 (n + vix w col) col n1) as [m3| |]; cbn [rbind]; auto.
    rewrite Ec. cbn [rbind]. apply push_cons_eq. intros i Hi. apply (sorted_in_In _ _ _ _ Hs Hi).
Qed.

(** Sizes *)
Lemma vact_count : len (filter vact (zrange n)) <= wnav w.
Proof.
  apply (active_vars_bound w C).
  - apply NoDup_filter. eapply sorted_in_NoDup, zrange_sorted.
  - intros j Hj. apply filter_In in Hj. destruct Hj as [H1 H2]. apply zrange_In in H1. now apply vact_iff in H2.
Qed.

Lemma wcol_total d : len (concat (map (wcol d) (zrange n))) <= wnav w + mnnz jac.
Proof.
  assert (H1 : forall zs, len (concat (map (wcol d) zs)) <= len (filter vact zs) + len (concat (map (fun j => nth (Z.to_nat j) cs []) zs))).
  { induction zs as [|j zs IH]; cbn [map concat filter]; [lia|]. unfold wcol at 1. rewrite !app_length.
    pose proof (moved_length cact (fun i => d + cix w i) (nth (Z.to_nat j) cs [])).
    unfold vact at 1. destruct (vix w j =? none); cbn [negb length]; lia. }
  specialize (H1 (zrange n)). pose proof vact_count. destruct (layout_facts jac cs HS) as (_ & _ & _ & HN & _).
  rewrite map_nth_zrange in H1; [lia|]. destruct HS as [_ E]. unfold n. rewrite <- Hc. exact E.
Qed.

Lemma lowcol_total : len (concat (map lowcol (zrange n))) = n + len (concat (map (wcol n) (zrange n))).
Proof.
  assert (H : forall zs, len (concat (map lowcol zs)) = len zs + len (concat (map (wcol n) zs))).
  { induction zs as [|j zs IH]; cbn [map concat length]; [reflexivity|]. rewrite !app_length. unfold lowcol in *. cbn [length]. lia. }
  rewrite H, zrange_length. pose proof nv0. lia.
Qed.
End Rows.
