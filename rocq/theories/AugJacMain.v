(** The matrix of the standard augmented system and its reuse from one call to the next. *)
From Verif Require Import Base Num Cmp Sparse Vec VecFacts Order VecFacts2 Mat MatFacts MatFacts2 MatFacts3 MatFacts4 Arr
  WorkingSet WorkingSetFacts DualEst DualEstFacts AugJac AugJacFacts AugJacUpper.
Local Open Scope Z_scope.

(** Row [k] of the working set: a unit row for a variable, a row of the Jacobian for a constraint. *)
Definition row_entry {N : Num} (w : wset) (cs : list (list (Z * num))) (k j : Z) : option num :=
  match ws_content w k with
  | Ok a => if a <? wnv w then (if a =? j then Some n1 else None) else mget cs (a - wnv w) j
  | _ => None
  end.

(** [[I A^T] [A 0]], or its lower part, with the rows [A] of the working set. *)
Definition augmented {N : Num} (w : wset) (cs : list (list (Z * num))) (lower : bool) (m : mat) : Prop :=
  let n := wnv w in
  mnr m = n + ws_size w /\ mnc m = n + ws_size w /\
  exists ms, stores m ms
    /\ (forall i j, 0 <= i < n -> 0 <= j < n -> mget ms i j = if i =? j then Some n1 else None)
    /\ (forall k j, 0 <= k < ws_size w -> 0 <= j < n -> mget ms (n + k) j = row_entry w cs k j)
    /\ (forall k j, 0 <= k < ws_size w -> 0 <= j < n -> mget ms j (n + k) = if lower then None else row_entry w cs k j)
    /\ (forall k l, 0 <= k < ws_size w -> 0 <= l < ws_size w -> mget ms (n + k) (n + l) = None).

Section Fill.
Context {N : Num}.
Variables (w : wset) (jac : mat) (cs : list (list (Z * num))).
Hypothesis C : consistent w.
Hypothesis I : in_order w.
Hypothesis HS : stores jac cs.
Hypothesis Hc : mnc jac = wnv w.
Hypothesis Hr : mnr jac = wnc w.
Let n := wnv w.
Let size := wnv w + ws_size w.
Let LC := lowcol w cs.

Lemma wcol_get d j k : 0 <= j < n -> 0 <= k < ws_size w -> get (wcol w cs d j) (d + k) = row_entry w cs k j.
Proof.
  intros Hj Hk. pose proof (nv0 w C) as (_ & _ & H3 & _). unfold wcol, row_entry. rewrite (cont_ok w C k Hk).
  destruct (jcol w jac cs HS Hc Hr j Hj) as [_ Hs].
  assert (Hv : get (if vix w j =? none then [] else [(d + vix w j, n1)]) (d + k) = if cont w k =? j then Some n1 else None).
  { destruct (Z.eqb_spec (vix w j) none) as [E|E].
    - destruct (Z.eqb_spec (cont w k) j) as [E'|]; [|reflexivity]. exfalso.
      pose proof (vix_cont_id w C k Hk ltac:(unfold n in *; lia)) as Hi. rewrite E' in Hi. unfold none in *. lia.
    - cbn [get]. destruct (vix_cont w C j Hj E) as [R1 R2].
      destruct (Z.eqb_spec (d + vix w j) (d + k)) as [E1|E1].
      + assert (vix w j = k) by lia. subst k. rewrite R2, Z.eqb_refl. reflexivity.
      + destruct (Z.eqb_spec (cont w k) j) as [E'|]; [|reflexivity]. exfalso.
        pose proof (vix_cont_id w C k Hk ltac:(unfold n in *; lia)) as Hi. rewrite E' in Hi. lia. }
  destruct (Z.ltb_spec (cont w k) (wnv w)) as [Hv'|Hv'].
  - rewrite get_app, Hv. destruct (cont w k =? j); [reflexivity|].
    rewrite (moved_none (cact w) (fun i => d + cix w i)); [reflexivity|]. intros a Ha Aa E. apply (sorted_in_In _ _ _ _ Hs) in Ha.
    apply cact_iff in Aa. destruct (cix_cont w C a Ha Aa) as [R1 R2]. assert (cix w a = k) by lia. subst k. lia.
  - destruct (Z.eqb_spec (cont w k) j); [unfold n in *; lia|]. rewrite get_app, Hv.
    destruct (cont_cases w C k Hk) as [[? _]|[Hr1 Hi]]; [lia|].
    assert (Hk' : cix w (cont w k - wnv w) = k) by (unfold cix; now rewrite Hi).
    rewrite <- Hk' at 1.
    rewrite (moved_get (cact w) (fun i => d + cix w i) (nth (Z.to_nat j) cs []) (cont w k - wnv w)); [reflexivity| |].
    + intros a Ha Aa E. apply (sorted_in_In _ _ _ _ Hs) in Ha. apply cact_iff in Aa. destruct (cix_cont w C a Ha Aa) as [R1 R2].
      assert (E' : cix w a = k) by lia. rewrite E' in R2. lia.
    + apply cact_iff. unfold none. lia.
Qed.

Lemma wcol_low d j i : 0 <= j < n -> i < d -> get (wcol w cs d j) i = None.
Proof. intros Hj Hi. eapply get_below; [exact (wcol_sorted w jac cs C I HS Hc Hr d j Hj)|exact Hi]. Qed.

Lemma LC_low i j : 0 <= i < n -> 0 <= j < n -> get (LC j) i = if i =? j then Some n1 else None.
Proof.
  intros Hi Hj. unfold LC, lowcol. cbn [get]. rewrite (Z.eqb_sym j i). destruct (i =? j); [reflexivity|]. apply wcol_low; unfold n in *; lia.
Qed.
Lemma LC_high k j : 0 <= k < ws_size w -> 0 <= j < n -> get (LC j) (n + k) = row_entry w cs k j.
Proof.
  intros Hk Hj. unfold LC, lowcol. cbn [get]. destruct (Z.eqb_spec j (n + k)); [unfold n in *; lia|]. now apply wcol_get.
Qed.

Lemma up_length : len (allb n LC) <= n + 2 * (wnav w + mnnz jac).
Proof.
  pose proof (lowcol_total w cs C) as H1. pose proof (wcol_total w jac cs C HS Hc n) as H2. unfold allb. rewrite app_length, lows_length.
  change (map LC) with (map (lowcol w cs)). 
  assert (H3 : length (ups n LC n) = length (concat (map (wcol w cs n) (zrange n)))).
  { unfold ups. assert (H : forall zs, (forall z, In z zs -> 0 <= z < n) -> length (concat (map (up_of n LC) zs)) = length (concat (map (wcol w cs n) zs))).
    { induction zs as [|j zs IH]; intros Hz; cbn [map concat]; [reflexivity|]. rewrite !app_length, IH by (intros; apply Hz; now right). f_equal.
      specialize (Hz j (or_introl eq_refl)). unfold up_of. rewrite map_length. unfold LC, lowcol. cbn [filter fst].
      destruct (Z.leb_spec n j); [lia|].
      assert (Hf : forall es, (forall i, In i (keys es) -> n <= i) -> filter (fun e : Z * num => n <=? fst e) es = es).
      { induction es as [|[i x] es IHe]; intros Hi; [reflexivity|]. cbn [filter fst]. destruct (Z.leb_spec n i).
        - f_equal. apply IHe. intros k Hk. apply Hi. now right.
        - exfalso. specialize (Hi i (or_introl eq_refl)). lia. }
      rewrite Hf; [reflexivity|]. intros i Hi. apply (sorted_in_In _ _ _ _ (wcol_sorted w jac cs C I HS Hc Hr n j Hz)) in Hi. lia. }
    apply H. intros z Hz. now apply zrange_In in Hz. }
  unfold n in *. lia.
Qed.

Lemma fill_aug_spec m (ci : list Z) (lower : bool) : mwf m -> size < len ci ->
  n + (mnnz jac + wnav w) + (if lower then 0 else mnnz jac + wnav w) <= mcap m ->
  exists m' ci', fill_aug n w jac m ci lower = Ok (m', ci') /\ augmented w cs lower m' /\ length ci' = length ci /\ mwf m'.
Proof.
  intros Hm Hci Hcap. pose proof (nv0 w C) as (H1 & H2 & H3 & H4). pose proof (lowcol_total w cs C) as T1. pose proof (wcol_total w jac cs C HS Hc n) as T2.
  pose proof (layout_facts jac cs HS) as (_ & _ & J1 & _).
  unfold fill_aug. destruct (clear_resize m size size Hm) as (m1 & E1 & L1 & R1 & R2 & R3); [unfold size; lia..|].
  fold size. change (n + ws_size w) with size. rewrite E1. cbn [rbind].
  destruct (build_part (fill_col w n jac) LC m1 n) as (m2 & E2 & L2 & (S1 & S2 & S3)).
  - intros t j Hj. exact (fill_col_eq w jac cs C HS Hc Hr t j Hj).
  - intros j Hj. rewrite R1. exact (lowcol_sorted w jac cs C I HS Hc Hr j Hj).
  - exact L1.
  - rewrite R2. unfold n, size. lia.
  - rewrite R3. unfold n, LC in *. destruct lower; lia.
  - rewrite E2. cbn [rbind]. destruct lower; cbn [rbind].
    + (* lower part only: empty columns *)
      rewrite rfold_map.
      destruct (zrange_loop (fun j t => layout t (map LC (zrange n) ++ map (fun _ => []) (zrange j)) /\ shape t m2)
        (fun s a => mat_push_col s (n + a)) (ws_size w) m2) as (m3 & E3 & L3 & (T3 & T4 & T5)).
      * lia.
      * cbn [zrange Z.to_nat seq map]. rewrite app_nil_r. split; [exact L2|now repeat split].
      * intros j t Hj [Lt (A1 & A2 & A3)]. destruct (layout_push_col t _ Lt) as (t' & Et & Lt' & (B1 & B2 & B3)).
        { rewrite app_length, !map_length, !zrange_length. rewrite A2, S2, R2. unfold n, size. lia. }
        rewrite app_length, !map_length, !zrange_length in Et. replace (Z.of_nat (Z.to_nat n + Z.to_nat j)) with (n + j) in Et by (unfold n in *; lia).
        exists t'. split; [exact Et|]. rewrite zrange_succ, map_app, app_assoc by lia. split; [exact Lt'|]. repeat split; congruence.
      * rewrite E3. cbn [rbind].
        assert (HSt : stores m3 (map LC (zrange n) ++ map (fun _ => []) (zrange (ws_size w)))).
        { split; [exact L3|]. rewrite app_length, !map_length, !zrange_length, T4, S2, R2. unfold n, size. lia. }
        assert (Hlo : forall j, 0 <= j < n -> nth (Z.to_nat j) (map LC (zrange n) ++ map (fun _ => []) (zrange (ws_size w))) [] = LC j).
        { intros j Hj. rewrite app_nth1 by (rewrite map_length, zrange_length; lia). apply (nth_map_zrange LC). exact Hj. }
        assert (Hhi : forall j, n <= j -> nth (Z.to_nat j) (map LC (zrange n) ++ map (fun _ => []) (zrange (ws_size w))) [] = []).
        { intros j Hj. rewrite app_nth2 by (rewrite map_length, zrange_length; lia). rewrite map_length, zrange_length.
          destruct (Nat.lt_ge_cases (Z.to_nat j - Z.to_nat n) (length (map (fun _ : Z => @nil (Z * num)) (zrange (ws_size w))))) as [Hlt|Hge].
          - pose proof (nth_In _ (@nil (Z * num)) Hlt) as Hin. apply in_map_iff in Hin. destruct Hin as (? & <- & _). reflexivity.
          - now apply nth_overflow. }
        rewrite (is_lower_spec m3 _ HSt).
        2:{ intros j Hj. destruct (Z.lt_ge_cases j n) as [Hjn|Hjn].
            - rewrite Hlo by lia. apply forallb_forall. intros e He. apply Z.leb_le. unfold LC, lowcol in He. destruct He as [<-|He]; [cbn; lia|].
              pose proof (wcol_sorted w jac cs C I HS Hc Hr n j ltac:(unfold n in *; lia)) as Hs. apply (in_map fst) in He.
              apply (sorted_in_In _ _ _ _ Hs) in He. lia.
            - rewrite Hhi by lia. reflexivity. }
        cbn [rbind check fst]. rewrite (valid_of_wf m3 _ HSt). cbn [rbind check]. eexists _, ci. split; [reflexivity|]. split; [|split; [reflexivity|eexists; exact HSt]].
        unfold augmented. fold n. change (n + ws_size w) with size. split; [congruence|]. split; [congruence|]. eexists. split; [exact HSt|]. unfold mget. split; [|split; [|split]].
        { intros i j Hi Hj. rewrite Hlo by lia. now apply LC_low. }
        { intros k j Hk Hj. rewrite Hlo by lia. now apply LC_high. }
        { intros k j Hk Hj. rewrite Hhi by lia. reflexivity. }
        { intros k l Hk Hl. rewrite Hhi by lia. reflexivity. }
    + (* with the transposed rows *)
      assert (Hsz : mnc m2 = size) by congruence.
      destruct (add_upper_spec m2 n LC ci) as (m3 & ci' & E3 & HSt & A1 & A2 & A3 & A4).
      * rewrite Hsz. unfold n, size. lia.
      * exact L2.
      * congruence.
      * rewrite Hsz. exact Hci.
      * rewrite S3, R3. pose proof up_length. unfold n in *. lia.
      * rewrite E3. cbn [rbind fst]. rewrite (valid_of_wf m3 _ HSt). cbn [rbind check]. exists m3, ci'. split; [reflexivity|].
        rewrite Hsz in *. split; [|split; [exact A3|eexists; exact HSt]].
        unfold augmented. fold n. split; [exact A1|]. split; [exact A2|]. eexists. split; [exact HSt|].
        assert (Hn' : 0 <= n <= mnc m2) by (rewrite Hsz; unfold n, size; lia). assert (Hsq : mnr m2 = mnc m2) by congruence.
        unfold mget. split; [|split; [|split]].
        { intros i j Hi Hj. rewrite (nth_map_zrange (Fc n LC)) by (unfold size, n in *; lia).
          rewrite (Fc_low m2 n LC) by (auto; lia). now apply LC_low. }
        { intros k j Hk Hj. rewrite (nth_map_zrange (Fc n LC)) by (unfold size, n in *; lia).
          rewrite (Fc_low m2 n LC) by (auto; lia). now apply LC_high. }
        { intros k j Hk Hj. rewrite (nth_map_zrange (Fc n LC)) by (unfold size, n in *; lia).
          rewrite (Fc_up_get m2 n LC) by (auto; lia). destruct (Z.leb_spec 0 j), (Z.ltb_spec j n); try lia. cbn [andb]. now apply LC_high. }
        { intros k l Hk Hl. rewrite (nth_map_zrange (Fc n LC)) by (unfold size, n in *; lia).
          rewrite (Fc_up_get m2 n LC) by (auto; lia). destruct (Z.ltb_spec (n + k) n); [lia|]. now rewrite andb_false_r. }
Qed.
End Fill.

(** ** Setting the iterate *)
Section Set_.
Context {N : Num}.

(** What the data structure keeps between calls. *)
Definition sj_ok (n nc : Z) (j : sjac) : Prop :=
  sj_n j = n /\ mwf (sj_m j) /\ n + (n + nc) < len (sj_ci j) /\
  match sj_ws j with Some u => consistent u /\ wnv u = n /\ wnc u = nc | None => True end.

Lemma create_ok n nc fixed junk : 0 <= n -> 0 <= nc -> exists j, sj_create n nc fixed junk = Ok j /\ sj_ok n nc j
  /\ sj_has j = false /\ (sj_ws j = None <-> fixed = false).
Proof.
  intros Hn Hnc. unfold sj_create. destruct (mat_create_spec 0 0 0) as (m & E & L & R1 & R2 & R3); try lia. rewrite E. cbn [rbind].
  eexists. split; [reflexivity|]. unfold sj_ok. cbn [sj_n sj_m sj_ci sj_ws sj_has]. split; [|split; [reflexivity|destruct fixed; split; congruence]].
  split; [reflexivity|]. split; [exists []; split; [exact L|cbn; lia]|]. split; [rewrite map_length, zrange_length; lia|].
  destruct fixed; auto. split; [|split; reflexivity]. eapply holds_consistent. apply create_holds; lia.
Qed.

(** The number of items is that of the variables and constraints at most. *)
Lemma size_le w : consistent w -> ws_size w <= wnv w + wnc w.
Proof. intros C. unfold ws_size. destruct (cs_bound w C). lia. Qed.

(** The sets agree in what the matrix depends on. *)
Definition same_items (a b : wset) : Prop :=
  wnv a = wnv b /\ wnc a = wnc b /\ ws_size a = ws_size b /\ forall k, 0 <= k < ws_size a -> ws_content a k = ws_content b k.

Lemma ws_eq_items a b : consistent a -> consistent b -> wnv a = wnv b -> wnc a = wnc b ->
  exists r, ws_eq a b = Ok r /\ (r = true -> same_items a b).
Proof.
  intros Ca Cb Hv Hc. unfold ws_eq. rewrite Hc, Hv, !Z.eqb_refl. cbn [check rbind]. rewrite <- Hv, <- Hc.
  assert (A1 : forall j, 0 <= j < wnv a -> arr_get (wvix a) j = Ok (vix a j)).
  { intros j Hj. destruct (vix_ok a Ca j Hj) as (E & _). unfold ws_var_index in E.
    destruct (0 <=? j), (j <? wnv a); cbn [check rbind] in E; try discriminate; exact E. }
  assert (B1 : forall j, 0 <= j < wnv a -> arr_get (wvix b) j = Ok (vix b j)).
  { intros j Hj. rewrite Hv in Hj. destruct (vix_ok b Cb j Hj) as (E & _). unfold ws_var_index in E.
    destruct (0 <=? j), (j <? wnv b); cbn [check rbind] in E; try discriminate; exact E. }
  assert (A2 : forall j, 0 <= j < wnc a -> arr_get (wcix a) j = Ok (cix a j)).
  { intros j Hj. destruct (cix_ok a Ca j Hj) as (E & _). unfold ws_cons_index in E.
    destruct (0 <=? j), (j <? wnc a); cbn [check rbind] in E; try discriminate; exact E. }
  assert (B2 : forall j, 0 <= j < wnc a -> arr_get (wcix b) j = Ok (cix b j)).
  { intros j Hj. rewrite Hc in Hj. destruct (cix_ok b Cb j Hj) as (E & _). unfold ws_cons_index in E.
    destruct (0 <=? j), (j <? wnc b); cbn [check rbind] in E; try discriminate; exact E. }
  rewrite (bool_loop (fun j => x <- arr_get (wvix a) j ;; y <- arr_get (wvix b) j ;; Ok (x =? y)) (fun j => vix a j =? vix b j)).
  2: { intros j Hj. apply zrange_In in Hj. rewrite A1, B1 by lia. reflexivity. }
  cbn [rbind].
  rewrite (bool_loop (fun j => x <- arr_get (wcix a) j ;; y <- arr_get (wcix b) j ;; Ok (x =? y)) (fun j => cix a j =? cix b j)).
  2: { intros j Hj. apply zrange_In in Hj. rewrite A2, B2 by lia. reflexivity. }
  cbn [andb]. eexists. split; [reflexivity|]. rewrite andb_true_iff, !forallb_zrange. intros [H1 H2].
  assert (V : forall j, 0 <= j < wnv a -> vix a j = vix b j) by (intros j Hj; now apply Z.eqb_eq, H1).
  assert (W : forall j, 0 <= j < wnc a -> cix a j = cix b j) by (intros j Hj; now apply Z.eqb_eq, H2).
  assert (K : forall k, 0 <= k < ws_size a -> k < ws_size b /\ ws_content a k = ws_content b k).
  { intros k Hk. rewrite (cont_ok a Ca k Hk). destruct (cont_cases a Ca k Hk) as [[R E]|[R E]].
    - assert (Ev : vix b (cont a k) = k) by (rewrite <- V by lia; unfold vix; now rewrite E).
      destruct (vix_cont b Cb (cont a k)) as [Q1 Q2]; [lia|rewrite Ev; unfold none; lia|]. rewrite Ev in *. split; [lia|].
      rewrite (cont_ok b Cb k Q1). now rewrite Q2.
    - assert (Ev : cix b (cont a k - wnv a) = k) by (rewrite <- W by lia; unfold cix; now rewrite E).
      destruct (cix_cont b Cb (cont a k - wnv a)) as [Q1 Q2]; [lia|rewrite Ev; unfold none; lia|]. rewrite Ev in *. split; [lia|].
      rewrite (cont_ok b Cb k Q1). f_equal. lia. }
  assert (K' : forall k, 0 <= k < ws_size b -> k < ws_size a).
  { intros k Hk. destruct (cont_cases b Cb k Hk) as [[R E]|[R E]].
    - assert (Ev : vix a (cont b k) = k) by (rewrite V by lia; unfold vix; now rewrite E).
      destruct (vix_cont a Ca (cont b k)) as [Q1 Q2]; [lia|rewrite Ev; unfold none; lia|]. rewrite Ev in *. lia.
    - assert (Ev : cix a (cont b k - wnv b) = k) by (rewrite W by lia; unfold cix; now rewrite E).
      destruct (cix_cont a Ca (cont b k - wnv b)) as [Q1 Q2]; [lia|rewrite Ev; unfold none; lia|]. rewrite Ev in *. lia. }
  split; [auto|]. split; [auto|]. split; [|intros k Hk; now apply K].
  pose proof (nv0 a Ca) as (_ & _ & Z1 & _). pose proof (nv0 b Cb) as (_ & _ & Z2 & _).
  destruct (Z.lt_trichotomy (ws_size a) (ws_size b)) as [H|[H|H]]; auto.
  - specialize (K' (ws_size a)). lia.
  - specialize (K (ws_size b)). lia.
Qed.

Lemma augmented_same a b cs lower m : same_items a b -> augmented b cs lower m -> augmented a cs lower m.
Proof.
  intros (H1 & H2 & H3 & H4) (R1 & R2 & ms & HS & P1 & P2 & P3 & P4). unfold augmented. rewrite H1, H3. split; [auto|]. split; [auto|].
  exists ms. split; [exact HS|]. split; [exact P1|].
  assert (HR : forall k j, 0 <= k < ws_size b -> row_entry a cs k j = row_entry b cs k j).
  { intros k j Hk. unfold row_entry. rewrite H4 by lia. now rewrite H1. }
  split; [|split; [|exact P4]]; intros k j Hk Hj.
  - rewrite HR by auto. now apply P2.
  - rewrite HR by auto. now apply P3.
Qed.

(** The data handed to a call *)
Record call_data (n nc : Z) (w : wset) (jac : mat) (cs : list (list (Z * num))) : Prop := {
  cd_c : consistent w; cd_o : in_order w; cd_nv : wnv w = n; cd_nc : wnc w = nc;
  cd_s : stores jac cs; cd_jc : mnc jac = n; cd_jr : mnr jac = nc }.

(** A call that builds the matrix *)
Lemma set_iterate_miss n nc F j w jac cs : sj_ok n nc j -> call_data n nc w jac cs ->
  (forall u, sj_ws j = Some u -> ws_eq w u = Ok false \/ sj_has j = false) ->
  exists m ci, augmented w cs (f_lower F) m /\ mwf m /\ n + (n + nc) < len ci /\
    let u := match sj_ws j with None => None | Some _ => Some w end in
    sj_set_iterate F j w jac = match f_set F m with
      | Ok _ => Ok (mksj n m ci u true (ws_size w) (Some m), Ok tt)
      | Err c => Ok (mksj n m ci u (sj_has j) (ws_size w) None, Err c)
      | Trap => Trap
      end.
Proof.
  intros (O1 & (ms & Hms) & O3 & O4) [C O Hv Hn HS Jc Jr] Hmiss. destruct Hv, Hn.
  pose proof (nv0 w C) as (H1 & H2 & H3 & H4). pose proof (size_le w C) as Hsz. pose proof (layout_facts jac cs HS) as (_ & _ & J1 & _).
  destruct (reserve_stores (sj_m j) ms (let k := mnnz jac + wnav w in if f_lower F then wnv w + k else wnv w + k + k) Hms) as (m0 & E0 & HS0 & R1 & R2 & R3 & R4).
  { cbv zeta. destruct (f_lower F); lia. }
  destruct (fill_aug_spec w jac cs C O HS Jc Jr m0 (sj_ci j) (f_lower F)) as (m1 & ci & E1 & HA & Hci & Hm1).
  { now exists ms. }
  { lia. }
  { cbv zeta in R4. destruct (f_lower F); lia. }
  exists m1, ci. split; [exact HA|]. split; [exact Hm1|]. split; [rewrite Hci; exact O3|]. cbv zeta.
  assert (Hfin : forall u, (m <- reserve_aug (sj_n j) w jac (sj_m j) (f_lower F);;
     s <- fill_aug (sj_n j) w jac m (sj_ci j) (f_lower F) ;;
     let (m, ci) := (s : mat * list Z) in
     match f_set F m with
     | Trap => Trap
     | Err c => Ok (mksj (sj_n j) m ci u (sj_has j) (ws_size w) None, Err c)
     | Ok _ =>
       check (mnr m =? mnc m) ;;; check (mnc m =? sj_n j + ws_size w) ;;;
       Ok (mksj (sj_n j) m ci u true (ws_size w) (Some m), Ok tt)
     end) = match f_set F m1 with
      | Ok _ => Ok (mksj (wnv w) m1 ci u true (ws_size w) (Some m1), Ok tt)
      | Err c => Ok (mksj (wnv w) m1 ci u (sj_has j) (ws_size w) None, Err c)
      | Trap => Trap
      end).
  { intros u. unfold reserve_aug. rewrite O1. cbv zeta in E0. rewrite E0. cbn [rbind]. rewrite E1. cbn [rbind].
    destruct HA as (A1 & A2 & A3). destruct (f_set F m1); [|reflexivity|reflexivity]. rewrite A1, A2, !Z.eqb_refl. reflexivity. }
  unfold sj_set_iterate. destruct (sj_ws j) as [u|] eqn:Eu.
  - destruct O4 as (Cu & Uv & Un). destruct (ws_eq_items w u C Cu) as (r & Er & _); [congruence..|].
    assert (Hr : r && sj_has j = false).
    { destruct (Hmiss u eq_refl) as [E| Eh]; [|rewrite Eh; apply andb_false_r]. rewrite Er in E. injection E as ->. reflexivity. }
    rewrite Er. cbn [rbind]. rewrite Hr. unfold ws_copy. rewrite Uv, Un, !Z.eqb_refl. cbn [check rbind]. apply Hfin.
  - cbn [rbind]. apply Hfin.
Qed.

(** A run of calls; the Jacobians are the same throughout if the working set is kept. *)
Fixpoint sj_calls (F : fact) (j : sjac) (l : list (wset * mat)) : res sjac :=
  match l with
  | [] => Ok j
  | (w, jac) :: l' => s <- sj_set_iterate F j w jac ;; snd s ;;; sj_calls F (fst s) l'
  end.

Definition sj_current (n nc : Z) (F : fact) (w : wset) (cs : list (list (Z * num))) (j : sjac) : Prop :=
  sj_ok n nc j /\ sj_size j = ws_size w /\ exists m, sj_held j = Some m /\ augmented w cs (f_lower F) m.

Lemma set_iterate_current n nc F j w jac cs :
  (forall m, mwf m -> augmented w cs (f_lower F) m -> f_set F m = Ok tt) ->
  sj_ok n nc j -> call_data n nc w jac cs ->
  (forall u, sj_ws j = Some u -> sj_has j = true -> sj_current n nc F u cs j) ->
  exists j', sj_set_iterate F j w jac = Ok (j', Ok tt) /\ sj_current n nc F w cs j' /\ sj_has j' = true
    /\ (sj_ws j' = None <-> sj_ws j = None) /\ (forall u, sj_ws j' = Some u -> sj_current n nc F u cs j').
Proof.
  intros HF HJ HD Hcur. pose proof HJ as (O1 & O2 & O3 & O4). pose proof HD as [C O Hv Hn HS Jc Jr].
  assert (Hdec : (exists u, sj_ws j = Some u /\ sj_has j = true /\ ws_eq w u = Ok true)
                 \/ (forall u, sj_ws j = Some u -> ws_eq w u = Ok false \/ sj_has j = false)).
  { destruct (sj_ws j) as [u|]; [|right; congruence]. destruct O4 as (Cu & Uv & Un).
    destruct (ws_eq_items w u C Cu) as ([|] & Er & _); [congruence..| |].
    - destruct (sj_has j); [left; exists u; auto|right; auto].
    - right. intros u' [= <-]. auto. }
  destruct Hdec as [(u & Eu & Hh & Er)|Hmiss].
  - exists j. assert (HC := Hcur u Eu Hh). split; [|split; [|split; [exact Hh|split; [tauto|]]]].
    + unfold sj_set_iterate. rewrite Eu, Er, Hh. reflexivity.
    + rewrite Eu in O4. destruct O4 as (Cu & Uv & Un). destruct (ws_eq_items w u C Cu) as (r & Er' & Hs); [congruence..|].
      rewrite Er in Er'. injection Er' as <-. specialize (Hs eq_refl). destruct HC as (_ & S1 & m & Hm & HA).
      split; [exact HJ|]. split; [rewrite S1; symmetry; apply Hs|]. exists m. split; [exact Hm|]. now apply (augmented_same w u).
    + intros u' E'. rewrite Eu in E'. injection E' as <-. exact HC.
  - destruct (set_iterate_miss n nc F j w jac cs HJ HD Hmiss) as (m & ci & HA & Hm & Hci & E). cbv zeta in E.
    rewrite (HF m Hm HA) in E. eexists. split; [exact E|]. cbn [sj_has sj_ws].
    assert (HC : forall u, (match u with Some v => v = w | None => True end) ->
       sj_current n nc F w cs (mksj n m ci u true (ws_size w) (Some m))).
    { intros u Hu. split; [|split; [reflexivity|exists m; auto]]. unfold sj_ok. cbn [sj_n sj_m sj_ci sj_ws]. split; [reflexivity|]. split; [exact Hm|].
      split; [exact Hci|]. destruct u as [v|]; auto. subst v. auto. }
    split; [apply HC; destruct (sj_ws j); auto|]. split; [reflexivity|]. split; [destruct (sj_ws j); split; congruence|].
    intros u Eu. destruct (sj_ws j); [|discriminate]. injection Eu as <-. apply HC. reflexivity.
Qed.

Lemma calls_current n nc F fixed junk (cs0 : list (list (Z * num))) (l : list (wset * mat)) w jac cs :
  0 <= n -> 0 <= nc ->
  Forall (fun p => exists cs, call_data n nc (fst p) (snd p) cs /\ (fixed = true -> cs = cs0)
    /\ forall m, mwf m -> augmented (fst p) cs (f_lower F) m -> f_set F m = Ok tt) (l ++ [(w, jac)]) ->
  call_data n nc w jac cs ->
  exists j0 j, sj_create n nc fixed junk = Ok j0 /\ sj_calls F j0 (l ++ [(w, jac)]) = Ok j /\ sj_current n nc F w cs j.
Proof.
  intros Hn Hnc Hall HD. destruct (create_ok n nc fixed junk Hn Hnc) as (j0 & E0 & HJ0 & Hh0 & Hw0). exists j0.
  assert (G : forall l j, sj_ok n nc j -> (sj_ws j = None <-> fixed = false) ->
     (forall u, sj_ws j = Some u -> sj_has j = true -> sj_current n nc F u cs0 j) ->
     Forall (fun p => exists cs, call_data n nc (fst p) (snd p) cs /\ (fixed = true -> cs = cs0)
    /\ forall m, mwf m -> augmented (fst p) cs (f_lower F) m -> f_set F m = Ok tt) (l ++ [(w, jac)]) ->
     exists j', sj_calls F j (l ++ [(w, jac)]) = Ok j' /\ sj_current n nc F w cs j').
  { clear Hall. induction l0 as [|[v ja] l0 IH]; intros j HJ Hw Hc Hall.
    - inversion Hall as [|x y (c & Hcd & Hfix & HF) _]; subst x y. cbn [fst snd] in *.
      assert (c = cs) as ->. { eapply stores_unique; [exact (cd_s _ _ _ _ _ Hcd)|exact (cd_s _ _ _ _ _ HD)]. }
      destruct (set_iterate_current n nc F j w jac cs HF) as (j' & E & H1 & _); auto.
      { intros u Eu Hh. destruct fixed; [|exfalso; rewrite (proj2 Hw eq_refl) in Eu; discriminate]. rewrite (Hfix eq_refl). now apply Hc. }
      exists j'. cbn [app sj_calls]. rewrite E. cbn [rbind fst snd]. auto.
    - cbn [app] in Hall. inversion Hall as [|x y (c & Hcd & Hfix & HF) Hrest]; subst x y. cbn [fst snd] in *.
      destruct (set_iterate_current n nc F j v ja c HF) as (j' & E & H1 & H2 & H3 & H4); auto.
      { intros u Eu Hh. destruct fixed; [|exfalso; rewrite (proj2 Hw eq_refl) in Eu; discriminate]. rewrite (Hfix eq_refl). now apply Hc. }
      cbn [app sj_calls]. rewrite E. cbn [rbind fst snd]. apply IH; auto.
      + apply H1.
      + tauto.
      + intros u Eu _. destruct fixed; [|exfalso; rewrite (proj2 H3 (proj2 Hw eq_refl)) in Eu; discriminate]. rewrite <- (Hfix eq_refl). now apply H4. }
  destruct (G l j0 HJ0 Hw0) as (j' & E & H); auto.
  - intros u _ Hh. congruence.
  - exists j'. auto.
Qed.
End Set_.
