(** Loops of restore.c: index maps, lifted states and multipliers, the stored working set. *)
From Verif Require Import Base Num Cmp Sparse Vec VecFacts VecFacts2 VecFacts3 Mat MatFacts MatFacts2 MatFacts3 MatFacts4 Arr
  WorkingSet WorkingSetFacts Problem Preproc PreprocFacts Restore.
Local Open Scope Z_scope.

(** Indices dropped and the position of the kept ones. *)
Definition dropped (k : Z -> bool) (n : Z) : list Z := filter (fun j => negb (k j)) (zrange n).
Definition posn (k : Z -> bool) (n j : Z) : Z := j - count_lt (dropped k n) j.

Lemma dropped_sorted k n : sorted_in 0 n (dropped k n).
Proof. apply sorted_filter, zrange_sorted. Qed.
Lemma dropped_in k n j : In j (dropped k n) <-> 0 <= j < n /\ k j = false.
Proof. unfold dropped. rewrite filter_In, zrange_In, negb_true_iff. reflexivity. Qed.
Lemma kept_posn k n j : 0 <= j < n -> k j = true -> kept (dropped k n) j (posn k n j).
Proof. intros Hj Hk. apply kept_total. rewrite dropped_in. intros [_ H]. congruence. Qed.
Lemma dropped_exists k n j : 0 <= j < n -> existsb (Z.eqb j) (dropped k n) = negb (k j).
Proof.
  intros Hj. destruct (k j) eqn:E; cbn [negb].
  - apply not_true_iff_false. rewrite existsb_In, dropped_in. intros [_ H]. congruence.
  - apply existsb_In, dropped_in. auto.
Qed.

Lemma filter_kept k n : filter (notin (dropped k n)) (zrange n) = filter k (zrange n).
Proof.
  apply filter_ext_in. intros j Hj. apply zrange_In in Hj. unfold notin. rewrite dropped_exists by exact Hj. now rewrite negb_involutive.
Qed.

Lemma kept_length k n : 0 <= n -> Z.of_nat (length (filter k (zrange n))) = n - Z.of_nat (length (dropped k n)).
Proof.
  intros Hn. assert (G : forall l : list Z, (length (filter k l) + length (filter (fun j => negb (k j)) l) = length l)%nat).
  { induction l as [|a l IH]; cbn [filter length]; [reflexivity|]. destruct (k a); cbn [negb length]; lia. }
  specialize (G (zrange n)). rewrite zrange_length in G. unfold dropped. lia.
Qed.

Lemma create_map_spec n room keep k : 0 <= n -> (forall j, 0 <= j < n -> keep j = Ok (k j)) -> room = n - Z.of_nat (length (dropped k n)) ->
  create_map n room keep = Ok (filter k (zrange n)).
Proof.
  intros Hn Hk Hroom. rewrite <- kept_length in Hroom by exact Hn. unfold create_map.
  destruct (zrange_loop (fun t m => m = filter k (zrange t)) (fun m j => b <- keep j ;;
    if (b : bool) then check (Z.of_nat (length m) <? room) ;;; Ok (m ++ [j]) else Ok m) n []) as (l & E & ->); auto.
  intros j t Hj ->. rewrite Hk by exact Hj. cbn [rbind]. rewrite zrange_succ by lia. rewrite filter_app. cbn [filter].
  destruct (k j) eqn:Ej.
  - destruct (zrange_split n j Hj) as (r & Er). rewrite Er, filter_app in Hroom. cbn [filter] in Hroom. rewrite Ej, app_length in Hroom. cbn [length] in Hroom.
    destruct (Z.ltb_spec (Z.of_nat (length (filter k (zrange j)))) room); [|lia]. cbn [check rbind]. eauto.
  - exists (filter k (zrange j)). split; [reflexivity|]. now rewrite app_nil_r.
Qed.

Lemma map_at k n j : 0 <= j < n -> k j = true -> arr_get (filter k (zrange n)) (posn k n j) = Ok j.
Proof.
  intros Hj Hk. pose proof (kept_posn k n j Hj Hk) as H. apply arr_get_nth.
  - pose proof (dropped_sorted k n) as Hs. assert (count_lt (dropped k n) j <= j); [|unfold posn; lia].
    clear H Hk. unfold posn. assert (G : forall l lo, sorted_in lo n l -> 0 <= lo -> lo <= j -> count_lt l j <= j - lo).
    { induction l as [|a l IH]; intros lo Hl H0 Hlo; [rewrite count_lt_nil; lia|]. destruct Hl as [Ha Hl]. rewrite count_lt_cons.
      destruct (Z.ltb_spec a j).
      - specialize (IH (a + 1) Hl ltac:(lia) ltac:(lia)). lia.
      - rewrite count_lt_none; [lia|]. intros f Hf. pose proof (sorted_in_In _ _ _ _ Hl Hf). lia. }
    specialize (G _ 0 Hs ltac:(lia) ltac:(lia)). lia.
  - rewrite <- (filter_kept k n). apply kept_nth; [apply dropped_sorted|exact Hj|exact H].
Qed.

Lemma posn_range k n j : 0 <= j < n -> k j = true -> 0 <= posn k n j < n - Z.of_nat (length (dropped k n)).
Proof.
  intros Hj Hk. pose proof (map_at k n j Hj Hk) as H. rewrite <- kept_length by lia.
  unfold arr_get in H. destruct (Z.leb_spec 0 (posn k n j)); [|discriminate].
  destruct (nth_error (filter k (zrange n)) (Z.to_nat (posn k n j))) eqn:E; [|discriminate].
  assert (Z.to_nat (posn k n j) < length (filter k (zrange n)))%nat by (apply nth_error_Some; congruence). lia.
Qed.

Lemma posn_inj k n i j : 0 <= i < n -> 0 <= j < n -> k i = true -> k j = true -> posn k n i = posn k n j -> i = j.
Proof.
  intros Hi Hj Ki Kj E. pose proof (map_at k n i Hi Ki). pose proof (map_at k n j Hj Kj). rewrite E in H. congruence.
Qed.

Lemma posn_surj k n p : 0 <= n -> 0 <= p < n - Z.of_nat (length (dropped k n)) -> exists j, 0 <= j < n /\ k j = true /\ posn k n j = p.
Proof.
  intros Hn Hp. destruct (kept_surj (dropped k n) n p (dropped_sorted k n) Hp) as (j & Hj & H1 & H2). exists j. split; [exact Hj|].
  assert (Kj : k j = true). { destruct (k j) eqn:E; [reflexivity|]. destruct H1. now apply dropped_in. }
  split; [exact Kj|]. unfold posn. lia.
Qed.

Lemma lift_states_spec n base M keep k get_state g states f0 : 0 <= n -> 0 <= base -> base + n <= M ->
  arr states M f0 -> (forall j, 0 <= j < n -> keep j = Ok (k j)) ->
  (forall j, 0 <= j < n -> k j = true -> get_state (base + posn k n j) = Ok (g j)) ->
  exists a, lift_states n base keep get_state states = Ok a
    /\ arr a M (fun i => if (base <=? i) && (i <? base + n) && k (i - base) then g (i - base) else f0 i).
Proof.
  intros Hn Hb HM Ha Hk Hg. unfold lift_states.
  destruct (zrange_loop (fun t ao => snd ao = count_lt (dropped k n) t
      /\ arr (fst ao) M (fun i => if (base <=? i) && (i <? base + t) && k (i - base) then g (i - base) else f0 i))
    (fun ao j => b <- keep j ;;
      if (b : bool) then s <- get_state (base + j - snd ao) ;; a <- arr_set (fst ao) (base + j) s ;; Ok (a, snd ao)
      else Ok (fst ao, snd ao + 1)) n (states, 0)) as ([a o] & E & _ & HA); auto.
  - split; cbn [fst snd]; [|].
    + rewrite count_lt_none; [reflexivity|]. intros f Hf. apply dropped_in in Hf. lia.
    + eapply arr_ext; [exact Ha|]. intros i Hi. cbv beta. destruct (Z.leb_spec base i), (Z.ltb_spec i (base + 0)); try lia; reflexivity.
  - intros j [a o] Hj [-> HA]. cbn [fst snd] in *. rewrite Hk by exact Hj. cbn [rbind].
    rewrite (count_lt_succ (dropped k n) 0 n) by apply dropped_sorted. rewrite dropped_exists by exact Hj. destruct (k j) eqn:Ej; cbn [negb].
    + replace (base + j - count_lt (dropped k n) j) with (base + posn k n j) by (unfold posn; lia). rewrite Hg by auto. cbn [rbind].
      destruct (arr_set_arr a M _ (base + j) (g j) HA) as (a' & E' & HA'); [lia|]. rewrite E'. cbn [rbind]. eexists. split; [reflexivity|]. cbn [fst snd]. split; [lia|].
      eapply arr_ext; [exact HA'|]. intros i Hi. unfold upd. destruct (Z.eqb_spec i (base + j)) as [->|Hne].
      * replace (base + j - base) with j by lia. rewrite Ej. destruct (Z.leb_spec base (base + j)), (Z.ltb_spec (base + j) (base + (j + 1))); try lia. reflexivity.
      * destruct (Z.leb_spec base i), (Z.ltb_spec i (base + j)), (Z.ltb_spec i (base + (j + 1))); try lia; reflexivity.
    + eexists. split; [reflexivity|]. cbn [fst snd]. split; [reflexivity|]. eapply arr_ext; [exact HA|]. intros i Hi. cbv beta.
      destruct (Z.eqb_spec i (base + j)) as [->|Hne].
      * replace (base + j - base) with j by lia. rewrite Ej, !andb_false_r. reflexivity.
      * destruct (Z.leb_spec base i), (Z.ltb_spec i (base + j)), (Z.ltb_spec i (base + (j + 1))); try lia; reflexivity.
  - rewrite E. cbn [rbind fst]. eauto.
Qed.

Lemma copy_states_spec n M get_state (g : Z -> ast) states f0 : 0 <= n <= M -> arr states M f0 ->
  (forall i, 0 <= i < n -> get_state i = Ok (g i)) ->
  exists a, rfold (fun a i => s <- get_state i ;; arr_set a i s) states (zrange n) = Ok a /\ arr a M (fun i => if i <? n then g i else f0 i).
Proof.
  intros Hn Ha Hg. apply (zrange_loop (fun t a => arr a M (fun i => if i <? t then g i else f0 i))); [lia| |].
  - eapply arr_ext; [exact Ha|]. intros i Hi. cbv beta. destruct (Z.ltb_spec i 0); [lia|reflexivity].
  - intros j a Hj HA. rewrite Hg by exact Hj. cbn [rbind]. destruct (arr_set_arr a M _ j (g j) HA) as (a' & E' & HA'); [lia|]. exists a'. split; [exact E'|].
    eapply arr_ext; [exact HA'|]. intros i Hi. unfold upd. destruct (Z.eqb_spec i j) as [->|]; [destruct (Z.ltb_spec j (j + 1)); [reflexivity|lia]|]. destruct (Z.ltb_spec i j), (Z.ltb_spec i (j + 1)); try lia; reflexivity.
Qed.

Lemma scatter_spec {A} (tgt : Z -> res Z) (src : Z -> option Z) M (es : list (Z * A)) : forall a f, arr a M f -> NoDup (keys es) ->
  (forall e, In e (keys es) -> exists i, tgt e = Ok i /\ 0 <= i < M /\ src i = Some e) ->
  (forall i e, 0 <= i < M -> src i = Some e -> In e (keys es) -> tgt e = Ok i) ->
  exists a', rfold (fun a e => i <- tgt (fst e) ;; arr_set a i (snd e)) a es = Ok a'
    /\ arr a' M (fun i => match src i with Some e => match get es e with Some x => x | None => f i end | None => f i end).
Proof.
  induction es as [|[e x] es IH]; intros a f Ha Hn Ht Hs; cbn [rfold fst snd].
  - exists a. split; [reflexivity|]. eapply arr_ext; [exact Ha|]. intros i _. cbn [get]. destruct (src i); reflexivity.
  - inversion Hn as [|? ? Hne Hn']; subst. cbn [keys map fst] in *. destruct (Ht e (or_introl eq_refl)) as (i0 & E0 & Hi0 & S0). rewrite E0. cbn [rbind].
    destruct (arr_set_arr a M f i0 x Ha Hi0) as (a1 & E1 & H1). rewrite E1. cbn [rbind].
    destruct (IH a1 _ H1 Hn') as (a2 & E2 & H2).
    { intros d Hd. apply Ht. now right. }
    { intros i d Hi Hd Hin. apply Hs; [exact Hi|exact Hd|now right]. }
    exists a2. split; [exact E2|]. eapply arr_ext; [exact H2|]. intros i Hi. cbv beta. destruct (src i) as [d|] eqn:Ed.
    + cbn [get]. destruct (Z.eqb_spec e d) as [<-|Hned].
      * rewrite (proj2 (get_None es e) Hne). unfold upd. assert (tgt e = Ok i) by (apply Hs; [exact Hi|exact Ed|now left]). assert (i = i0) as -> by congruence. now rewrite Z.eqb_refl.
      * destruct (get es d); [reflexivity|]. unfold upd. destruct (Z.eqb_spec i i0) as [->|]; [congruence|reflexivity].
    + unfold upd. destruct (Z.eqb_spec i i0) as [->|]; [congruence|reflexivity].
Qed.

(** The working set made of the active items. *)
Definition act_list (f : Z -> ast) (n : Z) : list (Z * ast) := map (fun j => (j, f j)) (filter (fun j => active (f j)) (zrange n)).

Lemma act_list_succ f n : 0 <= n -> act_list f (n + 1) = act_list f n ++ (if active (f n) then [(n, f n)] else []).
Proof. intros Hn. unfold act_list. rewrite zrange_succ, filter_app, map_app by exact Hn. cbn [filter]. destruct (active (f n)); reflexivity. Qed.
Lemma act_list_keys f n j : In j (keys (act_list f n)) -> 0 <= j < n.
Proof. unfold keys, act_list. rewrite map_map, map_id. rewrite filter_In, zrange_In. tauto. Qed.
Lemma act_list_state f n j : 0 <= j < n -> stf (act_list f n) j = f j.
Proof.
  intros Hj. unfold stf. destruct (get (act_list f n) j) as [s|] eqn:E.
  - apply get_Some_In in E. unfold act_list in E. apply in_map_iff in E. destruct E as (k & E & _). congruence.
  - apply get_None in E. destruct (f j) eqn:Ef; [reflexivity| | |]; destruct E; unfold keys, act_list; rewrite map_map, map_id; apply filter_In; rewrite Ef; split; auto; now apply zrange_In.
Qed.

Lemma store_working_set_spec {N : Num} nv nc (r : rst) w vs cs f g : holds w vs cs -> wnv w = nv -> wnc w = nc ->
  arr (r_vst r) nv f -> arr (r_cst r) nc g ->
  exists w', store_working_set nv nc r w = Ok w' /\ holds w' (act_list f nv) (act_list g nc) /\ wnv w' = nv /\ wnc w' = nc.
Proof.
  intros Hw Hv Hc Af Ag. unfold store_working_set. pose proof (h_nv _ _ _ Hw) as P1. pose proof (h_nc _ _ _ Hw) as P2. rewrite Hv in P1. rewrite Hc in P2.
  destruct (zrange_loop (fun t w => holds w (act_list f t) [] /\ wnv w = nv /\ wnc w = nc)
     (fun w j => s <- arr_get (r_vst r) j ;; if active s then ws_add_var w j s else Ok w) nv (ws_reset w)) as (w1 & E1 & H1 & V1 & C1); auto.
  { split; [exact (reset_holds w vs cs Hw)|]. cbn [ws_reset wnv wnc]. auto. }
  { intros j t Hj (Ht & Hv' & Hc'). rewrite (arr_get_arr _ _ _ _ Af Hj). cbn [rbind]. rewrite act_list_succ by lia. destruct (active (f j)) eqn:Ea.
    - destruct (add_var_holds t _ [] j (f j) Ht) as (w' & E & Hw' & ? & ?); [lia|reflexivity| |now apply active_iff|].
      + intros Hin. apply act_list_keys in Hin. lia.
      + exists w'. split; [exact E|]. split; [exact Hw'|]. split; congruence.
    - exists t. split; [reflexivity|]. rewrite app_nil_r. auto. }
  rewrite E1. cbn [rbind].
  destruct (zrange_loop (fun t w => holds w (act_list f nv) (act_list g t) /\ wnv w = nv /\ wnc w = nc)
     (fun w i => s <- arr_get (r_cst r) i ;; if active s then ws_add_cons w i s else Ok w) nc w1) as (w2 & E2 & H2 & V2 & C2); auto.
  { intros j t Hj (Ht & Hv' & Hc'). rewrite (arr_get_arr _ _ _ _ Ag Hj). cbn [rbind]. rewrite act_list_succ by lia. destruct (active (g j)) eqn:Ea.
    - destruct (add_cons_holds t _ (act_list g j) j (g j) Ht) as (w' & E & Hw' & ? & ?); [lia| |now apply active_iff|].
      + intros Hin. apply act_list_keys in Hin. lia.
      + exists w'. split; [exact E|]. split; [exact Hw'|]. split; congruence.
    - exists t. split; [reflexivity|]. rewrite app_nil_r. auto. }
  exists w2. auto.
Qed.

(** Numbered lists. *)
Fixpoint number {A} (k : Z) (l : list A) : list (Z * A) := match l with [] => [] | a :: l' => (k, a) :: number (k + 1) l' end.
Lemma enumerate_number {A} (l : list A) : enumerate l = number 0 l.
Proof.
  unfold enumerate, zrange. rewrite Nat2Z.id. change 0 with (Z.of_nat 0). generalize 0%nat as s. induction l as [|a l IH]; intros s; [reflexivity|].
  cbn [length seq map List.combine number]. f_equal. rewrite IH. f_equal. lia.
Qed.

(** [ws_valid]: counts of active items. *)
Lemma count_ok st n c : ws_count st n = Ok c -> exists f, (forall j, 0 <= j < n -> st j = Ok (f j)) /\ c = Z.of_nat (length (filter (fun j => active (f j)) (zrange n))).
Proof.
  intros E. exists (fun j => match st j with Ok s => s | _ => Inactive end). unfold ws_count in E.
  assert (G : forall l c0 c, rfold (fun c j => s <- st j ;; Ok (if active s then c + 1 else c)) c0 l = Ok c ->
    (forall j, In j l -> st j = Ok (match st j with Ok s => s | _ => Inactive end))
    /\ c = c0 + Z.of_nat (length (filter (fun j => active (match st j with Ok s => s | _ => Inactive end)) l))).
  { induction l as [|j l IH]; intros c0 c1 El; cbn [rfold] in El.
    - injection El as <-. split; [intros j []|]. cbn. lia.
    - unbind El. unbind E0. injection E0 as <-. destruct (IH _ _ El) as [I1 I2]. split.
      + intros k [<-|Hk]; [now rewrite E1|auto].
      + rewrite I2. cbn [filter]. rewrite E1. destruct (active a0); cbn [length]; lia. }
  destruct (G _ _ _ E) as [G1 G2]. split; [|lia]. intros j Hj. apply G1. now apply zrange_In.
Qed.

Lemma valid_counts w : ws_valid w = Ok true -> exists f g,
  (forall j, 0 <= j < wnv w -> ws_var_state w j = Ok (f j)) /\ (forall i, 0 <= i < wnc w -> ws_cons_state w i = Ok (g i))
  /\ Z.of_nat (length (filter (fun j => active (f j)) (zrange (wnv w)))) + Z.of_nat (length (filter (fun i => active (g i)) (zrange (wnc w)))) <= wnv w.
Proof.
  intros E. unfold ws_valid in E. unbind E. unbind E. unbind E. unbind E. unbind E. apply check_ok in E2.
  destruct (count_ok _ _ _ E3) as (f & Hf & Cf). destruct (count_ok _ _ _ E4) as (g & Hg & Cg). exists f, g. split; [exact Hf|]. split; [exact Hg|].
  destruct (_ || _) eqn:Eb in E; [discriminate|]. apply orb_false_elim in Eb. destruct Eb as [B1 B2]. apply negb_false_iff in B1, B2. unfold ws_size in E2. lia.
Qed.
