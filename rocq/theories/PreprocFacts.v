(** Loops of the preprocessor: what they compute, row by row and column by column. *)
From Verif Require Import Base Num Cmp Sparse Vec VecFacts VecFacts2 Mat MatFacts MatFacts2 MatFacts3 MatFacts4 Arr Problem Preproc.
Local Open Scope Z_scope.

Lemma arr_get_inv {A} (l : list A) n f j a : arr l n f -> arr_get l j = Ok a -> 0 <= j < n /\ a = f j.
Proof.
  intros H E. destruct (Z.leb_spec 0 j), (Z.ltb_spec j n).
  - rewrite (arr_get_arr l n f j H) in E by lia. injection E as <-. auto.
  - rewrite (arr_get_out l n f j H) in E by lia. discriminate.
  - rewrite (arr_get_out l n f j H) in E by lia. discriminate.
  - rewrite (arr_get_out l n f j H) in E by lia. discriminate.
Qed.

Lemma arr_set_inv {A} (l l' : list A) n f i a : arr l n f -> arr_set l i a = Ok l' -> 0 <= i < n /\ arr l' n (upd f i a).
Proof.
  intros H E.
  assert (Hi : 0 <= i < n).
  { unfold arr_set in E. destruct H as [Hl _]. destruct (Z.leb_spec 0 i), (Z.ltb_spec i (Z.of_nat (length l))); cbn [andb] in E; try discriminate. lia. }
  split; [exact Hi|]. destruct (arr_set_arr l n f i a H Hi) as (l2 & E2 & H2). congruence.
Qed.

(** Peel the binds of a successful computation. *)
Ltac unbind H := let a := fresh "a" in let E := fresh "E" in apply rbind_ok in H; destruct H as (a & E & H).

Section Facts.
Context {N : Num}.
Variables (m : mat) (cs : list (list (Z * num))).
Hypothesis HS : stores m cs.
Let nl := mnr m.
Let nv := mnc m.

Definition rowof i (k : Z) : list (Z * num) := trow cs i (zrange k).

Lemma rowof_succ i k : 0 <= k -> rowof i (k + 1) = rowof i k ++ match mget cs i k with Some x => [(k, x)] | None => [] end.
Proof. intros Hk. unfold rowof. rewrite zrange_succ by lia. unfold trow. rewrite map_app, concat_app. cbn [map concat]. now rewrite app_nil_r. Qed.

Lemma rows_loop {A} (body : list A -> Z -> Z -> num -> res (list A)) (g : Z -> num -> A -> A) a0 f0 :
  arr a0 nl f0 ->
  (forall a f col row value, arr a nl f -> 0 <= col < nv -> 0 <= row < nl ->
     exists a', body a col row value = Ok a' /\ arr a' nl (upd f row (g col value (f row)))) ->
  exists a', each_entry m nv body a0 = Ok a'
    /\ arr a' nl (fun i => fold_left (fun x e => g (fst e) (snd e) x) (rowof i nv) (f0 i)).
Proof.
  intros H0 Hb. unfold each_entry. pose proof (layout_facts m cs HS) as (Hr & Hc & _).
  apply (zrange_loop (fun k a => arr a nl (fun i => fold_left (fun x e => g (fst e) (snd e) x) (rowof i k) (f0 i)))); [exact Hc|exact H0|].
  intros col a Hcol Ha. destruct (nth_col m cs col HS Hcol) as [-> Hs]. cbn [rbind].
  assert (Hin : forall es lo a f, sorted_in lo nl (keys es) -> 0 <= lo -> arr a nl f ->
    exists a', rfold (fun s e => body s col (fst e) (snd e)) a es = Ok a'
      /\ arr a' nl (fun i => match get es i with Some v => g col v (f i) | None => f i end)).
  { induction es as [|[r v] es IH]; intros lo a1 f Hse Hlo Ha1; cbn [rfold fst snd].
    - exists a1. split; [reflexivity|exact Ha1].
    - cbn [keys map fst sorted_in] in Hse. destruct Hse as [Hr1 Hse].
      destruct (Hb a1 f col r v Ha1 Hcol) as (a2 & -> & Ha2); [lia|]. cbn [rbind].
      destruct (IH (r + 1) a2 _ Hse ltac:(lia) Ha2) as (a3 & E3 & Ha3). exists a3. split; [exact E3|].
      eapply arr_ext; [exact Ha3|]. intros i Hi. cbn [get]. unfold upd.
      destruct (Z.eqb_spec r i) as [->|Hne].
      + rewrite Z.eqb_refl. now rewrite (get_below (i + 1) nl es i Hse) by lia.
      + destruct (Z.eqb_spec i r); [lia|reflexivity]. }
  destruct (Hin _ 0 a _ Hs ltac:(lia) Ha) as (a' & E & Ha'). exists a'. split; [exact E|].
  eapply arr_ext; [exact Ha'|]. intros i Hi. rewrite rowof_succ by lia. rewrite fold_left_app. unfold mget.
  destruct (get (nth (Z.to_nat col) cs []) i); reflexivity.
Qed.

Lemma cols_loop {A} (body : list A -> Z -> Z -> num -> res (list A)) (g : Z -> Z -> num -> A -> A) a0 f0 :
  arr a0 nv f0 ->
  (forall a f col row value, arr a nv f -> 0 <= col < nv -> 0 <= row < nl ->
     exists a', body a col row value = Ok a' /\ arr a' nv (upd f col (g col row value (f col)))) ->
  exists a', each_entry m nv body a0 = Ok a'
    /\ arr a' nv (fun j => fold_left (fun x e => g j (fst e) (snd e) x) (nth (Z.to_nat j) cs []) (f0 j)).
Proof.
  intros H0 Hb. unfold each_entry. pose proof (layout_facts m cs HS) as (Hr & Hc & _).
  assert (H1 : exists a', rfold (fun (s : list A) (col : Z) => es <- col_entries m col;; rfold (fun s0 e => body s0 col (fst e) (snd e)) s es) a0 (zrange nv) = Ok a'
    /\ arr a' nv (fun j => if j <? nv then fold_left (fun x e => g j (fst e) (snd e) x) (nth (Z.to_nat j) cs []) (f0 j) else f0 j)).
  { apply (zrange_loop (fun k a => arr a nv (fun j => if j <? k then fold_left (fun x e => g j (fst e) (snd e) x) (nth (Z.to_nat j) cs []) (f0 j) else f0 j))); [exact Hc| |].
    { eapply arr_ext; [exact H0|]. intros j Hj. destruct (Z.ltb_spec j 0); [lia|reflexivity]. }
    intros col a Hcol Ha. destruct (nth_col m cs col HS Hcol) as [-> Hs]. cbn [rbind].
    assert (Hin : forall es a f, (forall r, In r (keys es) -> 0 <= r < nl) -> arr a nv f ->
      exists a', rfold (fun s e => body s col (fst e) (snd e)) a es = Ok a'
        /\ arr a' nv (upd f col (fold_left (fun x e => g col (fst e) (snd e) x) es (f col)))).
    { induction es as [|[r v] es IH]; intros a1 f Hse Ha1; cbn [rfold fst snd fold_left].
      - exists a1. split; [reflexivity|]. eapply arr_ext; [exact Ha1|]. intros j Hj. unfold upd. destruct (Z.eqb_spec j col); congruence.
      - destruct (Hb a1 f col r v Ha1 Hcol) as (a2 & -> & Ha2); [apply Hse; now left|]. cbn [rbind].
        destruct (IH a2 _ (fun r Hr => Hse r (or_intror Hr)) Ha2) as (a3 & E3 & Ha3). exists a3. split; [exact E3|].
        eapply arr_ext; [exact Ha3|]. intros j Hj. unfold upd. rewrite Z.eqb_refl. destruct (Z.eqb_spec j col); reflexivity. }
    destruct (Hin _ a _ (fun r Hr => sorted_in_In _ _ _ _ Hs Hr) Ha) as (a' & E & Ha'). exists a'. split; [exact E|].
    eapply arr_ext; [exact Ha'|]. intros j Hj. unfold upd. rewrite Z.ltb_irrefl.
    destruct (Z.eqb_spec j col) as [->|Hne]; [destruct (Z.ltb_spec col (col + 1)); [reflexivity|lia]|].
    destruct (Z.ltb_spec j col), (Z.ltb_spec j (col + 1)); try lia; reflexivity. }
  destruct H1 as (a' & E & H). exists a'. split; [exact E|]. eapply arr_ext; [exact H|]. intros j Hj. cbv beta. destruct (Z.ltb_spec j nv); [reflexivity|lia].
Qed.

Definition nonzero (e : Z * num) : bool := negb (neqb (snd e) n0).
(** The nonzero coefficients of row [i]. *)
Definition coeffs i : list (Z * num) := filter nonzero (rowof i nv).

Lemma scan_get lo row es : sorted_in lo nl (keys es) ->
  scan row es = match get es row with Some v => if neqb v n0 then None else Some v | None => None end.
Proof.
  revert lo; induction es as [|[r v] es IH]; intros lo H; [reflexivity|]. cbn [keys map fst sorted_in] in H. destruct H as [Hr H]. cbn [scan get].
  destruct (Z.ltb_spec r row).
  - destruct (Z.eqb_spec r row); [lia|]. exact (IH _ H).
  - destruct (Z.ltb_spec row r).
    + destruct (Z.eqb_spec r row); [lia|]. now rewrite (get_below (r + 1) nl es row H) by lia.
    + destruct (Z.eqb_spec r row); [reflexivity|lia].
Qed.

Lemma row_coeffs_spec i : row_coeffs m nv i = Ok (coeffs i).
Proof.
  unfold row_coeffs. pose proof (layout_facts m cs HS) as (Hr & Hc & _).
  destruct (zrange_loop (fun k acc => acc = filter nonzero (rowof i k))
    (fun acc col => es <- col_entries m col;; Ok match scan i es with Some v => acc ++ [(col, v)] | None => acc end) nv []) as (l & E & ->); auto.
  intros col a Hcol ->. destruct (nth_col m cs col HS Hcol) as [-> Hs]. cbn [rbind]. eexists. split; [reflexivity|].
  rewrite (scan_get 0 i _ Hs). rewrite rowof_succ by lia. rewrite filter_app. unfold mget.
  destruct (get (nth (Z.to_nat col) cs []) i) as [v|]; cbn [filter]; [|now rewrite app_nil_r].
  change (nonzero (col, v)) with (negb (neqb v n0)). destruct (neqb v n0); cbn [negb]; [now rewrite app_nil_r|reflexivity].
Qed.

Lemma rowof_sorted i : sorted_in 0 nv (keys (rowof i nv)).
Proof. apply trow_sorted. pose proof (layout_facts m cs HS) as (_ & Hc & _). fold nv in Hc.
  unfold zrange. replace nv with (0 + Z.of_nat (Z.to_nat nv)) at 1 by lia.
  generalize (Z.to_nat nv) as k. intros k. change 0 with (Z.of_nat 0) at 2. generalize 0%nat as s. intros s.
  replace (Z.of_nat s + Z.of_nat k) with (Z.of_nat (s + k)) by lia.
  replace 0 with (Z.of_nat 0) by reflexivity.
  assert (G : forall k s lo, lo <= Z.of_nat s -> sorted_in lo (Z.of_nat (s + k)) (map Z.of_nat (seq s k))).
  { induction k0 as [|k0 IH]; intros s0 lo Hlo; cbn [seq map sorted_in]; [exact I|]. split; [lia|].
    replace (s0 + S k0)%nat with (S s0 + k0)%nat by lia. apply IH. lia. }
  apply G. lia.
Qed.

Lemma coeffs_sorted i : sorted_in 0 nv (keys (coeffs i)).
Proof. unfold coeffs. apply (sorted_in_filter_keys nonzero fst). apply rowof_sorted. Qed.

Lemma coeffs_in i j v : In (j, v) (coeffs i) <-> 0 <= j < nv /\ mget cs i j = Some v /\ neqb v n0 = false.
Proof.
  unfold coeffs. rewrite filter_In. unfold nonzero. cbn [snd]. rewrite negb_true_iff.
  assert (In (j, v) (rowof i nv) <-> 0 <= j < nv /\ mget cs i j = Some v); [|tauto].
  unfold rowof, trow. rewrite in_concat. split.
  - intros (l & Hl & Hin). apply in_map_iff in Hl. destruct Hl as (k & <- & Hk). apply zrange_In in Hk.
    destruct (mget cs i k) eqn:E; [|destruct Hin]. destruct Hin as [Hin|[]]. injection Hin as -> ->. auto.
  - intros [Hj E]. exists [(j, v)]. split; [|now left]. apply in_map_iff. exists j. rewrite E. split; [reflexivity|]. now apply zrange_In.
Qed.

(** [cons_counts]: number of nonzero coefficients, and the last of them. *)
Lemma cons_counts_spec : exists a, cons_counts m nv nl = Ok a
  /\ arr a nl (fun i => (Z.of_nat (length (coeffs i)), last (map Some (coeffs i)) None)).
Proof.
  destruct (rows_loop (fun a col row value => if neqb value n0 then Ok a else c <- arr_get a row ;; arr_set a row (fst c + 1, Some (col, value)))
    (fun col value (c : Z * option (Z * num)) => if neqb value n0 then c else (fst c + 1, Some (col, value))) (repeat (0, None) (Z.to_nat nl)) (fun _ => (0, None))) as (a & E & Ha).
  { apply arr_repeat. }
  { intros a f col row value Ha Hc Hr. destruct (neqb value n0).
    - exists a. split; [reflexivity|]. eapply arr_ext; [exact Ha|]. intros j _. unfold upd. destruct (Z.eqb_spec j row); congruence.
    - rewrite (arr_get_arr a nl f row Ha Hr). cbn [rbind]. exact (arr_set_arr a nl f row _ Ha Hr). }
  exists a. split; [exact E|]. eapply arr_ext; [exact Ha|]. intros i Hi. unfold coeffs. generalize (rowof i nv) as l.
  assert (G : forall l c o, fold_left (fun x e => if neqb (snd e) n0 then x else (fst x + 1, Some (fst e, snd e))) l (c, o)
     = (c + Z.of_nat (length (filter nonzero l)), last (map Some (filter nonzero l)) o)).
  { induction l as [|[j v] l IH]; intros c o; cbn [fold_left filter fst snd]; [cbn [length map last]; f_equal; lia|].
    change (nonzero (j, v)) with (negb (neqb v n0)). destruct (neqb v n0); cbn [negb]; [apply IH|]. rewrite IH. cbn [length map]. f_equal; [lia|].
    destruct (filter nonzero l) as [|e l']; [reflexivity|]. cbn [map]. change (last (Some (j, v) :: Some e :: map Some l') o) with (last (Some e :: map Some l') o).
    generalize (map Some l'). intros q. generalize (Some e). induction q as [|q0 q IHq]; intros z; [reflexivity|]. cbn [last] in *. apply (IHq q0). }
  intros l. rewrite G. f_equal. 
Qed.

Lemma fold_zero_skip {A} (g : Z -> num -> A -> A) l x : (forall j v a, neqb v n0 = true -> g j v a = a) ->
  fold_left (fun x e => g (fst e) (snd e) x) l x = fold_left (fun x e => g (fst e) (snd e) x) (filter nonzero l) x.
Proof.
  intros H. revert x; induction l as [|[j v] l IH]; intros x; cbn [fold_left filter fst snd]; [reflexivity|].
  change (nonzero (j, v)) with (negb (neqb v n0)). destruct (neqb v n0) eqn:E; cbn [negb]; [now rewrite H by exact E|]. cbn [fold_left fst snd]. apply IH.
Qed.

Lemma linear_bounds_spec vlb vub vl vu : arr vlb nv vl -> arr vub nv vu ->
  exists a, linear_bounds m nv nl vlb vub = Ok a
  /\ arr a nl (fun i => fold_left (fun mm e => lin_step (vl (fst e)) (vu (fst e)) (snd e) mm) (coeffs i) (n0, n0)).
Proof.
  intros Hl Hu. unfold linear_bounds.
  destruct (rows_loop (fun a col row value => mm <- arr_get a row ;; lb <- arr_get vlb col ;; ub <- arr_get vub col ;; arr_set a row (lin_step lb ub value mm))
    (fun col value mm => lin_step (vl col) (vu col) value mm) (repeat (n0, n0) (Z.to_nat nl)) (fun _ => (n0, n0))) as (a & E & Ha).
  { apply arr_repeat. }
  { intros a f col row value Ha Hc Hr. rewrite (arr_get_arr a nl f row Ha Hr), (arr_get_arr vlb nv vl col Hl Hc), (arr_get_arr vub nv vu col Hu Hc). cbn [rbind].
    exact (arr_set_arr a nl f row _ Ha Hr). }
  exists a. split; [exact E|]. eapply arr_ext; [exact Ha|]. intros i Hi. unfold coeffs.
  apply (fold_zero_skip (fun col value mm => lin_step (vl col) (vu col) value mm)). intros j v [mn mx] Hz. unfold lin_step. now rewrite Hz.
Qed.

Lemma arr_combine {A B} (l : list A) (l' : list B) n f g : arr l n f -> arr l' n g -> arr (List.combine l l') n (fun j => (f j, g j)).
Proof.
  intros [H1 H2] [H3 H4]. split; [rewrite combine_length; lia|]. intros j Hj.
  specialize (H2 j Hj). specialize (H4 j Hj). revert l' H2 H4 H1 H3. generalize (Z.to_nat j) as k. generalize (Z.to_nat n) as q.
  intros q k. generalize (f j) (g j). intros x y. clear. revert q k. induction l as [|a l IH]; intros q [|k] [|b l'] H2 H4 H1 H3; cbn in *; try discriminate.
  - congruence.
  - destruct q; [discriminate|]. apply (IH q k l'); auto.
Qed.

Lemma variable_bounds_spec vlb vub llb lub mms vl vu ll lu mm : arr vlb nv vl -> arr vub nv vu -> arr llb nl ll -> arr lub nl lu -> arr mms nl mm ->
  exists a, variable_bounds m nv vlb vub llb lub mms = Ok a
  /\ arr a nv (fun j => fold_left (fun b e => var_step (vl j) (vu j) (ll (fst e)) (lu (fst e)) (mm (fst e)) (snd e) b) (nth (Z.to_nat j) cs []) (vl j, vu j)).
Proof.
  intros Hvl Hvu Hll Hlu Hmm. unfold variable_bounds.
  apply (cols_loop _ (fun j i v b => var_step (vl j) (vu j) (ll i) (lu i) (mm i) v b) _ (fun j => (vl j, vu j))).
  { now apply arr_combine. }
  intros a f col row value Ha Hc Hr.
  rewrite (arr_get_arr vlb nv vl col Hvl Hc), (arr_get_arr vub nv vu col Hvu Hc), (arr_get_arr llb nl ll row Hll Hr), (arr_get_arr lub nl lu row Hlu Hr),
    (arr_get_arr mms nl mm row Hmm Hr), (arr_get_arr a nv f col Ha Hc). cbn [rbind].
  exact (arr_set_arr a nv f col _ Ha Hc).
Qed.

End Facts.

(** ** Flushing *)
Section Flush.
Context {N : Num}.

Lemma zrange_sorted n : sorted_in 0 n (zrange n).
Proof.
  assert (G : forall k s lo hi, lo <= Z.of_nat s -> Z.of_nat s + Z.of_nat k <= hi -> sorted_in lo hi (map Z.of_nat (seq s k))).
  { induction k as [|k IH]; intros s lo hi H1 H2; cbn [seq map sorted_in]; [exact I|]. split; [lia|]. apply IH; lia. }
  unfold zrange. destruct (Z.leb_spec 0 n); [apply G; lia|]. replace (Z.to_nat n) with 0%nat by lia. exact I.
Qed.

Definition fixed_of (f : Z -> vstate) (n : Z) : list (Z * num) :=
  map (fun j => (j, vs_value (f j))) (filter (fun j => negb (vunchanged (f j))) (zrange n)).

Lemma create_fixed_inv s nv f l : 0 <= nv -> arr (ps_vars s) nv f -> create_fixed s nv = Ok l ->
  l = fixed_of f nv /\ Z.of_nat (length l) = ps_nfix s.
Proof.
  intros Hn Hf E. unfold create_fixed in E. unbind E.
  destruct (zrange_loop (fun k acc => acc = fixed_of f k) (fun acc j => v <- arr_get (ps_vars s) j;; Ok (if vunchanged v then acc else acc ++ [(j, vs_value v)])) nv []) as (l' & E' & ->); auto.
  { intros j acc Hj ->. rewrite (arr_get_arr _ nv f j Hf Hj). cbn [rbind]. eexists. split; [reflexivity|]. unfold fixed_of.
    rewrite zrange_succ by lia. rewrite filter_app, map_app. cbn [filter]. destruct (vunchanged (f j)); cbn [negb map]; [now rewrite app_nil_r|reflexivity]. }
  rewrite E' in E0. injection E0 as <-. unbind E. apply check_ok in E0. injection E as <-. split; [reflexivity|]. lia.
Qed.

Lemma keys_fixed_of f n : keys (fixed_of f n) = filter (fun j => negb (vunchanged (f j))) (zrange n).
Proof. unfold keys, fixed_of. rewrite map_map. cbn [fst]. apply map_id. Qed.

Lemma fixed_of_sorted f n : sorted_in 0 n (keys (fixed_of f n)).
Proof. rewrite keys_fixed_of. apply sorted_filter, zrange_sorted. Qed.

Lemma fixed_of_in f n j v : In (j, v) (fixed_of f n) <-> 0 <= j < n /\ vunchanged (f j) = false /\ v = vs_value (f j).
Proof.
  unfold fixed_of. rewrite in_map_iff. split.
  - intros (k & E & H). injection E as -> <-. apply filter_In in H. destruct H as [H1 H2]. apply zrange_In in H1. apply negb_true_iff in H2. auto.
  - intros (H1 & H2 & ->). exists j. split; [reflexivity|]. apply filter_In. split; [now apply zrange_In|now rewrite H2].
Qed.

Lemma keys_fixed_in f n j : In j (keys (fixed_of f n)) <-> 0 <= j < n /\ vunchanged (f j) = false.
Proof. rewrite keys_fixed_of, filter_In, zrange_In, negb_true_iff. reflexivity. Qed.

Definition removed_of (f : Z -> ckind) (n : Z) : list Z := filter (fun i => negb (cunchanged (f i))) (zrange n).

Lemma create_removed_inv s nl f l : 0 <= nl -> arr (ps_cons s) nl f -> create_removed s nl = Ok l ->
  l = removed_of f nl /\ Z.of_nat (length l) = num_removed_cons s.
Proof.
  intros Hn Hf E. unfold create_removed in E. unbind E.
  destruct (zrange_loop (fun k acc => acc = removed_of f k) (fun acc j => v <- arr_get (ps_cons s) j;; Ok (if cunchanged v then acc else acc ++ [j])) nl []) as (l' & E' & ->); auto.
  { intros j acc Hj ->. rewrite (arr_get_arr _ nl f j Hf Hj). cbn [rbind]. eexists. split; [reflexivity|]. unfold removed_of.
    rewrite zrange_succ by lia. rewrite filter_app. cbn [filter]. destruct (cunchanged (f j)); cbn [negb]; [now rewrite app_nil_r|reflexivity]. }
  rewrite E' in E0. injection E0 as <-. unbind E. apply check_ok in E0. injection E as <-. split; [reflexivity|]. lia.
Qed.

Lemma removed_of_sorted f n : sorted_in 0 n (removed_of f n).
Proof. apply sorted_filter, zrange_sorted. Qed.

Lemma removed_of_in f n i : In i (removed_of f n) <-> 0 <= i < n /\ cunchanged (f i) = false.
Proof. unfold removed_of. rewrite filter_In, zrange_In, negb_true_iff. reflexivity. Qed.

(** ** Replacing bounds *)

Lemma skip_below_get j lo hi (es : list (Z * num)) i : sorted_in lo hi (keys es) -> j <= i -> get (skip_below j es) i = get es i.
Proof.
  revert lo; induction es as [|[k x] es IH]; intros lo H Hi; [reflexivity|]. cbn [keys map fst sorted_in] in H. destruct H as [Hk H].
  cbn [skip_below fst]. destruct (Z.ltb_spec k j); [|reflexivity]. rewrite (IH _ H Hi). cbn [get]. destruct (Z.eqb_spec k i); [lia|reflexivity].
Qed.

Lemma skip_below_sorted j lo hi (es : list (Z * num)) : sorted_in lo hi (keys es) -> sorted_in (Z.max lo j) hi (keys (skip_below j es)).
Proof.
  revert lo; induction es as [|[k x] es IH]; intros lo H; [exact I|]. cbn [keys map fst sorted_in] in H. destruct H as [Hk H].
  cbn [skip_below fst]. destruct (Z.ltb_spec k j).
  - eapply sorted_in_weaken; [| |apply IH; exact H]; lia.
  - cbn [keys map fst sorted_in]. split; [lia|exact H].
Qed.

Lemma replace_bound_inv nrem req rq source target sel value t :
  wf source -> wf target -> vdim target = vdim source -> arr req (vdim source) rq ->
  replace_bound nrem req source target sel value = Ok t ->
  wf t /\ vdim t = vdim source /\ forall j, 0 <= j < vdim source -> dense t j = if sel (rq j) then value else dense source j.
Proof.
  intros (Hd & Hs & Hc) Ht Hdim Hrq E. unfold replace_bound in E. unbind E. unbind E. injection E as <-.
  assert (Ha : wf a /\ vdim a = vdim source /\ vent a = []).
  { unfold vec_reserve in E0. unbind E0. destruct (_ <=? vcap (vec_clear target)); injection E0 as <-; cbn [vdim vent vec_clear].
    - split; [now apply wf_clear|]. auto.
    - apply check_ok in E. apply Z.leb_le in E. split; [|auto]. split; [destruct Ht; cbn; auto|]. split; [exact I|]. cbn [vec_clear vcap vent length]. exact E. }
  assert (G : forall k, (k <= Z.to_nat (vdim source))%nat -> forall te, rfold (fun te j => r <- arr_get req j ;;
    if sel r then t <- vec_push (fst te) j value ;; Ok (t, snd te) else
    match skip_below j (snd te) with
    | (i, x) :: es => if i =? j then t <- vec_push (fst te) j x ;; Ok (t, es) else Ok (fst te, (i, x) :: es)
    | [] => Ok (fst te, [])
    end) (a, vent source) (zrange (Z.of_nat k)) = Ok te ->
    wf (fst te) /\ vdim (fst te) = vdim source /\ (forall i, In i (keys (vent (fst te))) -> i < Z.of_nat k)
    /\ (forall j, 0 <= j < Z.of_nat k -> dense (fst te) j = if sel (rq j) then value else dense source j)
    /\ (exists lo, 0 <= lo /\ sorted_in lo (vdim source) (keys (snd te))) /\ (forall i, Z.of_nat k <= i -> get (snd te) i = get (vent source) i)).
  { induction k as [|k IH]; intros Hk te Ek.
    - change (zrange (Z.of_nat 0)) with (@nil Z) in Ek. cbn [rfold] in Ek. injection Ek as <-. cbn [fst snd]. destruct Ha as (A1 & A2 & A3).
      split; [auto|]. split; [auto|]. split; [rewrite A3; intros i []|]. split; [intros; lia|]. split; [exists 0; split; [lia|exact Hs]|auto].
    - replace (Z.of_nat (S k)) with (Z.of_nat k + 1) in Ek by lia. rewrite zrange_succ, rfold_app in Ek by lia. unbind Ek.
      destruct (IH ltac:(lia) _ E) as (I1 & I2 & I3 & I4 & (lo & Hlo & I5) & I6). clear IH E. cbn [rfold] in Ek. unbind Ek. injection Ek as <-.
      unbind E. rewrite (arr_get_arr _ _ rq _ Hrq) in E2 by lia. injection E2 as <-. set (jj := Z.of_nat k) in *.
      assert (P : forall x v', vec_push (fst a1) jj x = Ok v' -> wf v' /\ vdim v' = vdim source /\ (forall i, In i (keys (vent v')) -> i < jj + 1)
         /\ (forall j, 0 <= j < jj + 1 -> dense v' j = if j =? jj then x else dense (fst a1) j)).
      { intros x v' Ep. destruct (vec_push_inv (fst a1) jj x v' Ep) as (Ev & Hcap & Hj' & Hl'). subst v'. cbn [vdim vent]. split.
        { destruct I1 as (W1 & W2 & W3). split; [exact W1|]. cbn [vdim vent vcap]. split.
          - rewrite keys_app. apply sorted_in_app. split; [exact W2|]. cbn [keys map fst sorted_in]. split; [|exact I].
            rewrite <- rev_keys_last in Hl'. destruct (rev (keys (vent (fst a1)))) as [|q r]; lia.
          - rewrite app_length. cbn [length]. unfold vnnz in Hcap. lia. }
        split; [exact I2|]. split.
        - intros i. rewrite keys_app, in_app_iff. cbn [keys map fst In]. intros [Hi|[<-|[]]]; [specialize (I3 i Hi)|]; lia.
        - intros j Hj. unfold dense. cbn [vent]. rewrite get_app. cbn [get].
          destruct (Z.eqb_spec j jj) as [->|Hne].
          + assert (get (vent (fst a1)) jj = None) as -> by (apply get_None; intros Hi; specialize (I3 _ Hi); lia). rewrite Z.eqb_refl. reflexivity.
          + destruct (get (vent (fst a1)) j); [reflexivity|]. destruct (Z.eqb_spec jj j); [lia|reflexivity]. }
      replace (Z.of_nat (S k)) with (jj + 1) by lia.
      destruct (sel (rq jj)) eqn:Esel.
      + unbind E. injection E as <-. cbn [fst snd]. destruct (P _ _ E2) as (P1 & P2 & P3 & P4). split; [auto|]. split; [auto|]. split; [auto|].
        split; [|split; [eauto|intros; apply I6; lia]]. intros j Hj. rewrite P4 by auto. destruct (Z.eqb_spec j jj) as [->|]; [now rewrite Esel|]. apply I4. lia.
      + pose proof (skip_below_sorted jj lo _ _ I5) as S5. pose proof (fun i => skip_below_get jj lo _ (snd a1) i I5) as G5.
        destruct (skip_below jj (snd a1)) as [|[i x] es].
        * injection E as <-. cbn [fst snd]. split; [auto|]. split; [auto|]. split; [intros i Hi; specialize (I3 i Hi); lia|].
          split; [|split; [exists 0; split; [lia|exact I]|intros i Hi; rewrite <- I6 by lia; apply G5; lia]].
          intros j Hj. destruct (Z.eq_dec j jj) as [->|]; [|apply I4; lia]. rewrite Esel.
          unfold dense. rewrite <- (I6 jj), <- (G5 jj) by lia. assert (get (vent (fst a1)) jj = None) as -> by (apply get_None; intros Hi; specialize (I3 _ Hi); lia). reflexivity.
        * cbn [keys map fst sorted_in] in S5. destruct S5 as [S5 S6]. destruct (Z.eqb_spec i jj) as [->|Hne].
          -- unbind E. injection E as <-. cbn [fst snd]. destruct (P _ _ E2) as (P1 & P2 & P3 & P4). split; [auto|]. split; [auto|]. split; [auto|].
             split; [|split; [exists (jj + 1); split; [lia|exact S6]|]].
             ++ intros j Hj. rewrite P4 by auto. destruct (Z.eqb_spec j jj) as [->|]; [|apply I4; lia]. rewrite Esel. unfold dense. rewrite <- (I6 jj), <- (G5 jj) by lia. cbn [get]. now rewrite Z.eqb_refl.
             ++ intros i Hi. rewrite <- I6 by lia. rewrite <- G5 by lia. cbn [get]. destruct (Z.eqb_spec jj i); [lia|reflexivity].
          -- injection E as <-. cbn [fst snd]. split; [auto|]. split; [auto|]. split; [intros i' Hi; specialize (I3 i' Hi); lia|].
             split; [|split; [exists (Z.max lo jj); split; [lia|cbn [keys map fst sorted_in]; auto]|intros i' Hi; rewrite <- I6 by lia; apply G5; lia]].
             intros j Hj. destruct (Z.eq_dec j jj) as [->|]; [|apply I4; lia]. rewrite Esel. unfold dense. rewrite <- (I6 jj), <- (G5 jj) by lia. cbn [get].
             destruct (Z.eqb_spec i jj); [lia|]. rewrite (get_below (i + 1) (vdim source) es jj S6) by lia.
             assert (get (vent (fst a1)) jj = None) as -> by (apply get_None; intros Hi; specialize (I3 _ Hi); lia). reflexivity. }
  destruct (G (Z.to_nat (vdim source)) ltac:(lia) a0) as (I1 & I2 & I3 & I4 & _). { rewrite Z2Nat.id by lia. exact E1. }
  rewrite Z2Nat.id in * by lia. auto.
Qed.

End Flush.
