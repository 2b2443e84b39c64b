(** The reduced system: the rows of the working set and the matrix of their inner products, for
    any arithmetic. *)
From Verif Require Import Base Num Cmp Sparse Vec VecFacts Order VecFacts2 Mat MatFacts MatFacts2 MatFacts3 MatFacts4 Arr
  WorkingSet WorkingSetFacts DualEst DualEstFacts AugJac AugJacFacts AugJacUpper AugJacMain.
Local Open Scope Z_scope.

Lemma concat_single {B} (f : Z -> list B) i zs : NoDup zs -> In i zs -> (forall j, In j zs -> j <> i -> f j = []) -> concat (map f zs) = f i.
Proof.
  assert (Hnil : forall zs, (forall j, In j zs -> f j = []) -> concat (map f zs) = []).
  { clear. induction zs as [|j zs IH]; intros H; [reflexivity|]. cbn [map concat]. rewrite H by now left. apply IH. intros; apply H; now right. }
  induction zs as [|j zs IH]; intros Hd Hi H; [destruct Hi|]. inversion Hd as [|x y Hj Hd']; subst x y. cbn [map concat].
  destruct Hi as [->|Hi].
  - rewrite Hnil; [apply app_nil_r|]. intros k Hk. apply H; [now right|]. intros ->. contradiction.
  - rewrite H; [|now left|intros ->; contradiction]. cbn [app]. apply IH; auto. intros k Hk. apply H. now right.
Qed.

Lemma concat_none {B} (f : Z -> list B) zs : (forall j, In j zs -> f j = []) -> concat (map f zs) = [].
Proof. induction zs as [|j zs IH]; intros H; [reflexivity|]. cbn [map concat]. rewrite H by now left. apply IH. intros; apply H; now right. Qed.

Lemma map_const_repeat {A B} (f : A -> B) x l : (forall a, In a l -> f a = x) -> map f l = repeat x (length l).
Proof. induction l as [|a l IH]; intros H; [reflexivity|]. cbn [map length repeat]. rewrite H by now left. f_equal. apply IH. intros; apply H; now right. Qed.

Lemma starts_from_nth {B} (g : Z -> list B) zs o k : (k <= length zs)%nat ->
  nth_error (starts_from o (map (fun i => len (g i)) zs)) k = Some (o + len (concat (map g (firstn k zs)))).
Proof.
  revert o k. induction zs as [|i zs IH]; intros o [|k] Hk; cbn [length] in Hk; try lia.
  - cbn. f_equal. lia.
  - cbn. f_equal. lia.
  - cbn [map starts_from nth_error firstn concat]. rewrite IH by lia. rewrite app_length. f_equal. lia.
Qed.

Lemma slice_mid {N : Num} (p q r : list (Z * num)) : slice (p ++ q ++ r) (len p) (len p + len q) = Ok q.
Proof.
  unfold slice. destruct (Z.leb_spec (len p + len q) (len p)) as [H|H].
  - destruct q; [reflexivity|]. cbn [length] in H. lia.
  - destruct (Z.leb_spec 0 (len p)); [|lia]. rewrite !app_length.
    destruct (Z.leb_spec (len p + len q) (Z.of_nat (length p + (length q + length r)))); [|lia]. cbn [andb]. f_equal.
    rewrite skipn_app, skipn_all2, app_nil_l by lia.
    replace (Z.to_nat (len p + len q - len p)) with (length q) by lia.
    replace (Z.to_nat (len p) - length p)%nat with 0%nat by lia. cbn [skipn]. rewrite firstn_app, firstn_all, Nat.sub_diag. cbn. apply app_nil_r.
Qed.

(** The entries of a row: columns at which [f] is defined. *)
Definition olist {B} (f : Z -> option B) (js : list Z) : list (Z * B) :=
  concat (map (fun j => match f j with Some x => [(j, x)] | None => [] end) js).
Lemma olist_sorted {B} (f : Z -> option B) js lo hi : sorted_in lo hi js -> sorted_in lo hi (map fst (olist f js)).
Proof.
  revert lo; induction js as [|j js IH]; intros lo H; [exact I|]. destruct H as [Hj H]. unfold olist. cbn [map concat]. fold (olist f js).
  destruct (f j); cbn [app map fst].
  - split; [exact Hj|]. now apply IH.
  - eapply sorted_in_weaken; [| |apply IH; exact H]; lia.
Qed.
Lemma olist_get {N : Num} (f : Z -> option num) js lo hi j : sorted_in lo hi js -> get (olist f js) j = if existsb (Z.eqb j) js then f j else None.
Proof.
  revert lo; induction js as [|k js IH]; intros lo H; [reflexivity|]. destruct H as [Hk H]. unfold olist.
  cbn [map concat existsb]. fold (olist f js). rewrite get_app, (IH _ H).
  destruct (Z.eqb_spec j k) as [->|Hne]; cbn [orb].
  - destruct (f k); cbn [get]; [now rewrite Z.eqb_refl|]. now destruct (existsb _ _).
  - destruct (f k); cbn [get]; [destruct (Z.eqb_spec k j); [congruence|]|]; reflexivity.
Qed.

(** Row [k] of the working set as a list. *)
Definition srow {N : Num} (w : wset) (cs : list (list (Z * num))) (k : Z) : list (Z * num) := olist (row_entry w cs k) (zrange (wnv w)).
Lemma srow_sorted {N : Num} w cs k : sorted_in 0 (wnv w) (keys (srow w cs k)).
Proof. apply olist_sorted, zrange_sorted. Qed.
Lemma srow_get {N : Num} w cs k j : 0 <= j < wnv w -> get (srow w cs k) j = row_entry w cs k j.
Proof.
  intros Hj. unfold srow. rewrite (olist_get _ _ 0 (wnv w)) by apply zrange_sorted. rewrite existsb_zrange.
  destruct (Z.leb_spec 0 j), (Z.ltb_spec j (wnv w)); try lia. reflexivity.
Qed.

Section Red.
Context {N : Num}.
Variables (w : wset) (jac : mat) (cs : list (list (Z * num))).
Hypothesis C : consistent w.
Hypothesis I : in_order w.
Hypothesis HS : stores jac cs.
Hypothesis Hc : mnc jac = wnv w.
Hypothesis Hr : mnr jac = wnc w.
Let n := wnv w.
Let size := ws_size w.
Let nav := wnav w.

Definition ev_of (j : Z) : list (Z * (Z * num)) := if vix w j =? none then [] else [(vix w j, (j, n1))].
Definition mcol (j : Z) : list (Z * num) := moved (cact w) (cix w) (nth (Z.to_nat j) cs []).
Definition ec_of (j : Z) : list (Z * (Z * num)) := map (fun e => (fst e, (j, snd e))) (mcol j).
Definition evs (j : Z) := concat (map ev_of (zrange j)).
Definition ecs (j : Z) := concat (map ec_of (zrange j)).
Definition E := evs n ++ ecs n.

Lemma evs_succ j : 0 <= j -> evs (j + 1) = evs j ++ ev_of j.
Proof. intros H. unfold evs. rewrite zrange_succ, map_app, concat_app by lia. cbn [map concat]. now rewrite app_nil_r. Qed.
Lemma ecs_succ j : 0 <= j -> ecs (j + 1) = ecs j ++ ec_of j.
Proof. intros H. unfold ecs. rewrite zrange_succ, map_app, concat_app by lia. cbn [map concat]. now rewrite app_nil_r. Qed.

Lemma evs_in j e : 0 <= j <= n -> In e (evs j) -> 0 <= fst e < nav.
Proof.
  intros Hj He. unfold evs in He. apply in_concat in He as (l & Hl & He). apply in_map_iff in Hl as (k & <- & Hk). apply zrange_In in Hk.
  unfold ev_of in He. destruct (Z.eqb_spec (vix w k) none) as [|Hn]; [destruct He|]. destruct He as [<-|[]]. cbn [fst].
  apply vix_range; auto; unfold n in *; lia.
Qed.
Lemma mcol_sorted j : 0 <= j < n -> sorted_in nav size (keys (mcol j)).
Proof. intros Hj. exact (cons_sorted w jac cs C I HS Hc Hr 0 j Hj). Qed.
Lemma ecs_in j e : 0 <= j <= n -> In e (ecs j) -> nav <= fst e < size.
Proof.
  intros Hj He. unfold ecs in He. apply in_concat in He as (l & Hl & He). apply in_map_iff in Hl as (k & <- & Hk). apply zrange_In in Hk.
  unfold ec_of in He. apply in_map_iff in He as (e' & <- & He'). cbn [fst].
  eapply sorted_in_In; [apply (mcol_sorted k); lia|]. now apply in_map.
Qed.
Lemma E_in e : In e E -> 0 <= fst e < size.
Proof.
  pose proof (nv0 w C) as (H1 & H2 & H3 & H4). unfold E. intros He. apply in_app_iff in He as [He|He].
  - apply (evs_in n) in He; [|unfold n; lia]. unfold nav, size in *. lia.
  - apply (ecs_in n) in He; [|unfold n; lia]. unfold nav, size in *. lia.
Qed.

Lemma evs_bucket k : 0 <= k -> bucket k (evs n) = concat (map (fun j => if vix w j =? k then [(j, n1)] else []) (zrange n)).
Proof.
  intros Hk. unfold evs. rewrite bucket_concat, map_map. f_equal. apply map_ext. intros j. unfold ev_of.
  destruct (Z.eqb_spec (vix w j) none) as [E|E].
  - destruct (Z.eqb_spec (vix w j) k); [unfold none in *; lia|]. reflexivity.
  - rewrite bucket_cons. destruct (vix w j =? k); reflexivity.
Qed.
Lemma ecs_bucket k : bucket k (ecs n) = concat (map (fun j => match get (mcol j) k with Some x => [(j, x)] | None => [] end) (zrange n)).
Proof.
  unfold ecs. rewrite bucket_concat, map_map. f_equal. apply map_ext_in. intros j Hj. apply zrange_In in Hj.
  unfold ec_of. apply (col_bucket nav size). now apply mcol_sorted.
Qed.
Lemma evs_high k : nav <= k -> bucket k (evs n) = [].
Proof.
  intros Hk. pose proof (nv0 w C) as (H1 & _). apply bucket_nil_keys. intros e He. apply (evs_in n) in He; unfold n, nav in *; lia.
Qed.
Lemma ecs_low k : k < nav -> bucket k (ecs n) = [].
Proof.
  intros Hk. pose proof (nv0 w C) as (H1 & _). apply bucket_nil_keys. intros e He. apply (ecs_in n) in He; unfold n, nav in *; lia.
Qed.

Lemma bucket_E k : 0 <= k < size -> bucket k E = srow w cs k.
Proof.
  intros Hk. pose proof (nv0 w C) as (H1 & H2 & H3 & H4). unfold E. rewrite bucket_app.
  assert (HR : forall j, 0 <= j < n -> row_entry w cs k j =
     match (if vix w j =? none then None else if vix w j =? k then Some n1 else None) with Some v => Some v | None => get (mcol j) k end).
  { intros j Hj. rewrite <- (wcol_get w jac cs C HS Hc Hr 0 j k Hj Hk). unfold wcol. rewrite get_app. cbn [Z.add]. unfold mcol.
    destruct (vix w j =? none); cbn [get]; [reflexivity|]. destruct (vix w j =? k); reflexivity. }
  destruct (Z.lt_ge_cases k nav) as [Hn|Hn].
  - rewrite ecs_low, app_nil_r, evs_bucket by lia. unfold srow, olist. fold n. f_equal. apply map_ext_in. intros j Hj. apply zrange_In in Hj.
    rewrite HR by auto. rewrite (get_below nav size (mcol j) k (mcol_sorted j Hj)) by lia.
    destruct (Z.eqb_spec (vix w j) none) as [En|En]; destruct (Z.eqb_spec (vix w j) k); try reflexivity. unfold none in *. lia.
  - rewrite evs_high, ecs_bucket by lia. cbn [app]. unfold srow, olist. fold n. f_equal. apply map_ext_in. intros j Hj. apply zrange_In in Hj.
    rewrite HR by auto. destruct (Z.eqb_spec (vix w j) none) as [En|En]; [reflexivity|].
    pose proof (vix_range w C j Hj En). destruct (Z.eqb_spec (vix w j) k); [unfold nav in *; lia|]. reflexivity.
Qed.

Lemma var_bucket k : 0 <= k < nav -> len (bucket k (evs n)) = 1.
Proof.
  intros Hk. pose proof (nv0 w C) as (H1 & H2 & H3 & H4). rewrite evs_bucket by lia.
  assert (Hks : 0 <= k < ws_size w) by (unfold nav in *; lia).
  assert (Hcv : 0 <= cont w k < wnv w /\ vix w (cont w k) = k).
  { destruct (cont_cases w C k Hks) as [[Hr1 Hi]|[Hr1 Hi]].
    - split; [exact Hr1|]. unfold vix. now rewrite Hi.
    - exfalso. assert (cix w (cont w k - wnv w) = k) by (unfold cix; now rewrite Hi).
      pose proof (cix_range w C (cont w k - wnv w) ltac:(lia)). unfold nav, none in *. lia. }
  destruct Hcv as [R Hv].
  rewrite (concat_single _ (cont w k)).
  - rewrite Hv, Z.eqb_refl. reflexivity.
  - eapply sorted_in_NoDup, zrange_sorted.
  - apply zrange_In. exact R.
  - intros j Hj Hne. apply zrange_In in Hj. destruct (Z.eqb_spec (vix w j) k) as [Ek|]; [|reflexivity]. exfalso. apply Hne.
    destruct (vix_cont w C j Hj) as [_ Hcj]; [unfold none; lia|]. congruence.
Qed.
Lemma evs_len : len (evs n) = nav.
Proof.
  pose proof (nv0 w C) as (H1 & H2 & H3 & H4). rewrite <- (bucket_total (evs n) nav) by (intros e He; apply (evs_in n) in He; unfold n in *; lia).
  assert (Hg : forall zs, (forall k, In k zs -> 0 <= k < nav) -> len (concat (map (fun i => bucket i (evs n)) zs)) = len zs).
  { induction zs as [|k zs IH]; intros H; [reflexivity|]. cbn [map concat length]. rewrite app_length.
    pose proof (var_bucket k (H k (or_introl eq_refl))). pose proof (IH (fun i Hi => H i (or_intror Hi))). lia. }
  rewrite Hg; [rewrite zrange_length; unfold nav; lia|]. intros k Hk. now apply zrange_In in Hk.
Qed.

Definition counts (P : list (Z * (Z * num))) : list Z := map (fun i => len (bucket i P)) (zrange size).

Lemma start_counts : repeat 1 (Z.to_nat nav) ++ repeat 0 (Z.to_nat (size - nav)) = counts (evs n).
Proof.
  pose proof (nv0 w C) as (H1 & H2 & H3 & H4). unfold counts. replace size with (nav + (size - nav)) at 2 by lia.
  rewrite zrange_app by (unfold nav, size; lia). rewrite map_app, map_map. f_equal.
  - rewrite (map_const_repeat _ 1), zrange_length; [reflexivity|]. intros k Hk. apply zrange_In in Hk. now apply var_bucket.
  - rewrite (map_const_repeat _ 0), zrange_length; [reflexivity|]. intros k Hk. apply zrange_In in Hk. now rewrite evs_high by lia.
Qed.

Lemma counts_get P r : 0 <= r < size -> arr_get (counts P) r = Ok (len (bucket r P)).
Proof. intros Hr1. apply arr_get_nth; [lia|]. unfold counts. rewrite nth_error_map, zrange_nth by lia. cbn [option_map]. rewrite Z2Nat.id by lia. reflexivity. Qed.
Lemma counts_set P r b : 0 <= r < size -> arr_set (counts P) r (len (bucket r P) + 1) = Ok (counts (P ++ [(r, b)])).
Proof.
  intros Hr1. unfold counts. rewrite arr_set_ok by (rewrite map_length, zrange_length; lia). f_equal. apply nth_error_ext. intros k.
  rewrite set_nth_spec by (rewrite map_length, zrange_length; lia). rewrite !nth_error_map.
  destruct (Nat.lt_ge_cases k (Z.to_nat size)).
  - rewrite zrange_nth by lia. cbn [option_map]. rewrite bucket_app, bucket_cons, app_length.
    destruct (Nat.eqb_spec k (Z.to_nat r)) as [->|Hne].
    + rewrite Z2Nat.id by lia. rewrite Z.eqb_refl. cbn [app length]. f_equal. cbn. lia.
    + destruct (Z.eqb_spec r (Z.of_nat k)); [lia|]. cbn [app length bucket filter map]. f_equal. cbn. lia.
  - destruct (Nat.eqb_spec k (Z.to_nat r)); [lia|].
    replace (nth_error (zrange size) k) with (@None Z); [reflexivity|]. symmetry. apply nth_error_None. rewrite zrange_length. lia.
Qed.

Lemma row_counts_ok : row_counts w jac = Ok (counts E, len E).
Proof.
  pose proof (nv0 w C) as (H1 & H2 & H3 & H4). unfold row_counts. fold size nav. rewrite start_counts, Hc. fold n.
  match goal with |- rfold ?f _ _ = _ => destruct (zrange_loop (fun j t => t = (counts (evs n ++ ecs j), len (evs n ++ ecs j))) f n (counts (evs n), nav)) as (s & Es & ->) end.
  - exact H1.
  - change (ecs 0) with (@nil (Z * (Z * num))). rewrite app_nil_r, evs_len. reflexivity.
  - intros j t Hj ->. destruct (jcol w jac cs HS Hc Hr j Hj) as [Ec Hs]. rewrite Ec. cbn [rbind]. eexists. split; [|reflexivity].
    rewrite ecs_succ, app_assoc by lia. unfold ec_of, mcol. generalize (evs n ++ ecs j). assert (Hin : forall i, In i (keys (nth (Z.to_nat j) cs [])) -> 0 <= i < wnc w) by (intros i Hi; apply (sorted_in_In _ _ _ _ Hs Hi)).
    clear Ec Hs. induction (nth (Z.to_nat j) cs []) as [|[i x] es IH]; intros P.
    + cbn. rewrite app_nil_r. reflexivity.
    + cbn [rfold fst snd]. assert (Hi : 0 <= i < wnc w) by (apply Hin; now left). destruct (cix_ok w C i Hi) as (E1 & _). rewrite E1. cbn [rbind].
      assert (IH' := IH (fun k Hk => Hin k (or_intror Hk))). clear IH. unfold moved in *. cbn [filter fst]. change (cact w i) with (negb (cix w i =? none)).
      destruct (Z.eqb_spec (cix w i) none) as [En|En]; cbn [negb].
      * cbn [rbind]. apply IH'.
      * pose proof (cix_range w C i Hi En). destruct (Z.leb_spec nav (cix w i)); [|unfold nav in *; lia]. destruct (Z.ltb_spec (cix w i) size); [|unfold size in *; lia].
        cbn [check rbind map fst snd]. rewrite counts_get by (unfold nav, size in *; lia). cbn [rbind].
        rewrite (counts_set P (cix w i) (j, x)) by (unfold nav, size in *; lia). cbn [rbind].
        replace (len P + 1) with (len (P ++ [(cix w i, (j, x))])) by (rewrite app_length; cbn; lia). rewrite IH', <- app_assoc. reflexivity.
  - exact Es.
Qed.

Definition starts : list Z := starts_from 0 (counts E).
Definition sys : list (Z * num) := concat (map (srow w cs) (zrange size)).

Lemma sys_buckets k : 0 <= k <= size -> concat (map (fun i => bucket i E) (zrange k)) = concat (map (srow w cs) (zrange k)).
Proof. intros Hk. f_equal. apply map_ext_in. intros i Hi. apply zrange_In in Hi. apply bucket_E. lia. Qed.
Lemma firstn_zrange k m : 0 <= k <= m -> firstn (Z.to_nat k) (zrange m) = zrange k.
Proof.
  intros Hk. replace m with (k + (m - k)) by lia. rewrite zrange_app by lia. rewrite firstn_app, firstn_all2 by (rewrite zrange_length; lia).
  rewrite zrange_length, Nat.sub_diag. cbn. apply app_nil_r.
Qed.
Lemma starts_get k : 0 <= k <= size -> arr_get starts k = Ok (len (concat (map (fun i => bucket i E) (zrange k)))).
Proof.
  intros Hk. apply arr_get_nth; [lia|]. unfold starts, counts. rewrite starts_from_nth by (rewrite zrange_length; lia).
  rewrite firstn_zrange by lia. reflexivity.
Qed.
Lemma sys_row_ok k : 0 <= k < size -> sys_row starts sys k = Ok (srow w cs k).
Proof.
  intros Hk. unfold sys_row. rewrite !starts_get, !sys_buckets by lia. cbn [rbind]. unfold sys.
  destruct (zrange_split size k Hk) as (post & Hz). rewrite Hz, map_app, concat_app. cbn [map concat].
  rewrite zrange_succ, map_app, concat_app by lia. cbn [map concat]. rewrite app_nil_r, app_length, Nat2Z.inj_add. apply slice_mid.
Qed.
Lemma starts_low k : 0 <= k <= nav -> len (concat (map (fun i => bucket i E) (zrange k))) = k.
Proof.
  intros Hk. assert (Hg : forall zs, (forall i, In i zs -> 0 <= i < nav) -> len (concat (map (fun i => bucket i E) zs)) = len zs).
  { induction zs as [|i zs IH]; intros H; [reflexivity|]. cbn [map concat length]. rewrite app_length.
    assert (Hi := H i (or_introl eq_refl)). unfold E at 1. rewrite bucket_app, (ecs_low i), app_nil_r by lia.
    pose proof (var_bucket i Hi). pose proof (IH (fun i Hi => H i (or_intror Hi))). lia. }
  rewrite Hg; [rewrite zrange_length; lia|]. intros i Hi. apply zrange_In in Hi. lia.
Qed.

Definition parr (P : list (Z * (Z * num))) := concat (map (block E P) (zrange size)).

Lemma fill_system_ok : fill_system n w jac starts (len E) = Ok sys.
Proof.
  pose proof (nv0 w C) as (H1 & H2 & H3 & H4). unfold fill_system. fold nav.
  assert (HlE : nav <= len E) by (unfold E; rewrite app_length, Nat2Z.inj_add, evs_len; lia).
  destruct (Z.leb_spec nav (len E)); [|lia]. cbn [check rbind].
  assert (H0 : repeat None (Z.to_nat (len E)) = parr []).
  { unfold parr. rewrite concat_block_empty. rewrite bucket_total by exact E_in. f_equal. lia. }
  rewrite H0.
  match goal with |- context [rfold ?f (parr []) (zrange n)] => destruct (zrange_loop (fun j t => t = parr (evs j)) f n (parr [])) as (a1 & Ea & ->) end.
  - exact H1.
  - reflexivity.
  - intros j t Hj ->. destruct (vix_ok w C j Hj) as (E1 & _). rewrite E1. cbn [rbind]. rewrite evs_succ by lia. unfold ev_of.
    destruct (Z.eqb_spec (vix w j) none) as [En|En]; [rewrite app_nil_r; eauto|].
    pose proof (vix_range w C j Hj En) as Hv. fold nav in Hv. eexists. split; [|reflexivity].
    assert (HE : exists rest, E = evs j ++ (vix w j, (j, n1)) :: rest).
    { unfold E. assert (Hp : exists r, evs n = evs j ++ ev_of j ++ r).
      { unfold evs. destruct (zrange_split n j Hj) as (post & Hz). rewrite Hz, map_app, concat_app. cbn [map concat]. eauto. }
      destruct Hp as (r & Hp). rewrite Hp. unfold ev_of. destruct (Z.eqb_spec (vix w j) none); [contradiction|]. rewrite <- !app_assoc. cbn [app]. eauto. }
    destruct HE as (rest & HE).
    pose proof (block_step size E (evs j) rest (vix w j) (j, n1) [] HE ltac:(unfold nav, size in *; lia)) as B. rewrite !app_nil_r in B.
    rewrite starts_low in B by lia. fold (parr (evs j)) in B. fold (parr (evs j ++ [(vix w j, (j, n1))])) in B.
    assert (Hb : bucket (vix w j) (evs j) = []).
    { apply bucket_nil_keys. intros e He Hee. unfold evs in He. apply in_concat in He as (l & Hl & He). apply in_map_iff in Hl as (k & <- & Hk). apply zrange_In in Hk.
      unfold ev_of in He. destruct (Z.eqb_spec (vix w k) none) as [|Hn]; [destruct He|]. destruct He as [<-|[]]. cbn [fst] in Hee.
      destruct (vix_cont w C j Hj En) as [_ R1]. destruct (vix_cont w C k ltac:(unfold n in *; lia) Hn) as [_ R2]. rewrite Hee in R2. lia. }
    rewrite Hb in B. cbn [length] in B. rewrite Z.add_0_r in B. exact B.
  - rewrite Ea. cbn [rbind]. rewrite Hc. fold n.
    set (offs := fun P : list (Z * (Z * num)) => map (fun i => len (bucket (nav + i) P)) (zrange (wnac w))).
    assert (Ho : repeat 0 (Z.to_nat (wnac w)) = offs (evs n)).
    { unfold offs. rewrite (map_const_repeat _ 0), zrange_length; [reflexivity|]. intros k Hk. apply zrange_In in Hk. now rewrite evs_high by lia. }
    rewrite Ho.
    assert (Hog : forall P k, nav <= k < size -> arr_get (offs P) (k - nav) = Ok (len (bucket k P))).
    { intros P k Hk. apply arr_get_nth; [lia|]. unfold offs. rewrite nth_error_map, zrange_nth by (unfold nav, size in *; lia). cbn [option_map].
      rewrite Z2Nat.id by lia. do 4 f_equal. lia. }
    assert (Hos : forall P k b, nav <= k < size -> arr_set (offs P) (k - nav) (len (bucket k P) + 1) = Ok (offs (P ++ [(k, b)]))).
    { intros P k b Hk. unfold offs. rewrite arr_set_ok by (rewrite map_length, zrange_length; unfold nav, size in *; lia). f_equal. apply nth_error_ext. intros i.
      rewrite set_nth_spec by (rewrite map_length, zrange_length; unfold nav, size in *; lia). rewrite !nth_error_map.
      destruct (Nat.lt_ge_cases i (Z.to_nat (wnac w))).
      - rewrite zrange_nth by lia. cbn [option_map]. rewrite bucket_app, bucket_cons, app_length.
        destruct (Nat.eqb_spec i (Z.to_nat (k - nav))) as [->|Hne].
        + rewrite Z2Nat.id by lia. replace (nav + (k - nav)) with k by lia. rewrite Z.eqb_refl. cbn [app length]. f_equal. cbn. lia.
        + destruct (Z.eqb_spec k (nav + Z.of_nat i)); [lia|]. cbn [app length bucket filter map]. f_equal. cbn. lia.
      - destruct (Nat.eqb_spec i (Z.to_nat (k - nav))); [unfold nav, size in *; lia|].
        replace (nth_error (zrange (wnac w)) i) with (@None Z); [reflexivity|]. symmetry. apply nth_error_None. rewrite zrange_length. lia. }
    match goal with |- context [rfold ?f ?s (zrange n)] => destruct (zrange_loop (fun j t => t = (offs (evs n ++ ecs j), parr (evs n ++ ecs j))) f n s) as (s2 & Es & ->) end.
    + exact H1.
    + change (ecs 0) with (@nil (Z * (Z * num))). now rewrite app_nil_r.
    + intros j t Hj ->. destruct (jcol w jac cs HS Hc Hr j Hj) as [Ec Hs]. rewrite Ec. cbn [rbind]. eexists. split; [|reflexivity].
      assert (HE : exists rest, E = (evs n ++ ecs j) ++ ec_of j ++ rest).
      { unfold E, ecs. destruct (zrange_split n j Hj) as (post & Hz). rewrite Hz, map_app, concat_app. cbn [map concat]. eexists. rewrite <- !app_assoc. reflexivity. }
      destruct HE as (rest & HE).
      rewrite ecs_succ, app_assoc by lia. revert HE. unfold ec_of, mcol. generalize (evs n ++ ecs j) as P.
      assert (Hin : forall i, In i (keys (nth (Z.to_nat j) cs [])) -> 0 <= i < wnc w) by (intros i Hi; apply (sorted_in_In _ _ _ _ Hs Hi)).
      clear Ec Hs. induction (nth (Z.to_nat j) cs []) as [|[i x] es IH]; intros P HE.
      * cbn. rewrite app_nil_r. reflexivity.
      * cbn [rfold fst snd]. assert (Hi : 0 <= i < wnc w) by (apply Hin; now left). destruct (cix_ok w C i Hi) as (E1 & _). rewrite E1. cbn [rbind].
        assert (IH' := IH (fun k Hk => Hin k (or_intror Hk))). clear IH. unfold moved in *. cbn [filter fst] in HE |- *. change (cact w i) with (negb (cix w i =? none)) in *.
        destruct (Z.eqb_spec (cix w i) none) as [En|En]; cbn [negb] in HE |- *.
        { cbn [rbind]. now apply IH'. }
        pose proof (cix_range w C i Hi En) as Hk. fold nav size in Hk. destruct (Z.leb_spec nav (cix w i)); [|lia].
        cbn [check rbind map fst snd] in HE |- *. rewrite starts_get, Hog by (unfold nav in *; lia). cbn [rbind].
        pose proof (block_step size E P _ (cix w i) (j, x) [] HE ltac:(unfold nav in *; lia)) as B. rewrite !app_nil_r in B. fold (parr P) in B. rewrite B. cbn [rbind].
        rewrite (Hos P (cix w i) (j, x)) by lia. cbn [rbind].
        fold (parr (P ++ [(cix w i, (j, x))])). rewrite IH'; [|rewrite HE, <- app_assoc; reflexivity]. rewrite <- !app_assoc. reflexivity.
    + rewrite Es. cbn [rbind snd]. fold E. unfold parr. rewrite (map_ext _ (fun k => map Some (bucket k E))) by (intros; apply block_full).
      rewrite <- map_map with (g := map Some), concat_map_map, rmapM_some. rewrite sys_buckets by (unfold size; lia). reflexivity.
Qed.
End Red.
