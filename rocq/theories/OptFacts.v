(** Facts about the optimality residuals of Feas.v (iterate.c). *)
From Coq Require Import Reals Lra.
From Verif Require Import Base Num Cmp Sparse Vec VecFacts VecFacts2 Order OrdArith Mat MatFacts MatFacts2 Arr WorkingSet Feas FeasFacts.
Local Open Scope Z_scope.

Section OptGen.
Context {N : Num}.

(** ** The merge in the inner product, entry by entry *)
Definition spdot (l1 l2 : list (Z * num)) (acc : num) : num :=
  fold_left (fun s e => match get l2 (fst e) with Some y => nadd s (nmul (snd e) y) | None => s end) l1 acc.

Lemma dot_loop_spdot fuel l1 l2 acc lo1 lo2 hi :
  sorted_in lo1 hi (keys l1) -> sorted_in lo2 hi (keys l2) -> (length l1 + length l2 <= fuel)%nat ->
  dot_loop fuel l1 l2 acc = spdot l1 l2 acc.
Proof.
  revert l1 l2 acc lo1 lo2; induction fuel as [|f IH]; intros l1 l2 acc lo1 lo2 H1 H2 Hf.
  - destruct l1; [reflexivity|cbn [length] in Hf; lia].
  - destruct l1 as [|[i x] l1]; [destruct l2; reflexivity|].
    destruct l2 as [|[j y] l2].
    + cbn [dot_loop]. unfold spdot. clear. revert acc. induction ((i, x) :: l1) as [|e l IH]; intros acc; [reflexivity|]. apply IH.
    + cbn [length] in Hf. cbn [keys map fst sorted_in] in H1, H2. destruct H1 as [Hi H1], H2 as [Hj H2]. cbn [dot_loop].
      destruct (Z.eqb_spec i j) as [->|Hne].
      * rewrite (IH l1 l2 _ (j + 1) (j + 1)) by (auto; lia). unfold spdot. cbn [fold_left fst snd get].
        rewrite Z.eqb_refl. 
        assert (G : forall l s lo, j < lo -> sorted_in lo hi (keys l) ->
           fold_left (fun s e => match get l2 (fst e) with Some y => nadd s (nmul (snd e) y) | None => s end) l s =
           fold_left (fun s e => match (if j =? fst e then Some y else get l2 (fst e)) with Some y => nadd s (nmul (snd e) y) | None => s end) l s).
        { induction l as [|[k z] l IHl]; intros s lo Hlo Hs; [reflexivity|]. cbn [fold_left fst snd]. cbn [keys map fst sorted_in] in Hs. destruct Hs as [Hk Hs].
          destruct (Z.eqb_spec j k); [lia|]. apply (IHl _ (k + 1)); auto. lia. }
        apply (G _ _ (j + 1)); auto. lia.
      * destruct (Z.ltb_spec i j) as [Hlt|Hge].
        -- rewrite (IH l1 ((j, y) :: l2) _ (i + 1) lo2); auto; [|now split|cbn [length]; lia].
           unfold spdot. cbn [fold_left fst snd]. cbn [get]. destruct (Z.eqb_spec j i); [lia|].
           rewrite (get_below (j + 1) hi l2 i); auto; lia.
        -- rewrite (IH ((i, x) :: l1) l2 _ lo1 (j + 1)); auto; [|now split|cbn [length]; lia].
           unfold spdot.
           assert (G : forall l s lo, j < lo -> sorted_in lo hi (keys l) ->
           fold_left (fun s e => match get l2 (fst e) with Some y => nadd s (nmul (snd e) y) | None => s end) l s =
           fold_left (fun s e => match get ((j, y) :: l2) (fst e) with Some y => nadd s (nmul (snd e) y) | None => s end) l s).
           { induction l as [|[k z] l IHl]; intros s lo Hlo Hs; [reflexivity|]. cbn [fold_left fst snd get]. cbn [keys map fst sorted_in] in Hs. destruct Hs as [Hk Hs].
             destruct (Z.eqb_spec j k); [lia|]. apply (IHl _ (k + 1)); auto. lia. }
           apply (G _ _ i); [lia|]. cbn [keys map fst sorted_in]. split; [lia|auto].
Qed.

(** ** The stationarity array *)
Definition oadd (s : num) (o : option num) : num := match o with Some x => nadd s x | None => s end.

Lemma rmapM_ok {A B} (f : A -> res B) (g : A -> B) l : (forall a, In a l -> f a = Ok (g a)) -> rmapM f l = Ok (map g l).
Proof.
  induction l as [|a l IH]; intros H; [reflexivity|]. cbn [rmapM map]. rewrite H by now left. cbn [rbind].
  rewrite IH by (intros; apply H; now right). reflexivity.
Qed.

Lemma add_at_all es : forall a n f lo, arr a n f -> sorted_in lo n (keys es) -> 0 <= lo ->
  exists a', rfold add_at a es = Ok a' /\ arr a' n (fun j => oadd (f j) (get es j)).
Proof.
  induction es as [|[i x] es IH]; intros a n f lo Ha Hs Hlo.
  - exists a. split; [reflexivity|]. exact Ha.
  - cbn [keys map fst sorted_in] in Hs. destruct Hs as [Hi Hs]. cbn [rfold]. unfold add_at at 1. cbn [fst snd].
    rewrite (arr_get_arr a n f i Ha) by lia. cbn [rbind].
    destruct (arr_set_arr a n f i (nadd (f i) x) Ha) as (a1 & E1 & H1); [lia|]. rewrite E1. cbn [rbind].
    destruct (IH a1 n _ (i + 1) H1 Hs) as (a2 & E2 & H2); [lia|]. exists a2. split; [exact E2|].
    eapply arr_ext; [exact H2|]. intros j Hj. cbn [get]. unfold upd. destruct (Z.eqb_spec j i) as [->|Hne].
    + rewrite Z.eqb_refl, (get_below (i + 1) n); auto. lia.
    + destruct (Z.eqb_spec i j); [lia|]. reflexivity.
Qed.

Lemma arr_zrange {A} n (f : Z -> A) : arr (map f (zrange n)) n f.
Proof.
  split; [rewrite map_length; apply zrange_length|]. intros j Hj.
  rewrite (map_nth_error f (Z.to_nat j) (zrange n) (d := j)); [reflexivity|].
  rewrite zrange_nth by lia. f_equal. lia.
Qed.

(** What the code computes for variable [j]: product of the multipliers with the column,
    then the bound multiplier, then the gradient. *)
Definition stat_at (cs : list (list (Z * num))) (g y z : vec) (j : Z) : num :=
  oadd (oadd (spdot (vent y) (nth (Z.to_nat j) cs []) n0) (get (vent z) j)) (get (vent g) j).

Lemma stationarity_cache_spec jac cs g y z : stores jac cs ->
  wf g -> wf y -> wf z -> vdim g = mnc jac -> vdim z = mnc jac -> vdim y = mnr jac ->
  exists a, stationarity_cache jac g y z = Ok a /\ arr a (mnc jac) (stat_at cs g y z).
Proof.
  intros Hs (_ & Hg & _) (_ & Hy & _) (_ & Hz & _) Dg Dz Dy. unfold stationarity_cache.
  rewrite (rmapM_ok _ (fun j => spdot (vent y) (nth (Z.to_nat j) cs []) n0)).
  2:{ intros j Hj. apply zrange_In in Hj. destruct (stores_col jac cs j Hs Hj) as (c & Hn & Hc & Hk).
      rewrite Hc. cbn [rbind]. f_equal. unfold jac_column. rewrite (nth_error_nth cs (Z.to_nat j) [] Hn).
      apply (dot_loop_spdot _ _ _ _ 0 0 (mnr jac)); auto. now rewrite <- Dy. }
  cbn [rbind]. rewrite Dz in Hz. rewrite Dg in Hg.
  destruct (add_at_all (vent z) _ _ _ 0 (arr_zrange (mnc jac) (fun j => spdot (vent y) (nth (Z.to_nat j) cs []) n0)) Hz)
    as (a1 & E1 & H1); [lia|]. rewrite E1. cbn [rbind].
  destruct (add_at_all (vent g) _ _ _ 0 H1 Hg) as (a2 & E2 & H2); [lia|]. exists a2. split; [exact E2|].
  eapply arr_ext; [exact H2|]. reflexivity.
Qed.

Lemma arr_as_map {A} (l : list A) n f : arr l n f -> l = map f (zrange n).
Proof. intros H. eapply arr_eq; [exact H|apply arr_zrange|reflexivity]. Qed.

(** ** The slackness loop *)
Lemma slack_loop_spec {S} (body : S -> Z -> num -> res S) fuel dim : forall lo lv ll lu ld s,
  sorted_in lo dim (keys lv) -> sorted_in lo dim (keys ll) -> sorted_in lo dim (keys lu) -> sorted_in lo dim (keys ld) ->
  (total_len [lv; ll; lu; ld] < fuel)%nat ->
  exists idxs, sorted_in lo dim idxs
    /\ slack_loop body fuel dim lv ll lu ld s
       = rfold (fun s i => body s i (slack_val (oval (get lv i)) (oval (get ll i)) (oval (get lu i)) (oval (get ld i)))) s idxs
    /\ (forall i, ~ In i idxs -> get ld i = None \/ (get lv i = None /\ get ll i = None /\ get lu i = None)).
Proof.
  induction fuel as [|f IH]; intros lo lv ll lu ld s Hv Hl Hu Hd Hf; [lia|].
  cbn [slack_loop]. destruct (all_nil [lv; ll; lu] || all_nil [ld]) eqn:En.
  - exists []. split; [exact I|]. split; [reflexivity|]. intros i _. apply orb_true_iff in En. destruct En as [En|En].
    + rewrite all_nil_iff in En. right. rewrite (En lv), (En ll), (En lu) by (cbn [In]; tauto). auto.
    + rewrite all_nil_iff in En. left. rewrite (En ld) by (cbn [In]; tauto). reflexivity.
  - set (ls := [ll; lu; ld; lv]). set (i := min_head dim ls).
    assert (Hsort : forall l, In l ls -> sorted_in lo dim (keys l)).
    { intros l Hin. cbn [In ls] in Hin. destruct Hin as [<-|[<-|[<-|[<-|[]]]]]; auto. }
    assert (Hatt : exists i v t, In ((i,v)::t) ls /\ min_head dim ls = i).
    { apply min_head_attained. apply orb_false_iff in En. destruct En as [_ En].
      destruct ld as [|[j v] t]; [discriminate|]. exists ((j,v)::t), j, v, t. split; [cbn; tauto|]. split; [reflexivity|].
      cbn [keys map fst sorted_in] in Hd. lia. }
    destruct Hatt as (i0 & v0 & t0 & Hin0 & Ei0). fold i in Ei0. subst i0.
    assert (Hrange : lo <= i < dim) by (specialize (Hsort _ Hin0); cbn [keys map fst sorted_in] in Hsort; lia).
    assert (Hle : forall l, In l ls -> i <= head_idx dim l) by (intros; apply min_head_le; auto).
    assert (Hin : In lv ls /\ In ll ls /\ In lu ls /\ In ld ls) by (cbn; tauto).
    destruct Hin as (Iv & Il & Iu & Id).
    rewrite !(head_val_get lo dim) by auto.
    set (x := slack_val (oval (get lv i)) (oval (get ll i)) (oval (get lu i)) (oval (get ld i))).
    assert (Hlen : (total_len [advance i lv; advance i ll; advance i lu; advance i ld] < f)%nat).
    { pose proof (total_len_advance_lt i v0 t0 ls Hin0) as Ht. unfold ls in Ht. cbn [total_len map fold_right] in *. lia. }
    assert (Hget : forall l k, In l ls -> i < k -> get (advance i l) k = get l k) by (intros; eapply advance_get; eauto).
    assert (Hstep : forall s0, exists idxs, sorted_in (i + 1) dim idxs
      /\ slack_loop body f dim (advance i lv) (advance i ll) (advance i lu) (advance i ld) s0
         = rfold (fun s i => body s i (slack_val (oval (get lv i)) (oval (get ll i)) (oval (get lu i)) (oval (get ld i)))) s0 idxs
      /\ (forall k, i < k -> ~ In k idxs -> get ld k = None \/ (get lv k = None /\ get ll k = None /\ get lu k = None))).
    { intros s0.
      destruct (IH (i + 1) (advance i lv) (advance i ll) (advance i lu) (advance i ld) s0) as (idxs & S1 & S2 & S3);
        try (apply (advance_sorted lo); auto); auto.
      exists idxs. split; [exact S1|]. split.
      - rewrite S2. apply rfold_ext. intros t k Hk. pose proof (sorted_in_In _ _ _ _ S1 Hk).
        rewrite !Hget by (auto; lia). reflexivity.
      - intros k Hk Hn. specialize (S3 k Hn). rewrite !Hget in S3 by (auto; lia). exact S3. }
    assert (Hout : forall idxs k, (forall k, i < k -> ~ In k idxs -> get ld k = None \/ (get lv k = None /\ get ll k = None /\ get lu k = None)) ->
       ~ In k (i :: idxs) -> get ld k = None \/ (get lv k = None /\ get ll k = None /\ get lu k = None)).
    { intros idxs k H Hn. cbn [In] in Hn. destruct (Z_lt_le_dec i k) as [Hlt|Hge]; [apply H; tauto|].
      assert (k < i) by (destruct (Z.eq_dec i k); [tauto|lia]). left.
      specialize (Hle _ Id). destruct ld as [|[j v] t]; [reflexivity|]. cbn [head_idx] in Hle. cbn [get].
      destruct (Z.eqb_spec j k); [lia|]. cbn [keys map fst sorted_in] in Hd. apply (get_below (j + 1) dim); [apply Hd|lia]. }
    destruct (body s i x) as [s1|code|] eqn:Eb.
    + destruct (Hstep s1) as (idxs & S1 & S2 & S3). exists (i :: idxs). split; [split; [lia|exact S1]|]. split.
      * cbn [rfold]. fold x. rewrite Eb. cbn [rbind]. exact S2.
      * intros k. apply Hout, S3.
    + destruct (Hstep s) as (idxs & S1 & S2 & S3). exists (i :: idxs). split; [split; [lia|exact S1]|]. split.
      * cbn [rfold]. fold x. rewrite Eb. reflexivity.
      * intros k. apply Hout, S3.
    + destruct (Hstep s) as (idxs & S1 & S2 & S3). exists (i :: idxs). split; [split; [lia|exact S1]|]. split.
      * cbn [rfold]. fold x. rewrite Eb. reflexivity.
      * intros k. apply Hout, S3.
Qed.

Lemma rfold_pure {A S} (f : S -> A -> S) l s : rfold (fun s a => Ok (f s a)) s l = Ok (fold_left f l s).
Proof. revert s; induction l as [|a l IH]; intros s; [reflexivity|]. cbn [rfold rbind fold_left]. apply IH. Qed.

Definition slack_at (v l u d : vec) (i : Z) : num := slack_val (dense v i) (dense l i) (dense u i) (dense d i).

Lemma slack_residuum_spec v l u d : wf v -> wf l -> wf u -> wf d ->
  vdim l = vdim v -> vdim u = vdim v -> vdim d = vdim v ->
  exists idxs, sorted_in 0 (vdim v) idxs
    /\ slack_residuum v l u d = Ok (fold_left (fun r x => nmax r (nabs x)) (map (slack_at v l u d) idxs) n0)
    /\ (forall i, ~ In i idxs -> dense d i = n0 \/ (dense v i = n0 /\ dense l i = n0 /\ dense u i = n0)).
Proof.
  intros (_ & Hv & _) (_ & Hl & _) (_ & Hu & _) (_ & Hd & _) El Eu Ed.
  rewrite El in Hl. rewrite Eu in Hu. rewrite Ed in Hd.
  unfold slack_residuum. rewrite El, Eu, Ed, Z.eqb_refl. cbn [check rbind].
  destruct (slack_loop_spec (fun (r : num) (_ : Z) (x : num) => Ok (nmax r (nabs x)))
    (Datatypes.S (total_len [vent v; vent l; vent u; vent d])) (vdim v) 0 (vent v) (vent l) (vent u) (vent d) n0)
    as (idxs & S1 & S2 & S3); auto.
  exists idxs. split; [exact S1|]. split.
  - rewrite S2. rewrite rfold_pure. f_equal. rewrite fold_left_map. reflexivity.
  - intros i Hi. unfold dense. destruct (S3 i Hi) as [->|(-> & -> & ->)]; auto.
Qed.

Lemma slack_residuals_spec v l u d r eps : wf v -> wf l -> wf u -> wf d -> wf r ->
  vdim l = vdim v -> vdim u = vdim v -> vdim d = vdim v ->
  exists z idxs, slack_residuals v l u d r eps = Ok z /\ wf z /\ vdim z = vdim v
    /\ (forall i, ~ In i idxs -> dense d i = n0 \/ (dense v i = n0 /\ dense l i = n0 /\ dense u i = n0))
    /\ (forall i, 0 <= i < vdim v -> In i idxs -> dense z i = if is_zero (slack_at v l u d i) eps then n0 else slack_at v l u d i)
    /\ (forall i, ~ In i idxs -> dense z i = n0).
Proof.
  intros (D0 & Hv & _) (_ & Hl & _) (_ & Hu & _) (_ & Hd & _) Hr El Eu Ed.
  rewrite El in Hl. rewrite Eu in Hu. rewrite Ed in Hd.
  unfold slack_residuals.
  destruct (prepare_result r (vdim v) (vdim v)) as (r1 & -> & r2 & E2 & D2 & V2 & C2); auto. cbn [rbind].
  rewrite E2. cbn [rbind].
  destruct (slack_loop_spec (fun (r : vec) (i : Z) (x : num) => if is_zero x eps then Ok r else vec_push r i x)
    (Datatypes.S (total_len [vent v; vent l; vent u; vent d])) (vdim v) 0 (vent v) (vent l) (vent u) (vent d) r2)
    as (idxs & S1 & S2 & S3); auto.
  pose proof (sorted_in_length _ _ _ S1) as Hlen.
  set (h := fun i => slack_at v l u d i).
  pose proof (rfold_filter_push (fun i => is_zero (h i) eps) (fun i => i) h idxs r2) as EF.
  unfold h, slack_at, dense in EF. fold (slack_at v l u d) in EF. unfold slack_at, dense.
  exists (mkvec (vdim r2) (vcap r2) (map (fun i => (i, h i)) (filter (fun i => negb (is_zero (h i) eps)) idxs))), idxs.
  pose proof (filter_length_le (fun i => negb (is_zero (h i) eps)) idxs) as Hfl.
  split; [|split; [|split; [|split; [|split]]]].
  - rewrite S2. etransitivity; [exact EF|]. rewrite push_all_ok; rewrite ?V2; cbn [app].
    + reflexivity.
    + rewrite D2. apply sorted_map_pair, sorted_filter, S1.
    + unfold vnnz. rewrite V2, map_length. cbn [length]. unfold h, slack_at, dense in Hfl. lia.
  - unfold wf. cbn [vdim vcap vent]. rewrite D2, map_length. split; [auto|]. split; [|lia].
    apply sorted_map_pair, sorted_filter, S1.
  - exact D2.
  - intros i Hi. destruct (S3 i Hi) as [->|(-> & -> & ->)]; auto.
  - intros i Hi Hin. cbn [vent]. rewrite (get_map_filter _ h 0 (vdim v)) by exact S1.
    rewrite (proj2 (existsb_In i idxs) Hin). cbn [andb]. unfold h, slack_at, dense.
    destruct (is_zero _ eps); reflexivity.
  - intros i Hi. cbn [vent]. rewrite (get_map_filter _ h 0 (vdim v)) by exact S1.
    destruct (existsb (Z.eqb i) idxs) eqn:E; [apply existsb_In in E; tauto|]. reflexivity.
Qed.
End OptGen.

Section OptOrd.
Context {N : Num} {O : Ord N} {A : OrdArith N}.
Local Open Scope R_scope.

Lemma nabs_nn x : nn (nabs x) -> nn x.
Proof. unfold nabs. destruct (nltb n0 x); auto using opp_nan. Qed.

(** The running maximum: it bounds every element after the last NaN, and is a NaN only
    if the last element is one. *)
Lemma max_fold t (l : list num) r0 : nn t -> nleb t (fold_left (fun r x => nmax r (nabs x)) l r0) = false ->
  forall k x, nth_error l k = Some x ->
    (nn x /\ Rabs (val x) < val t) \/ exists j y, (k <= j)%nat /\ nth_error l j = Some y /\ ~ nn y.
Proof.
  intros Ht. induction l as [|a l IH] using rev_ind; intros H k x Hk; [destruct k; discriminate|].
  rewrite fold_left_app in H. cbn [fold_left] in H. set (r := fold_left (fun r x => nmax r (nabs x)) l r0) in *.
  assert (Hlast : nth_error (l ++ [a]) (length l) = Some a).
  { rewrite nth_error_app2, Nat.sub_diag by lia. reflexivity. }
  assert (Hkl : (k <= length l)%nat).
  { assert (k < length (l ++ [a]))%nat by (apply nth_error_Some; congruence). rewrite app_length in H0. cbn [length] in H0. lia. }
  destruct (nn_dec a) as [Ha|Ha]; [|right; exists (length l), a; auto].
  assert (G : nleb t r = false /\ Rabs (val a) < val t).
  { pose proof (nn_abs a Ha) as Haa. rewrite <- val_abs by auto. unfold nmax in H. destruct (nltb (nabs a) r) eqn:E.
    - destruct (ltb_nn _ _ E) as [_ Hr]. apply ltb_iff in E; auto. split; [exact H|]. apply leb_false_iff in H; auto. lra.
    - apply leb_false_iff in H; auto. split; [|exact H]. destruct (nn_dec r) as [Hr|Hr].
      + apply ltb_false_iff in E; auto. apply leb_false_iff; auto. lra.
      + apply (nan_leb r t Hr). }
  destruct G as [G1 G2]. destruct (Nat.eq_dec k (length l)) as [->|Hne].
  - rewrite Hlast in Hk. injection Hk as <-. left. split; auto.
  - rewrite nth_error_app1 in Hk by lia. destruct (IH G1 k x Hk) as [H1|(j & y & J1 & J2 & J3)]; auto.
    right. exists j, y. split; [auto|]. split; [|auto]. rewrite nth_error_app1; auto. apply nth_error_Some. congruence.
Qed.

Lemma max_fold_nn (l : list num) : forall r0, nn r0 -> (forall x, In x l -> nn x) ->
  nn (fold_left (fun r x => nmax r (nabs x)) l r0).
Proof.
  induction l as [|a l IH]; intros r0 Hr H; [exact Hr|]. cbn [fold_left]. apply IH.
  - apply nn_max; auto. apply nn_abs, H. now left.
  - intros; apply H; now right.
Qed.

(** Converse: without NaN the running maximum stays below a positive tolerance exactly if all elements do. *)
Lemma max_fold_conv t (l : list num) : forall r0, nn t -> nn r0 -> val r0 < val t ->
  (forall x, In x l -> nn x /\ Rabs (val x) < val t) -> nleb t (fold_left (fun r x => nmax r (nabs x)) l r0) = false.
Proof.
  induction l as [|a l IH]; intros r0 Ht Hr H0 H; cbn [fold_left]; [now apply leb_false_iff|].
  destruct (H a) as [Ha Hl]; [now left|]. apply IH; auto.
  - apply nn_max; auto using nn_abs.
  - rewrite val_max, val_abs by auto using nn_abs. apply Rmax_lub_lt; auto.
  - intros; apply H; now right.
Qed.

Lemma nmax_test t a b : nn t -> nleb t (nmax a b) = false ->
  nleb t b = false /\ (nn b -> nleb t a = false).
Proof.
  intros Ht H. unfold nmax in H. destruct (nltb b a) eqn:E.
  - destruct (ltb_nn _ _ E) as [Hb Ha]. apply ltb_iff in E; auto. pose proof (proj1 (leb_false_iff _ _ Ht Ha) H).
    split; [apply leb_false_iff; auto; lra|auto].
  - split; [exact H|]. intros Hb. destruct (nn_dec a) as [Ha|Ha]; [|apply (nan_leb a t Ha)].
    apply ltb_false_iff in E; auto. apply leb_false_iff in H; auto. apply leb_false_iff; auto. lra.
Qed.

(** Complementarity of a value in an interval with its multiplier, up to [t]. *)
Definition complementary (t v l u d : num) : Prop :=
  d = n0
  \/ (nleb n0 d = true /\ (nltb v u = false \/ Rabs (val (nmul (nmax (nsub u v) n0) d)) < val t))
  \/ (nleb n0 d = false /\ (nltb l v = false \/ Rabs (val (nmul (nmax (nsub v l) n0) d)) < val t)).

Lemma slack_complementary t v l u d : Rabs (val (slack_val v l u d)) < val t -> complementary t v l u d.
Proof.
  unfold complementary, slack_val. destruct (nleb n0 d); intros H.
  - right; left. auto.
  - right; right. auto.
Qed.

Lemma slack_test t v l u d (r : num) : wf v -> wf l -> wf u -> wf d ->
  vdim l = vdim v -> vdim u = vdim v -> vdim d = vdim v -> nn t ->
  slack_residuum v l u d = Ok r -> nleb t r = false ->
  forall i, (0 <= i < vdim v)%Z -> complementary t (dense v i) (dense l i) (dense u i) (dense d i)
    \/ exists k, (i <= k < vdim v)%Z /\ ~ nn (slack_at v l u d k).
Proof.
  intros Wv Wl Wu Wd El Eu Ed Ht Hr Htest i Hi.
  destruct (slack_residuum_spec v l u d) as (idxs & S1 & S2 & S3); auto.
  rewrite Hr in S2. injection S2 as ->.
  destruct (in_dec Z.eq_dec i idxs) as [Hin|Hn].
  - apply In_nth_error in Hin. destruct Hin as [k Hk].
    destruct (max_fold t _ _ Ht Htest k (slack_at v l u d i)) as [[_ H]|(j & y & J1 & J2 & J3)].
    + now apply map_nth_error.
    + left. now apply slack_complementary.
    + right. rewrite nth_error_map in J2. destruct (nth_error idxs j) as [p|] eqn:Ej; [|discriminate]. cbn in J2. injection J2 as <-.
      exists p. split; [|exact J3]. assert (Hp : In p idxs) by (eapply nth_error_In; eauto).
      pose proof (sorted_in_In _ _ _ _ S1 Hp). split; [|lia].
      clear -S1 Hk Ej J1. revert k j Hk Ej J1. revert S1. generalize 0%Z.
      induction idxs as [|q idxs IH]; intros lo S1 k j Hk Ej J1; [destruct k; discriminate|].
      destruct S1 as [Hq S1]. destruct k as [|k], j as [|j]; cbn [nth_error] in *; try lia.
      * injection Hk as <-. injection Ej as <-. lia.
      * injection Hk as <-. assert (In p idxs) by (eapply nth_error_In; eauto). pose proof (sorted_in_In _ _ _ _ S1 H). lia.
      * apply (IH _ S1 k j); auto; lia.
  - left. destruct (S3 i Hn) as [->|(-> & -> & ->)]; [left; reflexivity|].
    right. rewrite lt00. destruct (nleb n0 (dense d i)); auto.
Qed.

Lemma slack_residuum_nan v l u d (r : num) : wf v -> wf l -> wf u -> wf d ->
  vdim l = vdim v -> vdim u = vdim v -> vdim d = vdim v ->
  slack_residuum v l u d = Ok r -> (forall i, (0 <= i < vdim v)%Z -> nn (slack_at v l u d i)) -> nn r.
Proof.
  intros Wv Wl Wu Wd El Eu Ed Hr H.
  destruct (slack_residuum_spec v l u d) as (idxs & S1 & S2 & S3); auto.
  rewrite Hr in S2. injection S2 as ->. apply max_fold_nn; [apply nn_0|].
  intros x Hx. apply in_map_iff in Hx. destruct Hx as (i & <- & Hi). apply H. eapply sorted_in_In; eauto.
Qed.
End OptOrd.
