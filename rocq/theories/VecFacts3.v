(** Re-inserting removed entries (preprocessing.c), and the round trip with removal. *)
From Verif Require Import Base Num Cmp Sparse Vec VecFacts VecFacts2.
Local Open Scope Z_scope.

Section Insert.
Context {N : Num}.

Lemma push_all_app (t : vec) a b : push_all t (a ++ b) = (t' <- push_all t a ;; push_all t' b).
Proof. unfold push_all. apply rfold_app. Qed.

Lemma push_le_spec fs lo hi off i : sorted_in lo hi (keys fs) ->
  exists P fs', fs = P ++ fs'
    /\ (forall t, push_le fs off i t = (t' <- push_all t P ;; Ok (fs', off + Z.of_nat (length P), t')))
    /\ (forall f, In f (keys P) -> f < i + off + Z.of_nat (length P))
    /\ (forall f, In f (keys fs') -> i + off + Z.of_nat (length P) < f).
Proof.
  revert lo off; induction fs as [|[f y] fs IH]; intros lo off Hs.
  - exists [], []. cbn. rewrite Z.add_0_r. repeat split; auto; intros _ [].
  - cbn [keys map fst sorted_in] in Hs. destruct Hs as [Hf Hs]. cbn [push_le].
    destruct (Z.leb_spec f (i + off)) as [Hle|Hgt].
    + destruct (IH (f+1) (off+1) Hs) as (P & fs' & -> & E & H1 & H2).
      exists ((f,y)::P), fs'. cbn [app length]. split; [reflexivity|]. split; [|split].
      * intros t. unfold push_all. cbn [rfold fst snd]. destruct (vec_push t f y) as [t1| |]; cbn [rbind]; auto.
        rewrite E. unfold push_all. replace (off + 1 + Z.of_nat (length P)) with (off + Z.of_nat (S (length P))) by lia.
        reflexivity.
      * cbn [keys map fst]. intros g [<-|Hg]; [lia|]. specialize (H1 g Hg). lia.
      * intros g Hg. specialize (H2 g Hg). lia.
    + exists [], ((f,y)::fs). cbn [app length]. rewrite !Z.add_0_r.
      split; [reflexivity|]. split; [reflexivity|]. split; [intros _ []|].
      cbn [keys map fst]. intros g [<-|Hg]; [lia|]. pose proof (sorted_in_In _ _ _ _ Hs Hg). lia.
Qed.

Lemma skip_le_spec fs lo hi off i : sorted_in lo hi fs ->
  exists P fs', fs = P ++ fs' /\ skip_le fs off i = (fs', off + Z.of_nat (length P))
    /\ (forall f, In f P -> f < i + off + Z.of_nat (length P))
    /\ (forall f, In f fs' -> i + off + Z.of_nat (length P) < f).
Proof.
  revert lo off; induction fs as [|f fs IH]; intros lo off Hs.
  - exists [], []. cbn. rewrite Z.add_0_r. repeat split; auto; intros _ [].
  - destruct Hs as [Hf Hs]. cbn [skip_le]. destruct (Z.leb_spec f (i + off)) as [Hle|Hgt].
    + destruct (IH (f+1) (off+1) Hs) as (P & fs' & -> & E & H1 & H2).
      exists (f::P), fs'. cbn [app length]. split; [reflexivity|]. rewrite E. split; [f_equal; lia|]. split.
      * intros g [<-|Hg]; [lia|]. specialize (H1 g Hg). lia.
      * intros g Hg. specialize (H2 g Hg). lia.
    + exists [], (f::fs). cbn [app length]. rewrite !Z.add_0_r.
      split; [reflexivity|]. split; [reflexivity|]. split; [intros _ []|].
      intros g [<-|Hg]; [lia|]. pose proof (sorted_in_In _ _ _ _ Hs Hg). lia.
Qed.

Lemma kept_split pre post I i : (forall f, In f pre -> f < I) -> (forall f, In f post -> I < f) ->
  i + Z.of_nat (length pre) = I -> kept (pre ++ post) I i.
Proof.
  intros H1 H2 E. split.
  - intros Hin. apply in_app_iff in Hin. destruct Hin as [Hin|Hin]; [apply H1 in Hin|apply H2 in Hin]; lia.
  - rewrite count_lt_app, (count_lt_all pre), (count_lt_none post); auto; [lia|].
    intros f Hf. apply H2 in Hf. lia.
Qed.

Lemma sorted_in_mid lo hi m l1 l2 : sorted_in lo hi (l1 ++ l2) ->
  (forall f, In f l1 -> f < m) -> lo <= m <= hi -> sorted_in lo m l1.
Proof.
  intros H H1 Hm. apply sorted_in_app in H. destruct H as [H _]. eapply sorted_in_shrink; eauto.
Qed.

Lemma sorted_in_post lo hi m l1 l2 : sorted_in lo hi (l1 ++ l2) ->
  (forall f, In f l2 -> m <= f) -> sorted_in m hi l2.
Proof.
  intros H H1. apply sorted_in_app in H. destruct H as [_ H]. destruct l2 as [|f l2]; [exact I|].
  destruct H as [Hf H]. split; auto. split; [apply H1; now left|lia].
Qed.

Lemma sorted_in_cat lo m hi l1 l2 : lo <= m -> m <= hi -> sorted_in lo m l1 -> sorted_in m hi l2 -> sorted_in lo hi (l1 ++ l2).
Proof.
  intros Hlm Hm H1 H2. apply sorted_in_app. split; [eapply sorted_in_weaken; [| |exact H1]; lia|].
  eapply sorted_in_weaken; [| |exact H2]; [|lia].
  destruct (rev l1) as [|j r] eqn:Er; [lia|].
  assert (In j l1) by (apply in_rev; rewrite Er; now left). pose proof (sorted_in_In _ _ _ _ H1 H). lia.
Qed.

Lemma keys_pairs {V} (l : list (Z * V)) i : In i (keys l) <-> exists x, In (i, x) l.
Proof.
  unfold keys. rewrite in_map_iff. split.
  - intros ([j x] & <- & H). eauto.
  - intros (x & H). exists (i, x). auto.
Qed.

Lemma merge_loop_spec pre fs es L le hs :
  sorted_in 0 (hs + Z.of_nat (length pre + length fs)) (pre ++ keys fs) ->
  sorted_in L (hs + Z.of_nat (length pre + length fs)) (keys fs) ->
  (forall f, In f pre -> f < L) ->
  sorted_in le hs (keys es) -> le + Z.of_nat (length pre) >= L ->
  L <= hs + Z.of_nat (length pre + length fs) ->
  exists M, (forall t, merge_loop fs (Z.of_nat (length pre)) es t = push_all t M)
    /\ sorted_in L (hs + Z.of_nat (length pre + length fs)) (keys M)
    /\ length M = (length fs + length es)%nat
    /\ (forall k x, In (k, x) M <-> In (k, x) fs \/ exists i, In (i, x) es /\ kept (pre ++ keys fs) k i).
Proof.
  revert pre fs L le; induction es as [|[i x] es IH]; intros pre fs L le Hall Hf Hpre He HL Hhi.
  - exists fs. cbn [merge_loop]. repeat split; auto.
    intros [H|(i & [] & _)]; auto.
  - cbn [keys map fst sorted_in] in He. destruct He as [Hi He].
    destruct (push_le_spec fs L (hs + Z.of_nat (length pre + length fs)) (Z.of_nat (length pre)) i Hf)
      as (P & fs' & -> & EP & HP1 & HP2).
    set (pre' := pre ++ keys P).
    assert (Hlen : Z.of_nat (length pre) + Z.of_nat (length P) = Z.of_nat (length pre')).
    { unfold pre', keys. rewrite app_length, map_length. lia. }
    set (I := i + Z.of_nat (length pre')).
    assert (HI : i + Z.of_nat (length pre) + Z.of_nat (length P) = I) by (unfold I; lia).
    rewrite HI in HP1, HP2. rewrite Hlen in EP.
    assert (Hdim : hs + Z.of_nat (length pre + length (P ++ fs')) = hs + Z.of_nat (length pre' + length fs')).
    { unfold pre', keys. rewrite !app_length, map_length. lia. }
    rewrite Hdim in *. set (D := hs + Z.of_nat (length pre' + length fs')) in *.
    rewrite keys_app in Hf, Hall |- *.
    assert (HID : I < D) by (unfold I, D; lia).
    assert (HLI : L <= I) by (unfold I; lia).
    destruct (IH pre' fs' (I + 1) (i + 1)) as (M & EM & HsM & HlM & HM).
    { unfold pre'. rewrite <- app_assoc. exact Hall. }
    { eapply sorted_in_post; [exact Hf|]. intros f Hin. apply HP2 in Hin. lia. }
    { intros f Hin. unfold pre' in Hin. apply in_app_iff in Hin. destruct Hin as [Hin|Hin].
      - apply Hpre in Hin. lia.
      - apply HP1 in Hin. lia. }
    { exact He. } { unfold I. lia. } { fold D. lia. }
    fold D in HsM.
    exists (P ++ (I, x) :: M). split; [|split; [|split]].
    + intros t. cbn [merge_loop]. rewrite EP, push_all_app. destruct (push_all t P) as [t'| |]; cbn [rbind]; auto.
      unfold push_all. cbn [rfold fst snd]. fold I. destruct (vec_push t' I x) as [u| |]; cbn [rbind]; auto. apply EM.
    + rewrite keys_app. cbn [keys map fst].
      apply (sorted_in_cat L I); try lia.
      * eapply sorted_in_mid; [exact Hf|exact HP1|lia].
      * split; [lia|]. exact HsM.
    + rewrite !app_length. cbn [length]. lia.
    + assert (Hk : kept (pre ++ keys P ++ keys fs') I i).
      { rewrite app_assoc. apply kept_split; auto.
        intros f Hin. apply in_app_iff in Hin. destruct Hin as [Hin|Hin]; [apply Hpre in Hin; lia|apply HP1; auto]. }
      intros k y. rewrite !in_app_iff. cbn [In]. rewrite HM. unfold pre'. rewrite <- app_assoc.
      split.
      * intros [H|[H|[H|(i' & H & Hk')]]]; auto.
        -- injection H as <- <-. right. exists i. auto.
        -- right. exists i'. auto.
      * intros [[H|H]|(i' & [H|H] & Hk')]; auto.
        -- injection H as <- <-. right. left. f_equal. exact (kept_inj _ _ _ _ _ _ Hall Hk Hk').
        -- right. right. right. exists i'. auto.
Qed.

Lemma In_get_iff lo hi (l : list (Z * num)) i x : sorted_in lo hi (keys l) -> (In (i, x) l <-> get l i = Some x).
Proof. intros H. split; [eapply In_get; eassumption|apply get_Some_In]. Qed.

Lemma merge_entries_spec source target entries :
  wf source -> wf target -> sorted_in 0 (vdim target) (keys entries) ->
  vdim source + Z.of_nat (length entries) = vdim target ->
  exists t, merge_entries source target entries = Ok t /\ wf t /\ vdim t = vdim target
    /\ (forall i j, kept (keys entries) i j -> get (vent t) i = get (vent source) j)
    /\ (forall f y, In (f, y) entries -> get (vent t) f = Some y).
Proof.
  intros (Hd & Hs & Hc) Hwt Hf Hdim. unfold merge_entries.
  change (vdim (vec_clear target)) with (vdim target). rewrite Hdim, Z.eqb_refl. cbn [check rbind].
  destruct (vec_reserve_spec (vec_clear target) (vnnz source + Z.of_nat (length entries))) as (t1 & E1 & Hw1 & Hd1 & He1 & Hc1);
    [now apply wf_clear|unfold vnnz; lia|].
  rewrite E1. cbn [rbind]. cbn [vec_clear vent] in He1. change (vdim (vec_clear target)) with (vdim target) in Hd1.
  destruct (merge_loop_spec [] entries (vent source) 0 0 (vdim source)) as (M & EM & HsM & HlM & HM);
    cbn [length app plus]; rewrite ?Hdim; auto; try lia.
  { intros f []. }
  cbn [length app plus] in *. change (Z.of_nat 0) with 0 in EM. rewrite Hdim in HsM. rewrite EM.
  destruct Hwt as (Hdt & _ & _).
  rewrite push_all_ok; rewrite ?He1, ?Hd1; cbn [app]; [|exact HsM|unfold vnnz in *; rewrite He1; cbn [length]; lia].
  eexists. split; [reflexivity|]. unfold wf; cbn [vdim vcap vent]. unfold vnnz in *.
  repeat split; auto; try lia.
  - intros i j Hk. destruct (get (vent source) j) as [x|] eqn:E.
    + apply (In_get_iff 0 (vdim target)); auto. apply HM. right. exists j. split; auto. now apply get_Some_In.
    + destruct (get M i) as [y|] eqn:E'; [|reflexivity]. apply (In_get_iff 0 (vdim target)) in E'; auto.
      apply HM in E'. destruct E' as [E'|(j' & Hj & Hk')].
      * exfalso. apply (proj1 Hk). eapply In_keys, E'.
      * assert (j' = j) as -> by (destruct Hk, Hk'; congruence).
        apply (In_get_iff 0 (vdim source)) in Hj; auto. congruence.
  - intros f y Hin. apply (In_get_iff 0 (vdim target)); auto. apply HM. now left.
Qed.

Lemma add_zero_loop_spec pre fs es L le hs :
  sorted_in 0 (hs + Z.of_nat (length pre + length fs)) (pre ++ fs) ->
  sorted_in L (hs + Z.of_nat (length pre + length fs)) fs ->
  (forall f, In f pre -> f < L) ->
  sorted_in le hs (keys es) -> le + Z.of_nat (length pre) >= L ->
  exists M, (forall t, add_zero_loop fs (Z.of_nat (length pre)) es t = push_all t M)
    /\ sorted_in L (hs + Z.of_nat (length pre + length fs)) (keys M)
    /\ length M = length es
    /\ (forall k x, In (k, x) M <-> exists i, In (i, x) es /\ kept (pre ++ fs) k i).
Proof.
  revert pre fs L le; induction es as [|[i x] es IH]; intros pre fs L le Hall Hf Hpre He HL.
  - exists []. cbn [add_zero_loop]. repeat split; auto; [intros []|intros (i & [] & _)].
  - cbn [keys map fst sorted_in] in He. destruct He as [Hi He].
    destruct (skip_le_spec fs L (hs + Z.of_nat (length pre + length fs)) (Z.of_nat (length pre)) i Hf)
      as (P & fs' & -> & EP & HP1 & HP2).
    set (pre' := pre ++ P).
    assert (Hlen : Z.of_nat (length pre) + Z.of_nat (length P) = Z.of_nat (length pre')).
    { unfold pre'. rewrite app_length. lia. }
    set (I := i + Z.of_nat (length pre')).
    assert (HI : i + Z.of_nat (length pre) + Z.of_nat (length P) = I) by (unfold I; lia).
    rewrite HI in HP1, HP2. rewrite Hlen in EP.
    assert (Hdim : hs + Z.of_nat (length pre + length (P ++ fs')) = hs + Z.of_nat (length pre' + length fs')).
    { unfold pre'. rewrite !app_length. lia. }
    rewrite Hdim in *. set (D := hs + Z.of_nat (length pre' + length fs')) in *.
    assert (HID : I < D) by (unfold I, D; lia).
    assert (HLI : L <= I) by (unfold I; lia).
    destruct (IH pre' fs' (I + 1) (i + 1)) as (M & EM & HsM & HlM & HM).
    { unfold pre'. rewrite <- app_assoc. exact Hall. }
    { eapply sorted_in_post; [exact Hf|]. intros f Hin. apply HP2 in Hin. lia. }
    { intros f Hin. unfold pre' in Hin. apply in_app_iff in Hin. destruct Hin as [Hin|Hin].
      - apply Hpre in Hin. lia.
      - apply HP1 in Hin. lia. }
    { exact He. } { unfold I. lia. }
    fold D in HsM.
    exists ((I, x) :: M). split; [|split; [|split]].
    + intros t. cbn [add_zero_loop]. rewrite EP.
      unfold push_all. cbn [rfold fst snd]. fold I. destruct (vec_push t I x) as [u| |]; cbn [rbind]; auto. apply EM.
    + cbn [keys map fst sorted_in]. split; [lia|exact HsM].
    + cbn [length]. lia.
    + assert (Hk : kept (pre ++ P ++ fs') I i).
      { rewrite app_assoc. apply kept_split; auto.
        intros f Hin. apply in_app_iff in Hin. destruct Hin as [Hin|Hin]; [apply Hpre in Hin; lia|apply HP1; auto]. }
      intros k y. cbn [In]. rewrite HM. unfold pre'. rewrite <- app_assoc.
      split.
      * intros [H|(i' & H & Hk')].
        -- injection H as <- <-. exists i. auto.
        -- exists i'. auto.
      * intros (i' & [H|H] & Hk').
        -- injection H as <- <-. left. f_equal. exact (kept_inj _ _ _ _ _ _ Hall Hk Hk').
        -- right. exists i'. auto.
Qed.

Lemma add_zero_entries_spec source target fs :
  wf source -> wf target -> sorted_in 0 (vdim target) fs ->
  vdim source + Z.of_nat (length fs) = vdim target ->
  exists t, add_zero_entries source target fs = Ok t /\ wf t /\ vdim t = vdim target
    /\ (forall i j, kept fs i j -> get (vent t) i = get (vent source) j)
    /\ (forall f, In f fs -> get (vent t) f = None).
Proof.
  intros (Hd & Hs & Hc) Hwt Hf Hdim. unfold add_zero_entries.
  destruct (vec_reserve_spec (vec_clear target) (vnnz source)) as (t1 & E1 & Hw1 & Hd1 & He1 & Hc1);
    [now apply wf_clear|unfold vnnz; lia|].
  rewrite E1. cbn [rbind]. cbn [vec_clear vent] in He1. change (vdim (vec_clear target)) with (vdim target) in Hd1.
  destruct (add_zero_loop_spec [] fs (vent source) 0 0 (vdim source)) as (M & EM & HsM & HlM & HM);
    cbn [length app plus]; rewrite ?Hdim; auto; try lia.
  { intros f []. }
  cbn [length app plus] in *. change (Z.of_nat 0) with 0 in EM. rewrite Hdim in HsM. rewrite EM.
  destruct Hwt as (Hdt & _ & _).
  rewrite push_all_ok; rewrite ?He1, ?Hd1; cbn [app]; [|exact HsM|unfold vnnz in *; rewrite He1; cbn [length]; lia].
  eexists. split; [reflexivity|]. unfold wf; cbn [vdim vcap vent]. unfold vnnz in *.
  repeat split; auto; try lia.
  - intros i j Hk. destruct (get (vent source) j) as [x|] eqn:E.
    + apply (In_get_iff 0 (vdim target)); auto. apply HM. exists j. split; auto. now apply get_Some_In.
    + destruct (get M i) as [y|] eqn:E'; [|reflexivity]. apply (In_get_iff 0 (vdim target)) in E'; auto.
      apply HM in E'. destruct E' as (j' & Hj & Hk').
      assert (j' = j) as -> by (destruct Hk, Hk'; congruence).
      apply (In_get_iff 0 (vdim source)) in Hj; auto. congruence.
  - intros f Hin. destruct (get M f) as [y|] eqn:E'; [|reflexivity]. apply (In_get_iff 0 (vdim target)) in E'; auto.
    apply HM in E'. destruct E' as (j' & Hj & Hk'). exfalso. apply (proj1 Hk'). exact Hin.
Qed.

(** Removing entries and putting them back reproduces the vector; putting entries in
    and removing them again reproduces the source. *)
Lemma kept_total fs i : ~ In i fs -> kept fs i (i - count_lt fs i).
Proof. intros H. split; auto. Qed.

Lemma remove_then_merge x r t entries :
  wf x -> wf r -> wf t -> sorted_in 0 (vdim x) (keys entries) ->
  vdim x = vdim r + Z.of_nat (length entries) -> vdim t = vdim x ->
  (forall f y, In (f, y) entries -> get (vent x) f = Some y) ->
  exists x1 x2, vec_remove_entries x r (keys entries) = Ok x1 /\ merge_entries x1 t entries = Ok x2
    /\ wf x1 /\ wf x2 /\ vdim x2 = vdim x /\ forall i, get (vent x2) i = get (vent x) i.
Proof.
  intros Hx Hr Ht Hs Hd Hdt Hent.
  assert (Hlk : length (keys entries) = length entries) by apply map_length.
  destruct (vec_remove_entries_spec x r (keys entries) Hx Hr Hs) as (x1 & E1 & Hw1 & Hd1 & H1); [lia|].
  destruct (merge_entries_spec x1 t entries Hw1 Ht) as (x2 & E2 & Hw2 & Hd2 & H2 & H3); [now rewrite Hdt|lia|].
  exists x1, x2. repeat split; auto; try lia; try apply Hw1; try apply Hw2.
  intros i. destruct (existsb (Z.eqb i) (keys entries)) eqn:Ex.
  - apply existsb_In in Ex. apply keys_pairs in Ex. destruct Ex as (y & Hy). rewrite (H3 _ _ Hy), (Hent _ _ Hy). reflexivity.
  - assert (Hni : ~ In i (keys entries)) by (intros H; apply existsb_In in H; congruence).
    pose proof (kept_total _ _ Hni) as Hk. rewrite (H2 _ _ Hk). apply H1. exact Hk.
Qed.

(** Every reduced index is the image of an original one. *)
Lemma kept_surj fs d j : sorted_in 0 d fs -> 0 <= j < d - Z.of_nat (length fs) -> exists i, 0 <= i < d /\ kept fs i j.
Proof.
  intros Hs Hj.
  destruct (skip_le_spec fs 0 d 0 j Hs) as (P & fs' & -> & _ & H1 & H2). rewrite Z.add_0_r in *.
  exists (j + Z.of_nat (length P)). rewrite app_length in Hj. split; [lia|]. apply kept_split; auto.
Qed.

Lemma merge_then_remove x r t entries :
  wf x -> wf r -> wf t -> sorted_in 0 (vdim t) (keys entries) ->
  vdim t = vdim x + Z.of_nat (length entries) -> vdim r = vdim x ->
  exists x1 x2, merge_entries x t entries = Ok x1 /\ vec_remove_entries x1 r (keys entries) = Ok x2
    /\ wf x1 /\ wf x2 /\ vdim x2 = vdim x /\ forall j, 0 <= j < vdim x -> get (vent x2) j = get (vent x) j.
Proof.
  intros Hx Hr Ht Hs Hd Hdt.
  assert (Hlk : length (keys entries) = length entries) by apply map_length.
  destruct (merge_entries_spec x t entries Hx Ht Hs) as (x1 & E1 & Hw1 & Hd1 & H1 & _); [lia|].
  destruct (vec_remove_entries_spec x1 r (keys entries) Hw1 Hr) as (x2 & E2 & Hw2 & Hd2 & H2); [now rewrite Hd1|lia|].
  exists x1, x2. repeat split; auto; try lia; try apply Hw1; try apply Hw2.
  intros j Hj. destruct (kept_surj (keys entries) (vdim t) j Hs) as (i & Hi & Hk); [lia|].
  rewrite (H2 _ _ Hk). apply H1. exact Hk.
Qed.

End Insert.
