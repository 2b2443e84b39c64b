(** Facts about the sparse vector model: specifications and lemmas. *)
From Verif Require Import Base Num Cmp Sparse Vec.
Local Open Scope Z_scope.

Section VecFacts.
Context {N : Num}.

(** Specification of well-formedness. *)
Definition wf (v : vec) : Prop :=
  0 <= vdim v /\ sorted_in 0 (vdim v) (keys (vent v)) /\ Z.of_nat (length (vent v)) <= vcap v.

(** The vector as a function from coordinates to values. *)
Definition dense (v : vec) (i : Z) : num := oval (get (vent v) i).

Lemma keys_app (l1 l2 : list (Z * num)) : keys (l1 ++ l2) = keys l1 ++ keys l2.
Proof. apply map_app. Qed.

Lemma last_idx_app l (i : Z) (x : num) : last_idx (l ++ [(i, x)]) = Some i.
Proof. unfold last_idx. now rewrite rev_unit. Qed.

Lemma rev_keys_last (l : list (Z * num)) :
  match rev (keys l) with [] => None | i :: _ => Some i end = last_idx l.
Proof.
  unfold last_idx, keys. rewrite <- map_rev. destruct (rev l) as [|[i x] r]; reflexivity.
Qed.

Lemma vec_push_ok v i x :
  vnnz v < vcap v -> sorted_in 0 (vdim v) (keys (vent v) ++ [i]) ->
  vec_push v i x = Ok (mkvec (vdim v) (vcap v) (vent v ++ [(i, x)])).
Proof.
  intros Hc Hs. apply sorted_in_app in Hs. destruct Hs as [Hs Hi].
  pose proof (rev_keys_last (vent v)) as Hl.
  unfold vec_push. 
  destruct (Z.ltb_spec (vnnz v) (vcap v)); [simpl|lia].
  simpl in Hi. destruct Hi as [Hi _].
  assert (H0 : 0 <= i /\ i < vdim v /\ match last_idx (vent v) with None => True | Some j => j < i end).
  { rewrite <- Hl. destruct (rev (keys (vent v))) as [|j r] eqn:E; [lia|].
    assert (In j (keys (vent v))) by (apply in_rev; rewrite E; now left).
    pose proof (sorted_in_In _ _ _ _ Hs H0). lia. }
  destruct H0 as (H0 & H1 & H2).
  destruct (Z.ltb_spec i (vdim v)); [simpl|lia]. destruct (Z.leb_spec 0 i); [simpl|lia].
  destruct (last_idx (vent v)) as [j|]; simpl; [|reflexivity].
  destruct (Z.ltb_spec j i); [reflexivity|lia].
Qed.

Lemma vec_push_inv v i x v' :
  vec_push v i x = Ok v' ->
  v' = mkvec (vdim v) (vcap v) (vent v ++ [(i, x)])
  /\ vnnz v < vcap v /\ 0 <= i < vdim v
  /\ match last_idx (vent v) with None => True | Some j => j < i end.
Proof.
  unfold vec_push. intros H.
  destruct (Z.ltb_spec (vnnz v) (vcap v)); [simpl in H|discriminate].
  destruct (Z.ltb_spec i (vdim v)); [simpl in H|discriminate].
  destruct (Z.leb_spec 0 i); [simpl in H|discriminate].
  destruct (last_idx (vent v)) as [j|]; simpl in H.
  - destruct (Z.ltb_spec j i); simpl in H; [|discriminate]. injection H as <-. repeat split; auto.
  - injection H as <-. repeat split; auto.
Qed.

Lemma push_all_ok v es :
  sorted_in 0 (vdim v) (keys (vent v ++ es)) ->
  vnnz v + Z.of_nat (length es) <= vcap v ->
  push_all v es = Ok (mkvec (vdim v) (vcap v) (vent v ++ es)).
Proof.
  revert v; induction es as [|[i x] es IH]; intros v Hs Hc.
  - simpl. rewrite app_nil_r. destruct v; reflexivity.
  - unfold push_all. cbn [rfold fst snd]. cbn [length] in Hc.
    assert (Hs1 : sorted_in 0 (vdim v) (keys (vent v) ++ [i])).
    { unfold keys in *. rewrite map_app in Hs. cbn [map fst] in Hs.
      change (i :: map fst es) with ([i] ++ map fst es) in Hs. rewrite app_assoc in Hs.
      apply sorted_in_app in Hs. tauto. }
    rewrite vec_push_ok; [|lia|exact Hs1]. cbn [rbind].
    fold (push_all (mkvec (vdim v) (vcap v) (vent v ++ [(i, x)])) es).
    rewrite IH; cbn [vdim vcap vent].
    + now rewrite <- app_assoc.
    + now rewrite <- app_assoc.
    + unfold vnnz in *. cbn [vent]. rewrite app_length. cbn [length]. lia.
Qed.

(** A loop that pushes the retained rows is [push_all] of the retained rows. *)
Lemma rfold_filter_push {A} (drop : A -> bool) (key : A -> Z) (val : A -> num) rows v :
  rfold (fun v row => if drop row then Ok v else vec_push v (key row) (val row)) v rows
  = push_all v (map (fun r => (key r, val r)) (filter (fun r => negb (drop r)) rows)).
Proof.
  revert v; induction rows as [|r rows IH]; intros v; simpl; [reflexivity|].
  destruct (drop r); simpl; [apply IH|].
  unfold push_all. cbn [rfold fst snd]. destruct (vec_push v (key r) (val r)); simpl; auto.
  apply IH.
Qed.

(** ** Sorted lists under filtering and mapping *)
Lemma sorted_in_filter_keys {A} (f : A -> bool) (k : A -> Z) lo hi (l : list A) :
  sorted_in lo hi (map k l) -> sorted_in lo hi (map k (filter f l)).
Proof.
  revert lo; induction l as [|a l IH]; simpl; intros lo H; [auto|].
  destruct H as [H H']. destruct (f a); simpl.
  - split; [auto|]. apply IH, H'.
  - apply IH. revert H'. apply sorted_in_weaken; lia.
Qed.

Lemma get_map_filter (P : Z -> bool) (g : Z -> num) lo hi idxs i :
  sorted_in lo hi idxs ->
  get (map (fun i => (i, g i)) (filter P idxs)) i
  = if existsb (Z.eqb i) idxs && P i then Some (g i) else None.
Proof.
  revert lo; induction idxs as [|j idxs IH]; simpl; intros lo H; [reflexivity|].
  destruct H as [Hj H]. specialize (IH _ H).
  destruct (Z.eqb_spec i j) as [->|Hne]; simpl.
  - destruct (P j) eqn:EP; simpl.
    + now rewrite Z.eqb_refl.
    + rewrite IH. now rewrite andb_false_r.
  - destruct (P j) eqn:EP; simpl.
    + destruct (Z.eqb_spec j i); [congruence|]. exact IH.
    + exact IH.
Qed.

Lemma existsb_In i l : existsb (Z.eqb i) l = true <-> In i l.
Proof.
  rewrite existsb_exists. split.
  - intros (j & Hj & E). apply Z.eqb_eq in E. now subst.
  - intros H. exists i. split; [auto|]. apply Z.eqb_refl.
Qed.

(** ** Two- and three-way merges, specialised *)
Lemma align2 dim (l1 l2 : list (Z * num)) :
  sorted_in 0 dim (keys l1) -> sorted_in 0 dim (keys l2) ->
  exists idxs, sorted_in 0 dim idxs
    /\ (forall i, In i idxs <-> In i (keys l1) \/ In i (keys l2))
    /\ align dim [l1; l2] = Ok (map (fun i => (i, [get l1 i; get l2 i])) idxs)
    /\ (length idxs <= length l1 + length l2)%nat.
Proof.
  intros H1 H2. destruct (align_spec dim [l1; l2]) as (idxs & Hs & Hm & He).
  { intros l [<-|[<-|[]]]; assumption. }
  assert (Hm' : forall i, In i idxs <-> In i (keys l1) \/ In i (keys l2)).
  { intros i. rewrite Hm. split.
    - intros (l & [<-|[<-|[]]] & H); auto.
    - intros [H|H]; [exists l1|exists l2]; simpl; auto. }
  exists idxs. repeat split; auto; try apply Hm'.
  replace (length l1 + length l2)%nat with (total_len [l1; l2]) by (simpl; lia).
  apply union_length. { eapply sorted_in_NoDup, Hs. } intros i Hi. apply Hm, Hi.
Qed.

Lemma align3 dim (l1 l2 l3 : list (Z * num)) :
  sorted_in 0 dim (keys l1) -> sorted_in 0 dim (keys l2) -> sorted_in 0 dim (keys l3) ->
  exists idxs, sorted_in 0 dim idxs
    /\ (forall i, In i idxs <-> In i (keys l1) \/ In i (keys l2) \/ In i (keys l3))
    /\ align dim [l1; l2; l3] = Ok (map (fun i => (i, [get l1 i; get l2 i; get l3 i])) idxs)
    /\ (length idxs <= length l1 + length l2 + length l3)%nat.
Proof.
  intros H1 H2 H3. destruct (align_spec dim [l1; l2; l3]) as (idxs & Hs & Hm & He).
  { intros l [<-|[<-|[<-|[]]]]; assumption. }
  assert (Hm' : forall i, In i idxs <-> In i (keys l1) \/ In i (keys l2) \/ In i (keys l3)).
  { intros i. rewrite Hm. split.
    - intros (l & [<-|[<-|[<-|[]]]] & H); auto.
    - intros [H|[H|H]]; [exists l1|exists l2|exists l3]; simpl; auto. }
  exists idxs. repeat split; auto; try apply Hm'.
  replace (length l1 + length l2 + length l3)%nat with (total_len [l1; l2; l3]) by (simpl; lia).
  apply union_length. { eapply sorted_in_NoDup, Hs. } intros i Hi. apply Hm, Hi.
Qed.

(** ** C02: linear combinations *)

(** A loop over aligned rows that pushes a computed value unless it is dropped. *)
Lemma rfold_rows_push (F : list (option num) -> num) (D : num -> bool) (G : Z -> list (option num)) idxs v :
  rfold (fun r row => let value := F (snd row) in if D value then Ok r else vec_push r (fst row) value)
        v (map (fun i => (i, G i)) idxs)
  = push_all v (map (fun i => (i, F (G i))) (filter (fun i => negb (D (F (G i)))) idxs)).
Proof.
  revert v; induction idxs as [|i idxs IH]; intros v; [reflexivity|].
  cbn [map rfold fst snd filter]. destruct (D (F (G i))); cbn [negb].
  - cbn [rbind]. apply IH.
  - unfold push_all. cbn [map rfold fst snd]. destruct (vec_push v i (F (G i))); simpl; auto. apply IH.
Qed.

Lemma rfold_ext {A S} (f g : S -> A -> res S) l s :
  (forall t a, In a l -> f t a = g t a) -> rfold f s l = rfold g s l.
Proof.
  revert s; induction l as [|a l IH]; intros s H; simpl; [reflexivity|].
  rewrite H by now left. destruct (g s a); simpl; auto. apply IH. intros; apply H; now right.
Qed.

Lemma sorted_map_pair (g : Z -> num) idxs lo hi :
  sorted_in lo hi idxs -> sorted_in lo hi (keys (map (fun i => (i, g i)) idxs)).
Proof. intros H. unfold keys. rewrite map_map. simpl. now rewrite map_id. Qed.

Lemma sorted_filter (P : Z -> bool) idxs lo hi :
  sorted_in lo hi idxs -> sorted_in lo hi (filter P idxs).
Proof.
  intros H. pose proof (sorted_in_filter_keys P (fun i => i) lo hi idxs) as E.
  rewrite !map_id in E. auto.
Qed.

Lemma filter_length_le {A} (P : A -> bool) l : (length (filter P l) <= length l)%nat.
Proof. induction l as [|a l IH]; simpl; [lia|]. destruct (P a); simpl; lia. Qed.

(** What the C code computes for one coordinate. *)
Definition comb_at (f g : num) (x y : vec) (i : Z) : num :=
  combine f g (get (vent x) i) (get (vent y) i).

Lemma vec_add_scaled_spec x y f g eps r :
  wf x -> wf y -> vdim x = vdim y -> 0 <= vcap r ->
  exists z, vec_add_scaled x y f g eps r = Ok z /\ wf z /\ vdim z = vdim x
    /\ forall i, get (vent z) i =
         match get (vent x) i, get (vent y) i with
         | None, None => None
         | _, _ => if is_zero (comb_at f g x y i) eps then None else Some (comb_at f g x y i)
         end.
Proof.
  intros (Hdx & Hsx & Hcx) (Hdy & Hsy & Hcy) Hd Hcr.
  unfold vec_add_scaled. rewrite Hd, Z.eqb_refl. cbn [check rbind].
  unfold vec_resize. destruct (Z.leb_spec 0 (vdim y)); [|lia]. cbn [check rbind].
  unfold vec_clear. cbn [vdim vcap vent].
  replace (if vdim y <? vdim r then rev (drop_ge (vdim y) (rev [])) else []) with (@nil (Z*num))
    by (destruct (vdim y <? vdim r); reflexivity).
  unfold vec_reserve. cbn [vcap].
  destruct (Z.leb_spec 0 (vnnz x + vnnz y)); [|unfold vnnz in *; lia]. cbn [check rbind].
  set (c' := Z.max (vcap r) (vnnz x + vnnz y)).
  assert (Hc' : (if vnnz x + vnnz y <=? vcap r then mkvec (vdim y) (vcap r) [] else
    mkvec (vdim y) (vnnz x + vnnz y) []) = mkvec (vdim y) c' []).
  { unfold c'. destruct (Z.leb_spec (vnnz x + vnnz y) (vcap r)); f_equal; lia. }
  cbn [vdim vent]. rewrite Hc'.
  rewrite Hd in Hsx.
  destruct (align2 (vdim y) (vent x) (vent y) Hsx Hsy) as (idxs & Hs & Hm & He & Hl).
  rewrite He. cbn [rbind].
  set (G := fun i => [get (vent x) i; get (vent y) i]).
  set (F := fun l : list (option num) => match l with [a; b] => combine f g a b | _ => n0 end).
  rewrite (rfold_ext _ (fun r row => let value := F (snd row) in
            if is_zero value eps then Ok r else vec_push r (fst row) value)).
  2:{ intros t a Ha. apply in_map_iff in Ha. destruct Ha as (i & <- & _). reflexivity. }
  change (map (fun i => (i, [get (vent x) i; get (vent y) i])) idxs) with (map (fun i => (i, G i)) idxs).
  rewrite (rfold_rows_push F (fun v => is_zero v eps) G).
  set (P := fun i => negb (is_zero (F (G i)) eps)).
  assert (Hsf : sorted_in 0 (vdim y) (keys (map (fun i => (i, F (G i))) (filter P idxs)))).
  { apply sorted_map_pair, sorted_filter, Hs. }
  assert (Hlen : Z.of_nat (length (map (fun i => (i, F (G i))) (filter P idxs))) <= c').
  { rewrite map_length. pose proof (filter_length_le P idxs). unfold c', vnnz. lia. }
  rewrite push_all_ok; cbn [vent vdim vcap app]; [|exact Hsf|unfold vnnz; cbn [vent length]; lia].
  eexists. split; [reflexivity|]. repeat split; cbn [vdim vcap vent]; auto; try lia.
  intros i. rewrite (get_map_filter P (fun i => F (G i)) 0 (vdim y)) by exact Hs.
  destruct (existsb (Z.eqb i) idxs) eqn:Ein; cbn [andb].
  - apply existsb_In in Ein. apply Hm in Ein.
    unfold P. change (F (G i)) with (comb_at f g x y i).
    assert (H' : ~ (get (vent x) i = None /\ get (vent y) i = None)).
    { intros [H1 H2]. apply get_None in H1. apply get_None in H2. tauto. }
    destruct (get (vent x) i), (get (vent y) i); try (exfalso; apply H'; auto; fail);
      destruct (is_zero (comb_at f g x y i) eps); reflexivity.
  - assert (Hn : ~ In i idxs) by (intros Hi; apply existsb_In in Hi; congruence).
    rewrite Hm in Hn.
    destruct (get (vent x) i) eqn:E1. { exfalso. apply Hn. left. apply In_keys with (v:=n). now apply get_Some_In. }
    destruct (get (vent y) i) eqn:E2. { exfalso. apply Hn. right. apply In_keys with (v:=n). now apply get_Some_In. }
    reflexivity.
Qed.

(** ** C01: operations preserve well-formedness *)

Lemma wf_create d c v : vec_create d c = Ok v -> wf v /\ vdim v = d /\ vent v = [].
Proof.
  unfold vec_create. destruct (Z.leb_spec 0 d); [simpl|discriminate].
  destruct (Z.leb_spec 0 c); [simpl|discriminate]. intros E; injection E as <-.
  unfold wf; cbn [vdim vcap vent keys map length sorted_in]. repeat split; auto; lia.
Qed.

Lemma idx_increasing_sorted l lo hi :
  idx_increasing l = true -> (forall i, In i l -> lo <= i) ->
  (match rev l with [] => True | i :: _ => i < hi end) -> sorted_in lo hi l.
Proof.
  revert lo; induction l as [|i l IH]; intros lo Hi Hlo Hhi; [exact I|].
  cbn [sorted_in].
  destruct l as [|j l].
  - simpl in Hhi. pose proof (Hlo i (or_introl eq_refl)). simpl. lia.
  - cbn [idx_increasing] in Hi. apply andb_true_iff in Hi. destruct Hi as [Hij Hi].
    apply Z.ltb_lt in Hij.
    assert (Hs : sorted_in (i+1) hi (j :: l)).
    { apply IH; auto.
      - intros k Hk. 
        assert (forall l j, idx_increasing (j :: l) = true -> forall k, In k (j :: l) -> j <= k) as Hmono.
        { clear. induction l as [|m l IHl]; intros j H k Hk.
          - destruct Hk as [->|[]]; lia.
          - cbn [idx_increasing] in H. apply andb_true_iff in H. destruct H as [H1 H2]. apply Z.ltb_lt in H1.
            destruct Hk as [->|Hk]; [lia|]. specialize (IHl m H2 k Hk). lia. }
        specialize (Hmono l j Hi k Hk). lia.
      - cbn [rev] in Hhi |- *. destruct (rev l) as [|m r]; simpl in *; auto. }
    split; [|exact Hs]. pose proof (Hlo i (or_introl eq_refl)). cbn [sorted_in] in Hs. lia.
Qed.

Lemma sorted_idx_increasing l lo hi : sorted_in lo hi l -> idx_increasing l = true.
Proof.
  revert lo; induction l as [|i l IH]; intros lo H; [reflexivity|]. destruct H as [_ H].
  destruct l as [|j l]; [reflexivity|]. cbn [idx_increasing]. apply andb_true_iff. split.
  - apply Z.ltb_lt. cbn [sorted_in] in H. lia.
  - eapply IH, H.
Qed.

Lemma vec_is_valid_spec v :
  vec_is_valid v = true <->
  sorted_in 0 (vdim v) (keys (vent v)) /\ Z.of_nat (length (vent v)) <= vcap v.
Proof.
  unfold vec_is_valid, vnnz.
  destruct (Z.ltb_spec (vcap v) (Z.of_nat (length (vent v)))) as [Hlt|Hge].
  { split; [discriminate|]. intros [_ H]. lia. }
  destruct (vent v) as [|e l] eqn:E.
  { split; auto. intros _. split; [exact I|auto]. }
  rewrite <- E in *. clear E e l.
  rewrite !andb_true_iff, forallb_forall. pose proof (rev_keys_last (vent v)) as Hl. split.
  - intros [[H1 H2] H3]. split; [|lia]. apply idx_increasing_sorted; auto.
    + intros i Hi. apply in_map_iff in Hi. destruct Hi as (e & <- & He). specialize (H1 e He). now apply Z.leb_le.
    + rewrite <- Hl in H3. destruct (rev (keys (vent v))); auto. now apply Z.ltb_lt.
  - intros [Hs _]. split; [split|].
    + intros e He. apply Z.leb_le. apply (in_map fst) in He. apply (sorted_in_In _ _ _ _ Hs He).
    + eapply sorted_idx_increasing, Hs.
    + rewrite <- Hl. destruct (rev (keys (vent v))) as [|i r] eqn:Er; auto. apply Z.ltb_lt.
      assert (In i (keys (vent v))) by (apply in_rev; rewrite Er; now left).
      apply (sorted_in_In _ _ _ _ Hs H).
Qed.

(** Dropping the trailing entries not below [d]. *)
Lemma drop_ge_rev_filter d lo hi l :
  sorted_in lo hi (keys l) ->
  rev (drop_ge d (rev l)) = filter (fun e => fst e <? d) l.
Proof.
  revert lo; induction l as [|[i x] l IH] using rev_ind; intros lo H; [reflexivity|].
  rewrite rev_unit. cbn [drop_ge]. rewrite filter_app. cbn [filter fst].
  rewrite keys_app in H. 
  destruct (Z.leb_spec d i) as [Hle|Hlt].
  - destruct (Z.ltb_spec i d); [lia|]. rewrite app_nil_r.
    apply (IH lo). apply sorted_in_app in H. tauto.
  - destruct (Z.ltb_spec i d); [|lia].
    change ((i, x) :: rev l) with ([(i, x)] ++ rev l). rewrite rev_app_distr, rev_involutive. f_equal.
    symmetry. apply sorted_in_app in H. destruct H as [Hs Hi].
    clear IH. assert (Hall : forall e, In e l -> fst e < d).
    { intros e He. apply (in_map fst) in He. simpl in Hi. destruct Hi as [Hi _].
      assert (Hle : fst e <= i).
      { clear -Hs Hi He. revert lo Hs Hi. unfold keys in *. induction (map fst l) as [|j r IHr]; intros lo Hs Hi; [destruct He|].
        cbn [sorted_in] in Hs. destruct Hs as [Hj Hs]. cbn [rev] in Hi.
        destruct He as [<-|He].
        - destruct (rev r) as [|m t] eqn:Er; simpl in Hi; [lia|].
          assert (In m r) by (apply in_rev; rewrite Er; now left).
          pose proof (sorted_in_In _ _ _ _ Hs H). lia.
        - apply (IHr He (j+1)); auto. destruct (rev r) as [|m t] eqn:Er; simpl in Hi; [|lia].
          apply in_rev in He. rewrite Er in He. destruct He. }
      lia. }
    clear -Hall. induction l as [|e l IHl]; simpl; [reflexivity|].
    pose proof (Hall e (or_introl eq_refl)). destruct (Z.ltb_spec (fst e) d); [|lia].
    f_equal. apply IHl. intros; apply Hall; now right.
Qed.

Lemma sorted_in_shrink lo hi hi' l : sorted_in lo hi l -> (forall i, In i l -> i < hi') -> sorted_in lo hi' l.
Proof.
  revert lo; induction l as [|i l IH]; simpl; intros lo H Hb; [auto|]. destruct H as [H H'].
  split; [specialize (Hb i (or_introl eq_refl)); lia|]. apply IH; auto.
Qed.

Lemma get_filter_keys (P : Z -> bool) (l : list (Z * num)) i :
  get (filter (fun e => P (fst e)) l) i = if P i then get l i else None.
Proof.
  induction l as [|[j x] l IH]; simpl; [now destruct (P i)|].
  destruct (P j) eqn:Ej; simpl.
  - destruct (Z.eqb_spec j i) as [->|]; [now rewrite Ej|]. exact IH.
  - rewrite IH. destruct (Z.eqb_spec j i) as [->|]; [now rewrite Ej|]. reflexivity.
Qed.

Lemma vec_resize_spec v d : wf v -> 0 <= d ->
  exists v', vec_resize v d = Ok v' /\ wf v' /\ vdim v' = d
    /\ forall i, get (vent v') i = if i <? d then get (vent v) i else None.
Proof.
  intros (Hd & Hs & Hc) H0. unfold vec_resize. destruct (Z.leb_spec 0 d); [|lia]. cbn [check rbind].
  eexists. split; [reflexivity|]. cbn [vdim vent vcap].
  destruct (Z.ltb_spec d (vdim v)) as [Hlt|Hge].
  - rewrite (drop_ge_rev_filter d 0 (vdim v)) by exact Hs. unfold wf; cbn [vdim vent vcap].
    assert (Hs' : sorted_in 0 (vdim v) (keys (filter (fun e => fst e <? d) (vent v)))).
    { apply (sorted_in_filter_keys (fun e => fst e <? d) fst). exact Hs. }
    repeat split; auto.
    + eapply sorted_in_shrink; [exact Hs'|]. intros i Hi. apply in_map_iff in Hi.
      destruct Hi as (e & <- & He). apply filter_In in He. apply Z.ltb_lt. tauto.
    + pose proof (filter_length_le (fun e : Z * num => fst e <? d) (vent v)). lia.
    + intros i. apply (get_filter_keys (fun i => i <? d)).
  - unfold wf; cbn [vdim vent vcap]. repeat split; auto.
    + eapply sorted_in_weaken; [| |exact Hs]; lia.
    + intros i. destruct (Z.ltb_spec i d); [reflexivity|]. apply get_None. intros Hi.
      pose proof (sorted_in_In _ _ _ _ Hs Hi). lia.
Qed.

Lemma vec_reserve_spec v n : wf v -> 0 <= n ->
  exists v', vec_reserve v n = Ok v' /\ wf v' /\ vdim v' = vdim v /\ vent v' = vent v /\ n <= vcap v'.
Proof.
  intros (Hd & Hs & Hc) H0. unfold vec_reserve. destruct (Z.leb_spec 0 n); [|lia]. cbn [check rbind].
  eexists. split; [reflexivity|]. destruct (Z.leb_spec n (vcap v)); unfold wf; cbn [vdim vent vcap]; repeat split; auto; lia.
Qed.

Lemma wf_clear v : wf v -> wf (vec_clear v).
Proof. intros (Hd & Hs & Hc). unfold wf, vec_clear; cbn [vdim vent vcap keys map length sorted_in]. repeat split; auto; lia. Qed.

Lemma keys_enum_from {A} i (l : list A) : map fst (enum_from i l) = map (fun k => i + Z.of_nat k) (seq 0 (length l)).
Proof.
  revert i; induction l as [|a l IH]; intros i; [reflexivity|]. cbn [enum_from map fst length seq].
  f_equal; [lia|]. rewrite IH, <- seq_shift, map_map. apply map_ext. intros; lia.
Qed.

Lemma sorted_enum_from {A} i (l : list A) : sorted_in i (i + Z.of_nat (length l)) (map fst (enum_from i l)).
Proof.
  revert i; induction l as [|a l IH]; intros i; [exact I|]. cbn [enum_from map fst sorted_in]. split.
  - cbn [length]. lia.
  - replace (i + Z.of_nat (length (a :: l))) with (i + 1 + Z.of_nat (length l)) by (cbn [length]; lia). apply IH.
Qed.

Lemma length_enum_from {A} i (l : list A) : length (enum_from i l) = length l.
Proof. revert i; induction l as [|a l IH]; intros i; simpl; auto. Qed.

Lemma get_enum_from i0 (l : list num) i :
  get (enum_from i0 l) i = if i0 <=? i then nth_error l (Z.to_nat (i - i0)) else None.
Proof.
  revert i0; induction l as [|a l IH]; intros i0; cbn [enum_from get].
  - destruct (i0 <=? i); auto. destruct (Z.to_nat (i - i0)); reflexivity.
  - destruct (Z.eqb_spec i0 i) as [->|Hne].
    + destruct (Z.leb_spec i i); [|lia]. replace (i - i) with 0 by lia. reflexivity.
    + rewrite IH. destruct (Z.leb_spec i0 i), (Z.leb_spec (i0+1) i); try lia; auto.
      replace (Z.to_nat (i - i0)) with (S (Z.to_nat (i - (i0 + 1)))) by lia. reflexivity.
Qed.

Lemma vec_fill_spec v x : wf v ->
  exists v', vec_fill v x = Ok v' /\ wf v' /\ vdim v' = vdim v
   /\ forall i, get (vent v') i = if neqb x n0 then None
                                 else if (0 <=? i) && (i <? vdim v) then Some x else None.
Proof.
  intros Hw. unfold vec_fill. destruct (neqb x n0).
  - eexists. split; [reflexivity|]. split; [now apply wf_clear|]. split; reflexivity.
  - destruct Hw as (Hd & Hs & Hc).
    destruct (vec_reserve_spec v (vdim v)) as (v1 & E1 & Hw1 & Hd1 & _ & Hcap); [split; auto|lia|].
    rewrite E1. cbn [rbind]. eexists. split; [reflexivity|]. unfold wf; cbn [vdim vcap vent].
    unfold enum. rewrite length_enum_from, repeat_length.
    repeat split; auto; try lia.
    + unfold keys. pose proof (sorted_enum_from 0 (repeat x (Z.to_nat (vdim v1)))) as H.
      rewrite repeat_length in H. replace (0 + Z.of_nat (Z.to_nat (vdim v1))) with (vdim v1) in H by lia. exact H.
    + intros i. rewrite get_enum_from. destruct (Z.leb_spec 0 i); cbn [andb]; [|reflexivity].
      destruct (Z.ltb_spec i (vdim v)).
      * rewrite nth_error_nth' with (d := x) by (rewrite repeat_length; lia). f_equal. apply nth_repeat.
      * apply nth_error_None. rewrite repeat_length. lia.
Qed.

Lemma get_map_val (g : num -> num) (l : list (Z * num)) i :
  get (map (fun e => (fst e, g (snd e))) l) i = option_map g (get l i).
Proof. induction l as [|[j x] l IH]; simpl; [reflexivity|]. destruct (j =? i); auto. Qed.

Lemma vec_scale_spec v f : wf v ->
  wf (vec_scale v f) /\ vdim (vec_scale v f) = vdim v
  /\ forall i, get (vent (vec_scale v f)) i =
      if neqb f n0 then None else if neqb f n1 then get (vent v) i
      else option_map (fun x => nmul x f) (get (vent v) i).
Proof.
  intros Hw. unfold vec_scale. destruct (neqb f n0); [split; [now apply wf_clear|split; reflexivity]|].
  destruct (neqb f n1); [split; [auto|split; reflexivity]|].
  destruct Hw as (Hd & Hs & Hc). unfold wf; cbn [vdim vcap vent]. rewrite map_length.
  unfold keys. rewrite map_map. cbn [fst]. repeat split; auto.
  intros i. apply (get_map_val (fun x => nmul x f)).
Qed.

Lemma vec_copy_spec s t : wf s -> wf t -> vdim s = vdim t ->
  exists t', vec_copy s t = Ok t' /\ wf t' /\ vdim t' = vdim s /\ vent t' = vent s.
Proof.
  intros (Hd & Hs & Hc) Hwt E. unfold vec_copy. rewrite E, Z.eqb_refl. cbn [check rbind].
  destruct (vec_reserve_spec t (vnnz s)) as (t1 & E1 & Hw1 & Hd1 & He1 & Hcap); [auto|unfold vnnz; lia|].
  rewrite E1. cbn [rbind]. rewrite push_all_ok; unfold vec_clear; cbn [vdim vcap vent app].
  - eexists. split; [reflexivity|]. unfold wf; cbn [vdim vcap vent]. rewrite Hd1, <- E. repeat split; auto.
  - rewrite Hd1, <- E. exact Hs.
  - unfold vnnz in *; cbn [vent length]. lia.
Qed.

(** Operations on one vector. *)
Inductive vop :=
| VPush (i : Z) (x : num) | VClear | VReserve (n : Z) | VResize (d : Z)
| VFill (x : num) | VScale (f : num) | VCopyFrom (s : vec).

Definition vstep (v : vec) (o : vop) : res vec :=
  match o with
  | VPush i x => vec_push v i x
  | VClear => Ok (vec_clear v)
  | VReserve n => vec_reserve v n
  | VResize d => vec_resize v d
  | VFill x => vec_fill v x
  | VScale f => Ok (vec_scale v f)
  | VCopyFrom s => vec_copy s v
  end.

(** The documented preconditions. *)
Definition vpre (v : vec) (o : vop) : Prop :=
  match o with
  | VPush i x => Z.of_nat (length (vent v)) < vcap v /\ 0 <= i < vdim v
                 /\ (forall j, In j (keys (vent v)) -> j < i)
  | VReserve n => 0 <= n
  | VResize d => 0 <= d
  | VCopyFrom s => wf s /\ vdim s = vdim v
  | _ => True
  end.

(** The effect of an operation on dimension and on the partial map from indices to values. *)
Definition veffect (o : vop) (d : Z) (m : Z -> option num) : Z * (Z -> option num) :=
  match o with
  | VPush i x => (d, fun j => if j =? i then Some x else m j)
  | VClear => (d, fun _ => None)
  | VReserve _ => (d, m)
  | VResize d' => (d', fun j => if j <? d' then m j else None)
  | VFill x => (d, fun j => if neqb x n0 then None else if (0 <=? j) && (j <? d) then Some x else None)
  | VScale f => (d, fun j => if neqb f n0 then None else if neqb f n1 then m j
                             else option_map (fun x => nmul x f) (m j))
  | VCopyFrom s => (d, fun j => get (vent s) j)
  end.

Lemma sorted_snoc lo hi l i : lo <= i < hi -> sorted_in lo hi l -> (forall j, In j l -> j < i) ->
  sorted_in lo hi (l ++ [i]).
Proof.
  revert lo; induction l as [|j l IH]; simpl; intros lo Hi Hs Hlt; [auto|]. destruct Hs as [Hj Hs].
  split; [auto|]. apply IH; auto. specialize (Hlt j (or_introl eq_refl)). lia.
Qed.

Lemma vstep_ok v o : wf v -> vpre v o ->
  exists v', vstep v o = Ok v' /\ wf v'
    /\ vdim v' = fst (veffect o (vdim v) (get (vent v)))
    /\ (forall j, get (vent v') j = snd (veffect o (vdim v) (get (vent v))) j).
Proof.
  intros Hw Hp. destruct o as [i x| |n|d|x|f|s]; cbn [vstep vpre veffect fst snd] in *.
  - destruct Hp as (Hc & Hi & Hlt). destruct Hw as (Hd & Hs & Hc').
    assert (Hs' : sorted_in 0 (vdim v) (keys (vent v) ++ [i])) by (apply sorted_snoc; auto).
    rewrite vec_push_ok by (auto; unfold vnnz; lia).
    eexists. split; [reflexivity|]. unfold wf; cbn [vdim vcap vent]. rewrite keys_app, app_length. cbn [keys map fst length].
    repeat split; auto; try lia.
    intros j. rewrite get_app. cbn [get]. rewrite (Z.eqb_sym i j). destruct (Z.eqb_spec j i) as [->|].
    + destruct (get (vent v) i) eqn:E; [|reflexivity].
      apply get_Some_In, In_keys in E. specialize (Hlt i E). lia.
    + destruct (get (vent v) j); reflexivity.
  - eexists. split; [reflexivity|]. split; [now apply wf_clear|]. split; reflexivity.
  - destruct (vec_reserve_spec v n Hw Hp) as (v' & E & Hw' & Hd' & He & _). exists v'. rewrite He. auto.
  - destruct (vec_resize_spec v d Hw Hp) as (v' & E & Hw' & Hd' & He). exists v'. auto.
  - destruct (vec_fill_spec v x Hw) as (v' & E & Hw' & Hd' & He). exists v'. auto.
  - destruct (vec_scale_spec v f Hw) as (Hw' & Hd' & He). eexists. split; [reflexivity|]. auto.
  - destruct Hp as [Hs E]. destruct (vec_copy_spec s v Hs Hw E) as (t' & E1 & Hw' & Hd' & He).
    exists t'. rewrite He. repeat split; auto; try apply Hw'. congruence.
Qed.

(** A step that does not trap respects the invariant even if we do not know its
    precondition (except for copying from an ill-formed source). *)
Lemma vstep_inv v o v' : wf v -> (forall s, o = VCopyFrom s -> wf s) -> vstep v o = Ok v' -> wf v'.
Proof.
  intros Hw Hsrc H. assert (Hp : vpre v o).
  { destruct o as [i x| |n|d|x|f|s]; cbn [vstep vpre] in *; auto.
    - apply vec_push_inv in H. destruct H as (_ & Hc & Hi & Hl). split; [exact Hc|]. split; [exact Hi|].
      intros j Hj. destruct Hw as (_ & Hs & _). rewrite <- rev_keys_last in Hl.
      clear -Hj Hl Hs. revert Hs Hl. generalize 0 at 1. induction (keys (vent v)) as [|k l IH]; intros lo Hs Hl; [destruct Hj|].
      cbn [rev] in Hl. destruct Hs as [Hk Hs]. destruct Hj as [<-|Hj].
      + destruct (rev l) as [|m t] eqn:E; simpl in Hl; [lia|].
        assert (In m l) by (apply in_rev; rewrite E; now left). pose proof (sorted_in_In _ _ _ _ Hs H). lia.
      + apply (IH Hj (k+1)); auto. destruct (rev l) as [|m t] eqn:E; simpl in Hl; auto.
        
    - unfold vec_reserve in H. destruct (Z.leb_spec 0 n); [auto|discriminate].
    - unfold vec_resize in H. destruct (Z.leb_spec 0 d); [auto|discriminate].
    - split; [eauto|]. unfold vec_copy in H. destruct (Z.eqb_spec (vdim s) (vdim v)); [auto|discriminate]. }
  destruct (vstep_ok v o Hw Hp) as (v'' & E & Hw' & _). congruence.
Qed.

Lemma vrun_wf d c ops v0 v :
  vec_create d c = Ok v0 -> (forall s, In (VCopyFrom s) ops -> wf s) ->
  rfold vstep v0 ops = Ok v -> wf v.
Proof.
  intros H0 Hsrc. apply (rfold_inv wf).
  - eapply wf_create, H0.
  - intros t a t' Ht Ha. apply vstep_inv; auto. intros s ->. auto.
Qed.

End VecFacts.
