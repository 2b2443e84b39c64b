(** Facts about the restoration problem. *)
From Verif Require Import Base Num Cmp Sparse Vec VecFacts Order VecFacts2 VecFacts3 RSum VecReal Mat MatFacts MatFacts2 MatFacts4 Restoration.
Local Open Scope Z_scope.

Section Facts.
Context {N : Num}.

(** A sorted list splits at any index. *)
Lemma split_at n lo hi (l : list (Z * num)) : sorted_in lo hi (keys l) ->
  exists l1 l2, l = l1 ++ l2 /\ (forall i, In i (keys l1) -> i < n) /\ (forall i, In i (keys l2) -> n <= i).
Proof.
  revert lo; induction l as [|[j x] l IH]; intros lo H.
  - exists [], []. repeat split; intros i [].
  - cbn [keys map fst sorted_in] in H. destruct H as [Hj H]. destruct (Z_lt_dec j n).
    + destruct (IH _ H) as (l1 & l2 & -> & H1 & H2). exists ((j, x) :: l1), l2. repeat split; auto.
      intros i [<-|Hi]; auto.
    + exists [], ((j, x) :: l). repeat split. { intros i []. }
      intros i [<-|Hi]; cbn [fst]; [lia|]. pose proof (sorted_in_In _ _ _ _ H Hi). lia.
Qed.

Lemma get_app' (l1 l2 : list (Z * num)) i : get (l1 ++ l2) i = match get l1 i with Some x => Some x | None => get l2 i end.
Proof. induction l1 as [|[j x] l1 IH]; cbn [app get]; [reflexivity|]. destruct (j =? i); auto. Qed.

Lemma get_shift (g : num -> num) d (l : list (Z * num)) i : get (map (fun e => (fst e + d, g (snd e))) l) i = option_map g (get l (i - d)).
Proof.
  induction l as [|[j x] l IH]; cbn [map get fst snd]; [reflexivity|].
  destruct (Z.eqb_spec (j + d) i), (Z.eqb_spec j (i - d)); try lia; auto.
Qed.

Lemma sorted_shift d lo hi l : sorted_in lo hi l -> sorted_in (lo + d) (hi + d) (map (fun i => i + d) l).
Proof.
  revert lo; induction l as [|j l IH]; intros lo; cbn [map sorted_in]; [auto|]. intros [H1 H2]. split; [lia|].
  replace (j + d + 1) with (j + 1 + d) by lia. auto.
Qed.

Lemma split_fold (nv : Z) (l : list (Z * num)) (v c : vec) :
  (forall i, In i (keys l) -> i < nv) ->
  rfold (fun t e => if fst e <? nv then v <- vec_push (fst t) (fst e) (snd e) ;; Ok (v, snd t)
                    else c <- vec_push (snd t) (fst e - nv) (snd e) ;; Ok (fst t, c)) (v, c) l
  = (v <- push_all v l ;; Ok (v, c)).
Proof.
  revert v; induction l as [|[j x] l IH]; intros v H; [reflexivity|]. unfold push_all. cbn [rfold fst snd].
  destruct (Z.ltb_spec j nv); [|pose proof (H j (or_introl eq_refl)); lia].
  destruct (vec_push v j x); cbn [rbind]; auto. apply IH. intros i Hi. apply H. now right.
Qed.

Lemma split_fold' (nv : Z) (l : list (Z * num)) (v c : vec) :
  (forall i, In i (keys l) -> nv <= i) ->
  rfold (fun t e => if fst e <? nv then v <- vec_push (fst t) (fst e) (snd e) ;; Ok (v, snd t)
                    else c <- vec_push (snd t) (fst e - nv) (snd e) ;; Ok (fst t, c)) (v, c) l
  = (c <- push_all c (map (fun e => (fst e + - nv, snd e)) l) ;; Ok (v, c)).
Proof.
  revert c; induction l as [|[j x] l IH]; intros c H; [reflexivity|]. unfold push_all. cbn [map rfold fst snd].
  destruct (Z.ltb_spec j nv); [pose proof (H j (or_introl eq_refl)); lia|].
  change (j - nv) with (j + - nv). destruct (vec_push c (j + - nv) x); cbn [rbind]; auto. apply IH. intros i Hi. apply H. now right.
Qed.

Lemma split_primal_spec p v c : wf p -> wf v -> wf c -> vdim p = vdim v + vdim c ->
  exists v' c', split_primal p v c = Ok (v', c') /\ wf v' /\ wf c' /\ vdim v' = vdim v /\ vdim c' = vdim c
    /\ (forall i, i < vdim v -> get (vent v') i = get (vent p) i)
    /\ (forall i, 0 <= i -> get (vent c') i = get (vent p) (vdim v + i)).
Proof.
  intros (Hdp & Hsp & Hcp) Hv Hc Hd. unfold split_primal.
  assert (Hn : 0 <= vnnz p) by (unfold vnnz; lia).
  destruct (vec_reserve_spec (vec_clear v) (Z.min (vnnz p) (vdim v))) as (v1 & E1 & W1 & D1 & N1 & C1); [now apply wf_clear|destruct Hv; lia|].
  destruct (vec_reserve_spec (vec_clear c) (Z.min (vnnz p) (vdim c))) as (c1 & E2 & W2 & D2 & N2 & C2); [now apply wf_clear|destruct Hc; lia|].
  rewrite E1. cbn [rbind]. rewrite E2. cbn [rbind]. cbn [vec_clear vdim vent] in *. rewrite D1.
  destruct (split_at (vdim v) _ _ _ Hsp) as (l1 & l2 & El & H1 & H2).
  assert (Hl : vnnz p = Z.of_nat (length l1) + Z.of_nat (length l2)) by (unfold vnnz; rewrite El, app_length; lia).
  rewrite El in Hsp |- *. rewrite rfold_app, split_fold by auto. unfold keys in Hsp. rewrite map_app in Hsp. pose proof (proj1 (sorted_in_app _ _ _ _) Hsp) as [S1 S2'].
  assert (S1' : sorted_in 0 (vdim v) (keys l1)) by (eapply sorted_in_shrink; eauto).
  assert (S2 : sorted_in (vdim v) (vdim p) (keys l2)).
  { eapply sorted_in_post; [exact Hsp|exact H2]. }
  assert (L1 : Z.of_nat (length l1) <= vcap v1).
  { pose proof (sorted_in_length _ _ _ S1'). unfold keys in H. rewrite map_length in H. destruct Hv. lia. }
  rewrite push_all_ok; rewrite ?N1; cbn [app].
  2:{ rewrite D1. exact S1'. } 2:{ unfold vnnz. rewrite N1. cbn [length]. lia. }
  cbn [rbind]. rewrite split_fold' by auto.
  assert (S2s : sorted_in 0 (vdim c) (keys (map (fun e : Z * num => (fst e + - vdim v, snd e)) l2))).
  { apply (sorted_shift (- vdim v)) in S2. replace (vdim v + - vdim v) with 0 in S2 by lia. replace (vdim p + - vdim v) with (vdim c) in S2 by lia.
    unfold keys in *. rewrite map_map in *. exact S2. }
  assert (L2 : Z.of_nat (length l2) <= vcap c1).
  { pose proof (sorted_in_length _ _ _ S2s). unfold keys in H. rewrite !map_length in H. destruct Hc. lia. }
  rewrite push_all_ok; rewrite ?N2; cbn [app].
  2:{ rewrite D2. exact S2s. } 2:{ unfold vnnz. rewrite N2. cbn [length]. rewrite map_length. lia. }
  cbn [rbind]. do 2 eexists. split; [reflexivity|]. unfold wf. cbn [vdim vent vcap]. rewrite D1, D2, map_length.
  destruct Hv as [Hv0 _], Hc as [Hc0 _]. repeat split; auto.
  - intros i Hi. rewrite get_app'. destruct (get l1 i) eqn:E; auto. symmetry. apply get_None. intros Hi'. pose proof (H2 i Hi'). lia.
  - intros i Hi. rewrite (get_shift (fun x => x)). replace (i - - vdim v) with (vdim v + i) by lia. rewrite get_app'.
    replace (get l1 (vdim v + i)) with (@None num). { destruct (get l2 _); reflexivity. }
    symmetry. apply get_None. intros Hi'. pose proof (H1 _ Hi'). lia.
Qed.

(** ** transform and restore *)
Lemma below_app n l1 l2 : (forall i, In i (keys l1) -> i < n) -> (forall i, In i (keys l2) -> n <= i) -> below n (l1 ++ l2) = l1.
Proof.
  intros H1 H2. induction l1 as [|[j x] l1 IH]; cbn [app below fst].
  - destruct l2 as [|[j x] l2]; [reflexivity|]. cbn [below fst]. pose proof (H2 j (or_introl eq_refl)). destruct (Z.leb_spec n j); [reflexivity|lia].
  - pose proof (H1 j (or_introl eq_refl)). destruct (Z.leb_spec n j); [lia|]. rewrite IH; auto. intros i Hi. apply H1. now right.
Qed.

Lemma restore_spec nv nc p r : wf p -> wf r -> 0 <= nc -> vdim p = nv + nc -> vdim r = nv ->
  exists x, restoration_restore nv nc p r = Ok x /\ wf x /\ vdim x = nv /\ (forall i, i < nv -> get (vent x) i = get (vent p) i).
Proof.
  intros (Hdp & Hsp & Hcp) Hr Hnc Hd Hd'. unfold restoration_restore. rewrite (proj2 (Z.eqb_eq _ _) Hd), (proj2 (Z.eqb_eq _ _) Hd'). cbn [check rbind].
  assert (0 <= nv) by (destruct Hr; lia).
  destruct (vec_reserve_spec (vec_clear r) (Z.min (vdim p) nv)) as (v1 & E1 & W1 & D1 & N1 & C1); [now apply wf_clear|lia|].
  rewrite E1. cbn [rbind]. cbn [vec_clear vdim vent] in *.
  destruct (split_at nv _ _ _ Hsp) as (l1 & l2 & El & H1 & H2). rewrite El in Hsp |- *. rewrite below_app by auto.
  unfold keys in Hsp. rewrite map_app in Hsp. destruct (proj1 (sorted_in_app _ _ _ _) Hsp) as [S1 _].
  assert (S1' : sorted_in 0 nv (keys l1)) by (eapply sorted_in_shrink; eauto).
  assert (L1 : Z.of_nat (length l1) <= vcap v1).
  { pose proof (sorted_in_length _ _ _ S1'). unfold keys in H0. rewrite map_length in H0. lia. }
  rewrite push_all_ok; rewrite ?N1; cbn [app].
  2:{ rewrite D1, Hd'. exact S1'. } 2:{ unfold vnnz. rewrite N1. cbn [length]. lia. }
  eexists. split; [reflexivity|]. unfold wf. cbn [vdim vent vcap]. rewrite D1, Hd'. repeat split; auto.
  intros i Hi. rewrite get_app'. destruct (get l1 i) eqn:E; auto. symmetry. apply get_None. intros Hi'. pose proof (H2 i Hi'). lia.
Qed.
(** The slack of constraint [i]; a value equal to zero is not stored. *)
Definition slack_at (c lb ub : vec) (i : Z) : num := clip_val (dense c i) (dense lb i) (dense ub i).

Lemma transform_spec nv nc p c lb ub r : wf p -> wf c -> wf lb -> wf ub -> wf r ->
  vdim p = nv -> vdim c = nc -> vdim lb = nc -> vdim ub = nc -> vdim r = nv + nc ->
  exists t, restoration_transform nv nc p c lb ub r = Ok t /\ wf t /\ vdim t = nv + nc
    /\ (forall i, i < nv -> get (vent t) i = get (vent p) i)
    /\ (forall i, 0 <= i < nc -> get (vent t) (nv + i) =
          match get (vent c) i, get (vent lb) i, get (vent ub) i with
          | None, None, None => None
          | _, _, _ => if neqb (slack_at c lb ub i) n0 then None else Some (slack_at c lb ub i)
          end).
Proof.
  intros (Hdp & Hsp & Hcp) (Hdc & Hsc & Hcc) (Hdl & Hsl & Hcl) (Hdu & Hsu & Hcu) Hr Dp Dc Dl Du Dr.
  unfold restoration_transform. rewrite (proj2 (Z.eqb_eq _ _) Dp), (proj2 (Z.eqb_eq _ _) Dc), (proj2 (Z.eqb_eq _ _) Dr). cbn [check rbind].
  set (k := Z.min nc (vnnz lb + vnnz ub + vnnz c)).
  assert (Hk : 0 <= k) by (unfold k, vnnz; lia).
  destruct (vec_reserve_spec (vec_clear r) (vnnz p + k)) as (v1 & E1 & W1 & D1 & N1 & C1); [now apply wf_clear|unfold vnnz; lia|].
  rewrite E1. cbn [rbind]. cbn [vec_clear vdim vent] in *.
  rewrite Dp in Hsp. rewrite Dc in Hsc. rewrite Dl in Hsl. rewrite Du in Hsu.
  rewrite push_all_ok; rewrite ?N1; cbn [app].
  2:{ rewrite D1, Dr. eapply sorted_in_weaken; [| |exact Hsp]; lia. } 2:{ unfold vnnz in *. rewrite N1. cbn [length]. lia. }
  cbn [rbind].
  assert (Wk : forall l, sorted_in 0 nc l -> sorted_in 0 (nc + 1) l) by (intros l H; eapply sorted_in_weaken; [| |exact H]; lia).
  destruct (align3 (nc + 1) (vent lb) (vent ub) (vent c)) as (idxs & Hs & Hm & He & Hl); auto.
  rewrite He. cbn [rbind].
  assert (Hs' : sorted_in 0 nc idxs).
  { eapply sorted_in_shrink; [exact Hs|]. intros i Hi. apply Hm in Hi. destruct Hi as [H|[H|H]]; eapply sorted_in_In in H; eauto; lia. }
  set (G := fun i => [get (vent lb) i; get (vent ub) i; get (vent c) i]).
  set (F := fun l : list (option num) => match l with [l; u; c] => clip_val (oval c) (oval l) (oval u) | _ => n0 end).
  rewrite (rfold_ext _ (fun r row => let v := F (snd row) in if neqb v n0 then Ok r else vec_push r (nv + fst row) v)).
  2:{ intros t a Ha. apply in_map_iff in Ha. destruct Ha as (i & <- & _). unfold F. cbn [fst snd]. cbv zeta. destruct (neqb _ n0); reflexivity. }
  assert (Hp : forall idxs v, rfold (fun r row => let v := F (snd row) in if neqb v n0 then Ok r else vec_push r (nv + fst row) v)
       v (map (fun i => (i, G i)) idxs) = push_all v (map (fun e => (fst e + nv, snd e)) (map (fun i => (i, F (G i))) (filter (fun i => negb (neqb (F (G i)) n0)) idxs)))).
  { clear. induction idxs as [|i idxs IH]; intros v; [reflexivity|]. cbn [map rfold fst snd filter]. destruct (neqb (F (G i)) n0); cbn [negb].
    - cbn [rbind]. apply IH.
    - unfold push_all. cbn [map rfold fst snd]. rewrite (Z.add_comm i nv). destruct (vec_push v (nv + i) (F (G i))); cbn [rbind]; auto. apply IH. }
  change (map (fun i => (i, [get (vent lb) i; get (vent ub) i; get (vent c) i])) idxs) with (map (fun i => (i, G i)) idxs).
  rewrite Hp. set (P := fun i => negb (neqb (F (G i)) n0)).
  set (S := map (fun i => (i, F (G i))) (filter P idxs)).
  assert (HS : sorted_in 0 nc (keys S)) by (apply sorted_map_pair, sorted_filter, Hs').
  assert (LS : Z.of_nat (length S) <= k).
  { pose proof (sorted_in_length _ _ _ HS) as L. unfold keys in L. rewrite map_length in L. unfold S in *. rewrite map_length in *.
    pose proof (filter_length_le P idxs). unfold k, vnnz. lia. }
  assert (HSs : sorted_in nv (nv + nc) (keys (map (fun e : Z * num => (fst e + nv, snd e)) S))).
  { apply (sorted_shift nv) in HS. unfold keys in *. rewrite map_map in *. replace (0 + nv) with nv in HS by lia. replace (nv + nc) with (nc + nv) by lia. exact HS. }
  rewrite push_all_ok; cbn [vdim vent vcap].
  2:{ rewrite D1, Dr. unfold keys. rewrite map_app. apply (sorted_in_cat 0 nv (nv + nc)); auto; lia. }
  2:{ unfold vnnz in *. cbn [vent]. rewrite map_length. lia. }
  eexists. split; [reflexivity|]. unfold wf. cbn [vdim vent vcap]. rewrite D1, Dr. split; [|split; [reflexivity|split]].
  - repeat split; try lia.
    + unfold keys. rewrite map_app. apply (sorted_in_cat 0 nv (nv + nc)); auto; lia.
    + rewrite app_length, map_length. unfold vnnz in *. lia.
  - intros i Hi. rewrite get_app'. destruct (get (vent p) i) eqn:E; auto. apply get_None. intros Hi'. eapply sorted_in_In in Hi'; eauto. lia.
  - intros i Hi. rewrite get_app'. replace (get (vent p) (nv + i)) with (@None num).
    2:{ symmetry. apply get_None. intros Hi'. eapply sorted_in_In in Hi'; eauto. lia. }
    rewrite (get_shift (fun x => x)). replace (nv + i - nv) with i by lia.
    unfold S. rewrite (get_map_filter P (fun i => F (G i)) 0 nc) by exact Hs'.
    unfold P; cbv beta. change (F (G i)) with (slack_at c lb ub i).
    destruct (existsb (Z.eqb i) idxs) eqn:Ein; cbn [andb].
    + apply existsb_In in Ein. apply Hm in Ein.
      assert (H' : ~ (get (vent lb) i = None /\ get (vent ub) i = None /\ get (vent c) i = None)).
      { intros (H1 & H2 & H3). apply get_None in H1, H2, H3. tauto. }
      destruct (neqb (slack_at c lb ub i) n0);
      destruct (get (vent lb) i), (get (vent ub) i), (get (vent c) i); try (exfalso; apply H'; auto; fail); reflexivity.
    + assert (Hn : ~ In i idxs) by (intros Hi'; apply existsb_In in Hi'; congruence). rewrite Hm in Hn.
      destruct (get (vent lb) i) eqn:E4. { exfalso. apply Hn. left. eapply In_keys, get_Some_In, E4. }
      destruct (get (vent ub) i) eqn:E5. { exfalso. apply Hn. right; left. eapply In_keys, get_Some_In, E5. }
      destruct (get (vent c) i) eqn:E6. { exfalso. apply Hn. right; right. eapply In_keys, get_Some_In, E6. }
      reflexivity.
Qed.
End Facts.
