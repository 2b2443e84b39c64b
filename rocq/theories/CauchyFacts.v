(** Facts about the steps of [Cauchy.v], for any arithmetic. *)
From Verif Require Import Base Num Cmp Sparse Vec VecFacts Order VecFacts2 Mat MatFacts MatFacts2 Arr WorkingSet WorkingSetFacts Cauchy.
Local Open Scope Z_scope.

Section CauchyFacts.
Context {N : Num}.

(** ** Reading a sparse vector from left to right *)
Lemma drop_lt_drop_lt i j l : i <= j -> drop_lt j (drop_lt i l) = drop_lt j l.
Proof.
  intros H. induction l as [|[k x] l IH]; cbn [drop_lt]; [reflexivity|].
  destruct (Z.ltb_spec k i); [|reflexivity]. destruct (Z.ltb_spec k j); [exact IH|lia].
Qed.

Lemma drop_lt_start lo hi l : sorted_in lo hi (keys l) -> drop_lt lo l = l.
Proof.
  destruct l as [|[k x] l]; cbn [drop_lt keys map fst sorted_in]; [reflexivity|]. intros [H _].
  destruct (Z.ltb_spec k lo); [lia|reflexivity].
Qed.

Lemma head_at_drop lo hi l j : sorted_in lo hi (keys l) -> head_at j (drop_lt j l) = oval (get l j).
Proof.
  unfold head_at. revert lo. induction l as [|[k x] l IH]; intros lo Hs; cbn [drop_lt get]; [reflexivity|].
  cbn [keys map fst sorted_in] in Hs. destruct Hs as [Hk Hs].
  destruct (Z.ltb_spec k j).
  - rewrite (IH _ Hs). destruct (Z.eqb_spec k j); [lia|reflexivity].
  - cbn [head_val]. destruct (Z.eqb_spec k j) as [->|]; [reflexivity|].
    f_equal. symmetry. apply get_None. intros Hin. apply (sorted_in_In _ _ _ _ Hs) in Hin. lia.
Qed.

Lemma head_at_dense v j : wf v -> head_at j (drop_lt j (vent v)) = dense v j.
Proof. intros (_ & Hs & _). apply (head_at_drop _ _ _ _ Hs). Qed.

(** ** Fixed variables *)
Lemma fixed_vars_spec nv lb ub fixed : wf lb -> wf ub -> 0 <= nv -> length fixed = Z.to_nat nv ->
  exists f, compute_fixed_vars nv lb ub fixed = Ok f /\
    arr f nv (fun j => is_finite (dense lb j) && is_finite (dense ub j) && (dense lb j =? dense ub j)%num).
Proof.
  intros Hl Hu Hn Hf. unfold compute_fixed_vars.
  set (F := fun j => is_finite (dense lb j) && is_finite (dense ub j) && (dense lb j =? dense ub j)%num).
  set (body := fun (s : list (Z * num) * list (Z * num) * list bool) j => _).
  destruct (zrange_loop (fun j s => length (snd s) = Z.to_nat nv
      /\ (forall i, 0 <= i < j -> nth_error (snd s) (Z.to_nat i) = Some (F i))
      /\ (forall k, j <= k -> drop_lt k (fst (fst s)) = drop_lt k (vent lb) /\ drop_lt k (snd (fst s)) = drop_lt k (vent ub)))
     body nv (vent lb, vent ub, fixed)) as (s & E & Hlen & Hv & _).
  - exact Hn.
  - cbn [fst snd]. repeat split; auto; intros; lia.
  - intros j [[ll lu] f] Hj (Hlen & Hv & Hd). cbn [fst snd] in *.
    destruct (Hd j ltac:(lia)) as [D1 D2].
    unfold body. rewrite D1, D2, !head_at_dense by assumption. fold (F j).
    rewrite arr_set_ok by lia. cbn [rbind]. eexists. split; [reflexivity|]. cbn [fst snd].
    split; [now rewrite set_nth_length|]. split.
    + intros i Hi. rewrite set_nth_spec by lia.
      destruct (Nat.eqb_spec (Z.to_nat i) (Z.to_nat j)); [f_equal; f_equal; lia|]. apply Hv. lia.
    + intros k Hk. rewrite !drop_lt_drop_lt by lia. auto.
  - rewrite E. cbn [rbind]. exists (snd s). split; [reflexivity|]. split; auto.
Qed.

(** ** One component of the step *)
Definition step_at (tr l u g : num) : num :=
  if (n0 <=? nopp g)%num then (if (tr <? u)%num then tr else u)
  else (if (l <? nopp tr)%num then nopp tr else l).
Definition act_at (tr l u g : num) : bool :=
  if (n0 <=? nopp g)%num then negb (tr <? u)%num else negb (l <? nopp tr)%num.
Definition state_at (tr l u g : num) (fixed : bool) : ast :=
  if act_at tr l u g then
    (if fixed then ActBoth else if (n0 <=? nopp g)%num then ActUpper else ActLower)
  else Inactive.

(** A vector with room for all components that has not been used beyond [j]. *)
Lemma push_next v j x (P : Z -> bool) (g : Z -> num) :
  0 <= j < vdim v -> vdim v <= vcap v -> vent v = map (fun i => (i, g i)) (filter P (zrange j)) ->
  vec_push v j x = Ok (mkvec (vdim v) (vcap v) (vent v ++ [(j, x)])).
Proof.
  intros Hj Hc He. apply vec_push_ok.
  - unfold vnnz. rewrite He, map_length. pose proof (filter_length_le P (zrange j)). rewrite zrange_length in H. lia.
  - apply sorted_in_app. rewrite He. split.
    + apply sorted_map_pair, sorted_filter. apply (sorted_in_weaken 0 0 j); try lia. apply zrange_sorted.
    + cbn [sorted_in]. split; [|exact I]. unfold keys. rewrite map_map. cbn [fst]. rewrite map_id.
      destruct (rev (filter P (zrange j))) as [|k r] eqn:E; [lia|].
      assert (In k (filter P (zrange j))) by (apply in_rev; rewrite E; now left).
      apply filter_In in H. destruct H as [H _]. apply zrange_In in H. lia.
Qed.

Lemma map_filter_snoc {A} (f : Z -> A) (P : Z -> bool) j : 0 <= j ->
  map f (filter P (zrange (j + 1))) = map f (filter P (zrange j)) ++ (if P j then [f j] else []).
Proof.
  intros Hj. rewrite zrange_succ by lia. rewrite filter_app, map_app. cbn [filter]. destruct (P j); reflexivity.
Qed.

(** ** The whole step *)
Record cb_ready (c : cbox) (it : citer) : Prop := {
  r_nv : 0 <= cb_nv c;
  r_ld : wf (cb_ld c); r_ud : wf (cb_ud c); r_g : wf (ci_grad it);
  r_dir : vdim (cb_dir c) = cb_nv c /\ cb_nv c <= vcap (cb_dir c);
  r_duals : vdim (cb_duals c) = cb_nv c /\ cb_nv c <= vcap (cb_duals c);
  r_st : length (cb_st c) = Z.to_nat (cb_nv c);
  r_fixed : length (cb_fixed c) = Z.to_nat (cb_nv c) }.

Definition cb_fix (c : cbox) (j : Z) : bool := nth (Z.to_nat j) (cb_fixed c) false.

Lemma cb_solve_spec c it : cb_ready c it ->
  let L := dense (cb_ld c) in let U := dense (cb_ud c) in let G := dense (ci_grad it) in
  let tr := cb_radius c in
  let A := fun j => act_at tr (L j) (U j) (G j) in
  let D := fun j => step_at tr (L j) (U j) (G j) in
  exists c', cb_solve c it = Ok c'
    /\ cb_nv c' = cb_nv c /\ cb_radius c' = cb_radius c /\ cb_fixed c' = cb_fixed c
    /\ cb_lb c' = cb_lb c /\ cb_ub c' = cb_ub c /\ cb_ld c' = cb_ld c /\ cb_ud c' = cb_ud c /\ cb_zero c' = cb_zero c
    /\ vdim (cb_dir c') = cb_nv c /\ vcap (cb_dir c') = vcap (cb_dir c)
    /\ vent (cb_dir c') = map (fun j => (j, D j)) (zrange (cb_nv c))
    /\ vdim (cb_duals c') = cb_nv c /\ vcap (cb_duals c') = vcap (cb_duals c)
    /\ vent (cb_duals c') = map (fun j => (j, nopp (G j))) (filter A (zrange (cb_nv c)))
    /\ arr (cb_st c') (cb_nv c) (fun j => state_at tr (L j) (U j) (G j) (cb_fix c j))
    /\ cb_obj c' = fold_left (fun o j => nadd o (nmul (D j) (G j))) (zrange (cb_nv c)) (ci_obj it).
Proof.
  intros [Hn Hl Hu Hg [Hd1 Hd2] [Hm1 Hm2] Hst Hfx] L U G tr A D. unfold cb_solve.
  set (S := fun j => state_at tr (L j) (U j) (G j) (cb_fix c j)).
  destruct (zrange_loop (fun j s =>
      (forall k, j <= k -> drop_lt k (sl s) = drop_lt k (vent (cb_ld c)) /\ drop_lt k (su s) = drop_lt k (vent (cb_ud c))
                           /\ drop_lt k (sg s) = drop_lt k (vent (ci_grad it)))
      /\ (vdim (sdir s) = cb_nv c /\ vcap (sdir s) = vcap (cb_dir c)
          /\ vent (sdir s) = map (fun j => (j, D j)) (filter (fun _ => true) (zrange j)))
      /\ (vdim (sduals s) = cb_nv c /\ vcap (sduals s) = vcap (cb_duals c)
          /\ vent (sduals s) = map (fun j => (j, nopp (G j))) (filter A (zrange j)))
      /\ (length (sst s) = Z.to_nat (cb_nv c) /\ forall i, 0 <= i < j -> nth_error (sst s) (Z.to_nat i) = Some (S i))
      /\ sobj s = fold_left (fun o j => nadd o (nmul (D j) (G j))) (zrange j) (ci_obj it))
     (cb_body tr (cb_fixed c)) (cb_nv c)
     (mkcbst (vent (cb_ld c)) (vent (cb_ud c)) (vent (ci_grad it))
                 (vec_clear (cb_dir c)) (vec_clear (cb_duals c)) (cb_st c) (ci_obj it)))
    as (s & E & _ & (I1 & I2 & I3) & (J1 & J2 & J3) & (K1 & K2) & O1).
  - exact Hn.
  - cbn [sl su sg sdir sduals sst sobj vec_clear vdim vcap vent]. repeat split; auto; intros; lia.
  - intros j s Hj (Hdr & (I1 & I2 & I3) & (J1 & J2 & J3) & (K1 & K2) & O1).
    destruct (Hdr j ltac:(lia)) as (R1 & R2 & R3). unfold cb_body. rewrite R1, R2, R3, !head_at_dense by assumption.
    fold (L j) (U j) (G j).
    assert (Hfix : arr_get (cb_fixed c) j = Ok (cb_fix c j)).
    { apply arr_get_nth; [lia|]. unfold cb_fix. apply nth_error_nth'. lia. }
    assert (Hdr' : forall k, j + 1 <= k -> drop_lt k (drop_lt j (vent (cb_ld c))) = drop_lt k (vent (cb_ld c))
               /\ drop_lt k (drop_lt j (vent (cb_ud c))) = drop_lt k (vent (cb_ud c))
               /\ drop_lt k (drop_lt j (vent (ci_grad it))) = drop_lt k (vent (ci_grad it)))
      by (intros k Hk; rewrite !drop_lt_drop_lt by lia; auto).
    assert (HA : A j = act_at tr (L j) (U j) (G j)) by reflexivity.
    assert (HD : D j = step_at tr (L j) (U j) (G j)) by reflexivity.
    assert (HS : S j = state_at tr (L j) (U j) (G j) (cb_fix c j)) by reflexivity.
    unfold state_at in HS. unfold step_at in HD. unfold act_at in HA, HS. 
    assert (PD : forall x, vec_push (sdir s) j x = Ok (mkvec (vdim (sdir s)) (vcap (sdir s)) (vent (sdir s) ++ [(j, x)])))
      by (intros x; eapply push_next; [lia|lia|exact I3]).
    assert (PM : forall x, vec_push (sduals s) j x = Ok (mkvec (vdim (sduals s)) (vcap (sduals s)) (vent (sduals s) ++ [(j, x)])))
      by (intros x; eapply push_next; [lia|lia|exact J3]).
    assert (PS : forall x, arr_set (sst s) j x = Ok (set_nth (sst s) (Z.to_nat j) x)) by (intros x; apply arr_set_ok; lia).
    assert (PS' : forall x, x = S j -> length (set_nth (sst s) (Z.to_nat j) x) = Z.to_nat (cb_nv c) /\
       forall i, 0 <= i < j + 1 -> nth_error (set_nth (sst s) (Z.to_nat j) x) (Z.to_nat i) = Some (S i)).
    { intros x ->. split; [now rewrite set_nth_length|]. intros i Hi. rewrite set_nth_spec by lia.
      destruct (Nat.eqb_spec (Z.to_nat i) (Z.to_nat j)); [f_equal; f_equal; lia|]. apply K2. lia. }
    assert (OB : forall o, o = nadd (sobj s) (nmul (D j) (G j)) ->
       o = fold_left (fun o j => nadd o (nmul (D j) (G j))) (zrange (j + 1)) (ci_obj it)).
    { intros o ->. rewrite zrange_succ by lia. rewrite fold_left_app. cbn [fold_left]. now rewrite O1. }
    destruct (n0 <=? nopp (G j))%num; [destruct (tr <? U j)%num|destruct (L j <? nopp tr)%num]; cbn [negb] in *;
      rewrite ?Hfix; cbn [rbind]; rewrite PS; cbn [rbind]; rewrite PD; cbn [rbind]; rewrite ?PM; cbn [rbind];
      eexists; (split; [reflexivity|]); cbn [sl su sg sdir sduals sst sobj vdim vcap vent];
      (split; [exact Hdr'|]); rewrite !map_filter_snoc by lia; cbv beta; rewrite HA, ?app_nil_r;
      (split; [repeat split; auto; rewrite I3, HD; reflexivity|]);
      (split; [repeat split; auto; rewrite J3; reflexivity|]);
      (split; [apply PS'; rewrite HS; reflexivity|]); apply OB; rewrite HD; reflexivity.
  - fold tr. rewrite E. cbn [rbind]. eexists. split; [reflexivity|].
    cbn [cb_nv cb_radius cb_fixed cb_lb cb_ub cb_ld cb_ud cb_zero cb_dir cb_duals cb_st cb_obj].
    repeat split; auto. rewrite I3. f_equal. clear. induction (zrange (cb_nv c)) as [|a l IH]; cbn [filter]; congruence.
Qed.

(** ** Working set *)
Lemma cb_working_set_spec c w vs cs (S : Z -> ast) : holds w vs cs -> wnv w = cb_nv c -> arr (cb_st c) (cb_nv c) S ->
  exists w', cb_working_set c w = Ok w' /\ wnv w' = wnv w /\ wnc w' = wnc w
    /\ holds w' (map (fun j => (j, S j)) (filter (fun j => active (S j)) (zrange (cb_nv c)))) [].
Proof.
  intros H Hw Ha. unfold cb_working_set.
  assert (Hn : 0 <= cb_nv c) by (rewrite <- Hw; apply (h_nv _ _ _ H)).
  pose proof (reset_holds _ _ _ H) as H0.
  destruct (zrange_loop (fun j w' => wnv w' = wnv w /\ wnc w' = wnc w
      /\ holds w' (map (fun j => (j, S j)) (filter (fun j => active (S j)) (zrange j))) [])
     (fun w j => s <- arr_get (cb_st c) j ;; if active s then ws_add_var w j s else Ok w) (cb_nv c) (ws_reset w))
    as (w' & E & E1 & E2 & E3).
  - exact Hn.
  - split; [reflexivity|split; [reflexivity|exact H0]].
  - intros j t Hj (E1 & E2 & E3). rewrite (arr_get_arr _ _ _ _ Ha Hj). cbn [rbind].
    rewrite map_filter_snoc by lia. cbv beta. destruct (active (S j)) eqn:Eact.
    + destruct (add_var_holds t _ [] j (S j) E3) as (t' & Et & Ht & D1 & D2).
      * lia.
      * reflexivity.
      * unfold keys. rewrite map_map. cbn [fst]. rewrite map_id. intros Hin. apply filter_In in Hin. destruct Hin as [Hin _].
        apply zrange_In in Hin. lia.
      * now apply active_iff.
      * exists t'. split; [exact Et|]. split; [congruence|split; [congruence|exact Ht]].
    + exists t. split; [reflexivity|]. rewrite app_nil_r. auto.
  - exists w'. split; [exact E|]. auto.
Qed.
End CauchyFacts.
