(** The step to the working set, the Newton direction and the second-order correction: facts. *)
From Coq Require Import Reals Lra FunctionalExtensionality.
From Verif Require Import Base Num Cmp Sparse Vec VecFacts Order VecFacts2 Mat MatFacts MatFacts2 Arr
  WorkingSet WorkingSetFacts Feas FeasFacts Cauchy CauchyFacts DualEst DualEstFacts MatFacts4 LineSearch WorkingStep.
Local Open Scope Z_scope.

(** ** Right hand sides, for any arithmetic *)
Section Rhs.
Context {N : Num}.

Definition pairs (h : Z -> num) (idxs : list Z) : list (Z * num) := map (fun i => (i, h i)) idxs.

Lemma pairs_keys h idxs : keys (pairs h idxs) = idxs.
Proof. unfold keys, pairs. rewrite map_map. cbn. apply map_id. Qed.
Lemma pairs_length h idxs : length (pairs h idxs) = length idxs.
Proof. apply map_length. Qed.
Lemma pairs_get h idxs lo hi i : sorted_in lo hi idxs ->
  get (pairs h idxs) i = if existsb (Z.eqb i) idxs then Some (h i) else None.
Proof.
  intros Hs. pose proof (get_map_filter (fun _ => true) h lo hi idxs i Hs) as E.
  rewrite andb_true_r in E. rewrite <- E. unfold pairs. f_equal. f_equal.
  clear. induction idxs; cbn; congruence.
Qed.

Lemma loop_pairs (P : Z -> bool) (g : Z -> Z) (h : Z -> num) (step : vec -> Z -> res vec) v idxs :
  (forall v i, In i idxs -> step v i = if P i then vec_push v (g i) (h i) else Ok v) ->
  rfold step v idxs = push_all v (moved P g (pairs h idxs)).
Proof.
  revert v. induction idxs as [|i idxs IH]; intros v H; [reflexivity|].
  cbn [rfold]. rewrite H by now left. unfold moved, pairs. cbn [map filter fst snd].
  destruct (P i); cbn [rbind].
  - cbn [map fst snd]. unfold push_all. cbn [rfold fst snd]. destruct (vec_push v (g i) (h i)); cbn [rbind]; try reflexivity.
    apply IH. intros v' j Hj. apply H. now right.
  - apply IH. intros v' j Hj. apply H. now right.
Qed.

Lemma sorted_cat lo mid hi l1 l2 : lo <= mid -> mid <= hi -> sorted_in lo mid l1 -> sorted_in mid hi l2 -> sorted_in lo hi (l1 ++ l2).
Proof.
  revert lo. induction l1 as [|i l1 IH]; cbn [app sorted_in]; intros lo H1 H2 S1 S2.
  - revert S2. apply sorted_in_weaken; lia.
  - destruct S1 as [Hi S1]. split; [lia|]. apply IH; auto; lia.
Qed.

Lemma get_app (l1 l2 : list (Z * num)) i : get (l1 ++ l2) i = match get l1 i with Some x => Some x | None => get l2 i end.
Proof. induction l1 as [|[k x] l1 IH]; cbn [app get]; [reflexivity|]. destruct (k =? i); auto. Qed.

Context (w : wset) (C : consistent w) (I : in_order w).

Lemma cix_lt i j : 0 <= i < wnc w -> 0 <= j < wnc w -> cix w i <> none -> cix w j <> none -> i < j -> cix w i < cix w j.
Proof.
  intros Hi Hj Ni Nj H. destruct (cix_cont w C i Hi Ni) as [R1 E1]. destruct (cix_cont w C j Hj Nj) as [R2 E2].
  destruct (Z.lt_trichotomy (cix w i) (cix w j)) as [|[E|L]]; [assumption| |].
  - rewrite E in E1. lia.
  - pose proof (cont_lt w C I (cix w j) (cix w i)). lia.
Qed.
Lemma vix_cix j i : 0 <= j < wnv w -> 0 <= i < wnc w -> vix w j <> none -> cix w i <> none -> vix w j < cix w i.
Proof.
  intros Hj Hi Nj Ni. destruct (vix_cont w C j Hj Nj) as [R1 E1]. destruct (cix_cont w C i Hi Ni) as [R2 E2].
  destruct (Z.lt_trichotomy (vix w j) (cix w i)) as [|[E|L]]; [assumption| |].
  - rewrite E in E1. lia.
  - pose proof (cont_lt w C I (cix w i) (vix w j)). lia.
Qed.
Lemma vix_inj i j : 0 <= i < wnv w -> 0 <= j < wnv w -> vix w i <> none -> vix w i = vix w j -> i = j.
Proof.
  intros Hi Hj Ni E. destruct (vix_cont w C i Hi Ni) as [_ E1]. rewrite E in Ni, E1. destruct (vix_cont w C j Hj Ni) as [_ E2]. lia.
Qed.
Lemma cix_inj i j : 0 <= i < wnc w -> 0 <= j < wnc w -> cix w i <> none -> cix w i = cix w j -> i = j.
Proof.
  intros Hi Hj Ni E. destruct (cix_cont w C i Hi Ni) as [_ E1]. rewrite E in Ni, E1. destruct (cix_cont w C j Hj Ni) as [_ E2]. lia.
Qed.

(** The two loops push variables, then constraints. *)
Lemma build_spec (Pv Pc : Z -> bool) (hv hc : Z -> num) iv ic v :
  wf v -> vdim v = ws_size w -> vent v = [] -> ws_size w <= vcap v ->
  sorted_in 0 (wnv w) iv -> sorted_in 0 (wnc w) ic ->
  (forall j, 0 <= j < wnv w -> Pv j = true -> vix w j <> none) ->
  (forall i, 0 <= i < wnc w -> Pc i = true -> cix w i <> none) ->
  exists v1 r, push_all v (moved Pv (vix w) (pairs hv iv)) = Ok v1
    /\ push_all v1 (moved Pc (cix w) (pairs hc ic)) = Ok r
    /\ wf r /\ vdim r = ws_size w
    /\ (forall j, 0 <= j < wnv w -> vix w j <> none ->
          get (vent r) (vix w j) = if existsb (Z.eqb j) iv && Pv j then Some (hv j) else None)
    /\ (forall i, 0 <= i < wnc w -> cix w i <> none ->
          get (vent r) (cix w i) = if existsb (Z.eqb i) ic && Pc i then Some (hc i) else None).
Proof.
  intros W D E K Sv Sc Hv Hc.
  assert (Iv : forall j, In j (keys (pairs hv iv)) -> 0 <= j < wnv w) by (intros j; rewrite pairs_keys; apply sorted_in_In, Sv).
  assert (Ic : forall j, In j (keys (pairs hc ic)) -> 0 <= j < wnc w) by (intros j; rewrite pairs_keys; apply sorted_in_In, Sc).
  assert (S1 : sorted_in 0 (ws_size w) (keys (moved Pv (vix w) (pairs hv iv)))).
  { apply (moved_sorted Pv (vix w) _ 0 (wnv w)); [now rewrite pairs_keys| |].
    - intros i j Hi Hj Pi Pj Hij. apply (vix_lt w C I); auto.
    - intros i Hi Pi. apply (vix_cont w C); auto. }
  set (m1 := moved Pv (vix w) (pairs hv iv)) in *.
  set (m2 := moved Pc (cix w) (pairs hc ic)).
  assert (S2 : sorted_in 0 (ws_size w) (keys (m1 ++ m2))).
  { rewrite keys_app. apply sorted_in_app. split; [exact S1|].
    apply (moved_sorted Pc (cix w) _ 0 (wnc w)); [now rewrite pairs_keys| |].
    - intros i j Hi Hj Pi Pj Hij. apply cix_lt; auto.
    - intros i Hi Pi. destruct (cix_cont w C i) as [R1 _]; auto. split; [|lia].
      destruct (rev (keys m1)) as [|k l] eqn:Er; [lia|].
      assert (Hk : In k (keys m1)) by (apply in_rev; rewrite Er; now left).
      unfold m1, moved, keys in Hk. rewrite map_map in Hk. cbn [fst] in Hk. apply in_map_iff in Hk.
      destruct Hk as ([j x] & Ek & Hj). apply filter_In in Hj. destruct Hj as [Hj Pj]. cbn [fst] in *.
      apply (in_map fst) in Hj. apply Iv in Hj. cbn in Hj. pose proof (vix_cix j i Hj (Ic i Hi)). rewrite <- Ek.
      assert (vix w j < cix w i) by auto. lia. }
  pose proof (sorted_in_length _ _ _ S2) as L2. unfold keys in L2. rewrite map_length, app_length in L2.
  assert (HS : 0 <= ws_size w) by (rewrite <- D; apply W).
  exists (mkvec (vdim v) (vcap v) m1), (mkvec (vdim v) (vcap v) (m1 ++ m2)).
  split; [|split; [|split; [|split; [|split]]]].
  - rewrite push_all_ok; rewrite ?E; cbn [app]; auto; [now rewrite D|]. unfold vnnz. rewrite E. cbn [length]. lia.
  - rewrite push_all_ok; cbn [vent vdim vcap]; auto; [now rewrite D|]. unfold vnnz. cbn [vent]. lia.
  - split; [|split]; unfold vnnz; cbn [vdim vent vcap]; rewrite ?app_length; [lia|now rewrite D|lia].
  - exact D.
  - intros j Hj Nj. cbn [vent]. rewrite get_app.
    assert (N2 : get m2 (vix w j) = None).
    { apply moved_none. intros a Ha Pa Ea. pose proof (vix_cix j a Hj (Ic a Ha) Nj (Hc a (Ic a Ha) Pa)). lia. }
    rewrite N2. destruct (Pv j) eqn:Ep; rewrite ?andb_true_r, ?andb_false_r.
    + unfold m1. rewrite moved_get; [|intros a Ha Pa Ea; apply vix_inj; auto|exact Ep].
      rewrite (pairs_get hv iv 0 (wnv w)) by exact Sv. now destruct (existsb _ _).
    + unfold m1. rewrite moved_none; [reflexivity|]. intros a Ha Pa Ea.
      assert (a = j) by (apply vix_inj; auto). congruence.
  - intros i Hi Ni. cbn [vent]. rewrite get_app.
    assert (N1 : get m1 (cix w i) = None).
    { apply moved_none. intros a Ha Pa Ea. pose proof (vix_cix a i (Iv a Ha) Hi (Hv a (Iv a Ha) Pa) Ni). lia. }
    rewrite N1. destruct (Pc i) eqn:Ep; rewrite ?andb_true_r, ?andb_false_r.
    + unfold m2. rewrite moved_get; [|intros a Ha Pa Ea; apply cix_inj; auto|exact Ep].
      rewrite (pairs_get hc ic 0 (wnc w)) by exact Sc. now destruct (existsb _ _).
    + unfold m2. rewrite moved_none; [reflexivity|]. intros a Ha Pa Ea.
      assert (a = i) by (apply cix_inj; auto). congruence.
Qed.

(** Which of the two differences is pushed in working_step.c and in soc.c. *)
Definition rhs_val (st : ast) (lo up : num) : num :=
  match st with ActUpper => up | ActLower | ActBoth => lo | Inactive => n0 end.
Definition soc_val (eps : num) (st : ast) (lo up : num) : num :=
  match st with
  | ActUpper => if is_zero up eps then n0 else up
  | ActLower => if is_zero lo eps then n0 else lo
  | ActBoth => up
  | Inactive => n0
  end.
Definition soc_keep (eps : num) (st : ast) (lo up : num) : bool :=
  match st with
  | ActUpper => negb (is_zero up eps) | ActLower => negb (is_zero lo eps) | ActBoth => true | Inactive => false
  end.

(** One part of the loop of working_step.c pushes the rows in which one difference is stored. *)
Lemma rhs_part_spec (n : Z) (ix : Z -> Z) (st : Z -> ast) index state lower upper :
  (forall j, 0 <= j < n -> index j = Ok (ix j) /\ state j = Ok (st j) /\ (st j = Inactive <-> ix j = none)) ->
  wf lower -> vdim lower = n -> wf upper -> vdim upper = n ->
  exists idxs, sorted_in 0 n idxs
    /\ (forall v, rhs_part index state lower upper v
       = push_all v (moved (fun j => active (st j)) ix (pairs (fun j => rhs_val (st j) (dense lower j) (dense upper j)) idxs)))
    /\ (forall j, existsb (Z.eqb j) idxs = false -> dense lower j = n0 /\ dense upper j = n0).
Proof.
  intros Hq Wl Dl Wu Du. pose proof Wl as (_ & Sl & _). pose proof Wu as (_ & Su & _). rewrite Dl in Sl. rewrite Du in Su.
  unfold rhs_part. rewrite Dl. destruct (align2 n (vent lower) (vent upper) Sl Su) as (idxs & Hs & Hm & E & _).
  exists idxs. split; [exact Hs|]. split.
  - intros v. rewrite E. cbn [rbind]. rewrite rfold_map.
    erewrite rfold_ext; [apply (loop_pairs (fun j => active (st j)) ix (fun j => rhs_val (st j) (dense lower j) (dense upper j))
      (fun v j => if active (st j) then vec_push v (ix j) (rhs_val (st j) (dense lower j) (dense upper j)) else Ok v))|].
    + reflexivity.
    + intros t j Hj. cbn [fst snd]. pose proof (sorted_in_In _ _ _ _ Hs Hj) as Rj.
      destruct (Hq j Rj) as (E1 & E2 & H3). rewrite E1, E2. cbn [rbind]. unfold rhs_item.
      assert (Hc : negb (active (st j)) || negb (ix j =? none) = true).
      { destruct (Z.eqb_spec (ix j) none) as [En|En]; [|apply orb_true_r]. apply H3 in En. now rewrite En. }
      rewrite Hc. cbn [check rbind]. unfold dense. destruct (st j); reflexivity.
  - intros j Hj. assert (Nj : ~ In j idxs) by (intros H; apply existsb_In in H; congruence).
    rewrite Hm in Nj. unfold dense. split; (rewrite (proj2 (get_None _ _)); [reflexivity|tauto]).
Qed.

Lemma soc_part_spec eps (n : Z) (ix : Z -> Z) (st : Z -> ast) index state lower upper v :
  (forall j, 0 <= j < n -> index j = Ok (ix j) /\ state j = Ok (st j) /\ (st j = Inactive <-> ix j = none)) ->
  0 <= n -> wf lower -> vdim lower = n -> wf upper -> vdim upper = n ->
  soc_part eps index state n lower upper v
  = push_all v (moved (fun j => soc_keep eps (st j) (dense lower j) (dense upper j)) ix
      (pairs (fun j => soc_val eps (st j) (dense lower j) (dense upper j)) (zrange n))).
Proof.
  intros Hq Hn Wl Dl Wu Du. unfold soc_part.
  match goal with |- context [rfold ?f (vent lower, vent upper, v)] => set (F := f) end.
  set (P := fun j => soc_keep eps (st j) (dense lower j) (dense upper j)).
  set (h := fun j => soc_val eps (st j) (dense lower j) (dense upper j)).
  rewrite <- (loop_pairs P ix h (fun v j => if P j then vec_push v (ix j) (h j) else Ok v)) by reflexivity.
  assert (G : forall m v, 0 <= m <= n ->
    match rfold (fun v j => if P j then vec_push v (ix j) (h j) else Ok v) v (zrange m) with
    | Ok r => exists a b, rfold F (vent lower, vent upper, v) (zrange m) = Ok (a, b, r)
        /\ (forall i, m <= i -> drop_lt i a = drop_lt i (vent lower) /\ drop_lt i b = drop_lt i (vent upper))
    | Err e => rfold F (vent lower, vent upper, v) (zrange m) = Err e
    | Trap => rfold F (vent lower, vent upper, v) (zrange m) = Trap
    end).
  { intros m v0 [Hm0 Hm]. revert Hm. pattern m. apply natlike_ind; [| |exact Hm0].
    - intros _. cbn. exists (vent lower), (vent upper). auto.
    - clear m Hm0. intros m Hm0 IH Hm. rewrite <- Z.add_1_r in *. specialize (IH ltac:(lia)).
      rewrite zrange_succ, !rfold_app by exact Hm0.
      destruct (rfold (fun v j => if P j then vec_push v (ix j) (h j) else Ok v) v0 (zrange m)) as [r|e|].
      2, 3: rewrite IH; reflexivity.
      destruct IH as (a & b & Er & Hab). rewrite Er. cbn [rbind rfold]. unfold F at 1 2 3.
      destruct (Hq m ltac:(lia)) as (E1 & E2 & H3). rewrite E1, E2. cbn [rbind].
      destruct (Hab m ltac:(lia)) as [Ha Hb]. rewrite Ha, Hb, !head_at_dense by assumption.
      assert (Hd : forall i, m + 1 <= i -> drop_lt i (drop_lt m (vent lower)) = drop_lt i (vent lower) /\ drop_lt i (drop_lt m (vent upper)) = drop_lt i (vent upper))
        by (intros i Hi; rewrite !drop_lt_drop_lt by lia; auto).
      unfold P, h, soc_keep, soc_val, soc_item. destruct (st m); cbn [active negb andb].
      + cbn [rbind]. eexists _, _. split; [reflexivity|auto].
      + destruct (is_zero (dense lower m) eps); cbn [negb rbind]; [eexists _, _; split; [reflexivity|auto]|].
        destruct (vec_push r (ix m) (dense lower m)); cbn [rbind]; [eexists _, _; split; [reflexivity|auto]|reflexivity|reflexivity].
      + destruct (is_zero (dense upper m) eps); cbn [negb rbind]; [eexists _, _; split; [reflexivity|auto]|].
        destruct (vec_push r (ix m) (dense upper m)); cbn [rbind]; [eexists _, _; split; [reflexivity|auto]|reflexivity|reflexivity].
      + cbn [rbind]. destruct (vec_push r (ix m) (dense upper m)); cbn [rbind]; [eexists _, _; split; [reflexivity|auto]|reflexivity|reflexivity]. }
  specialize (G n v ltac:(lia)). destruct (rfold (fun v j => if P j then vec_push v (ix j) (h j) else Ok v) v (zrange n)) as [r|e|].
  - destruct G as (a & b & E & _). rewrite E. reflexivity.
  - rewrite G. reflexivity.
  - rewrite G. reflexivity.
Qed.
End Rhs.
