(** Facts about the augmented system without constraints and the estimation of multipliers. *)
From Verif Require Import Base Num Cmp Sparse Vec VecFacts Order VecFacts2 Mat MatFacts MatFacts2 Arr WorkingSet WorkingSetFacts DualEst.
Local Open Scope Z_scope.

(** Working sets whose items are listed in increasing order, on the public queries. *)
Definition in_order (w : wset) : Prop := forall k l a b,
  0 <= k < l -> l < ws_size w -> ws_content w k = Ok a -> ws_content w l = Ok b -> a < b.

Section Loop.
Context {N : Num}.

Lemma sorted_in_keys_lt lo hi (l1 l2 : list (Z * num)) a b :
  sorted_in lo hi (keys (l1 ++ a :: l2)) -> In b l2 -> fst a < fst b.
Proof.
  intros Hs Hb. rewrite keys_app in Hs. cbn [keys map] in Hs. change (fst a :: map fst l2) with ([fst a] ++ keys l2) in Hs.
  rewrite app_assoc in Hs. apply sorted_in_app in Hs. destruct Hs as [_ Hs]. rewrite rev_app_distr in Hs. cbn [rev app] in Hs.
  assert (In (fst b) (keys l2)) by now apply in_map. apply (sorted_in_In _ _ _ _ Hs) in H. lia.
Qed.

(** Entries under new indices. *)
Definition moved (P : Z -> bool) (g : Z -> Z) (es : list (Z * num)) : list (Z * num) :=
  map (fun e => (g (fst e), snd e)) (filter (fun e => P (fst e)) es).

Lemma moved_sorted P g es lo hi lo' hi' : sorted_in lo hi (keys es) ->
  (forall i j, In i (keys es) -> In j (keys es) -> P i = true -> P j = true -> i < j -> g i < g j) ->
  (forall i, In i (keys es) -> P i = true -> lo' <= g i < hi') -> sorted_in lo' hi' (keys (moved P g es)).
Proof.
  unfold moved. revert lo lo'. induction es as [|[i x] es IH]; intros lo lo' Hs Hm Hr; [exact I|].
  cbn [keys map fst sorted_in] in Hs. destruct Hs as [Hi Hs]. cbn [filter fst].
  assert (Hlt : forall j, In j (keys es) -> i < j) by (intros j Hj; apply (sorted_in_In _ _ _ _ Hs) in Hj; lia).
  destruct (P i) eqn:E.
  - cbn [map keys fst snd sorted_in]. split; [apply Hr; [now left|exact E]|].
    apply (IH (i + 1) (g i + 1) Hs).
    + intros a b Ha Hb. apply Hm; now right.
    + intros a Ha Pa. split; [|apply Hr; [now right|exact Pa]].
      assert (g i < g a); [|lia]. apply Hm; auto; [now left|now right].
  - apply (IH (i + 1) lo' Hs).
    + intros a b Ha Hb. apply Hm; now right.
    + intros a Ha. apply Hr. now right.
Qed.

Lemma moved_length P g es : (length (moved P g es) <= length es)%nat.
Proof. unfold moved. rewrite map_length. apply filter_length_le. Qed.

Lemma moved_get P g es i : (forall a, In a (keys es) -> P a = true -> g a = g i -> a = i) -> P i = true ->
  get (moved P g es) (g i) = get es i.
Proof.
  unfold moved. induction es as [|[k x] es IH]; intros Hinj Hi; [reflexivity|]. cbn [filter fst get].
  assert (IH' := IH (fun a Ha => Hinj a (or_intror Ha)) Hi). destruct (P k) eqn:E.
  - cbn [map get fst snd]. destruct (Z.eqb_spec (g k) (g i)) as [Eg|Ne].
    + apply Hinj in Eg; [|now left|exact E]. subst k. now rewrite Z.eqb_refl.
    + destruct (Z.eqb_spec k i); [congruence|exact IH'].
  - destruct (Z.eqb_spec k i); [congruence|exact IH'].
Qed.

Lemma moved_none P g es j : (forall a, In a (keys es) -> P a = true -> g a <> j) -> get (moved P g es) j = None.
Proof.
  intros H. apply get_None. unfold moved, keys. rewrite map_map. cbn [fst]. intros Hin. apply in_map_iff in Hin.
  destruct Hin as ([a x] & Ea & Ha). apply filter_In in Ha. destruct Ha as [Ha Pa]. cbn [fst] in *.
  apply (H a); [now apply (in_map fst) in Ha|exact Pa|exact Ea].
Qed.

Lemma move_loop (P : Z -> bool) (g : Z -> Z) (step : vec -> Z * num -> res vec) v es lo hi :
  (forall v e, In e es -> step v e = if P (fst e) then vec_push v (g (fst e)) (snd e) else Ok v) ->
  sorted_in lo hi (keys es) ->
  (forall i j, In i (keys es) -> In j (keys es) -> P i = true -> P j = true -> i < j -> g i < g j) ->
  (forall i, In i (keys es) -> P i = true -> 0 <= g i < vdim v) ->
  vent v = [] -> len es <= vcap v ->
  rfold step v es = Ok (mkvec (vdim v) (vcap v) (moved P g es)).
Proof.
  intros Hst Hs Hm Hr Hv Hc.
  assert (Hp : rfold step v es = push_all v (moved P g es)).
  { clear - Hst. revert v. induction es as [|[i x] es IH]; intros v; [reflexivity|]. cbn [rfold].
    rewrite Hst by now left. unfold moved. cbn [filter fst snd]. destruct (P i) eqn:E.
    - cbn [map]. unfold push_all. cbn [rfold fst snd]. destruct (vec_push v (g i) x); cbn [rbind]; try reflexivity.
      apply IH. intros v' e He. apply Hst. now right.
    - cbn [rbind]. apply IH. intros v' e He. apply Hst. now right. }
  rewrite Hp, push_all_ok.
  - now rewrite Hv.
  - rewrite Hv. cbn [app]. eapply moved_sorted; eassumption.
  - unfold vnnz. rewrite Hv. cbn [length]. pose proof (moved_length P g es). lia.
Qed.
End Loop.

(** ** Queries of consistent working sets *)
Section Queries.
Context (w : wset) (C : consistent w) (I : in_order w).

Definition cont (k : Z) : Z := match ws_content w k with Ok x => x | _ => 0 end.
Definition vix (j : Z) : Z := match ws_var_index w j with Ok k => k | _ => none end.
Definition cix (i : Z) : Z := match ws_cons_index w i with Ok k => k | _ => none end.
Definition vstate (j : Z) : ast := match ws_var_state w j with Ok s => s | _ => Inactive end.
Definition cstate (i : Z) : ast := match ws_cons_state w i with Ok s => s | _ => Inactive end.

Lemma cont_ok k : 0 <= k < ws_size w -> ws_content w k = Ok (cont k).
Proof. intros Hk. destruct (cs_content w C k Hk) as (it & _ & _ & E). unfold cont. now rewrite E. Qed.
Lemma cont_lt k l : 0 <= k < l -> l < ws_size w -> cont k < cont l.
Proof. intros H1 H2. apply (I k l); auto; apply cont_ok; lia. Qed.
Lemma cont_cases k : 0 <= k < ws_size w ->
  (0 <= cont k < wnv w /\ ws_var_index w (cont k) = Ok k) \/ (wnv w <= cont k < wnv w + wnc w /\ ws_cons_index w (cont k - wnv w) = Ok k).
Proof.
  intros Hk. destruct (cs_content w C k Hk) as (it & Hr & Hi & E). unfold cont. rewrite E. destruct it as [j|i]; cbn in *.
  - left. auto.
  - right. split; [lia|]. replace (wnv w + i - wnv w) with i by lia. exact Hi.
Qed.

Lemma vix_ok j : 0 <= j < wnv w -> ws_var_index w j = Ok (vix j) /\ ws_var_state w j = Ok (vstate j) /\ (vstate j = Inactive <-> vix j = none).
Proof.
  intros Hj. destruct (cs_total w C (IVar j) Hj) as (s & k & E1 & E2 & H). cbn in *. unfold vix, vstate. rewrite E1, E2. auto.
Qed.
Lemma cix_ok i : 0 <= i < wnc w -> ws_cons_index w i = Ok (cix i) /\ ws_cons_state w i = Ok (cstate i) /\ (cstate i = Inactive <-> cix i = none).
Proof.
  intros Hj. destruct (cs_total w C (ICons i) Hj) as (s & k & E1 & E2 & H). cbn in *. unfold cix, cstate. rewrite E1, E2. auto.
Qed.
Lemma vix_cont j : 0 <= j < wnv w -> vix j <> none -> 0 <= vix j < ws_size w /\ cont (vix j) = j.
Proof.
  intros Hj Hn. destruct (cs_index w C (IVar j) (vix j) Hj) as [H1 H2]; [now apply vix_ok|exact Hn|].
  split; [exact H1|]. unfold cont. now rewrite H2.
Qed.
Lemma cix_cont i : 0 <= i < wnc w -> cix i <> none -> 0 <= cix i < ws_size w /\ cont (cix i) = wnv w + i.
Proof.
  intros Hj Hn. destruct (cs_index w C (ICons i) (cix i) Hj) as [H1 H2]; [now apply cix_ok|exact Hn|].
  split; [exact H1|]. unfold cont. now rewrite H2.
Qed.
Lemma vix_lt i j : 0 <= i < wnv w -> 0 <= j < wnv w -> vix i <> none -> vix j <> none -> i < j -> vix i < vix j.
Proof.
  intros Hi Hj Ni Nj H. destruct (vix_cont i Hi Ni) as [R1 E1]. destruct (vix_cont j Hj Nj) as [R2 E2].
  destruct (Z.lt_trichotomy (vix i) (vix j)) as [|[E|L]]; [assumption| |].
  - rewrite E in E1. lia.
  - pose proof (cont_lt (vix j) (vix i)). lia.
Qed.
Lemma vix_cont_id k : 0 <= k < ws_size w -> cont k < wnv w -> vix (cont k) = k.
Proof. intros Hk Hc. destruct (cont_cases k Hk) as [[_ E]|[? _]]; [|lia]. unfold vix. now rewrite E. Qed.
Lemma cix_cont_id k : 0 <= k < ws_size w -> wnv w <= cont k -> cix (cont k - wnv w) = k.
Proof. intros Hk Hc. destruct (cont_cases k Hk) as [[? _]|[_ E]]; [lia|]. unfold cix. now rewrite E. Qed.
End Queries.

Section Box.
Context {N : Num}.

Lemma cleared_reserve (v : vec) n : wf v -> 0 <= n ->
  exists v', vec_reserve (vec_clear v) n = Ok v' /\ wf v' /\ vdim v' = vdim v /\ vent v' = [] /\ n <= vcap v'.
Proof.
  intros Hw Hn. destruct (vec_reserve_spec (vec_clear v) n) as (v' & E & W & D & V & K); [|exact Hn|].
  - destruct Hw as (A & B & D). unfold wf, vec_clear, vnnz in *. cbn [vdim vcap vent length keys map sorted_in]. repeat split; auto; lia.
  - exists v'. auto.
Qed.

Lemma moved_wf (v : vec) P g es lo hi : 0 <= vdim v -> sorted_in lo hi (keys es) ->
  (forall i j, In i (keys es) -> In j (keys es) -> P i = true -> P j = true -> i < j -> g i < g j) ->
  (forall i, In i (keys es) -> P i = true -> 0 <= g i < vdim v) -> len es <= vcap v ->
  wf (mkvec (vdim v) (vcap v) (moved P g es)).
Proof.
  intros H0 Hs Hm Hr Hc. split; [exact H0|]. split; [eapply moved_sorted; eassumption|].
  unfold vnnz. cbn [vent vcap]. pose proof (moved_length P g es). lia.
Qed.

Lemma get_out (v : vec) i : wf v -> ~ 0 <= i < vdim v -> get (vent v) i = None.
Proof.
  intros (_ & Hs & _) Hi. apply get_None. intros Hin. apply (sorted_in_In _ _ _ _ Hs) in Hin. lia.
Qed.

(** What the three functions compute, for any arithmetic. *)
Lemma box_min_norm_spec w rhs sol : consistent w -> in_order w -> wnc w = 0 -> wf rhs -> vdim rhs = ws_size w ->
  wf sol -> vdim sol = wnv w ->
  exists x, box_min_norm (wnv w) w rhs sol = Ok x /\ wf x /\ vdim x = wnv w
    /\ forall j, 0 <= j < wnv w -> get (vent x) j = if vix w j =? none then None else get (vent rhs) (vix w j).
Proof.
  intros C I Hc Hr Dr Hs Ds. unfold box_min_norm. rewrite Dr, Ds, !Z.eqb_refl. cbn [check rbind].
  destruct (cleared_reserve sol (vnnz rhs) Hs ltac:(unfold vnnz; lia)) as (v & E & Wv & Dv & Vv & Kv). rewrite E. cbn [rbind].
  pose proof Hr as (Hr0 & Hrs & _).
  assert (Hin : forall k, In k (keys (vent rhs)) -> 0 <= k < ws_size w) by (intros k Hk; apply (sorted_in_In _ _ _ _ Hrs) in Hk; lia).
  assert (Hcs : forall k, 0 <= k < ws_size w -> 0 <= cont w k < wnv w) by (intros k Hk; destruct (cont_cases w C k Hk) as [[? _]|[? _]]; lia).
  assert (H1 : forall i j, In i (keys (vent rhs)) -> In j (keys (vent rhs)) -> true = true -> true = true -> i < j -> cont w i < cont w j)
    by (intros i j Hi Hj _ _ Hij; apply (cont_lt w C I); apply Hin in Hi; apply Hin in Hj; lia).
  assert (H2 : forall i, In i (keys (vent rhs)) -> true = true -> 0 <= cont w i < vdim v) by (intros i Hi _; rewrite Dv, Ds; auto).
  rewrite (move_loop (fun _ => true) (cont w) _ v (vent rhs) 0 (vdim rhs)); auto.
  - eexists. split; [reflexivity|]. split; [|split].
    + eapply (moved_wf v (fun _ => true)); eauto. rewrite Dv. apply Hs.
    + cbn [vdim]. congruence.
    + cbn [vent]. intros j Hj. destruct (Z.eqb_spec (vix w j) none) as [En|En].
      * apply moved_none. intros a Ha _ Ea. apply Hin in Ha. destruct (cont_cases w C a Ha) as [[_ H]|[H _]]; [|lia].
        rewrite Ea in H. unfold vix in En. rewrite H in En. unfold none in En. lia.
      * destruct (vix_cont w C j Hj En) as [R1 R2]. rewrite <- R2 at 1. apply (moved_get (fun _ => true) (cont w)); [|reflexivity].
        intros a Ha _ Ea. apply Hin in Ha. rewrite R2 in Ea. rewrite <- (vix_cont_id w C a Ha); [now rewrite Ea|lia].
  - intros v' e He. rewrite (cont_ok w C); [reflexivity|]. apply Hin. now apply in_map.
Qed.

Lemma box_lsq_spec w rhs sol : consistent w -> in_order w -> wnc w = 0 -> wf rhs -> vdim rhs = wnv w ->
  wf sol -> vdim sol = ws_size w ->
  exists y, box_lsq (wnv w) w rhs sol = Ok y /\ wf y /\ vdim y = ws_size w
    /\ forall k, 0 <= k < ws_size w -> get (vent y) k = get (vent rhs) (cont w k).
Proof.
  intros C I Hc Hr Dr Hs Ds. unfold box_lsq. rewrite Dr, Ds, !Z.eqb_refl. cbn [check rbind].
  destruct (cleared_reserve sol (vnnz rhs) Hs ltac:(unfold vnnz; lia)) as (v & E & Wv & Dv & Vv & Kv). rewrite E. cbn [rbind].
  pose proof Hr as (Hr0 & Hrs & _).
  assert (Hin : forall k, In k (keys (vent rhs)) -> 0 <= k < wnv w) by (intros k Hk; apply (sorted_in_In _ _ _ _ Hrs) in Hk; lia).
  set (P := fun j => negb (vix w j =? none)).
  assert (HP : forall j, P j = true -> vix w j <> none) by (intros j; unfold P; destruct (Z.eqb_spec (vix w j) none); [discriminate|auto]).
  assert (H1 : forall i j, In i (keys (vent rhs)) -> In j (keys (vent rhs)) -> P i = true -> P j = true -> i < j -> vix w i < vix w j)
    by (intros i j Hi Hj Pi Pj Hij; apply (vix_lt w C I); auto).
  assert (H2 : forall i, In i (keys (vent rhs)) -> P i = true -> 0 <= vix w i < vdim v).
  { intros i Hi Pi. rewrite Dv, Ds. apply (vix_cont w C); auto. }
  rewrite (move_loop P (vix w) _ v (vent rhs) 0 (vdim rhs)); auto.
  - eexists. split; [reflexivity|]. split; [|split].
    + eapply (moved_wf v P); eauto. rewrite Dv. apply Hs.
    + cbn [vdim]. congruence.
    + cbn [vent]. intros k Hk. destruct (cont_cases w C k Hk) as [[R1 R2]|[R1 _]]; [|lia].
      assert (Ev : vix w (cont w k) = k) by (apply (vix_cont_id w C); lia).
      rewrite <- Ev at 1. apply moved_get.
      * intros a Ha Pa Ea. rewrite Ev in Ea. apply Hin in Ha. destruct (vix_cont w C a Ha (HP a Pa)) as [_ R3]. now rewrite Ea in R3.
      * unfold P. rewrite Ev. unfold none. destruct (Z.eqb_spec k (-1)); [lia|reflexivity].
  - intros v' e He. destruct (vix_ok w C (fst e)) as (E1 & _ & _); [apply Hin; now apply in_map|]. rewrite E1. cbn [rbind]. reflexivity.
Qed.

Lemma box_project_spec w rhs sol : consistent w -> wf rhs -> vdim rhs = wnv w -> wf sol -> vdim sol = wnv w ->
  exists x, box_project (wnv w) w rhs sol = Ok x /\ wf x /\ vdim x = wnv w
    /\ forall j, 0 <= j < wnv w -> get (vent x) j = if vix w j =? none then get (vent rhs) j else None.
Proof.
  intros C Hr Dr Hs Ds. unfold box_project. rewrite Dr, Ds, !Z.eqb_refl. cbn [check rbind].
  destruct (cleared_reserve sol (vnnz rhs) Hs ltac:(unfold vnnz; lia)) as (v & E & Wv & Dv & Vv & Kv). rewrite E. cbn [rbind].
  pose proof Hr as (Hr0 & Hrs & _).
  assert (Hin : forall k, In k (keys (vent rhs)) -> 0 <= k < wnv w) by (intros k Hk; apply (sorted_in_In _ _ _ _ Hrs) in Hk; lia).
  set (P := fun j => vix w j =? none).
  assert (H2 : forall i, In i (keys (vent rhs)) -> P i = true -> 0 <= i < vdim v) by (intros i Hi _; rewrite Dv, Ds; auto).
  rewrite (move_loop P (fun j => j) _ v (vent rhs) 0 (vdim rhs)); auto.
  - eexists. split; [reflexivity|]. split; [|split].
    + eapply (moved_wf v P (fun j => j)); eauto. rewrite Dv. apply Hs.
    + cbn [vdim]. congruence.
    + cbn [vent]. intros j Hj. fold (P j). destruct (P j) eqn:Ep.
      * apply (moved_get P (fun j => j)); auto.
      * apply moved_none. intros a Ha Pa ->. congruence.
  - intros v' e He. destruct (vix_ok w C (fst e)) as (E1 & _ & _); [apply Hin; now apply in_map|]. rewrite E1. cbn [rbind]. reflexivity.
Qed.
End Box.

(** ** Multipliers estimated by least squares *)
Section Est.
Context {N : Num}.

(** Values kept and values counted as clipped for a state. *)
Definition kept (s : ast) (v : num) : bool :=
  match s with ActUpper => (n0 <? v)%num | ActLower => (v <? n0)%num | ActBoth => true | Inactive => false end.
Definition dropped (s : ast) (v : num) : bool :=
  match s with ActUpper => (v <? n0)%num | ActLower => (n0 <? v)%num | _ => false end.

Lemma clip_dual_spec s dual c i v : s <> Inactive ->
  clip_dual s dual c i v =
    if kept s v then (d <- vec_push dual i v ;; Ok (d, c)) else Ok (dual, if dropped s v then c + 1 else c).
Proof.
  intros Hs. unfold clip_dual. rewrite (proj2 (active_iff s) Hs). cbn [check rbind].
  destruct s; [congruence| | |]; cbn [kept dropped ast_eqb check rbind].
  - destruct (v <? n0)%num; [reflexivity|]. now destruct (n0 <? v)%num.
  - destruct (n0 <? v)%num; [reflexivity|]. now destruct (v <? n0)%num.
  - reflexivity.
Qed.

Context (w : wset) (C : consistent w) (I : in_order w).
Let nv := wnv w.
Definition is_var (k : Z) : bool := cont w k <? wnv w.
Definition vkept (e : Z * num) : bool := kept (vstate w (cont w (fst e))) (snd e).
Definition ckept (e : Z * num) : bool := kept (cstate w (cont w (fst e) - wnv w)) (snd e).
Definition vdrop (e : Z * num) : bool := is_var (fst e) && (negb (vkept e) && dropped (vstate w (cont w (fst e))) (snd e)).
Definition cdrop (e : Z * num) : bool := negb (is_var (fst e)) && (negb (ckept e) && dropped (cstate w (cont w (fst e) - wnv w)) (snd e)).
Definition vpart (es : list (Z * num)) := moved is_var (cont w) (filter vkept es).
Definition cpart (es : list (Z * num)) := moved (fun k => negb (is_var k)) (fun k => cont w k - wnv w) (filter ckept es).

Lemma var_active k : 0 <= k < ws_size w -> is_var k = true -> 0 <= cont w k < nv /\ ws_var_state w (cont w k) = Ok (vstate w (cont w k)) /\ vstate w (cont w k) <> Inactive.
Proof.
  unfold is_var. intros Hk Hv. apply Z.ltb_lt in Hv. destruct (cont_cases w C k Hk) as [[H1 H2]|[H1 _]]; [|lia].
  destruct (vix_ok w C (cont w k) H1) as (E1 & E2 & E3). split; [exact H1|]. split; [exact E2|].
  rewrite (vix_cont_id w C k Hk Hv) in E3. unfold none in E3. intros H. apply E3 in H. lia.
Qed.
Lemma cons_active k : 0 <= k < ws_size w -> is_var k = false -> 0 <= cont w k - nv < wnc w
  /\ ws_cons_state w (cont w k - nv) = Ok (cstate w (cont w k - nv)) /\ cstate w (cont w k - nv) <> Inactive.
Proof.
  unfold is_var. intros Hk Hv. apply Z.ltb_ge in Hv. destruct (cont_cases w C k Hk) as [[H1 H2]|[H1 _]]; [lia|].
  destruct (cix_ok w C (cont w k - nv) ltac:(unfold nv; lia)) as (E1 & E2 & E3). split; [unfold nv; lia|]. split; [exact E2|].
  unfold nv in *. rewrite (cix_cont_id w C k Hk Hv) in E3. unfold none in E3. intros H. apply E3 in H. lia.
Qed.

Lemma est_loop es : (forall k, In k (keys es) -> 0 <= k < ws_size w) -> forall c v cc cv c' v',
  push_all c (cpart es) = Ok c' -> push_all v (vpart es) = Ok v' ->
  rfold (est_body nv w) (mkest c v cc cv) es = Ok (mkest c' v' (cc + len (filter cdrop es)) (cv + len (filter vdrop es))).
Proof.
  induction es as [|[k x] es IH]; intros Hk c v cc cv c' v' Pc Pv.
  - cbn in *. injection Pc as ->. injection Pv as ->. cbn [rfold filter length]. now rewrite !Z.add_0_r.
  - assert (Hk0 : 0 <= k < ws_size w) by (apply Hk; now left).
    assert (Hk' : forall k, In k (keys es) -> 0 <= k < ws_size w) by (intros a Ha; apply Hk; now right).
    cbn [rfold]. unfold est_body at 1. cbn [fst snd e_cons e_vars e_ccons e_cvars].
    rewrite (cont_ok w C k Hk0). cbn [rbind]. fold (is_var k).
    change (cont w k <? nv) with (is_var k).
    unfold cpart in Pc. unfold vpart in Pv. cbn [filter] in *. unfold vdrop at 1, cdrop at 1. cbn [fst snd].
    destruct (is_var k) eqn:Ev; cbn [andb negb].
    + destruct (var_active k Hk0 Ev) as (R & E & Hs). rewrite E. cbn [rbind]. rewrite clip_dual_spec by exact Hs.
      assert (Pc' : push_all c (cpart es) = Ok c').
      { unfold cpart. destruct (ckept (k, x)); [|exact Pc]. unfold moved in *. cbn [filter fst] in Pc. rewrite Ev in Pc. exact Pc. }
      change (vkept (k, x)) with (kept (vstate w (cont w k)) x) in *.
      destruct (kept (vstate w (cont w k)) x) eqn:Ek; cbn [negb andb].
      * unfold moved in Pv. cbn [filter fst] in Pv. rewrite Ev in Pv. cbn [map fst snd] in Pv. unfold push_all in Pv. cbn [rfold fst snd] in Pv.
        destruct (vec_push v (cont w k) x) as [v1| |]; try discriminate Pv. cbn [rbind fst snd] in *.
        apply (IH Hk' c v1 cc cv c' v' Pc' Pv).
      * cbn [rbind fst snd]. rewrite (IH Hk' c v cc _ c' v' Pc' Pv). destruct (dropped (vstate w (cont w k)) x); cbn [length]; do 2 f_equal; lia.
    + destruct (cons_active k Hk0 Ev) as (R & E & Hs). rewrite E. cbn [rbind]. rewrite clip_dual_spec by exact Hs.
      assert (Pv' : push_all v (vpart es) = Ok v').
      { unfold vpart. destruct (vkept (k, x)); [|exact Pv]. unfold moved in *. cbn [filter fst] in Pv. rewrite Ev in Pv. exact Pv. }
      change (ckept (k, x)) with (kept (cstate w (cont w k - nv)) x) in *. fold nv.
      destruct (kept (cstate w (cont w k - nv)) x) eqn:Ek; cbn [negb andb].
      * unfold moved in Pc. cbn [filter fst] in Pc. rewrite Ev in Pc. cbn [negb map fst snd] in Pc. unfold push_all in Pc. cbn [rfold fst snd] in Pc.
        fold nv in Pc. destruct (vec_push c (cont w k - nv) x) as [c1| |]; try discriminate Pc. cbn [rbind fst snd] in *.
        apply (IH Hk' c1 v cc cv c' v' Pc Pv').
      * cbn [rbind fst snd]. rewrite (IH Hk' c v _ cv c' v' Pc Pv'). destruct (dropped (cstate w (cont w k - nv)) x); cbn [length]; do 2 f_equal; lia.
Qed.

(** The number of wrong signs, counted over variables or constraints. *)
Definition wrong_at (s : ast) (k : Z) (y : vec) : bool :=
  match get (vent y) k with Some v => negb (kept s v) && dropped s v | None => false end.

Lemma filter_count (P : Z * num -> bool) (g h : Z -> Z) n (Q : Z -> bool) (es : list (Z * num)) lo hi :
  sorted_in lo hi (keys es) ->
  (forall k x, In (k, x) es -> P (k, x) = true -> 0 <= g k < n /\ Q (g k) = true /\ h (g k) = k) ->
  (forall j, 0 <= j < n -> Q j = true -> exists x, In (h j, x) es /\ P (h j, x) = true /\ g (h j) = j) ->
  len (filter P es) = len (filter Q (zrange n)).
Proof.
  intros Hs H1 H2. f_equal. apply Nat.le_antisymm.
  - rewrite <- (map_length (fun e => g (fst e)) (filter P es)). apply NoDup_incl_length.
    + apply (NoDup_map_inv h). rewrite map_map.
      rewrite (map_ext_in _ fst).
      * pose proof (sorted_in_filter_keys P fst lo hi es Hs) as Hf. now apply sorted_in_NoDup in Hf.
      * intros [k x] He. apply filter_In in He. destruct He as [He Hp]. cbn [fst]. apply (H1 k x He Hp).
    + intros j Hj. apply in_map_iff in Hj. destruct Hj as ([k x] & <- & He). apply filter_In in He. destruct He as [He Hp].
      cbn [fst]. destruct (H1 k x He Hp) as (A & B & _). apply filter_In. split; [now apply zrange_In|exact B].
  - rewrite <- (map_length fst (filter P es)).
    rewrite <- (map_length h (filter Q (zrange n))). apply NoDup_incl_length.
    + apply (NoDup_map_inv g). rewrite map_map. rewrite (map_ext_in _ (fun j => j)).
      * rewrite map_id. pose proof (sorted_filter Q (zrange n) 0 n (zrange_sorted n)) as Hf. now apply sorted_in_NoDup in Hf.
      * intros j Hj. apply filter_In in Hj. destruct Hj as [Hj Hq]. apply zrange_In in Hj. destruct (H2 j Hj Hq) as (x & _ & _ & E). exact E.
    + intros k Hk. apply in_map_iff in Hk. destruct Hk as (j & <- & Hj). apply filter_In in Hj. destruct Hj as [Hj Hq]. apply zrange_In in Hj.
      destruct (H2 j Hj Hq) as (x & A & B & _). apply in_map_iff. exists (h j, x). split; [reflexivity|]. now apply filter_In.
Qed.

Lemma est_lsq_spec lsq grad neg_grad sol cons_dual vars_dual y neg :
  wf grad -> vdim grad = nv -> wf neg_grad -> vdim neg_grad = nv -> wf sol ->
  wf cons_dual -> vdim cons_dual = wnc w -> wf vars_dual -> vdim vars_dual = nv ->
  (forall s, wf s -> vdim s = ws_size w -> vec_copy grad neg_grad = Ok neg -> lsq (vec_scale neg (nlit (-1) 1)) s = Ok y) ->
  vec_copy grad neg_grad = Ok neg ->
  wf y -> vdim y = ws_size w ->
  exists e, est_lsq nv w lsq grad neg_grad sol cons_dual vars_dual = Ok e
    /\ (wf (e_vars e) /\ vdim (e_vars e) = nv) /\ (wf (e_cons e) /\ vdim (e_cons e) = wnc w)
    /\ (forall j, 0 <= j < nv -> get (vent (e_vars e)) j =
          match get (vent y) (vix w j) with Some v => if kept (vstate w j) v then Some v else None | None => None end)
    /\ (forall i, 0 <= i < wnc w -> get (vent (e_cons e)) i =
          match get (vent y) (cix w i) with Some v => if kept (cstate w i) v then Some v else None | None => None end)
    /\ e_cvars e = len (filter (fun j => wrong_at (vstate w j) (vix w j) y) (zrange nv))
    /\ e_ccons e = len (filter (fun i => wrong_at (cstate w i) (cix w i) y) (zrange (wnc w))).
Proof.
  intros Hg Dg Hn Dn Hs Hc Dc Hv Dv Hl Hneg Hy Dy. unfold est_lsq.
  destruct (cs_bound w C) as [B1 B2].
  destruct (vec_resize_spec sol (ws_size w) Hs) as (s1 & E1 & W1 & D1 & _); [unfold ws_size; lia|]. rewrite E1. cbn [rbind].
  rewrite Hneg. cbn [rbind]. rewrite (Hl s1 W1 D1 Hneg). cbn [rbind].
  destruct (vec_reserve_spec cons_dual (vnnz y) Hc) as (c1 & Ec & Wc & Dc1 & Vc & Kc); [unfold vnnz; lia|]. rewrite Ec. cbn [rbind].
  destruct (vec_reserve_spec vars_dual (vnnz y) Hv) as (v1 & Ev & Wv & Dv1 & Vv & Kv); [unfold vnnz; lia|]. rewrite Ev. cbn [rbind].
  pose proof Hy as (Hy0 & Hys & Hyc).
  assert (Hin : forall k, In k (keys (vent y)) -> 0 <= k < ws_size w) by (intros k Hk; apply (sorted_in_In _ _ _ _ Hys) in Hk; lia).
  assert (Hsf : forall P, sorted_in 0 (vdim y) (keys (filter P (vent y)))) by (intros P; apply (sorted_in_filter_keys P fst 0 (vdim y)); exact Hys).
  assert (Hinf : forall P k, In k (keys (filter P (vent y))) -> 0 <= k < ws_size w) by (intros P k Hk; apply (sorted_in_In _ _ _ _ (Hsf P)) in Hk; lia).
  assert (Sv : sorted_in 0 nv (keys (vpart (vent y)))).
  { eapply moved_sorted; [apply Hsf| |].
    - intros i j Hi Hj _ _ Hij. apply (cont_lt w C I); apply Hinf in Hi; apply Hinf in Hj; lia.
    - intros i Hi Pi. apply Hinf in Hi. apply (var_active i Hi Pi). }
  assert (Sc : sorted_in 0 (wnc w) (keys (cpart (vent y)))).
  { eapply moved_sorted; [apply Hsf| |].
    - intros i j Hi Hj _ _ Hij. pose proof (cont_lt w C I i j). apply Hinf in Hi; apply Hinf in Hj; lia.
    - intros i Hi Pi. apply Hinf in Hi. apply negb_true_iff in Pi. destruct (cons_active i Hi Pi) as (? & _). fold nv. lia. }
  assert (Lv : len (vpart (vent y)) <= vnnz y).
  { unfold vpart, vnnz. pose proof (moved_length is_var (cont w) (filter vkept (vent y))). pose proof (filter_length_le vkept (vent y)). lia. }
  assert (Lc : len (cpart (vent y)) <= vnnz y).
  { unfold cpart, vnnz. pose proof (moved_length (fun k => negb (is_var k)) (fun k => cont w k - wnv w) (filter ckept (vent y))).
    pose proof (filter_length_le ckept (vent y)). lia. }
  assert (Pv : push_all (vec_clear v1) (vpart (vent y)) = Ok (mkvec (vdim v1) (vcap v1) (vpart (vent y)))).
  { rewrite push_all_ok; unfold vec_clear, vnnz in *; cbn [vdim vcap vent app length]; [reflexivity| |lia]. rewrite Dv1, Dv. exact Sv. }
  assert (Pc : push_all (vec_clear c1) (cpart (vent y)) = Ok (mkvec (vdim c1) (vcap c1) (cpart (vent y)))).
  { rewrite push_all_ok; unfold vec_clear, vnnz in *; cbn [vdim vcap vent app length]; [reflexivity| |lia]. rewrite Dc1, Dc. exact Sc. }
  rewrite (est_loop (vent y) Hin _ _ 0 0 _ _ Pc Pv). eexists. split; [reflexivity|]. cbn [e_vars e_cons e_cvars e_ccons].
  assert (H0 : 0 <= nv) by (rewrite <- Dg; apply Hg). assert (H0' : 0 <= wnc w) by lia.
  split; [split; [|cbn [vdim]; congruence]|].
  { unfold wf, vnnz in *. cbn [vdim vent vcap]. rewrite Dv1, Dv. split; [exact H0|]. split; [exact Sv|lia]. }
  split; [split; [|cbn [vdim]; congruence]|].
  { unfold wf, vnnz in *. cbn [vdim vent vcap]. rewrite Dc1, Dc. split; [exact H0'|]. split; [exact Sc|lia]. }
  assert (Gneg : forall k, ~ 0 <= k < ws_size w -> get (vent y) k = None) by (intros k Hk; apply get_out; [exact Hy|congruence]).
  split; [|split; [|split]].
  - intros j Hj. cbn [vent]. destruct (vix_ok w C j Hj) as (X1 & X2 & X3). destruct (Z.eq_dec (vix w j) none) as [En|En].
    + rewrite (Gneg (vix w j)) by (rewrite En; unfold none; lia). apply moved_none.
      intros a Ha Pa Ea. apply Hinf in Ha. unfold is_var in Pa. apply Z.ltb_lt in Pa.
      pose proof (vix_cont_id w C a Ha Pa). rewrite Ea in H. rewrite H in En. unfold none in En. lia.
    + destruct (vix_cont w C j Hj En) as [R1 R2]. unfold vpart. rewrite <- R2 at 1. rewrite moved_get.
      * rewrite (get_filter_pred _ 0 (vdim y)) by exact Hys. destruct (get (vent y) (vix w j)) as [v|]; [|reflexivity].
        unfold vkept. cbn [fst snd]. rewrite R2. reflexivity.
      * intros a Ha Pa Ea. apply Hinf in Ha. rewrite R2 in Ea. unfold is_var in Pa. apply Z.ltb_lt in Pa.
        rewrite <- (vix_cont_id w C a Ha Pa). now rewrite Ea.
      * unfold is_var. rewrite R2. apply Z.ltb_lt. apply Hj.
  - intros j Hj. cbn [vent]. destruct (cix_ok w C j Hj) as (X1 & X2 & X3). destruct (Z.eq_dec (cix w j) none) as [En|En].
    + rewrite (Gneg (cix w j)) by (rewrite En; unfold none; lia). apply moved_none.
      intros a Ha Pa Ea. apply Hinf in Ha. apply negb_true_iff in Pa. unfold is_var in Pa. apply Z.ltb_ge in Pa.
      pose proof (cix_cont_id w C a Ha Pa). rewrite Ea in H. rewrite H in En. unfold none in En. lia.
    + destruct (cix_cont w C j Hj En) as [R1 R2]. unfold cpart.
      pose proof (moved_get (fun k => negb (is_var k)) (fun k => cont w k - wnv w) (filter ckept (vent y)) (cix w j)) as Hm. cbv beta in Hm.
      replace (cont w (cix w j) - wnv w) with j in Hm by lia. rewrite Hm; clear Hm.
      * rewrite (get_filter_pred _ 0 (vdim y)) by exact Hys. destruct (get (vent y) (cix w j)) as [v|]; [|reflexivity].
        unfold ckept. cbn [fst snd]. rewrite R2. replace (wnv w + j - wnv w) with j by lia. reflexivity.
      * intros a Ha Pa Ea. apply Hinf in Ha. apply negb_true_iff in Pa. unfold is_var in Pa. apply Z.ltb_ge in Pa.
        rewrite <- (cix_cont_id w C a Ha Pa). replace (cont w a - wnv w) with j by lia. reflexivity.
      * unfold is_var. rewrite R2. apply negb_true_iff, Z.ltb_ge. lia.
  - rewrite Z.add_0_l. apply (filter_count vdrop (cont w) (vix w) nv _ (vent y) 0 (vdim y) Hys).
    + intros k x He Hp. unfold vdrop in Hp. cbn [fst snd] in Hp. apply andb_true_iff in Hp. destruct Hp as [P1 P2].
      assert (Hk : 0 <= k < ws_size w) by (apply Hin; now apply (in_map fst) in He).
      destruct (var_active k Hk P1) as (R & _). split; [exact R|].
      assert (Ei : vix w (cont w k) = k) by (apply (vix_cont_id w C k Hk); fold nv; lia).
      split; [|exact Ei]. unfold wrong_at. rewrite Ei. rewrite (In_get 0 (vdim y) (vent y) k x Hys He). exact P2.
    + intros j Hj Hq. unfold wrong_at in Hq. destruct (get (vent y) (vix w j)) as [v|] eqn:Eg; [|discriminate].
      destruct (Z.eq_dec (vix w j) none) as [En|En]; [rewrite Gneg in Eg; [discriminate|rewrite En; unfold none; lia]|].
      destruct (vix_cont w C j Hj En) as [R1 R2]. exists v. split; [now apply get_Some_In|]. split; [|exact R2].
      unfold vdrop, vkept, is_var. cbn [fst snd]. rewrite R2, Hq. rewrite (proj2 (Z.ltb_lt _ _)) by apply Hj. reflexivity.
  - rewrite Z.add_0_l. apply (filter_count cdrop (fun k => cont w k - wnv w) (cix w) (wnc w) _ (vent y) 0 (vdim y) Hys).
    + intros k x He Hp. unfold cdrop in Hp. cbn [fst snd] in Hp. apply andb_true_iff in Hp. destruct Hp as [P1 P2].
      assert (Hk : 0 <= k < ws_size w) by (apply Hin; now apply (in_map fst) in He). apply negb_true_iff in P1.
      destruct (cons_active k Hk P1) as (R & _). split; [exact R|].
      assert (Ei : cix w (cont w k - wnv w) = k) by (apply (cix_cont_id w C k Hk); unfold nv in R; lia).
      split; [|exact Ei]. unfold wrong_at. rewrite Ei. rewrite (In_get 0 (vdim y) (vent y) k x Hys He). exact P2.
    + intros j Hj Hq. unfold wrong_at in Hq. destruct (get (vent y) (cix w j)) as [v|] eqn:Eg; [|discriminate].
      destruct (Z.eq_dec (cix w j) none) as [En|En]; [rewrite Gneg in Eg; [discriminate|rewrite En; unfold none; lia]|].
      destruct (cix_cont w C j Hj En) as [R1 R2]. exists v. split; [now apply get_Some_In|]. split; [|lia].
      unfold cdrop, ckept, is_var. cbn [fst snd]. rewrite R2. replace (wnv w + j - wnv w) with j by lia. rewrite Hq.
      rewrite (proj2 (Z.ltb_ge _ _)) by lia. reflexivity.
Qed.
End Est.

(** ** Merging *)
Section Merge.
Context {N : Num}.

Definition no_zeros (es : list (Z * num)) : Prop := forall i x, In (i, x) es -> (x =? n0)%num = false.

Lemma merge_exists : forall n l1 l2 lo hi, (length l1 + length l2 <= n)%nat ->
  sorted_in lo hi (keys l1) -> sorted_in lo hi (keys l2) -> no_zeros l1 -> no_zeros l2 ->
  exists m, sorted_in lo hi (keys m)
    /\ (forall j, get m j = match get l1 j with Some x => Some x | None => get l2 j end)
    /\ forall dual, dual_merge_loop n hi l1 l2 dual = push_all dual m.
Proof.
  induction n as [|n IH]; intros l1 l2 lo hi Hn H1 H2 Z1 Z2.
  - destruct l1; [|cbn in Hn; lia]. destruct l2; [|cbn in Hn; lia]. exists []. split; [exact I|]. split; [reflexivity|]. reflexivity.
  - destruct l1 as [|[i x] t1], l2 as [|[j y] t2].
    + exists []. split; [exact I|]. split; reflexivity.
    + cbn [keys map fst sorted_in] in H2. destruct H2 as [Hj H2].
      destruct (IH [] t2 (j + 1) hi) as (m & Sm & Gm & Lm); [cbn in *; lia|exact I|exact H2|exact Z1|intros a b Hb; apply (Z2 a b); now right|].
      exists ((j, y) :: m). split; [split; [exact Hj|exact Sm]|]. split.
      * intros k. cbn [get]. destruct (j =? k); [reflexivity|]. now rewrite Gm.
      * intros dual. cbn [dual_merge_loop]. destruct (Z.leb_spec hi j); [lia|]. rewrite (Z2 j y) by now left. cbn [negb check rbind].
        replace (Z.min hi j) with j by lia. rewrite Z.eqb_refl. destruct (Z.eqb_spec j hi); [lia|].
        unfold push_all. cbn [rfold fst snd tl]. destruct (vec_push dual j y); cbn [rbind]; [apply Lm|reflexivity|reflexivity].
    + cbn [keys map fst sorted_in] in H1. destruct H1 as [Hi H1].
      destruct (IH t1 [] (i + 1) hi) as (m & Sm & Gm & Lm); [cbn in *; lia|exact H1|exact I|intros a b Hb; apply (Z1 a b); now right|exact Z2|].
      exists ((i, x) :: m). split; [split; [exact Hi|exact Sm]|]. split.
      * intros k. cbn [get]. destruct (i =? k); [reflexivity|]. now rewrite Gm.
      * intros dual. cbn [dual_merge_loop]. destruct (Z.leb_spec i hi); [|lia]. rewrite (Z1 i x) by now left. cbn [negb check rbind].
        replace (Z.min i hi) with i by lia. rewrite Z.eqb_refl. destruct (Z.eqb_spec i hi); [lia|].
        unfold push_all. cbn [rfold fst snd tl]. destruct (vec_push dual i x); cbn [rbind]; [apply Lm|reflexivity|reflexivity].
    + pose proof H1 as H1'. pose proof H2 as H2'.
      cbn [keys map fst sorted_in] in H1, H2. destruct H1 as [Hi H1]. destruct H2 as [Hj H2].
      cbn [length] in Hn.
      assert (Za : no_zeros t1) by (intros a b Hb; apply (Z1 a b); now right).
      assert (Zb : no_zeros t2) by (intros a b Hb; apply (Z2 a b); now right).
      destruct (Z.lt_trichotomy i j) as [Hij|[->|Hij]].
      * destruct (IH t1 ((j, y) :: t2) (i + 1) hi) as (m & Sm & Gm & Lm); [cbn [length]; lia|exact H1| |exact Za|exact Z2|].
        { cbn [keys map fst sorted_in]. split; [lia|exact H2]. }
        exists ((i, x) :: m). split; [split; [exact Hi|exact Sm]|]. split.
        -- intros k. cbn [get]. destruct (i =? k); [reflexivity|]. now rewrite Gm.
        -- intros dual. cbn [dual_merge_loop]. destruct (Z.leb_spec i j); [|lia]. rewrite (Z1 i x) by now left. cbn [negb check rbind].
           replace (Z.min i j) with i by lia. rewrite Z.eqb_refl. destruct (Z.eqb_spec i j); [lia|].
           unfold push_all. cbn [rfold fst snd tl]. destruct (vec_push dual i x); cbn [rbind]; [apply Lm|reflexivity|reflexivity].
      * destruct (IH t1 t2 (j + 1) hi) as (m & Sm & Gm & Lm); [lia|exact H1|exact H2|exact Za|exact Zb|].
        exists ((j, x) :: m). split; [split; [exact Hi|exact Sm]|]. split.
        -- intros k. cbn [get]. destruct (j =? k); [reflexivity|]. now rewrite Gm.
        -- intros dual. cbn [dual_merge_loop]. rewrite Z.leb_refl, (Z1 j x) by now left. cbn [negb check rbind].
           rewrite Z.min_id, Z.eqb_refl.
           unfold push_all. cbn [rfold fst snd tl]. destruct (vec_push dual j x); cbn [rbind]; [apply Lm|reflexivity|reflexivity].
      * destruct (IH ((i, x) :: t1) t2 (j + 1) hi) as (m & Sm & Gm & Lm); [cbn [length]; lia| |exact H2|exact Z1|exact Zb|].
        { cbn [keys map fst sorted_in]. split; [lia|exact H1]. }
        exists ((j, y) :: m). split; [split; [exact Hj|exact Sm]|]. split.
        -- intros k. cbn [get]. rewrite Gm. cbn [get]. destruct (Z.eqb_spec j k) as [->|]; [|reflexivity].
           destruct (Z.eqb_spec i k); [lia|]. rewrite (get_below (i + 1) hi t1 k H1) by lia. reflexivity.
        -- intros dual. cbn [dual_merge_loop]. destruct (Z.leb_spec i j); [lia|]. rewrite (Z2 j y) by now left. cbn [negb check rbind].
           replace (Z.min i j) with j by lia. rewrite Z.eqb_refl. destruct (Z.eqb_spec j i); [lia|].
           unfold push_all. cbn [rfold fst snd tl]. destruct (vec_push dual j y); cbn [rbind]; [apply Lm|reflexivity|reflexivity].
Qed.

Lemma dual_merge_spec lsq lp dual num_active : wf lsq -> wf lp -> wf dual -> vdim lsq = vdim lp -> vdim lsq = vdim dual ->
  no_zeros (vent lsq) -> no_zeros (vent lp) -> 0 <= num_active ->
  (forall l, NoDup l -> (forall j, In j l -> get (vent lsq) j <> None \/ get (vent lp) j <> None) -> len l <= num_active) ->
  exists d, dual_merge lsq num_active lp dual = Ok d /\ wf d /\ vdim d = vdim dual
    /\ forall j, get (vent d) j = match get (vent lsq) j with Some x => Some x | None => get (vent lp) j end.
Proof.
  intros W1 W2 W3 D1 D2 Z1 Z2 Hn Hcap. unfold dual_merge.
  destruct (cleared_reserve dual num_active W3 Hn) as (v & E & Wv & Dv & Vv & Kv). rewrite E. cbn [rbind].
  rewrite <- D1, Dv, <- D2, !Z.eqb_refl. cbn [check rbind].
  destruct (merge_exists (length (vent lsq) + length (vent lp)) (vent lsq) (vent lp) 0 (vdim lsq)) as (m & Sm & Gm & Lm); auto.
  { apply W1. } { rewrite D1. apply W2. }
  assert (Hlen : len m <= num_active).
  { rewrite <- keys_len. apply Hcap; [now apply sorted_in_NoDup in Sm|]. intros j Hj. apply get_In_key in Hj. destruct Hj as (x & Hx). rewrite Gm in Hx.
    destruct (get (vent lsq) j); [left; congruence|right; congruence]. }
  rewrite Lm, push_all_ok.
  - rewrite Vv. eexists. split; [reflexivity|]. cbn [app vdim vent vcap]. split; [|split; [congruence|exact Gm]].
    split; [apply Wv|]. cbn [vdim vent vcap]. rewrite Dv, <- D2. split; [exact Sm|]. unfold vnnz. cbn [vent]. lia.
  - rewrite Vv. cbn [app]. rewrite Dv, <- D2. exact Sm.
  - unfold vnnz. rewrite Vv. cbn [length]. lia.
Qed.

(** Active variables and constraints of consistent working sets are no more than counted. *)
Lemma active_vars_bound w : consistent w -> forall l, NoDup l ->
  (forall j, In j l -> 0 <= j < wnv w /\ vix w j <> none) -> len l <= wnav w.
Proof.
  intros C l Hn Hl. rewrite <- (map_length (vix w) l). destruct (cs_bound w C) as [B1 B2].
  replace (wnav w) with (Z.max 0 (wnav w)) by lia. apply NoDup_range_length.
  - apply (NoDup_map_inv (cont w)). rewrite map_map. rewrite (map_ext_in _ (fun j => j)); [now rewrite map_id|].
    intros j Hj. destruct (Hl j Hj) as [R1 R2]. apply (vix_cont w C j R1 R2).
  - intros k Hk. apply in_map_iff in Hk. destruct Hk as (j & <- & Hj). destruct (Hl j Hj) as [R1 R2].
    destruct (vix_cont w C j R1 R2) as [R3 _]. split; [lia|]. apply (cs_vars_first w C j); auto. now apply vix_ok.
Qed.
Lemma active_cons_bound w : consistent w -> forall l, NoDup l ->
  (forall i, In i l -> 0 <= i < wnc w /\ cix w i <> none) -> len l <= wnac w.
Proof.
  intros C l Hn Hl. rewrite <- (map_length (fun i => cix w i - wnav w) l). destruct (cs_bound w C) as [B1 B2].
  replace (wnac w) with (Z.max 0 (wnac w)) by lia. apply NoDup_range_length.
  - apply (NoDup_map_inv (fun k => cont w (k + wnav w) - wnv w)). rewrite map_map. rewrite (map_ext_in _ (fun j => j)); [now rewrite map_id|].
    intros j Hj. destruct (Hl j Hj) as [R1 R2]. replace (cix w j - wnav w + wnav w) with (cix w j) by lia.
    rewrite (proj2 (cix_cont w C j R1 R2)). lia.
  - intros k Hk. apply in_map_iff in Hk. destruct Hk as (j & <- & Hj). destruct (Hl j Hj) as [R1 R2].
    destruct (cix_cont w C j R1 R2) as [R3 _]. pose proof (cs_cons_last w C j (cix w j) R1 (proj1 (cix_ok w C j R1)) R2). unfold ws_size in R3. lia.
Qed.
End Merge.
