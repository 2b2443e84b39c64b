(** The restoration of multipliers and working set over exact arithmetic: initial arrays, the three
    corrections, the stored result. *)
From Coq Require Import Reals Lra.
From Flocq Require Import Core.
From Verif Require Import Base Num Cmp Sparse Vec VecFacts VecFacts2 VecFacts3 VecReal RSum Mat MatFacts MatFacts2 MatFacts3 MatFacts4 Arr
  WorkingSet WorkingSetFacts Feas OptFacts Problem Preproc PreprocFacts PreprocTrans Restore RestoreFacts RestoreLoops RestoreReal.
Local Open Scope R_scope.

Lemma stat_at_real (jac : @mat RN) cs (g y z : rvec) j : stores jac cs -> wf y -> vdim y = mnr jac -> (0 <= j < mnc jac)%Z ->
  stat_at cs g y z j = sumd (mnr jac) (fun i => mR cs i j * dense y i) + dense z j + dense g j.
Proof.
  intros Hs Wy Dy Hj. unfold stat_at. destruct (nth_col _ _ j Hs Hj) as [_ Hk].
  assert (E : @spdot RN (vent y) (nth (Z.to_nat j) cs []) n0 = sumd (mnr jac) (fun i => mR cs i j * dense y i)).
  { destruct Wy as (D0 & Hy & Hcap). assert (Hy' : sorted_in 0 (mnr jac) (keys (vent y))) by (rewrite <- Dy; exact Hy).
    rewrite <- (dot_loop_spdot (length (vent y) + length (nth (Z.to_nat j) cs [])) _ _ _ 0 0 (mnr jac)); auto.
    rewrite (dot_loop_sum _ _ _ _ 0 0 (mnr jac)); auto. rewrite rn_n0, Rplus_0_l.
    transitivity (esum (vent y) (fun i x => x * mR cs i j)).
    - apply esum_ext. intros i x _. unfold mR, mdense, mget. rewrite oval_rn. reflexivity.
    - rewrite esum_vec; [|split; auto|intros; lra]. rewrite Dy. apply sumd_ext. intros i _. lra. }
  rewrite E. unfold oadd, dense. rewrite !oval_rn. cbn [nadd RN]. destruct (get (vent z) j), (get (vent g) j); lra.
Qed.

Lemma set_from_raw_ok (c : rvec) (a : list R) n f : wf c -> arr a n f -> (0 <= n)%Z ->
  exists v, @vec_set_from_raw RN c a (0 : @num RN) = Ok v /\ wf v /\ vdim v = n /\ forall i, (0 <= i < n)%Z -> dense v i = f i.
Proof.
  intros Hw Ha Hn. destruct (vec_set_from_raw_spec c a (0 : @num RN) Hw) as (v & E & _). exists v. split; [exact E|].
  exact (set_from_raw_real c a n f v Hw Ha Hn E).
Qed.

Section Main.
Variables (nv ng nl : Z) (kv kc : Z -> bool).
Hypotheses (Hnv : (0 <= nv)%Z) (Hng : (0 <= ng)%Z) (Hnl : (0 <= nl)%Z).
Let nvr := (nv - Z.of_nat (length (dropped kv nv)))%Z.
Let nlr := (nl - Z.of_nat (length (dropped kc nl)))%Z.
Let nc := (ng + nl)%Z.

Lemma nvr_pos : (0 <= nvr)%Z.
Proof. unfold nvr. rewrite <- kept_length by exact Hnv. lia. Qed.
Lemma nlr_pos : (0 <= nlr)%Z.
Proof. unfold nlr. rewrite <- kept_length by exact Hnl. lia. Qed.

(** Values of kept items, [d] elsewhere. *)
Definition liftv {A} (d : A) (f : Z -> A) (j : Z) : A := if kv j then f (posn kv nv j) else d.
Definition liftc {A} (d : A) (f : Z -> A) (i : Z) : A :=
  if (i <? ng)%Z then f i else if kc (i - ng) then f (ng + posn kc nl (i - ng))%Z else d.

Lemma states_ok (s : @pst RN) t f g : (forall j, (0 <= j < nv)%Z -> keep_var s j = Ok (kv j)) -> (forall i, (0 <= i < nl)%Z -> keep_cons s i = Ok (kc i)) ->
  (forall j, (0 <= j < nvr)%Z -> ws_var_state t j = Ok (f j)) -> (forall i, (0 <= i < ng + nlr)%Z -> ws_cons_state t i = Ok (g i)) ->
  exists vs cs, prepare_working_set s nv ng nl t = Ok (vs, cs) /\ arr vs nv (liftv Inactive f) /\ arr cs nc (liftc Inactive g).
Proof.
  intros Kv Kc Hf Hg. unfold prepare_working_set.
  destruct (lift_states_spec nv 0 nv (keep_var s) kv (ws_var_state t) (fun j => f (posn kv nv j)) (repeat Inactive (Z.to_nat nv)) (fun _ => Inactive)) as (vs & E1 & A1); auto; try lia.
  { apply arr_repeat; lia. }
  { intros j Hj Hk. rewrite Z.add_0_l. apply Hf. now apply posn_range. }
  rewrite E1. cbn [rbind].
  destruct (copy_states_spec ng nc (ws_cons_state t) g (repeat Inactive (Z.to_nat (ng + nl))) (fun _ => Inactive)) as (c1 & E2 & A2); [unfold nc; lia|apply arr_repeat; unfold nc; lia| |].
  { intros i Hi. apply Hg. pose proof nlr_pos. lia. }
  rewrite E2. cbn [rbind].
  destruct (lift_states_spec nl ng nc (keep_cons s) kc (ws_cons_state t) (fun i => g (ng + posn kc nl i)%Z) c1 _ Hnl Hng ltac:(unfold nc; lia) A2 Kc) as (cs & E3 & A3).
  { intros i Hi Hk. apply Hg. pose proof (posn_range kc nl i Hi Hk). fold nlr in H. lia. }
  rewrite E3. cbn [rbind]. exists vs, cs. split; [reflexivity|]. split.
  - eapply arr_ext; [exact A1|]. intros j Hj. cbv beta. unfold liftv. rewrite Z.add_0_l, Z.sub_0_r. destruct (Z.leb_spec 0 j); [|lia]. destruct (Z.ltb_spec j nv); [|lia]. reflexivity.
  - eapply arr_ext; [exact A3|]. intros i Hi. cbv beta. unfold liftc. unfold nc in Hi. destruct (Z.leb_spec ng i), (Z.ltb_spec i (ng + nl)), (Z.ltb_spec i ng); try lia; cbn [andb]; try reflexivity.
Qed.

Lemma duals_ok (vd cd : rvec) : wf vd -> vdim vd = nvr -> wf cd -> vdim cd = (ng + nlr)%Z ->
  exists z y, @prepare_duals RN nv ng nl (filter kv (zrange nv)) (filter kc (zrange nl)) vd cd = Ok (z, y)
    /\ arr z nv (liftv 0 (dense vd)) /\ arr y nc (liftc 0 (dense cd)).
Proof.
  intros (Zv & Sv & _) Dv (Zc & Sc & _) Dc. unfold prepare_duals.
  destruct (@scatter_spec R (arr_get (filter kv (zrange nv))) (fun j => if kv j then Some (posn kv nv j) else None) nv (vent vd) (repeat (@n0 RN) (Z.to_nat nv)) (fun _ => @n0 RN)) as (z & E1 & A1).
  { apply arr_repeat; lia. }
  { exact (sorted_in_NoDup _ _ _ Sv). }
  { intros e He. pose proof (sorted_in_In _ _ _ _ Sv He) as Hr. rewrite Dv in Hr. destruct (posn_surj kv nv e Hnv Hr) as (j & Hj & Kj & <-). exists j. split; [now apply map_at|]. split; [exact Hj|]. now rewrite Kj. }
  { intros j e Hj Hs He. destruct (kv j) eqn:Kj; [|discriminate]. injection Hs as <-. now apply map_at. }
  rnum. rewrite E1. cbn [rbind].
  set (tgt := fun e => if (e <? ng)%Z then Ok e else i <- arr_get (filter kc (zrange nl)) (e - ng) ;; Ok (ng + i)%Z).
  destruct (@scatter_spec R tgt (fun i => if (i <? ng)%Z then Some i else if kc (i - ng) then Some (ng + posn kc nl (i - ng))%Z else None) nc (vent cd) (repeat (@n0 RN) (Z.to_nat nc)) (fun _ => @n0 RN)) as (y & E2 & A2).
  { apply arr_repeat; unfold nc; lia. }
  { exact (sorted_in_NoDup _ _ _ Sc). }
  { intros e He. pose proof (sorted_in_In _ _ _ _ Sc He) as Hr. rewrite Dc in Hr. unfold tgt. destruct (Z.ltb_spec e ng).
    - exists e. split; [reflexivity|]. split; [unfold nc; lia|]. destruct (Z.ltb_spec e ng); [reflexivity|lia].
    - destruct (posn_surj kc nl (e - ng) Hnl ltac:(fold nlr; lia)) as (i & Hi & Ki & Pi). exists (ng + i)%Z. rewrite <- Pi, map_at by auto. cbn [rbind]. split; [reflexivity|]. split; [unfold nc; lia|].
      destruct (Z.ltb_spec (ng + i) ng); [lia|]. replace (ng + i - ng)%Z with i by lia. rewrite Ki, Pi. f_equal. lia. }
  { intros i e Hi Hs He. unfold tgt. unfold nc in Hi. destruct (Z.ltb_spec i ng).
    - injection Hs as <-. destruct (Z.ltb_spec i ng); [reflexivity|lia].
    - destruct (kc (i - ng)) eqn:Ki; [|discriminate]. injection Hs as <-. pose proof (posn_range kc nl (i - ng) ltac:(lia) Ki). destruct (Z.ltb_spec (ng + posn kc nl (i - ng)) ng); [lia|].
      replace (ng + posn kc nl (i - ng) - ng)%Z with (posn kc nl (i - ng)) by lia. rewrite map_at by (auto; lia). cbn [rbind]. f_equal. lia. }
  assert (E2' : rfold (fun a e => if (fst e <? ng)%Z then arr_set a (fst e) (snd e) else i <- arr_get (filter kc (zrange nl)) (fst e - ng) ;; arr_set a (ng + i)%Z (snd e)) (repeat (@n0 RN) (Z.to_nat (ng + nl))) (vent cd) = Ok y).
  { rewrite <- E2. apply rfold_ext. intros a [k x] _. unfold tgt. cbn [fst snd]. destruct (k <? ng)%Z; [reflexivity|]. destruct (arr_get (filter kc (zrange nl)) (k - ng)); reflexivity. }
  rnum. rewrite E2'. cbn [rbind]. exists z, y. split; [reflexivity|]. split.
  - eapply arr_ext; [exact A1|]. intros j Hj. cbv beta. unfold liftv, dense. destruct (kv j); [|apply rn_n0]. rewrite oval_rn. rewrite rn_n0. reflexivity.
  - eapply arr_ext; [exact A2|]. intros i Hi. cbv beta. unfold liftc, dense. destruct (i <? ng)%Z; [rewrite oval_rn, rn_n0; reflexivity|].
    destruct (kc (i - ng)); [|apply rn_n0]. rewrite oval_rn, rn_n0. reflexivity.
Qed.

Lemma sumd_liftc f : sumd nc (liftc 0 f) = sumd ng f + sumd nlr (fun i => f (ng + i)%Z).
Proof.
  unfold nc. rewrite sumd_split by assumption. f_equal.
  - apply sumd_ext. intros i Hi. unfold liftc. destruct (Z.ltb_spec i ng); [reflexivity|lia].
  - unfold nlr. rewrite <- (sumd_posn kc nl (fun i => f (ng + i)%Z) Hnl). apply sumd_ext. intros i Hi. unfold liftc.
    destruct (Z.ltb_spec (ng + i) ng); [lia|]. replace (ng + i - ng)%Z with i by lia. reflexivity.
Qed.

(** The residual at the lifted multipliers is that of the reduced problem. *)
Lemma lift_residual Jc Jr (g gr vd cd : Z -> R) j : (0 <= j < nv)%Z -> kv j = true -> gr (posn kv nv j) = g j ->
  (forall i, (0 <= i < ng)%Z -> mR Jr i (posn kv nv j) = mR Jc i j) ->
  (forall i, (0 <= i < nl)%Z -> kc i = true -> mR Jr (ng + posn kc nl i) (posn kv nv j) = mR Jc (ng + i) j) ->
  lagr ng nl Jc g (liftc 0 cd) (liftv 0 vd) j = lagr ng nlr Jr gr cd vd (posn kv nv j).
Proof.
  intros Hj Kj Hg H1 H2. unfold lagr. rewrite Hg. f_equal; [|unfold liftv; now rewrite Kj]. f_equal.
  rewrite (sumd_split ng nlr) by (auto using nlr_pos). fold nc. transitivity (sumd nc (liftc 0 (fun i => mR Jr i (posn kv nv j) * cd i))).
  - apply sumd_ext. intros i Hi. unfold nc in Hi. unfold liftc. destruct (Z.ltb_spec i ng).
    + rewrite H1 by lia. reflexivity.
    + destruct (kc (i - ng)) eqn:Ki; [|lra]. rewrite H2 by (auto; lia). replace (ng + (i - ng))%Z with i by lia. reflexivity.
  - apply sumd_liftc.
Qed.

Section Corrections.
Variables (Jc : list (list (Z * R))) (g vd cd : Z -> R) (f gs : Z -> ast).
Hypothesis Sv : forall j, (0 <= j < nvr)%Z -> sgn (f j) (vd j).
Hypothesis Sc : forall i, (0 <= i < ng + nlr)%Z -> sgn (gs i) (cd i).
Hypothesis Hcnt : (Z.of_nat (length (filter (fun j => active (f j)) (zrange nvr))) + Z.of_nat (length (filter (fun i => active (gs i)) (zrange (ng + nlr)))) <= nvr)%Z.
Let rem j := negb (kv j).
Let rho0 := lagr ng nl Jc g (liftc 0 cd) (liftv 0 vd).
Variable Pv : Z -> ast -> Prop.
Hypothesis PvI : forall j, Pv j Inactive.

Lemma F_init : F nv ng nl Jc g rem rho0 Pv (liftv Inactive f) (liftc Inactive gs) (liftv 0 vd) (liftc 0 cd) rho0 rem (fun i => negb (kc i)) (fun _ => 0) 0.
Proof.
  pose proof nvr_pos as Pnv. pose proof nlr_pos as Pnl. constructor.
  - intros j Hj. fold (rho0 j). lra.
  - intros j Hj. unfold liftv. destruct (kv j) eqn:Kj; [apply Sv; now apply posn_range|reflexivity].
  - intros i Hi. unfold liftc. destruct (Z.ltb_spec i ng); [apply Sc; lia|]. destruct (kc (i - ng)) eqn:Ki; [|reflexivity].
    apply Sc. pose proof (posn_range kc nl (i - ng) ltac:(lia) Ki). fold nlr in H0. lia.
  - intros j Hj Hr. unfold rem in Hr. apply negb_true_iff in Hr. unfold liftv, rem. rewrite Hr. auto.
  - intros i Hi Hp. apply negb_true_iff in Hp. unfold liftc. destruct (Z.ltb_spec (ng + i) ng); [lia|]. replace (ng + i - ng)%Z with i by lia. now rewrite Hp.
  - unfold phi. fold nc.
    assert (E1 : sumd nv (fun j => ind (active (liftv Inactive f j) || rem j)) = sumd nvr (fun j => ind (active (f j))) + IZR (Z.of_nat (length (dropped kv nv)))).
    { unfold dropped. rewrite ind_count by exact Hnv. unfold nvr. rewrite <- (sumd_posn kv nv (fun j => ind (active (f j))) Hnv). rewrite <- sumd_plus. apply sumd_ext.
      intros j Hj. unfold liftv, rem. destruct (kv j); cbn [negb ind active]; rewrite ?orb_true_r, ?orb_false_r; cbn [ind]; lra. }
    assert (E2 : sumd nc (fun i => ind (active (liftc Inactive gs i))) = sumd (ng + nlr) (fun i => ind (active (gs i)))).
    { rewrite (sumd_split ng nlr) by assumption. rewrite <- (sumd_liftc (fun i => ind (active (gs i)))). apply sumd_ext. intros i Hi. unfold liftc.
      destruct (i <? ng)%Z; [reflexivity|]. destruct (kc (i - ng)); reflexivity. }
    rewrite E1, E2. rewrite <- !ind_count by lia. rewrite <- !plus_IZR. apply IZR_le. unfold nvr in *. lia.
  - intros j Hj. rewrite andb_negb_r. reflexivity.
  - intros j Hj Hr. unfold liftv. unfold rem in Hr. apply negb_true_iff in Hr. rewrite Hr. apply PvI.
Qed.
End Corrections.
End Main.
