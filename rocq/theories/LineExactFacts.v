(** The exact line search in exact arithmetic. *)
From Coq Require Import Reals Lra FunctionalExtensionality Permutation Sorted.
From Verif Require Import Base Num Cmp Sparse Vec VecFacts RSum VecReal WorkingSet Feas MeritFacts QnReal
  SteihaugFacts LineSearch LineSearchFacts.
Local Open Scope R_scope.

(** Positive part of an affine function *)
Definition hinge (v d a : R) : R := Rmax (v + a * d) 0.

(** The piecewise linear function given by breakpoints *)
Fixpoint kinks (bps : list (@bp RN)) (a : R) : R :=
  match bps with [] => 0 | b :: l => b_change b * Rmax (a - b_point b) 0 + kinks l a end.

Lemma kinks_app l1 l2 a : kinks (l1 ++ l2) a = kinks l1 a + kinks l2 a.
Proof. induction l1 as [|b l1 IH]; cbn [app kinks]; [lra|]. rewrite IH. lra. Qed.
Lemma kinks_perm l1 l2 a : Permutation l1 l2 -> kinks l1 a = kinks l2 a.
Proof. induction 1; cbn [kinks]; lra. Qed.
Lemma kinks_before l a : (forall b, In b l -> a <= b_point b) -> kinks l a = 0.
Proof.
  induction l as [|b l IH]; cbn [kinks]; intros Hb; [reflexivity|]. rewrite IH by (intros; apply Hb; now right).
  specialize (Hb b (or_introl eq_refl)). rewrite Rmax_right by lra. lra.
Qed.

Definition pfun (s : @num RN * @num RN * list (@bp RN)) (a : R) : R :=
  fst (fst s) + a * snd (fst s) + kinks (snd s) a.
Definition bps_ok (l : list (@bp RN)) : Prop := forall b, In b l -> 0 <= b_point b <= 1.

Lemma add_bp_spec room bps (ch pt : R) : 0 <= pt -> bps_ok bps -> (Z.of_nat (length bps) < room)%Z ->
  exists bps', add_bp room bps (mkbp (ch : @num RN) (pt : @num RN)) = Ok bps' /\ bps_ok bps'
    /\ (length bps' <= S (length bps))%nat
    /\ forall a, 0 <= a <= 1 -> kinks bps' a = kinks bps a + ch * Rmax (a - pt) 0.
Proof.
  intros Hp Hb Hl. unfold add_bp. cbn [b_point b_change].
  assert (E : @nleb RN n0 pt = true) by (apply rn_leb; rewrite rn_n0; exact Hp). rewrite E. cbn [check rbind].
  destruct (@nleb RN pt n1) eqn:E1.
  - apply rn_leb in E1. rewrite rn_n1 in E1. destruct (Z.ltb_spec (Z.of_nat (length bps)) room) as [_|]; [|lia]. cbn [check rbind].
    eexists. split; [reflexivity|]. split; [|split].
    + intros b Hin. apply in_app_or in Hin. destruct Hin as [Hin|[<-|[]]]; auto.
    + rewrite app_length. cbn. lia.
    + intros a Ha. rewrite kinks_app. cbn [kinks b_change b_point]. lra.
  - apply rn_leb_false in E1. rewrite rn_n1 in E1. exists bps. split; [reflexivity|]. split; [exact Hb|]. split; [lia|].
    intros a Ha. rewrite Rmax_right by lra. lra.
Qed.

Lemma collect_one_spec room (v d : R) s : bps_ok (snd s) -> (Z.of_nat (length (snd s)) < room)%Z ->
  exists s', collect_one room (v : @num RN) (d : @num RN) s = Ok s' /\ bps_ok (snd s')
    /\ (length (snd s') <= S (length (snd s)))%nat
    /\ forall a, 0 <= a <= 1 -> pfun s' a = pfun s a + hinge v d a.
Proof.
  destruct s as [[vi sl] bps]. cbn [snd]. intros Hb Hl. unfold collect_one.
  assert (Ev : @nadd RN vi (nmax (v : @num RN) n0) = vi + Rmax v 0) by (rewrite rn_max, rn_n0; reflexivity). rewrite Ev.
  destruct (@nleb RN n0 v) eqn:E1.
  - apply rn_leb in E1. rewrite rn_n0 in E1. rewrite Rmax_left by exact E1. destruct (@nltb RN d n0) eqn:E2.
    + apply rn_ltb in E2. rewrite rn_n0 in E2. rewrite minus1_rn.
      change (@nmul RN (-1) d) with (-1 * d). change (@ndiv RN (@nmul RN (-1) v) d) with (-1 * v / d).
      assert (Hpt : 0 <= -1 * v / d).
      { replace (-1 * v / d) with (v * / - d) by (field; lra). apply Rmult_le_pos; [exact E1|]. apply Rlt_le, Rinv_0_lt_compat. lra. }
      destruct (add_bp_spec room bps (-1 * d) (-1 * v / d) Hpt Hb Hl) as (bps' & -> & H1 & H2 & H3). cbn [rbind].
      eexists. split; [reflexivity|]. split; [exact H1|]. split; [exact H2|]. intros a Ha. unfold pfun. cbn [fst snd].
      rewrite (H3 a Ha). unfold hinge. cbn [nadd RN].
      assert (Ed : a - -1 * v / d = (v + a * d) * / d) by (field; lra).
      destruct (Rle_dec 0 (v + a * d)) as [P|P].
      * rewrite (Rmax_left (v + a * d) 0) by exact P. rewrite Rmax_right.
        2: { rewrite Ed. replace ((v + a * d) * / d) with (- ((v + a * d) * / - d)) by (field; lra).
             assert (0 <= (v + a * d) * / - d) by (apply Rmult_le_pos; [exact P|]; apply Rlt_le, Rinv_0_lt_compat; lra). lra. }
        lra.
      * rewrite (Rmax_right (v + a * d)) by lra. rewrite Rmax_left.
        2: { rewrite Ed. replace ((v + a * d) * / d) with (- (v + a * d) * / - d) by (field; lra).
             apply Rmult_le_pos; [lra|]; apply Rlt_le, Rinv_0_lt_compat; lra. }
        rewrite Ed. field. lra.
    + apply rn_ltb_false in E2. rewrite rn_n0 in E2. cbn [rbind]. eexists. split; [reflexivity|]. split; [exact Hb|].
      split; [cbn; lia|]. intros a Ha. unfold pfun, hinge. cbn [fst snd nadd RN].
      rewrite Rmax_left; [lra|]. assert (0 <= a * d) by (apply Rmult_le_pos; lra). lra.
  - apply rn_leb_false in E1. rewrite rn_n0 in E1. rewrite Rmax_right by lra. destruct (@nltb RN n0 d) eqn:E2.
    + apply rn_ltb in E2. rewrite rn_n0 in E2. rewrite minus1_rn.
      change (@ndiv RN (@nmul RN (-1) v) d) with (-1 * v / d).
      assert (Hpt : 0 <= -1 * v / d).
      { apply Rmult_le_pos; [lra|]. apply Rlt_le, Rinv_0_lt_compat. lra. }
      destruct (add_bp_spec room bps d (-1 * v / d) Hpt Hb Hl) as (bps' & -> & H1 & H2 & H3). cbn [rbind].
      eexists. split; [reflexivity|]. split; [exact H1|]. split; [exact H2|]. intros a Ha. unfold pfun. cbn [fst snd].
      rewrite (H3 a Ha). unfold hinge.
      assert (Ed : a - -1 * v / d = (v + a * d) * / d) by (field; lra).
      assert (0 < / d) by (apply Rinv_0_lt_compat; lra).
      destruct (Rle_dec 0 (v + a * d)) as [P|P].
      * rewrite (Rmax_left (v + a * d) 0) by exact P. rewrite Rmax_left.
        2: { rewrite Ed. apply Rmult_le_pos; lra. }
        rewrite Ed. field. lra.
      * rewrite (Rmax_right (v + a * d)) by lra. rewrite Rmax_right; [lra|].
        rewrite Ed. assert (0 <= - (v + a * d) * / d) by (apply Rmult_le_pos; lra). lra.
    + apply rn_ltb_false in E2. rewrite rn_n0 in E2. cbn [rbind]. eexists. split; [reflexivity|]. split; [exact Hb|].
      split; [cbn; lia|]. intros a Ha. unfold pfun, hinge. cbn [fst snd].
      rewrite Rmax_right; [lra|]. assert (0 <= a * - d) by (apply Rmult_le_pos; lra). lra.
Qed.

Lemma sumd_one n f g k : (0 <= k < n)%Z -> (forall i, (0 <= i < n)%Z -> i <> k -> f i = g i) -> sumd n f = sumd n g + (f k - g k).
Proof.
  intros Hk Hf. rewrite (sumd_ext n f (fun i => g i + (if (k =? i)%Z then f k - g k else 0))).
  - rewrite sumd_plus. f_equal. apply rsum_delta. lia.
  - intros i Hi. destruct (Z.eqb_spec k i) as [<-|]; [lra|]. rewrite Hf by auto. lra.
Qed.

Notation ents := (list (Z * @num RN)).
Definition at_ (l : ents) (i : Z) : R := oval (get l i).

(** Every row that counts on the way is followed by an entry of both vectors. *)
Definition reached (dim : Z) (lv ld : ents) : Prop := forall i, (0 <= i < dim)%Z ->
  0 < at_ lv i \/ 0 < at_ lv i + at_ ld i ->
  (exists j, (i <= j)%Z /\ In j (keys lv)) /\ (exists j, (i <= j)%Z /\ In j (keys ld)).

Lemma hinge_off v d a : 0 <= a <= 1 -> v <= 0 -> v + d <= 0 -> hinge v d a = 0.
Proof. intros Ha H1 H2. unfold hinge. apply Rmax_right. nra. Qed.

Lemma at_none l i : get l i = None -> at_ l i = 0.
Proof. unfold at_. intros ->. cbn. unfold rn_lit. lra. Qed.

Lemma keys_advance_in i (l : ents) j : In j (keys l) -> j <> i -> In j (keys (advance i l)).
Proof.
  destruct l as [|[k x] l]; cbn; [tauto|]. intros [->|Hin] Hne.
  - destruct (Z.eqb_spec j i); [congruence|]. now left.
  - destruct (k =? i)%Z; cbn; auto.
Qed.

Lemma collect_loop_spec dim room : forall fuel k lv ld s, (0 <= k <= dim)%Z ->
  sorted_in k dim (keys lv) -> sorted_in k dim (keys ld) -> (length lv + length ld <= fuel)%nat ->
  reached dim lv ld -> bps_ok (snd s) -> (Z.of_nat (length (snd s)) + (dim - k) <= room)%Z ->
  exists s', collect_loop fuel dim room lv ld s = Ok s' /\ bps_ok (snd s')
    /\ (Z.of_nat (length (snd s')) <= Z.of_nat (length (snd s)) + (dim - k))%Z
    /\ forall a, 0 <= a <= 1 -> pfun s' a = pfun s a + sumd dim (fun i => hinge (at_ lv i) (at_ ld i) a).
Proof.
  induction fuel as [|fuel IH]; intros k lv ld s Hk Slv Sld Hf Hre Hb Hroom.
  - assert (lv = []) as -> by (destruct lv; [reflexivity|cbn in Hf; lia]).
    assert (ld = []) as -> by (destruct ld; [reflexivity|cbn in Hf; lia]).
    exists s. split; [reflexivity|]. split; [exact Hb|]. split; [lia|]. intros a Ha.
    rewrite sumd_zero; [lra|]. intros i Hi. rewrite !at_none by reflexivity. apply hinge_off; lra.
  - assert (Hdone : lv = [] \/ ld = [] -> forall a, 0 <= a <= 1 -> sumd dim (fun i => hinge (at_ lv i) (at_ ld i) a) = 0).
    { intros Hnil a Ha. apply sumd_zero. intros i Hi.
      assert (HN : ~ (0 < at_ lv i \/ 0 < at_ lv i + at_ ld i)).
      { intros P. destruct (Hre i Hi P) as [(j & _ & Hj) (j' & _ & Hj')]. destruct Hnil as [->| ->]; auto. }
      apply hinge_off; [exact Ha| |]; apply Rnot_lt_le; tauto. }
    cbn [collect_loop]. destruct lv as [|[i1 x1] lv'].
    { exists s. split; [reflexivity|]. split; [exact Hb|]. split; [lia|]. intros a Ha. rewrite Hdone by auto. lra. }
    destruct ld as [|[i2 x2] ld'].
    { exists s. split; [reflexivity|]. split; [exact Hb|]. split; [lia|]. intros a Ha. rewrite Hdone by auto. lra. }
    clear Hdone. set (lv := (i1, x1) :: lv') in *. set (ld := (i2, x2) :: ld') in *. set (i := min_head dim [lv; ld]).
    assert (R1 : (k <= i1 < dim)%Z) by (apply (sorted_in_In _ _ _ _ Slv); now left).
    assert (R2 : (k <= i2 < dim)%Z) by (apply (sorted_in_In _ _ _ _ Sld); now left).
    assert (Ei : i = Z.min i1 i2) by (unfold i, min_head, lv, ld; cbn; lia).
    assert (L1 : (i <= head_idx dim lv)%Z) by (cbn; lia). assert (L2 : (i <= head_idx dim ld)%Z) by (cbn; lia).
    rewrite (head_val_get k dim lv i Slv L1), (head_val_get k dim ld i Sld L2).
    fold (at_ lv i) (at_ ld i).
    destruct (collect_one_spec room (at_ lv i) (at_ ld i) s Hb ltac:(lia)) as (s1 & E1 & B1 & Le1 & F1).
    rewrite E1. cbn [rbind].
    assert (A1 : sorted_in (i + 1) dim (keys (advance i lv))) by (apply (advance_sorted k); auto).
    assert (A2 : sorted_in (i + 1) dim (keys (advance i ld))) by (apply (advance_sorted k); auto).
    assert (G : forall l, sorted_in k dim (keys l) -> (i <= head_idx dim l)%Z -> forall j, j <> i -> at_ (advance i l) j = at_ l j).
    { intros l Sl Hl j Hj. destruct (Z_lt_le_dec i j) as [Hlt|Hge].
      - unfold at_. now rewrite (advance_get k dim l i j Sl Hl Hlt).
      - rewrite !at_none; auto.
        + destruct l as [|[q y] l]; [reflexivity|]. cbn in Hl. apply (get_below q dim); [|lia]. cbn in Sl |- *. split; [lia|]. apply Sl.
        + apply (get_below (i + 1) dim); [|lia]. apply (advance_sorted k); auto. }
    assert (Z1 : at_ (advance i lv) i = 0) by (apply at_none, (get_below (i + 1) dim); auto; lia).
    assert (Z2 : at_ (advance i ld) i = 0) by (apply at_none, (get_below (i + 1) dim); auto; lia).
    destruct (IH (i + 1)%Z (advance i lv) (advance i ld) s1) as (s' & E' & B' & Le' & F'); auto.
    { lia. }
    { pose proof (total_len_advance_le i [lv; ld]) as T. cbn [total_len map fold_right] in T.
      assert (total_len (map (advance i) [lv; ld]) < total_len [lv; ld])%nat.
      { assert (i = i1 \/ i = i2) as [->| ->] by lia; apply total_len_advance_lt with (v := if (i1 <=? i2)%Z then x1 else x2) (t := if (i1 <=? i2)%Z then lv' else ld').
        - destruct (Z.leb_spec i1 i2); [left; reflexivity|lia].
        - destruct (Z.leb_spec i1 i2); [|right; left; reflexivity]. assert (i2 = i1) by lia. subst i2. left. reflexivity. }
      cbn [total_len map fold_right] in H. lia. }
    { intros j Hj P. assert (Hne : j <> i). { intros ->. rewrite Z1, Z2 in P. lra. }
      rewrite !G in P by auto. destruct (Hre j Hj P) as [(p & Hp & Ip) (q & Hq & Iq)].
      assert (Hgt : (i < j)%Z).
      { destruct (Z_lt_le_dec i j); auto. exfalso.
        assert (at_ lv j = 0) by (apply at_none, (get_below i1 dim); [|lia]; cbn in Slv |- *; split; [lia|apply Slv]).
        assert (at_ ld j = 0) by (apply at_none, (get_below i2 dim); [|lia]; cbn in Sld |- *; split; [lia|apply Sld]). lra. }
      split; [exists p|exists q]; (split; [assumption|]); apply keys_advance_in; auto; lia. }
    { lia. }
    exists s'. split; [exact E'|]. split; [exact B'|]. split; [lia|]. intros a Ha. rewrite (F' a Ha), (F1 a Ha).
    rewrite (sumd_one dim (fun j => hinge (at_ lv j) (at_ ld j) a) (fun j => hinge (at_ (advance i lv) j) (at_ (advance i ld) j) a) i).
    + rewrite Z1, Z2, (hinge_off 0 0) by lra. rnum. lra.
    + lia.
    + intros j Hj Hne. now rewrite !G.
Qed.

(** What is assumed of [qsort] *)
Definition sorts (sort : list (@bp RN) -> list (@bp RN)) : Prop :=
  forall l, Permutation (sort l) l /\ StronglySorted (fun a b => (b_point a : R) <= b_point b) (sort l).

(** Each row whose positive part is not zero on the whole interval has a nonzero value of both
    functions at or behind it. *)
Definition counted (nc : Z) (v d : Z -> R) : Prop := forall i, (0 <= i < nc)%Z -> 0 < v i \/ 0 < v i + d i ->
  (exists j, (i <= j < nc)%Z /\ v j <> 0) /\ (exists j, (i <= j < nc)%Z /\ d j <> 0).

Lemma at_dense (v : rvec) i : at_ (vent v) i = dense v i.
Proof. reflexivity. Qed.

Lemma dense_key (v : rvec) i : (dense v i : R) <> 0 -> In i (keys (vent v)).
Proof.
  intros Hne. destruct (in_dec Z.eq_dec i (keys (vent v))) as [|Hn]; auto. exfalso. apply Hne.
  rewrite <- at_dense. apply at_none, get_None, Hn.
Qed.

Lemma collect_spec nc room (v d : rvec) s : vok nc v -> vok nc d -> counted nc (dense v) (dense d) ->
  bps_ok (snd s) -> (Z.of_nat (length (snd s)) + nc <= room)%Z ->
  exists s', collect_breakpoints nc room v d s = Ok s' /\ bps_ok (snd s')
    /\ (Z.of_nat (length (snd s')) <= Z.of_nat (length (snd s)) + nc)%Z
    /\ forall a, 0 <= a <= 1 -> pfun s' a = pfun s a + sumd nc (fun i => hinge (dense v i) (dense d i) a).
Proof.
  intros [Wv Dv] [Wd Dd] Hco Hb Hr. destruct Wv as (V1 & V2 & V3), Wd as (D1 & D2 & D3).
  rewrite Dv in *. rewrite Dd in *.
  destruct (collect_loop_spec nc room (length (vent v) + length (vent d)) 0 (vent v) (vent d) s) as (s' & E & B & L & F); auto; try lia.
  - intros i Hi P. destruct (Hco i Hi P) as [(j & Hj & Nj) (q & Hq & Nq)].
    split; [exists j|exists q]; (split; [lia|]); now apply dense_key.
  - exists s'. split; [exact E|]. split; [exact B|]. split; [lia|exact F].
Qed.

Lemma rviol_split x l u : l <= u -> rviol x l u = Rmax (x - u) 0 + Rmax (l - x) 0.
Proof. intros. unfold rviol. unfold Rmax. repeat destruct (Rle_dec _ _); lra. Qed.

Lemma compute_breakpoints_spec n X sort (ccv cnj viol : rvec) maxb : ctx_ok n X -> sorts sort -> vok (lx_nc X) ccv -> vok (lx_nc X) cnj ->
  (0 <= vcap viol)%Z ->
  counted (lx_nc X) (fun i => dense ccv i - dense (lx_cub X) i) (dense cnj) ->
  counted (lx_nc X) (fun i => dense (lx_clb X) i - dense ccv i) (fun i => - dense cnj i) ->
  exists v0 sl bps cnj' viol' maxb', compute_breakpoints sort X ccv cnj viol maxb = Ok (v0, sl, bps, cnj', viol', maxb')
    /\ vok (lx_nc X) cnj' /\ vok (lx_nc X) viol'
    /\ bps_ok bps /\ (exists b, In b bps /\ b_point b = 1)
    /\ StronglySorted (fun a b => (b_point a : R) <= b_point b) bps
    /\ forall a, 0 <= a <= 1 -> pfun (v0, sl, bps) a
        = total_viol (lx_nc X) (lx_clb X) (lx_cub X) (fun i => dense ccv i + a * dense cnj i).
Proof.
  intros CX Hso Vc Vj Hcap K1 K2. unfold compute_breakpoints. set (nc := lx_nc X) in *.
  assert (Hnc : (0 <= nc)%Z). { destruct Vc as [W <-]. now destruct W. }
  rewrite (cx_zero _ _ CX), minus1_rn, rn_n1.
  set (mb := if (maxb <? 2 * nc + 1)%Z then (2 * nc + 1)%Z else maxb).
  assert (Hmb : (2 * nc + 1 <= mb)%Z) by (unfold mb; destruct (Z.ltb_spec maxb (2 * nc + 1)); lia).
  destruct (dense_lc nc ccv (lx_cub X) viol 1 (-1) Vc (cx_cub _ _ CX) Hcap) as (v1 & -> & V1 & D1). cbn [rbind].
  assert (E1 : dense v1 = fun i => dense ccv i - dense (lx_cub X) i).
  { rewrite D1. apply functional_extensionality. intros i. unfold lc. req. ring. }
  destruct (collect_spec nc mb v1 cnj (@n0 RN, @n0 RN, [])) as (s1 & -> & B1 & L1 & F1); auto.
  { now rewrite E1. } { intros b []. } { cbn [snd length]. lia. }
  cbn [rbind].
  destruct (dense_lc nc ccv (lx_clb X) v1 (-1) 1 Vc (cx_clb _ _ CX) (vok_cap _ _ V1)) as (v2 & -> & V2 & D2). cbn [rbind].
  assert (E2 : dense v2 = fun i => dense (lx_clb X) i - dense ccv i).
  { rewrite D2. apply functional_extensionality. intros i. unfold lc. req. ring. }
  destruct (scale_fun nc cnj (-1) Vj) as [Vs Ds].
  assert (E3 : dense (vec_scale cnj (-1 : @num RN)) = fun i => - dense cnj i).
  { rewrite Ds. apply functional_extensionality. intros i. req. ring. }
  destruct (collect_spec nc mb v2 (vec_scale cnj (-1 : @num RN)) s1) as (s2 & -> & B2 & L2 & F2); auto.
  { rewrite E2, E3. exact K2. } { cbn [snd length] in L1. lia. }
  cbn [rbind snd length] in *. destruct s2 as [[v0 sl] bps]. cbn [snd] in *.
  destruct (Z.ltb_spec (Z.of_nat (length bps)) mb) as [_|]; [|lia]. cbn [check rbind].
  destruct (Hso (bps ++ [mkbp (@n0 RN) (@n1 RN)])) as [Pe So].
  rewrite rn_n1 in *. 
  eexists _, _, _, _, _, _. split; [reflexivity|]. split; [exact Vs|]. split; [exact V2|]. split; [|split; [|split; [exact So|]]].
  - intros b Hb. apply (Permutation_in _ Pe) in Hb. apply in_app_or in Hb. destruct Hb as [Hb|[<-|[]]]; [now apply B2|].
    cbn [b_point]. rewrite ?rn_n1. lra.
  - exists (mkbp (@n0 RN) (1 : @num RN)). split; [|reflexivity]. apply (Permutation_in _ (Permutation_sym Pe)), in_or_app. right. now left.
  - intros a Ha. unfold pfun. cbn [fst snd]. rewrite (kinks_perm _ _ a Pe), kinks_app. cbn [kinks b_change b_point].
    specialize (F2 a Ha). unfold pfun at 1 in F2. cbn [fst snd] in F2.
    assert (T : total_viol nc (lx_clb X) (lx_cub X) (fun i => dense ccv i + a * dense cnj i)
      = sumd nc (fun i => hinge (dense v1 i) (dense cnj i) a) + sumd nc (fun i => hinge (dense v2 i) (dense (vec_scale cnj (-1 : @num RN)) i) a)).
    { rewrite <- sumd_plus. unfold total_viol. apply sumd_ext. intros i Hi. rewrite rviol_split by (apply (cx_cle _ _ CX); exact Hi).
      rewrite E1, E2, E3. unfold hinge. rnum. f_equal; f_equal; ring. }
    rewrite T. rewrite (F1 a Ha) in F2. unfold pfun in F2. cbn [fst snd kinks] in F2. rewrite !rn_n0 in *. rnum. lra.
Qed.

(** ** The loop over the breakpoints *)
Section ExactLoop.
Variables (pen quad : R) (Q : R -> R).
Hypothesis Hpen : 0 <= pen.

Record xinv (rest : list (@bp RN)) (s : @xst RN) : Prop := {
  xi_last : 0 <= x_last s <= 1;
  xi_fun : forall a, x_last s <= a <= 1 ->
    Q a = x_off s + x_lin s * (a - x_last s) + / 2 * (quad * (a * a)) + pen * kinks rest a;
  xi_arg : 0 <= x_arg s <= x_last s;
  xi_min : x_min s = Q (x_arg s);
  xi_best : forall a, 0 <= a <= x_last s -> x_min s <= Q a }.

Lemma segment (off lin last cur m a : R) : last <= a <= cur ->
  let g a := off + lin * (a - last) + / 2 * (quad * (a * a)) in
  m <= g last -> m <= g cur -> (quad <> 0 -> last <= -1 * lin / quad <= cur -> m <= g (-1 * lin / quad)) -> m <= g a.
Proof.
  intros Ha g H1 H2 H3. unfold g in *. destruct (Rle_or_lt quad 0) as [Hq|Hq].
  - destruct (Req_dec last cur) as [E|E].
    { assert (a = last) by lra. subst a. exact H1. }
    assert (HL : 0 < cur - last) by lra.
    assert (0 <= - quad * ((a - last) * (cur - a))) by (apply Rmult_le_pos; [lra|apply Rmult_le_pos; lra]).
    assert (m * (cur - last) <= (off + lin * (a - last) + / 2 * (quad * (a * a))) * (cur - last)).
    { assert (m * (cur - a) <= (off + lin * (last - last) + / 2 * (quad * (last * last))) * (cur - a)) by (apply Rmult_le_compat_r; lra).
      assert (m * (a - last) <= (off + lin * (cur - last) + / 2 * (quad * (cur * cur))) * (a - last)) by (apply Rmult_le_compat_r; lra).
      nra. }
    now apply Rmult_le_reg_r with (cur - last).
  - set (z := -1 * lin / quad) in *. assert (Ez : lin = - quad * z) by (unfold z; field; lra).
    destruct (Rlt_le_dec z last) as [P|P].
    + eapply Rle_trans; [exact H1|]. rewrite Ez.
      assert (0 <= quad * ((a - last) * ((a - z) + (last - z)))) by (apply Rmult_le_pos; [lra|apply Rmult_le_pos; lra]). nra.
    + destruct (Rle_lt_dec z cur) as [P'|P'].
      * eapply Rle_trans; [apply H3; lra|]. rewrite Ez.
        assert (0 <= quad * ((a - z) * (a - z))) by (apply Rmult_le_pos; [lra|apply Rle_0_sqr]). nra.
      * eapply Rle_trans; [exact H2|]. rewrite Ez.
        assert (0 <= quad * ((cur - a) * ((z - a) + (z - cur)))) by (apply Rmult_le_pos; [lra|apply Rmult_le_pos; lra]). nra.
Qed.

Lemma exact_body_spec b rest s : xinv (b :: rest) s -> x_last s <= b_point b <= 1 ->
  (forall b', In b' rest -> (b_point b : R) <= b_point b') ->
  exists s', exact_body (pen : @num RN) (quad : @num RN) s b = Ok s' /\ xinv rest s' /\ x_last s' = b_point b.
Proof.
  intros [I1 I2 I3 I4 I5] Hb Hrest. destruct s as [off lin mn arg last]. cbn [x_off x_lin x_min x_arg x_last] in *.
  destruct b as [ch cur]. cbn [b_point b_change] in *.
  unfold exact_body. cbn [b_point b_change x_off x_lin x_min x_arg x_last].
  assert (E : @nleb RN last cur = true) by (apply rn_leb; apply Hb). rewrite E. cbn [check rbind]. clear E.
  rewrite minus1_rn, half_rn.
  set (g := fun a : R => off + lin * (a - last) + / 2 * (quad * (a * a))).
  assert (Hg : forall a : R, (off + lin * (a - last) + / 2 * a * quad * a)%num = g a).
  { intros a. unfold g. req. cbn [nadd nmul nsub RN]. ring. }
  change (@ndiv RN (@nmul RN (-1) lin) quad) with (-1 * lin / quad).
  set (z := -1 * lin / quad).
  assert (Hseg : forall a, last <= a <= cur -> Q a = g a).
  { intros a Ha. rewrite I2 by lra. rewrite kinks_before; [unfold g; lra|].
    intros b [<-|Hin]; cbn [b_point]; [lra|]. specialize (Hrest b Hin). rnum. lra. }
  assert (Hst : exists mn1 arg1 : R,
    (if negb (@neqb RN quad n0) then
       if (@nleb RN last (z) && @nleb RN (z) cur && @nltb RN (off + lin * (z - last) + / 2 * (z) * quad * (z))%num mn)%bool
       then (((off + lin * (z - last) + / 2 * (z) * quad * (z))%num : @num RN), (z) : @num RN) else (mn, arg)
     else (mn, arg)) = (mn1 : @num RN, arg1 : @num RN)
    /\ mn1 <= mn /\ mn1 = Q arg1 /\ 0 <= arg1 <= cur /\ (quad <> 0 -> last <= z <= cur -> mn1 <= g (z))).
  { destruct (@neqb RN quad n0) eqn:Eq; cbn [negb].
    - apply rn_eqb in Eq. rewrite rn_n0 in Eq. exists mn, arg. split; [reflexivity|]. split; [lra|]. split; [exact I4|]. split; [lra|]. tauto.
    - apply rn_eqb_false in Eq. rewrite rn_n0 in Eq. rewrite Hg. destruct (@nleb RN last (z)) eqn:E1; cbn [andb].
      2: { apply rn_leb_false in E1. exists mn, arg. split; [reflexivity|]. split; [lra|]. split; [exact I4|]. split; [lra|]. intros _ ?. lra. }
      apply rn_leb in E1. destruct (@nleb RN (z) cur) eqn:E2; cbn [andb].
      2: { apply rn_leb_false in E2. exists mn, arg. split; [reflexivity|]. split; [lra|]. split; [exact I4|]. split; [lra|]. intros _ ?. lra. }
      apply rn_leb in E2. destruct (@nltb RN (g (z)) mn) eqn:E3.
      + apply rn_ltb in E3. exists (g (z)), (z). split; [reflexivity|]. split; [lra|].
        split; [symmetry; apply Hseg; lra|]. split; [lra|]. intros; lra.
      + apply rn_ltb_false in E3. exists mn, arg. split; [reflexivity|]. split; [lra|]. split; [exact I4|]. split; [lra|]. intros _ _. exact E3. }
  destruct Hst as (mn1 & arg1 & Est & M1 & M2 & M3 & M4).
  cbn [nadd nmul nsub RN] in Est |- *.
  rewrite Est. clear Est.
  assert (Hg' : off + lin * (cur - last) + / 2 * cur * quad * cur = g cur) by (unfold g; ring). rewrite Hg'.
  assert (Hst2 : exists mn2 arg2 : R, (if @nltb RN (g cur) mn1 then (g cur : @num RN, cur) else (mn1 : @num RN, arg1 : @num RN)) = (mn2 : @num RN, arg2 : @num RN)
    /\ mn2 <= mn1 /\ mn2 = Q arg2 /\ 0 <= arg2 <= cur /\ mn2 <= g cur).
  { destruct (@nltb RN (g cur) mn1) eqn:E3.
    - apply rn_ltb in E3. exists (g cur), cur. split; [reflexivity|]. split; [lra|]. split; [symmetry; apply Hseg; lra|]. split; lra.
    - apply rn_ltb_false in E3. exists mn1, arg1. split; [reflexivity|]. split; [lra|]. split; [exact M2|]. split; [lra|]. exact E3. }
  destruct Hst2 as (mn2 & arg2 & -> & P1 & P2 & P3 & P4).
  eexists. split; [reflexivity|]. split; [|reflexivity].
  constructor; cbn [x_off x_lin x_min x_arg x_last].
  - lra.
  - intros a Ha. rewrite I2 by lra. cbn [kinks b_change b_point]. rewrite Rmax_left by lra. rnum. ring.
  - exact P3.
  - exact P2.
  - intros a Ha. destruct (Rle_lt_dec a last) as [La|La].
    + specialize (I5 a ltac:(lra)). rnum. lra.
    + rewrite (Hseg a) by lra. apply (segment off lin last cur mn2 a); [lra| | |].
      * change (mn2 <= g last). rewrite <- Hseg by lra. specialize (I5 last ltac:(lra)). lra.
      * exact P4.
      * intros Q1 Q2. fold z in Q2 |- *. specialize (M4 Q1 Q2). change (mn2 <= g (z)). lra.
Qed.

Lemma exact_fold_spec bps : forall s, xinv bps s -> (forall b, In b bps -> x_last s <= b_point b <= 1) ->
  StronglySorted (fun a b => (b_point a : R) <= b_point b) bps ->
  exists s', rfold (exact_body (pen : @num RN) (quad : @num RN)) s bps = Ok s' /\ xinv [] s'
    /\ (forall b, In b bps -> (b_point b : R) <= x_last s').
Proof.
  induction bps as [|b bps IH]; intros s Is Hb So.
  - exists s. split; [reflexivity|]. split; [exact Is|]. intros b [].
  - inversion So as [|? ? So' Hf]; subst. rewrite Forall_forall in Hf. cbn [rfold].
    destruct (exact_body_spec b bps s Is (Hb b (or_introl eq_refl)) Hf) as (s1 & -> & I1 & E1). cbn [rbind].
    destruct (IH s1 I1) as (s' & E' & I' & L').
    + intros b' Hb'. rewrite E1. split; [now apply Hf|]. apply Hb. now right.
    + exact So'.
    + exists s'. split; [exact E'|]. split; [exact I'|].
      assert (Hlast : x_last s1 <= x_last s').
      { clear - E'. revert s1 E'. induction bps as [|b' l IHl]; intros s1 E.
        - injection E as <-. lra.
        - cbn [rfold] in E. destruct (exact_body _ _ s1 b') as [s2|?|] eqn:E2; try discriminate. cbn [rbind] in E.
          apply IHl in E. apply Rle_trans with (x_last s2); [|exact E]. unfold exact_body in E2.
          destruct (@nleb RN (x_last s1) (b_point b')) eqn:E3; [|discriminate]. cbn [check rbind] in E2.
          apply rn_leb in E3. repeat (match type of E2 with context [let '(_, _) := ?p in _] => destruct p end).
          injection E2 as <-. exact E3. }
      intros b' [<-|Hin]; [rewrite <- E1; exact Hlast|now apply L'].
Qed.
End ExactLoop.

Section ExactStep.
Variables (n : Z) (X : @lctx RN) (J H : (Z -> R) -> Z -> R) (c nw : @dirn RN).
Hypothesis CX : ctx_ok n X.
Hypothesis HJ : linear_map (lx_nc X) J.
Hypothesis HH : linear_map n H.
Hypothesis HS : self_adjoint n H.
Hypothesis Hc : dir_ok n X J H c.
Hypothesis Hn : dir_ok n X J H nw.
Notation C := (dense (d_primal c)).
Notation W := (dense (d_primal nw)).
Notation nc := (lx_nc X).
Notation G := (dense (lx_grad X)).
Notation cv := (dense (lx_cons X)).
Notation qb a := (qmerit n X J H (between c nw a)).

(** Value of the linearised constraints at the Cauchy point minus the upper bound, lower bound
    minus value, and the change of the value on the way to the Newton point. *)
Definition over (i : Z) : R := cv i + J C i - dense (lx_cub X) i.
Definition under (i : Z) : R := dense (lx_clb X) i - (cv i + J C i).
Definition change (i : Z) : R := J W i - J C i.

Lemma counted_ext v v' d d' : (forall i, (0 <= i < nc)%Z -> v i = v' i) -> (forall i, (0 <= i < nc)%Z -> d i = d' i) ->
  counted nc v d -> counted nc v' d'.
Proof.
  intros Ev Ed K i Hi P. rewrite <- Ev, <- Ed in P by auto. destruct (K i Hi P) as [(j & Hj & N1) (k & Hk & N2)].
  split; [exists j|exists k]; (split; [assumption|]).
  - rewrite <- Ev by lia. exact N1.
  - rewrite <- Ed by lia. exact N2.
Qed.

Lemma exact_step_spec sort r L : sorts sort -> caches_ok n nc L -> dir_room n X r ->
  counted nc over change -> counted nc under (fun i => - change i) ->
  exists t a L', exact_step sort X c nw r L = Ok (t, a : @num RN, qb a : @num RN, L')
    /\ caches_ok n nc L' /\ 0 <= a <= 1 /\ dir_ok n X J H t /\ dense (d_primal t) = between c nw a
    /\ forall a', 0 <= a' <= 1 -> qb a <= qb a'.
Proof.
  intros Hso CL Hr K1 K2. pose proof CX as CX'. destruct CX' as [Hn0 Vl Vu Hle Vcv Vvl Vvu Vx Vg Hpen Hz]. pose proof CL as [L1 L2 L3 L4 L5 L6 L7].
  unfold exact_step. rewrite Hz. unfold vec_add. rewrite minus1_rn, rn_n1, half_rn.
  destruct (dense_lc nc (lx_cons X) (d_cons c) (l_ccv L) 1 1 Vcv (do_c _ _ _ _ _ Hc) L3) as (ccv & -> & Vccv & Dccv). cbn [rbind].
  assert (Eccv : forall i, (0 <= i < nc)%Z -> dense ccv i = cv i + J C i).
  { intros i Hi. rewrite Dccv. unfold lc. rewrite (do_cons _ _ _ _ _ Hc i Hi). req. ring. }
  destruct (dense_lc n (d_primal nw) (d_primal c) (l_cnd L) 1 (-1) (do_p _ _ _ _ _ Hn) (do_p _ _ _ _ _ Hc) L6)
    as (cnd & -> & Vcnd & Dcnd). cbn [rbind].
  destruct (dense_lc nc (d_cons nw) (d_cons c) (l_cnj L) 1 (-1) (do_c _ _ _ _ _ Hn) (do_c _ _ _ _ _ Hc) L2)
    as (cnj & -> & Vcnj & Dcnj). cbn [rbind].
  assert (Ecnj : forall i, (0 <= i < nc)%Z -> dense cnj i = change i).
  { intros i Hi. rewrite Dcnj. unfold lc, change. rewrite (do_cons _ _ _ _ _ Hc i Hi), (do_cons _ _ _ _ _ Hn i Hi). req. ring. }
  rewrite (dot_fun n _ _ Vg (do_p _ _ _ _ _ Hc)). cbn [rbind].
  rewrite (dot_fun n _ _ (do_p _ _ _ _ _ Hc) (do_h _ _ _ _ _ Hc)). cbn [rbind].
  rewrite (dot_fun n _ _ Vg Vcnd). cbn [rbind].
  rewrite (dot_fun n _ _ Vcnd (do_h _ _ _ _ _ Hc)). cbn [rbind].
  rewrite (dot_fun n _ _ Vcnd (do_h _ _ _ _ _ Hn)). cbn [rbind].
  rewrite (dotd_eq n C _ _ (do_hess _ _ _ _ _ Hc)), (dotd_eq n (dense cnd) _ _ (do_hess _ _ _ _ _ Hc)), (dotd_eq n (dense cnd) _ _ (do_hess _ _ _ _ _ Hn)).
  rewrite Dcnd, !dot_lc_r, !dot_lc_l.
  assert (Ewc : dotd n W (H C) = dotd n C (H W)) by (rewrite <- (HS W C), (dotd_sym n (H W) C); reflexivity).
  rewrite Ewc.
  destruct (compute_breakpoints_spec n X sort ccv cnj (l_viol L) (l_max L) CX Hso Vccv Vcnj L4)
    as (v0 & sl & bps & cnj' & viol' & maxb' & -> & Vj' & Vv' & Bok & (b1 & Hb1 & Eb1) & So & F).
  { apply (counted_ext over _ change); auto.
    - intros i Hi. rewrite (Eccv i Hi). reflexivity.
    - intros i Hi. now rewrite (Ecnj i Hi). }
  { apply (counted_ext under _ (fun i => - change i)); auto.
    - intros i Hi. rewrite (Eccv i Hi). reflexivity.
    - intros i Hi. now rewrite (Ecnj i Hi). }
  cbn [rbind].
  match goal with |- context [rfold (exact_body _ ?q) (mkxst ?o ?l _ _ _) _] => set (quad := q); set (off := o); set (lin := l) end.
  assert (Eq : quad = dotd n W (H W) - 2 * dotd n C (H W) + dotd n C (H C)).
  { unfold quad. cbn [nadd nsub nmul RN]. rewrite !rn_n0. req. ring. }
  assert (Eo : off = lx_obj X + dotd n G C + / 2 * dotd n C (H C) + lx_pen X * v0).
  { unfold off. cbn [nadd nsub nmul RN]. rewrite !rn_n0. req. ring. }
  assert (El : lin = dotd n G W - dotd n G C + (dotd n C (H W) - dotd n C (H C)) + lx_pen X * sl).
  { unfold lin. cbn [nadd nsub nmul RN]. rewrite !rn_n0. req. ring. }
  assert (EQ : forall a, 0 <= a <= 1 -> qb a = off + lin * a + / 2 * (quad * (a * a)) + lx_pen X * kinks bps a).
  { intros a Ha. rewrite (qb_val n X J H c nw HJ HH HS), Eq, Eo, El. specialize (F a Ha).
    rewrite (total_viol_ext nc _ _ (fun i => cv i + (1 - a) * J C i + a * J W i) (fun i => dense ccv i + a * dense cnj i)).
    - rewrite <- F. unfold pfun. cbn [fst snd]. rnum. field.
    - intros i Hi. rewrite (Eccv i Hi), (Ecnj i Hi). unfold change. rnum. ring. }
  destruct (exact_fold_spec (lx_pen X) quad (fun a => qb a) bps (mkxst off lin off (@n0 RN) (@n0 RN))) as (s' & Es & I' & Hlast).
  { constructor; cbn [x_off x_lin x_min x_arg x_last]; rewrite ?rn_n0.
    - lra.
    - intros a Ha. rewrite EQ by lra. rnum. ring.
    - lra.
    - rewrite EQ by lra. rewrite (kinks_before bps 0) by (intros b Hb; apply (Bok b Hb)). rnum. req. ring.
    - intros a Ha. assert (a = 0) by lra. subst a. rewrite EQ by lra. rewrite (kinks_before bps 0) by (intros b Hb; apply (Bok b Hb)). rnum. lra. }
  { intros b Hb. cbn [x_last]. rewrite rn_n0. now apply Bok. }
  { exact So. }
  rewrite Es. cbn [rbind]. specialize (Hlast b1 Hb1). rewrite Eb1 in Hlast. destruct I' as [J1 J2 J3 J4 J5].
  set (a := x_arg s') in *.
  destruct (dir_between n X J H c nw HJ HH Hc Hn a r Hr) as (t & Et & Vt & Dt).
  change (@nsub RN 1 a) with (1 - a). rewrite Et. cbn [rbind]. rewrite J4.
  exists t, a. eexists. split; [reflexivity|]. split; [|split; [|split; [exact Vt|split; [exact Dt|]]]].
  - constructor; cbn [l_point l_cnj l_ccv l_viol l_comb l_cnd l_mult]; auto; eapply vok_cap; eauto.
  - rnum. lra.
  - intros a' Ha'. rewrite <- J4. apply J5. rnum. lra.
Qed.
End ExactStep.
