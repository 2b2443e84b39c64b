(** Restored multipliers over exact arithmetic: the invariant kept by the corrections of restore.c. *)
From Coq Require Import Reals Lra.
From Flocq Require Import Core.
From Verif Require Import Base Num Cmp Sparse Vec VecFacts VecFacts2 VecFacts3 VecReal RSum Mat MatFacts MatFacts2 MatFacts3 MatFacts4 Arr
  WorkingSet WorkingSetFacts Problem Preproc PreprocFacts PreprocReal Restore RestoreFacts RestoreLoops.
Local Open Scope R_scope.

(** Signs of multipliers. *)
Definition sgn (s : ast) (v : R) : Prop :=
  match s with Inactive => v = 0 | ActLower => v <= 0 | ActUpper => 0 <= v | ActBoth => True end.

Lemma sgn_supports s (v : R) : sgn s v <-> @state_supports RN s v = true.
Proof.
  destruct s; cbn [sgn state_supports]; rewrite ?rn_n0, ?negb_true_iff.
  - symmetry. apply rn_eqb.
  - symmetry. apply rn_ltb_false.
  - symmetry. apply rn_ltb_false.
  - tauto.
Qed.

Definition ind (b : bool) : R := if b then 1 else 0.

Lemma sumd_upd n f g k : (0 <= k < n)%Z -> (forall i, (0 <= i < n)%Z -> i <> k -> f i = g i) -> sumd n f = sumd n g + (f k - g k).
Proof.
  intros Hk H. unfold sumd. transitivity (rsum (Z.to_nat n) (fun i => g i + if (k =? i)%Z then f k - g k else 0)).
  - apply rsum_ext. intros i Hi. destruct (Z.eqb_spec k i) as [<-|Hne]; [lra|]. rewrite H by lia. lra.
  - rewrite rsum_plus, rsum_delta by lia. reflexivity.
Qed.

Lemma sumd_split a b f : (0 <= a)%Z -> (0 <= b)%Z -> sumd (a + b) f = sumd a f + sumd b (fun i => f (a + i)%Z).
Proof. intros Ha Hb. unfold sumd. rewrite Z2Nat.inj_add by lia. rewrite rsum_split. rewrite Z2Nat.id by lia. reflexivity. Qed.

Lemma ind_count (p : Z -> bool) n : (0 <= n)%Z -> IZR (Z.of_nat (length (filter p (zrange n)))) = sumd n (fun j => ind (p j)).
Proof.
  intros Hn. replace n with (Z.of_nat (Z.to_nat n)) by lia. generalize (Z.to_nat n) as k. clear. induction k as [|k IH]; [reflexivity|].
  replace (Z.of_nat (S k)) with (Z.of_nat k + 1)%Z by lia. rewrite zrange_succ, filter_app, app_length by lia. rewrite Nat2Z.inj_add, plus_IZR, IH.
  unfold sumd. replace (Z.to_nat (Z.of_nat k + 1)) with (S (Z.to_nat (Z.of_nat k))) by lia. cbn [rsum]. rewrite Z2Nat.id by lia.
  cbn [filter]. destruct (p (Z.of_nat k)); cbn; lra.
Qed.

Lemma sumd_posn (k : Z -> bool) n (f : Z -> R) : (0 <= n)%Z ->
  sumd n (fun j => if k j then f (posn k n j) else 0) = sumd (n - Z.of_nat (length (dropped k n))) f.
Proof.
  intros Hn.
  assert (G : forall t, (Z.of_nat t <= n)%Z -> (0 <= Z.of_nat t - count_lt (dropped k n) (Z.of_nat t))%Z
    /\ rsum t (fun j => if k j then f (posn k n j) else 0) = sumd (Z.of_nat t - count_lt (dropped k n) (Z.of_nat t)) f).
  { induction t as [|t IH]; intros Ht.
    - rewrite count_lt_none; [split; [lia|reflexivity]|]. intros x Hx. apply dropped_in in Hx. lia.
    - destruct IH as [I1 I2]; [lia|]. replace (Z.of_nat (S t)) with (Z.of_nat t + 1)%Z by lia. rewrite (count_lt_succ _ 0 n) by apply dropped_sorted.
      rewrite dropped_exists by lia. cbn [rsum]. destruct (k (Z.of_nat t)) eqn:Ek; cbn [negb].
      + split; [lia|]. rewrite I2. unfold sumd. replace (Z.to_nat (Z.of_nat t + 1 - (count_lt (dropped k n) (Z.of_nat t) + 0))) with (S (Z.to_nat (Z.of_nat t - count_lt (dropped k n) (Z.of_nat t)))) by lia.
        cbn [rsum]. rewrite Z2Nat.id by lia. reflexivity.
      + replace (Z.of_nat t + 1 - (count_lt (dropped k n) (Z.of_nat t) + 1))%Z with (Z.of_nat t - count_lt (dropped k n) (Z.of_nat t))%Z by lia. split; [lia|]. rewrite I2. lra. }
  specialize (G (Z.to_nat n) ltac:(lia)). rewrite Z2Nat.id in G by lia. destruct G as [_ G].
  rewrite (count_lt_all (dropped k n) n) in G; [exact G|]. intros x Hx. apply dropped_in in Hx. lia.
Qed.

Section Inv.
Variables (nv ng nl : Z) (Jc : list (list (Z * R))) (g : Z -> R).
Hypotheses (Hng : (0 <= ng)%Z) (Hnl : (0 <= nl)%Z) (Hnv : (0 <= nv)%Z).
Let nc := (ng + nl)%Z.
(** The gradient of the Lagrangian. *)
Definition lagr (y z : Z -> R) (j : Z) : R := g j + sumd nc (fun i => mR Jc i j * y i) + z j.

Variables (rem : Z -> bool) (rho0 : Z -> R) (Pv : Z -> ast -> Prop).
Hypothesis PvI : forall j, Pv j Inactive.

Definition phi (V C : Z -> ast) (todo : Z -> bool) : R :=
  sumd nv (fun j => ind (active (V j) || todo j)) + sumd nc (fun i => ind (active (C i))).

Record F (V C : Z -> ast) (z y rho : Z -> R) (todo prow : Z -> bool) (delta : Z -> R) (c : R) : Prop := {
  F_T : forall j, (0 <= j < nv)%Z -> lagr y z j = rho j + delta j;
  F_V : forall j, (0 <= j < nv)%Z -> sgn (V j) (z j);
  F_C : forall i, (0 <= i < nc)%Z -> sgn (C i) (y i);
  F_todo : forall j, (0 <= j < nv)%Z -> todo j = true -> V j = Inactive /\ rem j = true;
  F_prow : forall i, (0 <= i < nl)%Z -> prow i = true -> C (ng + i)%Z = Inactive;
  F_phi : phi V C todo <= IZR nv + c;
  F_rho : forall j, (0 <= j < nv)%Z -> rho j = if rem j && negb (todo j) then 0 else rho0 j;
  F_P : forall j, (0 <= j < nv)%Z -> rem j = true -> Pv j (V j) }.

Lemma F_ext V C z y rho todo prow delta c todo' prow' delta' c' : F V C z y rho todo prow delta c ->
  (forall j, (0 <= j < nv)%Z -> todo' j = todo j) -> (forall i, (0 <= i < nl)%Z -> prow' i = true -> prow i = true) ->
  (forall j, (0 <= j < nv)%Z -> delta' j = delta j) -> c = c' -> F V C z y rho todo' prow' delta' c'.
Proof.
  intros [] H1 H2 H3 <-. constructor; auto.
  - intros j Hj. rewrite H3; auto.
  - intros j Hj Ht. rewrite H1 in Ht; auto.
  - unfold phi in *. rewrite (sumd_ext nv _ (fun j => ind (active (V j) || todo j))); [exact F_phi0|]. intros j Hj. cbv beta. now rewrite H1.
  - intros j Hj. rewrite H1; auto.
Qed.

Lemma lagr_z y z j v k : lagr y (upd z j v) k = lagr y z k + (if (k =? j)%Z then v - z j else 0).
Proof. unfold lagr, upd. destruct (Z.eqb_spec k j) as [->|]; lra. Qed.

Lemma lagr_y y z i v k : (0 <= i < nc)%Z -> lagr (upd y i v) z k = lagr y z k + mR Jc i k * (v - y i).
Proof.
  intros Hi. unfold lagr. rewrite (sumd_upd nc _ (fun i => mR Jc i k * y i) i Hi).
  - unfold upd. rewrite Z.eqb_refl. lra.
  - intros i' _ Hne. unfold upd. destruct (Z.eqb_spec i' i); [contradiction|reflexivity].
Qed.

(** A removed variable becomes active with the multiplier that cancels its residual. *)
Lemma F_var V C z y rho todo prow delta c j s v : F V C z y rho todo prow delta c -> (0 <= j < nv)%Z -> todo j = true ->
  v = - (rho j + delta j) -> active s = true -> sgn s v -> Pv j s ->
  F (upd V j s) C (upd z j v) y (upd rho j 0) (upd todo j false) prow (upd delta j 0) c.
Proof.
  intros [] Hj Ht Hv Hs Hg HP. destruct (F_todo0 j Hj Ht) as [HV Hr]. pose proof (F_V0 j Hj) as Hz. rewrite HV in Hz. cbn [sgn] in Hz. constructor; auto.
  - intros k Hk. rewrite lagr_z, (F_T0 k Hk). unfold upd. destruct (Z.eqb_spec k j) as [->|]; lra.
  - intros k Hk. unfold upd. destruct (Z.eqb_spec k j) as [->|]; auto.
  - intros k Hk. unfold upd. destruct (Z.eqb_spec k j) as [->|]; [discriminate|auto].
  - unfold phi in *. rewrite (sumd_ext nv _ (fun j => ind (active (V j) || todo j))); [exact F_phi0|]. intros k Hk. unfold upd.
    destruct (Z.eqb_spec k j) as [->|]; [|reflexivity]. now rewrite Hs, Ht, !orb_true_r.
  - intros k Hk. unfold upd. destruct (Z.eqb_spec k j) as [->|]; [|auto]. now rewrite Hr.
  - intros k Hk Hrk. unfold upd. destruct (Z.eqb_spec k j) as [->|]; auto.
Qed.

(** A removed variable whose residual vanishes stays inactive. *)
Lemma F_skip V C z y rho todo prow delta c j : F V C z y rho todo prow delta c -> (0 <= j < nv)%Z -> todo j = true ->
  rho j + delta j = 0 -> F V C z y (upd rho j 0) (upd todo j false) prow (upd delta j 0) (c - 1).
Proof.
  intros [] Hj Ht H0. destruct (F_todo0 j Hj Ht) as [HV Hr]. constructor; auto.
  - intros k Hk. rewrite (F_T0 k Hk). unfold upd. destruct (Z.eqb_spec k j) as [->|]; lra.
  - intros k Hk. unfold upd. destruct (Z.eqb_spec k j) as [->|]; [discriminate|auto].
  - unfold phi in *. rewrite (sumd_upd nv _ (fun j => ind (active (V j) || todo j)) j Hj).
    + unfold upd. rewrite Z.eqb_refl, Ht, HV. cbn. lra.
    + intros k Hk Hne. unfold upd. destruct (Z.eqb_spec k j); [contradiction|reflexivity].
  - intros k Hk. unfold upd. destruct (Z.eqb_spec k j) as [->|]; [|auto]. now rewrite Hr.
Qed.

(** The multiplier of a variable moves to a converted constraint. *)
Lemma F_conv V C z y rho todo prow delta c i j a s : F V C z y rho todo prow delta c -> (0 <= i < nl)%Z -> (0 <= j < nv)%Z ->
  prow i = true -> active (V j) = true -> active s = true -> a <> 0 -> sgn s (z j / a) ->
  mR Jc (ng + i) j = a -> (forall k, (0 <= k < nv)%Z -> k <> j -> mR Jc (ng + i) k = 0) ->
  F (upd V j Inactive) (upd C (ng + i) s) (upd z j 0) (upd y (ng + i) (z j / a)) rho todo (upd prow i false) delta c.
Proof.
  intros [] Hi Hj Hp Ha Hs Hne Hg HJ HJ0. pose proof (F_prow0 i Hi Hp) as HC. assert (Hic : (0 <= ng + i < nc)%Z) by (unfold nc; lia).
  pose proof (F_C0 _ Hic) as Hy. rewrite HC in Hy. cbn [sgn] in Hy.
  assert (Htj : todo j = false). { destruct (todo j) eqn:E; [|reflexivity]. destruct (F_todo0 j Hj E) as [Q _]. rewrite Q in Ha. discriminate. }
  constructor; auto.
  - intros k Hk. rewrite lagr_z, lagr_y, (F_T0 k Hk), Hy by exact Hic. destruct (Z.eqb_spec k j) as [->|Hkj]; [rewrite HJ; field; exact Hne|rewrite HJ0 by auto; lra].
  - intros k Hk. unfold upd. destruct (Z.eqb_spec k j) as [->|]; [reflexivity|auto].
  - intros k Hk. unfold upd. destruct (Z.eqb_spec k (ng + i)) as [->|]; auto.
  - intros k Hk Ht. destruct (F_todo0 k Hk Ht) as [Q1 Q2]. split; [|exact Q2]. unfold upd. destruct (k =? j)%Z; auto.
  - intros k Hk. unfold upd. destruct (Z.eqb_spec k i) as [->|]; [discriminate|]. intros Hpk. destruct (Z.eqb_spec (ng + k) (ng + i)); [lia|auto].
  - unfold phi in *. rewrite (sumd_upd nv _ (fun j => ind (active (V j) || todo j)) j Hj).
    2:{ intros k Hk Hn. unfold upd. destruct (Z.eqb_spec k j); [contradiction|reflexivity]. }
    rewrite (sumd_upd nc _ (fun i => ind (active (C i))) (ng + i)%Z Hic).
    2:{ intros k Hk Hn. unfold upd. destruct (Z.eqb_spec k (ng + i)); [contradiction|reflexivity]. }
    unfold upd. rewrite !Z.eqb_refl, Htj, Ha, Hs, HC. cbn. lra.
  - intros k Hk Hr. unfold upd. destruct (k =? j)%Z; auto.
Qed.

(** A forcing constraint becomes active. *)
Lemma F_row V C z y rho todo prow delta c i s md : F V C z y rho todo prow delta c -> (0 <= i < nl)%Z -> prow i = true ->
  active s = true -> sgn s md ->
  F V (upd C (ng + i) s) z (upd y (ng + i) md) rho todo (upd prow i false) (fun j => delta j + mR Jc (ng + i) j * md) (c + 1).
Proof.
  intros [] Hi Hp Hs Hg. pose proof (F_prow0 i Hi Hp) as HC. assert (Hic : (0 <= ng + i < nc)%Z) by (unfold nc; lia).
  pose proof (F_C0 _ Hic) as Hy. rewrite HC in Hy. cbn [sgn] in Hy. constructor; auto.
  - intros k Hk. rewrite lagr_y, (F_T0 k Hk), Hy by exact Hic. lra.
  - intros k Hk. unfold upd. destruct (Z.eqb_spec k (ng + i)) as [->|]; auto.
  - intros k Hk. unfold upd. destruct (Z.eqb_spec k i) as [->|]; [discriminate|]. intros Hpk. destruct (Z.eqb_spec (ng + k) (ng + i)); [lia|auto].
  - unfold phi in *. rewrite (sumd_upd nc _ (fun i => ind (active (C i))) (ng + i)%Z Hic).
    2:{ intros k Hk Hn. unfold upd. destruct (Z.eqb_spec k (ng + i)); [contradiction|reflexivity]. }
    unfold upd. rewrite !Z.eqb_refl, Hs, HC. cbn. lra.
Qed.

(** ** The arrays *)
Record rep (r : @rst RN) (V C : Z -> ast) (z y rho : Z -> R) : Prop := {
  rp_v : arr (r_vst r) nv V; rp_c : arr (r_cst r) nc C; rp_z : arr (r_vd r) nv z; rp_y : arr (r_cd r) nc y; rp_r : arr (r_res r) nv rho }.

Lemma rep_vst r V C z y rho j s : rep r V C z y rho -> (0 <= j < nv)%Z -> exists r', set_vst r j s = Ok r' /\ rep r' (upd V j s) C z y rho.
Proof. intros [] Hj. unfold set_vst. destruct (arr_set_arr _ _ _ j s rp_v0 Hj) as (l & E & H). rewrite E. cbn [rbind]. eexists. split; [reflexivity|]. constructor; auto. Qed.
Lemma rep_cst r V C z y rho i s : rep r V C z y rho -> (0 <= i < nc)%Z -> exists r', set_cst r i s = Ok r' /\ rep r' V (upd C i s) z y rho.
Proof. intros [] Hj. unfold set_cst. destruct (arr_set_arr _ _ _ i s rp_c0 Hj) as (l & E & H). rewrite E. cbn [rbind]. eexists. split; [reflexivity|]. constructor; auto. Qed.
Lemma rep_vd r V C z y rho j (x : R) : rep r V C z y rho -> (0 <= j < nv)%Z -> exists r', @set_vd RN r j x = Ok r' /\ rep r' V C (upd z j x) y rho.
Proof. intros [] Hj. unfold set_vd. destruct (arr_set_arr _ _ _ j x rp_z0 Hj) as (l & E & H). rnum. rewrite E. cbn [rbind]. eexists. split; [reflexivity|]. constructor; auto. Qed.
Lemma rep_cd r V C z y rho i (x : R) : rep r V C z y rho -> (0 <= i < nc)%Z -> exists r', @set_cd RN r i x = Ok r' /\ rep r' V C z (upd y i x) rho.
Proof. intros [] Hj. unfold set_cd. destruct (arr_set_arr _ _ _ i x rp_y0 Hj) as (l & E & H). rnum. rewrite E. cbn [rbind]. eexists. split; [reflexivity|]. constructor; auto. Qed.
Lemma rep_res r V C z y rho j (x : R) : rep r V C z y rho -> (0 <= j < nv)%Z -> exists r', @set_res RN r j x = Ok r' /\ rep r' V C z y (upd rho j x).
Proof. intros [] Hj. unfold set_res. destruct (arr_set_arr _ _ _ j x rp_r0 Hj) as (l & E & H). rnum. rewrite E. cbn [rbind]. eexists. split; [reflexivity|]. constructor; auto. Qed.

Lemma rep_residuum r V C z y rho j : rep r V C z y rho -> (0 <= j < nv)%Z -> z j = 0 ->
  exists r', @correct_residuum RN r j = Ok r' /\ rep r' V C (upd z j (- rho j)) y (upd rho j 0).
Proof.
  intros [] Hj Hz. unfold correct_residuum. rnum. rewrite (arr_get_arr _ _ _ _ rp_z0 Hj), (arr_get_arr _ _ _ _ rp_r0 Hj). cbn [rbind].
  replace (@neqb RN (z j) n0) with true; [|symmetry; apply rn_eqb; rewrite rn_n0; exact Hz]. cbn [check rbind].
  destruct (arr_set_arr _ _ _ j (- rho j) rp_z0 Hj) as (l & E & H). change (@nopp RN (rho j)) with (- rho j). rnum. rewrite E. cbn [rbind].
  destruct (arr_set_arr _ _ _ j (0 : R) rp_r0 Hj) as (l' & E' & H'). rewrite rn_n0. rewrite E'. cbn [rbind]. eexists. split; [reflexivity|]. constructor; auto.
Qed.

Definition INV r todo prow delta c : Prop := exists V C z y rho, rep r V C z y rho /\ F V C z y rho todo prow delta c.

Lemma INV_var r todo prow c j s : INV r todo prow (fun _ => 0) c -> (0 <= j < nv)%Z -> todo j = true -> active s = true ->
  sgn s (- rho0 j) -> Pv j s ->
  exists r', (r <- set_vst r j s ;; @correct_residuum RN r j) = Ok r' /\ INV r' (upd todo j false) prow (fun _ => 0) c.
Proof.
  intros (V & C & z & y & rho & HR & HF) Hj Ht Hs Hg HP. destruct (rep_vst _ _ _ _ _ _ j s HR Hj) as (r1 & E1 & R1). rewrite E1. cbn [rbind].
  pose proof (F_todo _ _ _ _ _ _ _ _ _ HF j Hj Ht) as [HV Hr]. pose proof (F_V _ _ _ _ _ _ _ _ _ HF j Hj) as Hz. rewrite HV in Hz. cbn [sgn] in Hz.
  pose proof (F_rho _ _ _ _ _ _ _ _ _ HF j Hj) as Hrho. rewrite Hr, Ht in Hrho. cbn [andb negb] in Hrho.
  destruct (rep_residuum _ _ _ _ _ _ j R1 Hj Hz) as (r2 & E2 & R2). exists r2. split; [exact E2|].
  do 5 eexists. split; [exact R2|].
  pose proof (F_var _ _ _ _ _ _ _ _ _ j s (- rho j) HF Hj Ht ltac:(lra) Hs ltac:(now rewrite Hrho) HP) as H.
  eapply F_ext; [exact H| | | |]; auto. intros k Hk. unfold upd. destruct (k =? j)%Z; reflexivity.
Qed.

(** ** Fixed variables *)
Lemma fixed_loop (s : @pst RN) fv (L : list (Z * R)) : arr (ps_vars s) nv fv ->
  forall r todo prow c, INV r todo prow (fun _ => 0) c -> NoDup (keys L) -> (forall j, In j (keys L) -> (0 <= j < nv)%Z) ->
  (forall j, In j (keys L) -> vs_kind (fv j) = VBoundFixed -> todo j = true /\ Pv j ActBoth) ->
  exists r', @correct_fixed_variables RN s L r = Ok r'
    /\ INV r' (fun j => todo j && negb (existsb (Z.eqb j) (keys L) && match vs_kind (fv j) with VBoundFixed => true | _ => false end)) prow (fun _ => 0) c.
Proof.
  intros As. induction L as [|[j x] L IH]; intros r todo prow c HI Hn Hr HB.
  - exists r. split; [reflexivity|]. destruct HI as (V & C & z & y & rho & HR & HF). do 5 eexists. split; [exact HR|]. eapply F_ext; [exact HF| | | |]; auto.
    intros k Hk. cbn [keys map existsb andb negb]. now rewrite andb_true_r.
  - cbn [keys map fst] in *. inversion Hn as [|? ? Hnj Hn']; subst. unfold correct_fixed_variables. cbn [rfold fst].
    pose proof (Hr j (or_introl eq_refl)) as Hj. rewrite (arr_get_arr _ _ _ _ As Hj). cbn [rbind].
    assert (Step : exists r1, (match vs_kind (fv j) with VBoundFixed => r <- set_vst r j ActBoth ;; @correct_residuum RN r j | _ => Ok r end) = Ok r1
      /\ INV r1 (fun k => todo k && negb ((k =? j)%Z && match vs_kind (fv j) with VBoundFixed => true | _ => false end)) prow (fun _ => 0) c).
    { assert (Skip : INV r (fun k => todo k && negb ((k =? j)%Z && false)) prow (fun _ => 0) c).
      { destruct HI as (V & C & z & y & rho & HR & HF). do 5 eexists. split; [exact HR|]. eapply F_ext; [exact HF| | | |]; auto. intros k Hk. now rewrite andb_false_r, andb_true_r. }
      destruct (vs_kind (fv j)) eqn:Ek; [exists r; auto| |exists r; auto].
      destruct (HB j (or_introl eq_refl) Ek) as [Ht HP]. destruct (INV_var r todo prow c j ActBoth HI Hj Ht eq_refl I HP) as (r1 & E1 & I1). exists r1. split; [exact E1|].
      destruct I1 as (V & C & z & y & rho & HR & HF). do 5 eexists. split; [exact HR|]. eapply F_ext; [exact HF| | | |]; auto.
      intros k Hk. unfold upd. destruct (k =? j)%Z; cbn [andb negb]; [now rewrite andb_false_r|now rewrite andb_true_r]. }
    destruct Step as (r1 & E1 & I1).
    replace (match vs_kind (fv j) with VBoundFixed => r0 <- set_vst r j ActBoth;; correct_residuum r0 j | _ => Ok r end) with (Ok r1 : res (@rst RN)). cbn [rbind].
    destruct (IH r1 _ prow c I1 Hn') as (r2 & E2 & I2).
    { intros k Hk. apply Hr. now right. }
    { intros k Hk Ek. destruct (HB k (or_intror Hk) Ek) as [Q1 Q2]. split; [|exact Q2]. rewrite Q1. destruct (Z.eqb_spec k j) as [->|]; [contradiction|reflexivity]. }
    exists r2. split; [exact E2|]. destruct I2 as (V & C & z & y & rho & HR & HF). do 5 eexists. split; [exact HR|]. eapply F_ext; [exact HF| | | |]; auto.
    intros k Hk. cbv beta. cbn [existsb]. destruct (Z.eqb_spec k j) as [->|]; cbn [andb orb negb]; [|now rewrite andb_true_r].
    destruct (vs_kind (fv j)); cbn [negb andb]; rewrite ?andb_false_r, ?andb_true_r; cbn [negb]; rewrite ?andb_true_r; try reflexivity; now destruct (todo j).
Qed.

(** ** Converted bounds *)
Lemma conv_step r todo prow c (cb : @cbound RN) : INV r todo prow (fun _ => 0) c -> (0 <= cb_cons cb < nl)%Z -> (0 <= cb_var cb < nv)%Z ->
  prow (cb_cons cb) = true -> cb_factor cb <> 0 -> mR Jc (ng + cb_cons cb) (cb_var cb) = cb_factor cb ->
  (forall k, (0 <= k < nv)%Z -> k <> cb_var cb -> mR Jc (ng + cb_cons cb) k = 0) ->
  exists r', @correct_converted_bound RN ng r cb = Ok r' /\ INV r' todo (upd prow (cb_cons cb) false) (fun _ => 0) c.
Proof.
  intros (V & C & z & y & rho & HR & HF) Hi Hj Hp Ha HJ HJ0. set (i := cb_cons cb) in *. set (j := cb_var cb) in *. set (a := cb_factor cb) in *.
  unfold correct_converted_bound. fold i. fold j. fold a. rewrite (Z.add_comm i ng). rnum.
  assert (Hic : (0 <= ng + i < nc)%Z) by (unfold nc; lia).
  pose proof HR as []. rewrite (arr_get_arr _ _ _ _ rp_v0 Hj). cbn [rbind]. rnum. rewrite (arr_get_arr _ _ _ _ rp_z0 Hj). cbn [rbind]. rewrite (arr_get_arr _ _ _ _ rp_c0 Hic). cbn [rbind].
  pose proof (F_prow _ _ _ _ _ _ _ _ _ HF i Hi Hp) as HC. pose proof (F_C _ _ _ _ _ _ _ _ _ HF _ Hic) as Hy. rewrite HC in *. cbn [sgn] in Hy. cbn [ast_eqb check rbind]. rnum.
  rewrite (arr_get_arr _ _ _ _ rp_y0 Hic). cbn [rbind].
  replace (@neqb RN (y (ng + i)%Z) n0) with true; [|symmetry; apply rn_eqb; rewrite rn_n0; exact Hy]. cbn [check rbind].
  pose proof (F_V _ _ _ _ _ _ _ _ _ HF j Hj) as Hz.
  assert (Keep : INV r todo (upd prow i false) (fun _ => 0) c).
  { do 5 eexists. split; [exact HR|]. eapply F_ext; [exact HF| | | |]; auto. intros k Hk. unfold upd. destruct (k =? i)%Z; [discriminate|auto]. }
  assert (Move : forall s, active (V j) = true -> active s = true -> sgn s (z j / a) ->
    exists r', (r <- set_cst r (ng + i) s ;; r <- @set_cd RN r (ng + i) (@ndiv RN (z j) a) ;; r <- @set_vd RN r j n0 ;; set_vst r j Inactive) = Ok r'
      /\ INV r' todo (upd prow i false) (fun _ => 0) c).
  { intros s HVa Hs Hg. destruct (rep_cst _ _ _ _ _ _ _ s HR Hic) as (r1 & E1 & R1). rewrite E1. cbn [rbind].
    destruct (rep_cd _ _ _ _ _ _ _ (z j / a) R1 Hic) as (r2 & E2 & R2). change (@ndiv RN (z j) a) with (z j / a). rnum. rewrite E2. cbn [rbind].
    destruct (rep_vd _ _ _ _ _ _ j 0 R2 Hj) as (r3 & E3 & R3). rewrite rn_n0. rewrite E3. cbn [rbind].
    destruct (rep_vst _ _ _ _ _ _ j Inactive R3 Hj) as (r4 & E4 & R4). exists r4. split; [exact E4|]. do 5 eexists. split; [exact R4|].
    exact (F_conv _ _ _ _ _ _ _ _ _ i j a s HF Hi Hj Hp HVa Hs Ha Hg HJ HJ0). }
  assert (Dn : forall x, x <= 0 -> 0 < a -> x / a <= 0). { intros x Hx Hp'. assert (0 < / a) by now apply Rinv_0_lt_compat. unfold Rdiv. nra. }
  assert (Dp : forall x, 0 <= x -> 0 < a -> 0 <= x / a). { intros x Hx Hp'. assert (0 < / a) by now apply Rinv_0_lt_compat. unfold Rdiv. nra. }
  assert (Dn' : forall x, x <= 0 -> a < 0 -> 0 <= x / a). { intros x Hx Hp'. assert (/ a < 0) by now apply Rinv_lt_0_compat. unfold Rdiv. nra. }
  assert (Dp' : forall x, 0 <= x -> a < 0 -> x / a <= 0). { intros x Hx Hp'. assert (/ a < 0) by now apply Rinv_lt_0_compat. unfold Rdiv. nra. }
  assert (Lo : V j <> Inactive -> z j <= 0 -> exists r', (if cb_low cb then r <- set_cst r (ng + i) (if @nltb RN a n0 then ActUpper else ActLower) ;; r <- @set_cd RN r (ng + i) (@ndiv RN (z j) a) ;; r <- @set_vd RN r j n0 ;; set_vst r j Inactive else Ok r) = Ok r'
    /\ INV r' todo (upd prow i false) (fun _ => 0) c).
  { intros HVa Hle. destruct (cb_low cb); [|eauto]. apply Move; [now apply active_iff|destruct (@nltb RN a n0); reflexivity|].
    rewrite rn_n0. destruct (@nltb RN a 0) eqn:Ef; [apply rn_ltb in Ef; apply Dn'; lra|apply rn_ltb_false in Ef; apply Dn; lra]. }
  assert (Up : V j <> Inactive -> 0 <= z j -> exists r', (if cb_up cb then r <- set_cst r (ng + i) (if @nltb RN a n0 then ActLower else ActUpper) ;; r <- @set_cd RN r (ng + i) (@ndiv RN (z j) a) ;; r <- @set_vd RN r j n0 ;; set_vst r j Inactive else Ok r) = Ok r'
    /\ INV r' todo (upd prow i false) (fun _ => 0) c).
  { intros HVa Hle. destruct (cb_up cb); [|eauto]. apply Move; [now apply active_iff|destruct (@nltb RN a n0); reflexivity|].
    rewrite rn_n0. destruct (@nltb RN a 0) eqn:Ef; [apply rn_ltb in Ef; apply Dp'; lra|apply rn_ltb_false in Ef; apply Dp; lra]. }
  destruct (V j) eqn:EV.
  - cbn [sgn] in Hz. replace (@neqb RN (z j) n0) with true; [|symmetry; apply rn_eqb; rewrite rn_n0; exact Hz]. cbn [check rbind]. eauto.
  - apply Lo; [discriminate|exact Hz].
  - apply Up; [discriminate|exact Hz].
  - rewrite rn_n0. destruct (@nleb RN 0 (z j)) eqn:El.
    + rewrite rn_n0 in Up. apply Up; [discriminate|now apply rn_leb].
    + rewrite rn_n0 in Lo. apply Lo; [discriminate|]. apply rn_leb_false in El. lra.
Qed.

Lemma conv_loop (L : list (@cbound RN)) : forall r todo prow c, INV r todo prow (fun _ => 0) c -> NoDup (map cb_cons L) ->
  (forall cb, In cb L -> (0 <= cb_cons cb < nl)%Z /\ (0 <= cb_var cb < nv)%Z /\ prow (cb_cons cb) = true /\ cb_factor cb <> 0
     /\ mR Jc (ng + cb_cons cb) (cb_var cb) = cb_factor cb /\ forall k, (0 <= k < nv)%Z -> k <> cb_var cb -> mR Jc (ng + cb_cons cb) k = 0) ->
  exists r', rfold (@correct_converted_bound RN ng) r L = Ok r' /\ INV r' todo (fun i => prow i && negb (existsb (Z.eqb i) (map cb_cons L))) (fun _ => 0) c.
Proof.
  induction L as [|cb L IH]; intros r todo prow c HI Hn H; cbn [rfold].
  - exists r. split; [reflexivity|]. destruct HI as (V & C & z & y & rho & HR & HF). do 5 eexists. split; [exact HR|]. eapply F_ext; [exact HF| | | |]; auto.
    intros k Hk. cbn [map existsb negb]. now rewrite andb_true_r.
  - cbn [map] in *. inversion Hn as [|? ? Hnj Hn']; subst. destruct (H cb (or_introl eq_refl)) as (H1 & H2 & H3 & H4 & H5 & H6).
    destruct (conv_step r todo prow c cb HI H1 H2 H3 H4 H5 H6) as (r1 & E1 & I1). rewrite E1. cbn [rbind].
    destruct (IH r1 todo _ c I1 Hn') as (r2 & E2 & I2).
    { intros cb' Hin. destruct (H cb' (or_intror Hin)) as (Q1 & Q2 & Q3 & Q4). split; [exact Q1|]. split; [exact Q2|]. split; [|exact Q4].
      unfold upd. destruct (Z.eqb_spec (cb_cons cb') (cb_cons cb)) as [Eq|]; [|exact Q3]. destruct Hnj. rewrite <- Eq. now apply in_map. }
    exists r2. split; [exact E2|]. destruct I2 as (V & C & z & y & rho & HR & HF). do 5 eexists. split; [exact HR|]. eapply F_ext; [exact HF| | | |]; auto.
    intros k Hk. cbv beta. unfold upd. cbn [existsb]. destruct (k =? cb_cons cb)%Z; cbn [orb andb negb]; [now rewrite andb_false_r|auto].
Qed.

(** ** Forcing constraints *)
Section Forcing.
Variable f : @fcons RN.
Definition wrong (e : Z * R) : bool := negb (Bool.eqb (@desired_upper RN f (snd e)) (@nleb RN 0 (- rho0 (fst e)))).
Definition cur (e : Z * R) : R := - rho0 (fst e) / snd e.

Lemma find_max_spec (L : list (Z * R)) r : (forall j a, In (j, a) L -> @arr_get R (r_res r) j = Ok (rho0 j)) ->
  forall k inv mi md, exists inv' mi' md',
  rfold (fun st ke => let '(inv, mi, md) := st in let '(k, (j, factor)) := ke in
    x <- arr_get (r_res r) j ;;
    if Bool.eqb (@desired_upper RN f factor) (@nleb RN n0 (@nopp RN x)) then Ok (inv, mi, md) else
    let cur := @ndiv RN (@nopp RN x) factor in
    if @nltb RN (@nabs RN md) (@nabs RN cur) then Ok (true, Some k, cur) else Ok (true, mi, md)) (inv, mi, md) (number k L) = Ok (inv', mi', md')
  /\ inv' = (inv || existsb wrong L)%bool /\ Rabs md <= Rabs md'
  /\ (forall e, In e L -> wrong e = true -> Rabs (cur e) <= Rabs md')
  /\ ((mi' = mi /\ md' = md) \/ exists p e, mi' = Some (k + Z.of_nat p)%Z /\ nth_error L p = Some e /\ wrong e = true /\ md' = cur e).
Proof.
  induction L as [|[j a] L IH]; intros HL k inv mi md; cbn [number rfold].
  - exists inv, mi, md. split; [reflexivity|]. cbn [existsb]. rewrite orb_false_r. split; [reflexivity|]. split; [lra|]. split; [intros e []|]. auto.
  - pose proof (HL j a (or_introl eq_refl)) as Hj. rnum. rewrite Hj. cbn [rbind]. change (@nopp RN (rho0 j)) with (- rho0 j). replace (@nleb RN n0 (- rho0 j)) with (@nleb RN 0 (- rho0 j)) by now rewrite rn_n0.
    change (@ndiv RN (- rho0 j) a) with (cur (j, a)). specialize (IH (fun j a H => HL j a (or_intror H)) (k + 1)%Z).
    assert (Hw : wrong (j, a) = negb (Bool.eqb (@desired_upper RN f a) (@nleb RN 0 (- rho0 j)))) by reflexivity.
    destruct (Bool.eqb (@desired_upper RN f a) (@nleb RN 0 (- rho0 j))) eqn:Eb; cbn [negb] in Hw.
    + destruct (IH inv mi md) as (inv' & mi' & md' & E & I1 & I2 & I3 & I4). exists inv', mi', md'. split; [exact E|]. cbn [existsb]. rewrite Hw. split; [exact I1|]. split; [exact I2|]. split.
      * intros e [<-|He] Hwe; [congruence|auto].
      * destruct I4 as [I4|(p & e & Q1 & Q2 & Q3)]; [auto|]. right. exists (S p), e. split; [rewrite Q1; f_equal; lia|]. auto.
    + destruct (@nltb RN (@nabs RN md) (@nabs RN (cur (j, a)))) eqn:El; rewrite !rn_abs in El; cbn [existsb]; rewrite Hw.
      * apply rn_ltb in El. destruct (IH true (Some k) (cur (j, a))) as (inv' & mi' & md' & E & I1 & I2 & I3 & I4). exists inv', mi', md'. split; [exact E|].
        split; [rewrite I1; cbn [orb]; now rewrite orb_true_r|]. split; [lra|]. split.
        -- intros e [<-|He] Hwe; [exact I2|auto].
        -- right. destruct I4 as [[Q1 Q2]|(p & e & Q1 & Q2 & Q3)].
           ++ exists 0%nat, (j, a). split; [rewrite Q1; f_equal; lia|]. auto.
           ++ exists (S p), e. split; [rewrite Q1; f_equal; lia|]. auto.
      * apply rn_ltb_false in El. destruct (IH true mi md) as (inv' & mi' & md' & E & I1 & I2 & I3 & I4). exists inv', mi', md'. split; [exact E|].
        split; [rewrite I1; cbn [orb]; now rewrite orb_true_r|]. split; [exact I2|]. split.
        -- intros e [<-|He] Hwe; [lra|auto].
        -- destruct I4 as [I4|(p & e & Q1 & Q2 & Q3)]; [auto|]. right. exists (S p), e. split; [rewrite Q1; f_equal; lia|]. auto.
Qed.

(** Signs: with [md] the extreme quotient over the wrong variables, all multipliers get the sign of
    the bound at which the variable is fixed. *)
Lemma desired_up a : @desired_upper RN f a = if Rlt_dec 0 a then fc_lower f else negb (fc_lower f).
Proof.
  unfold desired_upper. rewrite rn_n0. destruct (Rlt_dec 0 a) as [H|H].
  - apply rn_ltb in H. now rewrite H.
  - replace (@nltb RN 0 a) with false; [reflexivity|]. symmetry. apply rn_ltb_false. lra.
Qed.

Lemma wrong_true e : wrong e = true <-> (@desired_upper RN f (snd e) = true /\ 0 < rho0 (fst e)) \/ (@desired_upper RN f (snd e) = false /\ rho0 (fst e) <= 0).
Proof.
  unfold wrong. rewrite negb_true_iff. destruct (@desired_upper RN f (snd e)), (@nleb RN 0 (- rho0 (fst e))) eqn:E; cbn [Bool.eqb].
  - apply rn_leb in E. split; [discriminate|]. intros [[_ H]|[H _]]; [lra|discriminate].
  - apply rn_leb_false in E. split; auto. intros _. left. split; [reflexivity|lra].
  - apply rn_leb in E. split; auto. intros _. right. split; [reflexivity|lra].
  - apply rn_leb_false in E. split; [discriminate|]. intros [[H _]|[_ H]]; [discriminate|lra].
Qed.

Lemma cur_rho e : snd e <> 0 -> - rho0 (fst e) = snd e * cur e.
Proof. intros H. unfold cur. field. exact H. Qed.

Lemma wrong_sign e : snd e <> 0 -> wrong e = true -> if fc_lower f then cur e <= 0 else 0 <= cur e.
Proof.
  intros Ha Hw. pose proof (cur_rho e Ha) as Hc. apply wrong_true in Hw. rewrite desired_up in Hw. destruct (Rlt_dec 0 (snd e)), (fc_lower f); cbn [negb] in Hw;
    destruct Hw as [[Q1 Q2]|[Q1 Q2]]; try discriminate; nra.
Qed.

Lemma right_sign e : snd e <> 0 -> wrong e = false -> if fc_lower f then 0 <= cur e else cur e <= 0.
Proof.
  intros Ha Hw. pose proof (cur_rho e Ha) as Hc. rewrite <- not_true_iff_false, wrong_true, desired_up in Hw. destruct (Rlt_dec 0 (snd e)), (fc_lower f); cbn [negb] in Hw;
    destruct (Rle_or_lt (rho0 (fst e)) 0); try (exfalso; apply Hw; auto; fail); nra.
Qed.

Lemma sign_after e md : snd e <> 0 -> (if fc_lower f then md <= 0 else 0 <= md) -> (wrong e = true -> Rabs (cur e) <= Rabs md) ->
  sgn (@desired RN f (snd e)) (- (rho0 (fst e) + snd e * md)).
Proof.
  intros Ha Hm Hw. assert (K : if fc_lower f then md <= cur e else cur e <= md).
  { destruct (wrong e) eqn:Ew.
    - specialize (Hw eq_refl). pose proof (wrong_sign e Ha Ew) as Hs. destruct (fc_lower f).
      + rewrite !Rabs_left1 in Hw by lra. lra.
      + rewrite !Rabs_pos_eq in Hw by lra. lra.
    - pose proof (right_sign e Ha Ew). destruct (fc_lower f); lra. }
  pose proof (cur_rho e Ha) as Hc. unfold desired. rewrite desired_up. destruct (Rlt_dec 0 (snd e)), (fc_lower f); cbn [negb sgn]; nra.
Qed.

Lemma sign_kept e : wrong e = false -> sgn (@desired RN f (snd e)) (- rho0 (fst e)).
Proof.
  intros Hw. rewrite <- not_true_iff_false, wrong_true in Hw. unfold desired. destruct (@desired_upper RN f (snd e)); cbn [sgn]; destruct (Rle_or_lt (rho0 (fst e)) 0); try lra; exfalso; apply Hw; auto.
Qed.

Lemma desired_active a : active (@desired RN f a) = true.
Proof. unfold desired. destruct (desired_upper f a); reflexivity. Qed.

(** The second loop when the constraint stays inactive. *)
Lemma loop_plain L : forall r todo prow c, INV r todo prow (fun _ => 0) c -> NoDup (keys L) ->
  (forall e, In e L -> (0 <= fst e < nv)%Z /\ todo (fst e) = true /\ wrong e = false /\ Pv (fst e) (@desired RN f (snd e))) ->
  exists r', rfold (fun r e => r <- set_vst r (fst e) (@desired RN f (snd e)) ;; @correct_residuum RN r (fst e)) r L = Ok r'
    /\ INV r' (fun j => todo j && negb (existsb (Z.eqb j) (keys L))) prow (fun _ => 0) c.
Proof.
  induction L as [|[j a] L IH]; intros r todo prow c HI Hn H; cbn [rfold].
  - exists r. split; [reflexivity|]. destruct HI as (V & C & z & y & rho & HR & HF). do 5 eexists. split; [exact HR|]. eapply F_ext; [exact HF| | | |]; auto.
    intros k Hk. cbn [keys map existsb negb]. now rewrite andb_true_r.
  - cbn [keys map fst snd] in *. inversion Hn as [|? ? Hnj Hn']; subst. destruct (H (j, a) (or_introl eq_refl)) as (H1 & H2 & H3 & H4). cbn [fst snd] in *.
    pose proof (sign_kept (j, a) H3) as Hs. cbn [fst snd] in Hs.
    destruct (INV_var r todo prow c j (@desired RN f a) HI H1 H2 (desired_active a) Hs H4) as (r1 & E1 & I1).
    rewrite E1. cbn [rbind]. destruct (IH r1 _ prow c I1 Hn') as (r2 & E2 & I2).
    { intros e He. destruct (H e (or_intror He)) as (Q1 & Q2 & Q3). split; [exact Q1|]. split; [|exact Q3]. unfold upd. destruct (Z.eqb_spec (fst e) j) as [Eq|]; [|exact Q2].
      destruct Hnj. rewrite <- Eq. now apply (in_map fst). }
    exists r2. split; [exact E2|]. destruct I2 as (V & C & z & y & rho & HR & HF). do 5 eexists. split; [exact HR|]. eapply F_ext; [exact HF| | | |]; auto.
    intros k Hk. cbv beta. unfold upd. cbn [existsb]. destruct (k =? j)%Z; cbn [orb andb negb]; [now rewrite andb_false_r|reflexivity].
Qed.

(** The second loop when the constraint takes the multiplier [md]. *)
Lemma loop_row md k0 L : forall k r todo prow delta c, INV r todo prow delta (if (k <=? k0)%Z then c + 1 else c) -> NoDup (keys L) ->
  (k0 < k + Z.of_nat (length L))%Z -> (forall e, (k <= k0)%Z -> nth_error L (Z.to_nat (k0 - k)) = Some e -> rho0 (fst e) + snd e * md = 0) ->
  (forall e, In e L -> (0 <= fst e < nv)%Z /\ todo (fst e) = true /\ delta (fst e) = snd e * md /\ Pv (fst e) (@desired RN f (snd e))
     /\ sgn (@desired RN f (snd e)) (- (rho0 (fst e) + snd e * md))) ->
  exists r', rfold (fun r ke => let '(k, (j, factor)) := ke in
      if (k =? k0)%Z then @set_res RN r j n0 else
      r <- set_vst r j (@desired RN f factor) ;;
      x <- @arr_get R (r_res r) j ;;
      r <- @set_vd RN r j (@nopp RN (@nadd RN x (@nmul RN factor md))) ;;
      @set_res RN r j n0) r (number k L) = Ok r'
    /\ INV r' (fun j => todo j && negb (existsb (Z.eqb j) (keys L))) prow (fun j => if existsb (Z.eqb j) (keys L) then 0 else delta j) c.
Proof.
  induction L as [|[j a] L IH]; intros k r todo prow delta c HI Hn Hk0 Hmax H; cbn [number rfold].
  - exists r. split; [reflexivity|]. cbn [length] in Hk0. destruct (Z.leb_spec k k0); [lia|]. destruct HI as (V & C & z & y & rho & HR & HF). do 5 eexists. split; [exact HR|]. eapply F_ext; [exact HF| | | |]; auto.
    intros i Hi. cbn [keys map existsb negb]. now rewrite andb_true_r.
  - cbn [keys map fst snd] in *. inversion Hn as [|? ? Hnj Hn']; subst. destruct (H (j, a) (or_introl eq_refl)) as (Hj & Ht & Hd & HP & Hs). cbn [fst snd] in *.
    destruct HI as (V & C & z & y & rho & HR & HF).
    pose proof (F_todo _ _ _ _ _ _ _ _ _ HF j Hj Ht) as [HV Hr].
    pose proof (F_rho _ _ _ _ _ _ _ _ _ HF j Hj) as Hrho. rewrite Hr, Ht in Hrho. cbn [andb negb] in Hrho.
    assert (Step : exists r1, (if (k =? k0)%Z then @set_res RN r j n0 else
      r <- set_vst r j (@desired RN f a) ;; x <- @arr_get R (r_res r) j ;;
      r <- @set_vd RN r j (@nopp RN (@nadd RN x (@nmul RN a md))) ;; @set_res RN r j n0) = Ok r1
      /\ INV r1 (upd todo j false) prow (upd delta j 0) (if (k + 1 <=? k0)%Z then c + 1 else c)).
    { rewrite rn_n0. destruct (Z.eqb_spec k k0) as [->|Hne].
      - destruct (rep_res _ _ _ _ _ _ j 0 HR Hj) as (r1 & E1 & R1). exists r1. split; [exact E1|]. do 5 eexists. split; [exact R1|].
        pose proof (Hmax (j, a) ltac:(lia)) as Hm. rewrite Z.sub_diag in Hm. specialize (Hm eq_refl). cbn [fst snd] in Hm. rewrite Z.leb_refl in HF.
        destruct (Z.leb_spec (k0 + 1) k0); [lia|]. eapply F_ext; [exact (F_skip _ _ _ _ _ _ _ _ _ j HF Hj Ht ltac:(lra))| | | |]; auto. lra.
      - destruct (rep_vst _ _ _ _ _ _ j (@desired RN f a) HR Hj) as (r1 & E1 & R1). rewrite E1. cbn [rbind]. pose proof (rp_r _ _ _ _ _ _ R1) as A. rnum. rewrite (arr_get_arr _ _ _ _ A Hj). cbn [rbind].
        destruct (rep_vd _ _ _ _ _ _ j (- (rho j + a * md)) R1 Hj) as (r2 & E2 & R2). change (@nopp RN (@nadd RN (rho j) (@nmul RN a md))) with (- (rho j + a * md)). rewrite E2. cbn [rbind].
        destruct (rep_res _ _ _ _ _ _ j 0 R2 Hj) as (r3 & E3 & R3). exists r3. split; [exact E3|]. do 5 eexists. split; [exact R3|].
        assert (HF' : F V C z y rho todo prow delta (if (k + 1 <=? k0)%Z then c + 1 else c)).
        { destruct (Z.leb_spec k k0), (Z.leb_spec (k + 1) k0); try lia; exact HF. }
        apply (F_var _ _ _ _ _ _ _ _ _ j (@desired RN f a) (- (rho j + a * md)) HF' Hj Ht); [lra|apply desired_active|now rewrite Hrho|exact HP]. }
    destruct Step as (r1 & E1 & I1). rnum. rewrite E1. cbn [rbind].
    destruct (IH (k + 1)%Z r1 _ prow _ c I1 Hn') as (r2 & E2 & I2).
    { cbn [length] in Hk0. lia. }
    { intros e Hle He. apply Hmax; [lia|]. replace (Z.to_nat (k0 - k)) with (S (Z.to_nat (k0 - (k + 1)))) by lia. exact He. }
    { intros e He. destruct (H e (or_intror He)) as (Q1 & Q2 & Q3 & Q4 & Q5). assert (Hej : fst e <> j). { intros Eq. destruct Hnj. rewrite <- Eq. now apply (in_map fst). }
      split; [exact Q1|]. unfold upd. destruct (Z.eqb_spec (fst e) j); [contradiction|]. auto. }
    exists r2. split; [exact E2|]. destruct I2 as (V' & C' & z' & y' & rho' & HR' & HF'). do 5 eexists. split; [exact HR'|]. eapply F_ext; [exact HF'| | | |]; auto.
    + intros i Hi. cbv beta. unfold upd. cbn [existsb]. destruct (i =? j)%Z; cbn [orb andb negb]; [now rewrite andb_false_r|reflexivity].
    + intros i Hi. cbv beta. unfold upd. cbn [existsb]. destruct (i =? j)%Z; cbn [orb]; [|reflexivity]. destruct (existsb _ _); reflexivity.
Qed.

Lemma forcing_step r todo prow c junk : INV r todo prow (fun _ => 0) c -> (0 <= fc_cons f < nl)%Z -> prow (fc_cons f) = true ->
  NoDup (keys (fc_vars f)) ->
  (forall j a, In (j, a) (fc_vars f) -> (0 <= j < nv)%Z /\ todo j = true /\ a <> 0 /\ mR Jc (ng + fc_cons f) j = a /\ Pv j (@desired RN f a)) ->
  (forall k, (0 <= k < nv)%Z -> ~ In k (keys (fc_vars f)) -> mR Jc (ng + fc_cons f) k = 0) ->
  ((forall e, In e (fc_vars f) -> wrong e = false) \/ exists e, In e (fc_vars f) /\ wrong e = true /\ rho0 (fst e) <> 0) ->
  exists r', @correct_forcing_constraint RN ng junk r f = Ok r'
    /\ INV r' (fun j => todo j && negb (existsb (Z.eqb j) (keys (fc_vars f)))) (upd prow (fc_cons f) false) (fun _ => 0) c.
Proof.
  intros HI Hi Hp Hn Hvars Hzero Hdec. pose proof HI as (V & C & z & y & rho & HR & HF). unfold correct_forcing_constraint.
  assert (Hres : forall j a, In (j, a) (fc_vars f) -> @arr_get R (r_res r) j = Ok (rho0 j)).
  { intros j a Hin. destruct (Hvars j a Hin) as (Hj & Ht & _). pose proof (rp_r _ _ _ _ _ _ HR) as A. rnum. rewrite (arr_get_arr _ _ _ _ A Hj).
    destruct (F_todo _ _ _ _ _ _ _ _ _ HF j Hj Ht) as [_ Hr]. rewrite (F_rho _ _ _ _ _ _ _ _ _ HF j Hj), Hr, Ht. reflexivity. }
  destruct (find_max_spec (fc_vars f) r Hres 0 false None (@n0 RN)) as (inv & mi & md & E & I1 & I2 & I3 & I4). 
  assert (Em : @find_max RN f r = Ok (inv, mi, md)) by (unfold find_max; rewrite enumerate_number; exact E). rewrite Em. clear E Em. cbn [rbind]. cbn [orb] in I1.
  destruct inv.
  - symmetry in I1. apply existsb_exists in I1. destruct I1 as (e1 & He1 & Hw1).
    assert (Hmi : exists p e, mi = Some (Z.of_nat p) /\ nth_error (fc_vars f) p = Some e /\ wrong e = true /\ md = cur e).
    { destruct I4 as [[-> ->]|(p & e & Q1 & Q2 & Q3 & Q4)]; [|exists p, e; rewrite Q1; auto]. exfalso.
      destruct Hdec as [Hd|([j a] & He & Hw & Hz)]; [rewrite (Hd e1 He1) in Hw1; discriminate|]. specialize (I3 _ He Hw). rewrite rn_n0 in I3. rewrite Rabs_R0 in I3.
      destruct (Hvars j a He) as (_ & _ & Ha & _). pose proof (cur_rho (j, a) Ha) as Hc. cbn [fst snd] in *. pose proof (Rabs_pos (cur (j, a))).
      assert (cur (j, a) = 0). { destruct (Req_dec (cur (j, a)) 0) as [|Hne]; [assumption|]. apply Rabs_pos_lt in Hne. lra. } rewrite H0 in Hc. lra. }
    destruct Hmi as (p & [jm am] & -> & Hpm & Hwm & Hmd). pose proof (nth_error_In _ _ Hpm) as Hinm. destruct (Hvars jm am Hinm) as (Hjm & Htm & Ham & HJm & HPm).
    pose proof (wrong_sign (jm, am) Ham Hwm) as Hsm. rewrite <- Hmd in Hsm.
    replace (if fc_lower f then @nleb RN md n0 else @nleb RN n0 md) with true.
    2:{ symmetry. rewrite rn_n0. destruct (fc_lower f); now apply rn_leb. }
    cbn [check rbind]. assert (Hic : (0 <= ng + fc_cons f < nc)%Z) by (unfold nc; lia).
    destruct (rep_cst _ _ _ _ _ _ _ (if fc_lower f then ActLower else ActUpper) HR Hic) as (r1 & E1 & R1). rewrite E1. cbn [rbind].
    pose proof (F_prow _ _ _ _ _ _ _ _ _ HF _ Hi Hp) as HC. pose proof (F_C _ _ _ _ _ _ _ _ _ HF _ Hic) as Hy. rewrite HC in Hy. cbn [sgn] in Hy.
    pose proof (rp_y _ _ _ _ _ _ R1) as Ay. rnum. rewrite (arr_get_arr _ _ _ _ Ay Hic). cbn [rbind].
    replace (@neqb RN (y (ng + fc_cons f)%Z) n0) with true; [|symmetry; apply rn_eqb; rewrite rn_n0; exact Hy]. cbn [check rbind].
    destruct (rep_cd _ _ _ _ _ _ _ md R1 Hic) as (r2 & E2 & R2). rnum. rewrite E2. cbn [rbind].
    assert (HF2 := F_row _ _ _ _ _ _ _ _ _ (fc_cons f) (if fc_lower f then ActLower else ActUpper) md HF Hi Hp ltac:(destruct (fc_lower f); reflexivity) ltac:(destruct (fc_lower f); exact Hsm)).
    rewrite enumerate_number.
    destruct (loop_row md (Z.of_nat p) (fc_vars f) 0 r2 todo (upd prow (fc_cons f) false) (fun j => 0 + mR Jc (ng + fc_cons f) j * md) c) as (r3 & E3 & J3).
    { destruct (Z.leb_spec 0 (Z.of_nat p)); [|lia]. do 5 eexists. split; [exact R2|exact HF2]. }
    { exact Hn. }
    { assert (p < length (fc_vars f))%nat by (apply nth_error_Some; rnum; congruence). rnum. lia. }
    { intros e _ He. replace (Z.to_nat (Z.of_nat p - 0)) with p in He by lia. rnum. assert (e = (jm, am)) as -> by congruence. cbn [fst snd]. rewrite Hmd. pose proof (cur_rho (jm, am) Ham) as Hc. cbn [fst snd] in Hc. lra. }
    { intros [j a] He. destruct (Hvars j a He) as (Q1 & Q2 & Q3 & Q4 & Q5). cbn [fst snd]. split; [exact Q1|]. split; [exact Q2|]. split; [rewrite Q4; lra|]. split; [exact Q5|].
      apply (sign_after (j, a) md Q3 Hsm). intros Hw. exact (I3 _ He Hw). }
    exists r3. split; [exact E3|]. destruct J3 as (V' & C' & z' & y' & rho' & HR' & HF'). do 5 eexists. split; [exact HR'|]. eapply F_ext; [exact HF'| | | |]; auto.
    intros j Hj. cbv beta. lazymatch goal with |- _ = (if ?b then _ else _) => destruct b eqn:Ex end; [reflexivity|]. rewrite Hzero; [lra|exact Hj|]. intros Hin. apply existsb_In in Hin. congruence.
  - destruct (loop_plain (fc_vars f) r todo (upd prow (fc_cons f) false) c) as (r1 & E1 & J1).
    { do 5 eexists. split; [exact HR|]. eapply F_ext; [exact HF| | | |]; auto. intros k Hk. unfold upd. destruct (k =? fc_cons f)%Z; [discriminate|auto]. }
    { exact Hn. }
    { intros [j a] He. destruct (Hvars j a He) as (Q1 & Q2 & Q3 & Q4 & Q5). cbn [fst snd]. split; [exact Q1|]. split; [exact Q2|]. split; [|exact Q5].
      destruct (wrong (j, a)) eqn:Ew; [|reflexivity]. symmetry in I1. exfalso. rewrite <- not_true_iff_false in I1. apply I1. apply existsb_exists. eauto. }
    exists r1. split; [exact E1|exact J1].
Qed.
End Forcing.

Lemma forcing_loop junk (L : list (@fcons RN)) : forall r todo prow c, INV r todo prow (fun _ => 0) c -> NoDup (map fc_cons L) ->
  (forall f, In f L -> (0 <= fc_cons f < nl)%Z /\ prow (fc_cons f) = true /\ NoDup (keys (fc_vars f))
    /\ (forall j a, In (j, a) (fc_vars f) -> (0 <= j < nv)%Z /\ todo j = true /\ a <> 0 /\ mR Jc (ng + fc_cons f) j = a /\ Pv j (@desired RN f a))
    /\ (forall k, (0 <= k < nv)%Z -> ~ In k (keys (fc_vars f)) -> mR Jc (ng + fc_cons f) k = 0)
    /\ ((forall e, In e (fc_vars f) -> wrong f e = false) \/ exists e, In e (fc_vars f) /\ wrong f e = true /\ rho0 (fst e) <> 0)) ->
  ForallOrdPairs (fun f f' => forall j, In j (keys (fc_vars f)) -> ~ In j (keys (fc_vars f'))) L ->
  exists r', rfold (@correct_forcing_constraint RN ng junk) r L = Ok r'
    /\ INV r' (fun j => todo j && negb (existsb (fun f => existsb (Z.eqb j) (keys (fc_vars f))) L)) (fun _ => false) (fun _ => 0) c.
Proof.
  induction L as [|f L IH]; intros r todo prow c HI Hn H HD; cbn [rfold].
  - exists r. split; [reflexivity|]. destruct HI as (V & C & z & y & rho & HR & HF). do 5 eexists. split; [exact HR|]. eapply F_ext; [exact HF| | | |]; auto; [|discriminate].
    intros k Hk. cbn [existsb negb]. now rewrite andb_true_r.
  - cbn [map] in Hn. inversion Hn as [|? ? Hnf Hn']; subst. inversion HD as [|? ? HDf HD']; subst. rewrite Forall_forall in HDf.
    destruct (H f (or_introl eq_refl)) as (H1 & H2 & H3 & H4 & H5 & H6).
    destruct (forcing_step f r todo prow c junk HI H1 H2 H3 H4 H5 H6) as (r1 & E1 & I1). rewrite E1. cbn [rbind].
    destruct (IH r1 _ _ c I1 Hn') as (r2 & E2 & I2).
    { intros f' Hin. destruct (H f' (or_intror Hin)) as (Q1 & Q2 & Q3 & Q4 & Q5). split; [exact Q1|]. split.
      { unfold upd. destruct (Z.eqb_spec (fc_cons f') (fc_cons f)) as [Eq|]; [|exact Q2]. destruct Hnf. rewrite <- Eq. now apply in_map. }
      split; [exact Q3|]. split; [|exact Q5]. intros j a Hja. destruct (Q4 j a Hja) as (P1 & P2 & P3). split; [exact P1|]. split; [|exact P3]. cbv beta. rewrite P2.
      destruct (existsb (Z.eqb j) (keys (fc_vars f))) eqn:Ex; [|reflexivity]. apply existsb_In in Ex. destruct (HDf f' Hin j Ex). exact (In_keys _ _ _ Hja). }
    { exact HD'. }
    exists r2. split; [exact E2|]. destruct I2 as (V & C & z & y & rho & HR & HF). do 5 eexists. split; [exact HR|]. eapply F_ext; [exact HF| | | |]; auto.
    intros k Hk. cbv beta. cbn [existsb]. destruct (existsb (Z.eqb k) (keys (fc_vars f))); cbn [orb negb andb]; rewrite ?andb_false_r, ?andb_true_r; reflexivity.
Qed.
End Inv.
