(** The duals that standard_cauchy.c takes from the linear program. *)
From Coq Require Import Reals Lra.
From Verif Require Import Base Num Cmp Sparse Vec VecFacts VecFacts2 VecReal RSum Mat MatFacts MatFacts2 MatFacts3 MatFacts4 Arr Gauss PreprocReal QnReal WorkingSet WorkingSetFacts DualEstFacts AugJacFacts AugJacReal Cauchy CauchyFacts StdCauchy StdCauchyFacts StdCauchyReal StdCauchyLP StdCauchyReach StdCauchyWS StdCauchyWS2.
Local Open Scope R_scope.

(** Reduced costs [z] and prices [y] that certify a solution: complementary to the bounds and
    zero on the basis *)
Record lp_duals (T : R) (L : @lpi RN) (M : list (list (Z * R))) (sol : @lpsol RN) : Prop := {
  ld_z : forall j, (0 <= j < li_nv L)%Z -> nth0 (ls_z sol) j = nth0 (li_obj L) j - sumd (li_nc L) (fun i => mR M i j * nth0 (ls_y sol) i);
  ld_var : forall j, (0 <= j < li_nv L)%Z ->
    (0 < nth0 (ls_z sol) j -> - T < nth0 (li_vlb L) j /\ nth0 (ls_x sol) j = nth0 (li_vlb L) j)
    /\ (nth0 (ls_z sol) j < 0 -> nth0 (li_vub L) j < T /\ nth0 (ls_x sol) j = nth0 (li_vub L) j)
    /\ (nthb (ls_vs sol) j = BBasic -> nth0 (ls_z sol) j = 0);
  ld_row : forall i, (0 <= i < li_nc L)%Z ->
    (0 < nth0 (ls_y sol) i -> - T < nth0 (li_clb L) i /\ lp_row L M (nth0 (ls_x sol)) i = nth0 (li_clb L) i)
    /\ (nth0 (ls_y sol) i < 0 -> nth0 (li_cub L) i < T /\ lp_row L M (nth0 (ls_x sol)) i = nth0 (li_cub L) i)
    /\ (nthb (ls_cs sol) i = BBasic -> nth0 (ls_y sol) i = 0) }.

(** The sign of a multiplier *)
Definition sign_ok (st : ast) (v : R) : Prop :=
  match st with Inactive => v = 0 | ActLower => v <= 0 | ActUpper => 0 <= v | ActBoth => True end.
(** What trimming leaves of a value *)
Definition trimmed (st : ast) (v : R) : R :=
  match st with Inactive => 0 | ActLower => if Rlt_dec 0 v then 0 else v | ActUpper => if Rlt_dec v 0 then 0 else v | ActBoth => v end.
Lemma trimmed_sign st v : sign_ok st (trimmed st v).
Proof. destruct st; cbn; auto; destruct (Rlt_dec _ _); lra. Qed.
Lemma trimmed_id st v : sign_ok st v -> trimmed st v = v.
Proof. destruct st; cbn; intros H; auto; destruct (Rlt_dec _ _); lra. Qed.

Definition kept (f : Z -> ast) (e : Z * @num RN) : bool :=
  match f (fst e) with Inactive => false | ActUpper => negb (@nltb RN (snd e) (@n0 RN)) | ActLower => negb (@nltb RN (@n0 RN) (snd e)) | ActBoth => true end.
Lemma trim_fold states k f : (forall j, (0 <= j < k)%Z -> arr_get states j = Ok (f j)) -> forall l acc, (forall e, In e l -> (0 <= fst e < k)%Z) ->
  rfold (fun acc (e : Z * @num RN) =>
    st <- arr_get states (fst e) ;;
    Ok (match st with
        | Inactive => acc
        | ActUpper => if (@nltb RN (snd e) (@n0 RN)) then acc else acc ++ [e]
        | ActLower => if (@nltb RN (@n0 RN) (snd e)) then acc else acc ++ [e]
        | ActBoth => acc ++ [e]
        end)) acc l = Ok (acc ++ filter (kept f) l).
Proof.
  intros Hf l. induction l as [|e l IH]; intros acc Hl; [cbn; now rewrite app_nil_r|]. cbn [rfold filter]. rewrite (Hf (fst e)) by (apply Hl; now left). cbn [rbind].
  assert (Hr : forall e', In e' l -> (0 <= fst e' < k)%Z) by (intros; apply Hl; now right). unfold kept at 1.
  destruct (f (fst e)); cbn [negb]; try (destruct (@nltb RN _ _); cbn [negb]); rewrite IH by exact Hr; try reflexivity; now rewrite <- app_assoc.
Qed.
Lemma trim_ok states k f d : (forall j, (0 <= j < k)%Z -> arr_get states j = Ok (f j)) -> vok k d ->
  exists d', @trim_duals RN states d = Ok d' /\ vok k d' /\ forall j, (0 <= j < k)%Z -> dense d' j = trimmed (f j) (dense d j).
Proof.
  intros Hf [(W1 & W2 & W3) Hd]. unfold trim_duals.
  assert (Hin : forall e, In e (vent d) -> (0 <= fst e < k)%Z). { intros e He. rewrite <- Hd. apply (sorted_in_In _ _ _ _ W2). unfold keys. now apply in_map. }
  pose proof (trim_fold states k f Hf (vent d) [] Hin) as E. match goal with |- exists d', rbind ?a _ = _ /\ _ => replace a with (Ok (A := list (Z * @num RN)) (filter (kept f) (vent d))) by (symmetry; exact E) end.
  cbn [rbind app]. eexists. split; [reflexivity|]. split.
  - split; [|exact Hd]. split; [exact W1|]. split; cbn [vdim vent vcap].
    + apply (sorted_in_filter_keys (kept f) fst). exact W2.
    + pose proof (filter_length_le (kept f) (vent d)) as Hle. apply Nat2Z.inj_le in Hle. exact (Z.le_trans _ _ _ Hle W3).
  - intros j Hj. unfold dense. cbn [vent]. rewrite (get_filter_pred (kept f) 0 (vdim d) (vent d) j W2). destruct (get (vent d) j) as [v|]; cbn [oval]; rewrite ?rn_n0.
    + unfold kept. cbn [fst snd]. rewrite ?rn_n0. destruct (f j); cbn [trimmed oval negb]; rewrite ?rn_n0; try reflexivity.
      * destruct (@nltb RN 0 v) eqn:Ev; [apply rn_ltb in Ev|apply rn_ltb_false in Ev]; cbn [negb oval]; destruct (Rlt_dec _ _); rewrite ?rn_n0; try reflexivity; lra.
      * destruct (@nltb RN v 0) eqn:Ev; [apply rn_ltb in Ev|apply rn_ltb_false in Ev]; cbn [negb oval]; destruct (Rlt_dec _ _); rewrite ?rn_n0; try reflexivity; lra.
    + destruct (f j); cbn; try reflexivity; destruct (Rlt_dec _ _); reflexivity.
Qed.

Lemma rounded_opp eps c u : rounded eps c u -> rounded eps (- c) (- u).
Proof. unfold rounded. rewrite Rabs_Ropp. intros [A B]. split; intros H; [rewrite (A H); lra|rewrite (B H); lra]. Qed.
Lemma rounded_trim eps st c u : sign_ok st u -> rounded eps c u -> trimmed st c = c.
Proof.
  intros Hs [A B]. apply trimmed_id. destruct (Rle_lt_dec (Rabs u) eps) as [H|H]; [rewrite (A H); destruct st; cbn; lra|now rewrite (B H)].
Qed.
Lemma scale_neg (d : @vec RN) k : vok k d -> vok k (@vec_scale RN d (@nlit RN (-1) 1)) /\ forall j, dense (@vec_scale RN d (@nlit RN (-1) 1)) j = - dense d j.
Proof.
  intros [Hw Hd]. destruct (vec_scale_spec d (@nlit RN (-1) 1) Hw) as (W & D & G). split; [split; [exact W|congruence]|]. intros j. unfold dense. rewrite G.
  assert (E : @nlit RN (-1) 1 = -1) by apply rn_lit1.
  destruct (@neqb RN _ n0) eqn:E0; [apply rn_eqb in E0; rewrite E, rn_n0 in E0; lra|]. destruct (@neqb RN _ n1) eqn:E1; [apply rn_eqb in E1; rewrite E, rn_n1 in E1; lra|].
  destruct (get (vent d) j); cbn [option_map oval]; rewrite ?rn_n0; [|lra]. rewrite E. cbn. lra.
Qed.

Section Dual.
Variable P : @sprob RN.
Hypothesis HP : prob_ok P.
Variable T : R.
Hypothesis HT : hi <= T <= 2 * hi.
Variable cs0 : list (list (Z * R)).
Variables (it : @siter RN) (cs : list (list (Z * R))) (r : R) (g : option (@vec RN)) (p : R).
Notation n := (sp_nv P).
Notation m := (sp_nc P).
Notation INV s := (inv P T cs0 s (PSolved it cs r g p)).

Lemma one_dual_ok s vals states f k l d : INV s -> length vals = Z.to_nat l -> (0 <= k <= l)%Z -> (l <= n + 3 * m)%Z ->
  (forall j, (0 <= j < k)%Z -> arr_get states j = Ok (f j)) -> wf d -> vdim d = k ->
  exists s' d', one_dual P s vals states k d = Ok (s', d') /\ INV s' /\ sc_def s' = sc_def s /\ sc_reduced s' = sc_reduced s /\ vok k d'
    /\ forall j, (0 <= j < k)%Z -> exists q, rounded (sp_zero P) q (- nth0 vals j) /\ dense d' j = trimmed (f j) q.
Proof.
  intros HI Hl Hk Hk2 Hf Hw Hd. pose proof HI as (Hz & _). pose proof (po_n P HP) as Hn. pose proof (po_m P HP) as Hm.
  assert (E0 : exists s' d', one_dual P s vals states k d = Ok (s', d') /\ sc_def s' = sc_def s /\ sc_reduced s' = sc_reduced s /\ vok k d'
    /\ forall j, (0 <= j < k)%Z -> exists q, rounded (sp_zero P) q (- nth0 vals j) /\ dense d' j = trimmed (f j) q).
  { unfold one_dual. rewrite Hd, Z.eqb_refl. cbn [check rbind].
    destruct (store_head (0 : @num RN) vals (fe_dual (sc_fe s)) l (n + 3 * m) Hl (z_dual _ _ _ Hz) ltac:(lia)) as (raw & E & L & G & _). rewrite E. cbn [rbind].
    pose proof (@firstn_arr (@num RN) _ _ k _ (@arr_of (@num RN) 0 _ _ L) ltac:(lia)) as Av. set (vs := firstn (Z.to_nat k) raw) in *.
    destruct (vec_set_from_raw_spec d vs (sp_zero P) Hw) as (d1 & E1 & W1 & D1 & G1). rewrite E1. cbn [rbind].
    assert (Hlen : Z.of_nat (length vs) = k) by (etransitivity; [exact (f_equal Z.of_nat (proj1 Av))|lia]).
    assert (Hrd : forall j, (0 <= j < k)%Z -> rounded (sp_zero P) (dense d1 j) (nth0 vals j)).
    { intros j Hj. unfold dense. rewrite G1 by lia. rewrite (proj2 Av j Hj). rewrite (G j) by lia. unfold nth0.
      destruct (@is_zero RN _ _) eqn:Z0; [apply rounded_zero; [cbn; apply rn_n0|exact Z0]|now apply rounded_keep]. }
    destruct (scale_neg d1 k) as [V2 G2]; [split; [exact W1|congruence]|].
    destruct (trim_ok states k f _ Hf V2) as (d' & E3 & V3 & G3). rewrite E3. cbn [rbind]. eexists; eexists. split; [reflexivity|]. split; [reflexivity|]. split; [reflexivity|]. split; [exact V3|].
    intros j Hj. exists (- dense d1 j). split; [now apply rounded_opp, Hrd|]. now rewrite (G3 j Hj), G2. }
  destruct E0 as (s' & d' & E & A & B & C & D). exists s', d'. split; [exact E|]. split; [exact (one_dual_keeps _ _ _ _ _ _ _ _ _ _ _ _ _ _ _ HI E)|]. auto.
Qed.

Lemma states_vars w : consistent w -> wnv w = n -> forall j, (0 <= j < n)%Z -> arr_get (wvst w) j = Ok (vstate w j).
Proof.
  intros C Hv j Hj. destruct (cs_total w C (IVar j)) as (st & k & E & _). { cbn. lia. } cbn in E. unfold vstate. rewrite E.
  unfold ws_var_state in E. rewrite Hv in E. destruct (Z.ltb_spec j n); [exact E|lia].
Qed.
Lemma states_cons w : consistent w -> wnc w = m -> forall j, (0 <= j < m)%Z -> arr_get (wcst w) j = Ok (cstate w j).
Proof.
  intros C Hv j Hj. destruct (cs_total w C (ICons j)) as (st & k & E & _). { cbn. lia. } cbn in E. unfold cstate. rewrite E.
  unfold ws_cons_state in E. rewrite Hv in E. destruct (Z.ltb_spec j m); [exact E|lia].
Qed.

Lemma estimate_ok s sol w cd vd : INV s -> li_sol (sc_def s) = Some sol -> consistent w -> wnv w = n -> wnc w = m -> vok m cd -> vok n vd ->
  exists s' cd' vd', sc_estimate_duals P s w cd vd = Ok (s', cd', vd') /\ vok m cd' /\ vok n vd'
    /\ (forall i, (0 <= i < m)%Z -> exists q, rounded (sp_zero P) q (- nth0 (ls_y sol) i) /\ dense cd' i = trimmed (cstate w i) q)
    /\ (forall j, (0 <= j < n)%Z -> exists q, rounded (sp_zero P) q (- nth0 (ls_z sol) j) /\ dense vd' j = trimmed (vstate w j) q).
Proof.
  intros HI Hs C Wv Wc [Cw Cd] [Vw Vd]. pose proof (po_n P HP) as Hn. pose proof (po_m P HP) as Hm. pose proof HI as (_ & _ & sol0 & Hv & _).
  assert (sol0 = sol) as -> by (pose proof (v_sol _ _ _ _ _ _ _ _ _ Hv); congruence). pose proof (v_opt _ _ _ _ _ _ _ _ _ Hv) as HO. pose proof (v_lp _ _ _ _ _ _ _ _ _ Hv) as DL.
  pose proof (lo_z _ _ _ _ HO) as Lz. rewrite (dl_nv _ _ _ _ _ _ _ DL) in Lz. pose proof (lo_y _ _ _ _ HO) as Ly. rewrite (dl_nc _ _ _ _ _ _ _ DL) in Ly.
  unfold sc_estimate_duals. rewrite Hs.
  destruct (one_dual_ok s (ls_z sol) (wvst w) (vstate w) n (n + 2 * m) vd HI Lz ltac:(lia) ltac:(lia) (states_vars w C Wv) Vw Vd) as (s1 & vd' & E1 & I1 & _ & _ & O1 & G1).
  rewrite E1. cbn [rbind fst snd].
  destruct (one_dual_ok s1 (ls_y sol) (wcst w) (cstate w) m m cd I1 Ly ltac:(lia) ltac:(lia) (states_cons w C Wc) Cw Cd) as (s2 & cd' & E2 & I2 & _ & _ & O2 & G2).
  rewrite E2. cbn [rbind fst snd]. exists s2, cd', vd'. auto.
Qed.

Lemma working_set_def s x w s' w' : @sc_working_set RN P s x w = Ok (s', w') -> sc_def s' = sc_def s.
Proof.
  assert (F : forall a b, @fetch_base RN a = Ok b -> sc_def b = sc_def a).
  { intros a b E. unfold fetch_base in E. destruct (fe_dbase _); [|now injection E as <-]. apply rbind_ok in E. destruct E as (? & _ & E). apply rbind_ok in E. destruct E as (? & _ & E).
    apply rbind_ok in E. destruct E as (? & _ & [= <-]). reflexivity. }
  assert (A : forall a w1 q, @add_vars RN P a x w1 = Ok q -> sc_def (fst q) = sc_def a).
  { intros a w1 q E. unfold add_vars in E. apply rbind_ok in E. destruct E as (b & E1 & E). apply rbind_ok in E. destruct E as (? & _ & [= <-]). cbn. now apply F. }
  unfold sc_working_set. intros E. apply rbind_ok in E. destruct E as (q & E1 & E). apply rbind_ok in E. destruct E as (? & _ & E). apply rbind_ok in E. destruct E as (? & _ & [= ->]).
  destruct (sc_reduced s).
  - unfold reduced_working_set in E1. apply rbind_ok in E1. destruct E1 as (s1 & E2 & E1). apply rbind_ok in E1. destruct E1 as (q1 & E3 & E1). apply rbind_ok in E1. destruct E1 as (? & _ & [= <- _]).
    rewrite (A _ _ _ E3). now apply F.
  - unfold simple_working_set in E1. apply rbind_ok in E1. destruct E1 as (q1 & E3 & E1). unfold add_cons in E1. apply rbind_ok in E1. destruct E1 as (s1 & E2 & E1). apply rbind_ok in E1. destruct E1 as (? & _ & [= <- _]).
    rewrite (F _ _ E2). now apply (A _ _ _ E3).
Qed.

(** ** The certificate of the LP with slack variables *)
Section Certificate.
Variables (L : @lpi RN) (sol : @lpsol RN).
Hypothesis HL : default_lp P L (dense (si_x it)) (dense (si_c it)) (grad g) r p.
Hypothesis Hcs : Z.of_nat (length cs) = n.
Hypothesis HB : lp_base T L (cs ++ @slack_cols RN m) sol.
Hypothesis HO : lp_optimal T L (cs ++ @slack_cols RN m) sol.
Hypothesis HD : lp_duals T L (cs ++ @slack_cols RN m) sol.
Notation y := (nth0 (ls_x sol)).

Lemma cert_z j : (0 <= j < n)%Z -> nth0 (ls_z sol) j = grad g j - sumd m (fun i => mR cs i j * nth0 (ls_y sol) i).
Proof.
  intros Hj. pose proof (po_m P HP). rewrite (ld_z _ _ _ _ HD) by (rewrite (dl_nv _ _ _ _ _ _ _ HL); lia). rewrite (nth0_arr _ _ _ _ (dl_obj _ _ _ _ _ _ _ HL)) by lia.
  destruct (Z.ltb_spec j n); [|lia]. rewrite (dl_nc _ _ _ _ _ _ _ HL). f_equal. apply sumd_ext. intros i Hi. rewrite (mR_slack cs n m) by (auto; lia). destruct (Z.ltb_spec j n); [reflexivity|lia].
Qed.
Lemma cert_slack i : (0 <= i < m)%Z -> nth0 (ls_z sol) (n + i) = p - nth0 (ls_y sol) i /\ nth0 (ls_z sol) (n + m + i) = p + nth0 (ls_y sol) i.
Proof.
  intros Hi. pose proof (po_n P HP). rewrite !(ld_z _ _ _ _ HD) by (rewrite (dl_nv _ _ _ _ _ _ _ HL); lia). rewrite !(nth0_arr _ _ _ _ (dl_obj _ _ _ _ _ _ _ HL)) by lia.
  destruct (Z.ltb_spec (n + i) n); [lia|]. destruct (Z.ltb_spec (n + m + i) n); [lia|]. rewrite (dl_nc _ _ _ _ _ _ _ HL).
  rewrite (sumd_ext m (fun k => mR (cs ++ @slack_cols RN m) k (n + i) * nth0 (ls_y sol) k) (fun k => (if (i =? k)%Z then 1 else 0) * nth0 (ls_y sol) k)).
  2:{ intros k Hk. rewrite (mR_slack cs n m) by (auto; lia). destruct (Z.ltb_spec (n + i) n); [lia|]. destruct (Z.ltb_spec (n + i) (n + m)); [|lia]. destruct (Z.eqb_spec (n + k) (n + i)), (Z.eqb_spec i k); try lia; lra. }
  rewrite (sumd_ext m (fun k => mR (cs ++ @slack_cols RN m) k (n + m + i) * nth0 (ls_y sol) k) (fun k => (if (i =? k)%Z then 1 else 0) * - nth0 (ls_y sol) k)).
  2:{ intros k Hk. rewrite (mR_slack cs n m) by (auto; lia). destruct (Z.ltb_spec (n + m + i) n); [lia|]. destruct (Z.ltb_spec (n + m + i) (n + m)); [lia|]. destruct (Z.eqb_spec (n + m + k) (n + m + i)), (Z.eqb_spec i k); try lia; lra. }
  rewrite !sumd_delta by exact Hi. split; lra.
Qed.
Lemma cert_bound i : (0 <= i < m)%Z -> Rabs (nth0 (ls_y sol) i) <= p
  /\ (nth0 (ls_y sol) i < p -> sl P y i = 0) /\ (- p < nth0 (ls_y sol) i -> su P y i = 0).
Proof.
  intros Hi. pose proof (po_n P HP). pose proof hi_pos. destruct (cert_slack i Hi) as [Z1 Z2].
  assert (Hq : forall q, (n <= q < n + 2 * m)%Z -> 0 <= nth0 (ls_z sol) q /\ (0 < nth0 (ls_z sol) q -> nth0 (ls_x sol) q = 0)).
  { intros q Hq. destruct (ld_var _ _ _ _ HD q) as (A & B & _); [rewrite (dl_nv _ _ _ _ _ _ _ HL); lia|].
    rewrite (nth0_arr _ _ _ _ (dl_vub _ _ _ _ _ _ _ HL)) in B by lia. rewrite (nth0_arr _ _ _ _ (dl_vlb _ _ _ _ _ _ _ HL)) in A by lia. destruct (Z.ltb_spec q n); [lia|].
    split; [destruct (Rle_lt_dec 0 (nth0 (ls_z sol) q)) as [G|G]; [exact G|specialize (B G); lra]|]. intros G. now apply A. }
  destruct (Hq (n + i)%Z ltac:(lia)) as [A1 A2]. destruct (Hq (n + m + i)%Z ltac:(lia)) as [B1 B2]. rewrite Z1 in A1, A2. rewrite Z2 in B1, B2.
  split; [apply Rabs_le; lra|]. split; intros; [apply A2|apply B2]; lra.
Qed.
Lemma cert_row i : (0 <= i < m)%Z ->
  (0 < nth0 (ls_y sol) i -> - hi < dense (sp_clb P) i /\ lin P (dense (si_c it)) cs y i + sl P y i - su P y i = dense (sp_clb P) i)
  /\ (nth0 (ls_y sol) i < 0 -> dense (sp_cub P) i < hi /\ lin P (dense (si_c it)) cs y i + sl P y i - su P y i = dense (sp_cub P) i)
  /\ (nthb (ls_cs sol) i = BBasic \/ nthb (ls_cs sol) i = BZero -> nth0 (ls_y sol) i = 0).
Proof.
  intros Hi. destruct (ld_row _ _ _ _ HD i) as (A & B & C); [rewrite (dl_nc _ _ _ _ _ _ _ HL); exact Hi|].
  pose proof (proj2 HB i ltac:(rewrite (dl_nc _ _ _ _ _ _ _ HL); exact Hi)) as Hz.
  rewrite (nth0_arr _ _ _ _ (dl_clb _ _ _ _ _ _ _ HL)) in A, Hz by exact Hi. rewrite (nth0_arr _ _ _ _ (dl_cub _ _ _ _ _ _ _ HL)) in B, Hz by exact Hi.
  rewrite (default_row P HP cs Hcs L) in A, B by (apply HL || exact Hi). unfold lin.
  split; [intros G; destruct (A G) as [A1 A2]; destruct (row_lower P T HT (dense (si_c it)) i _ A1 A2); split; [assumption|lra]|].
  split; [intros G; destruct (B G) as [B1 B2]; destruct (row_upper P T HT (dense (si_c it)) i _ B1 B2); split; [assumption|lra]|].
  intros [G|G]; [now apply C|]. rewrite G in Hz. cbn [at_bound] in Hz. destruct (Rtotal_order (nth0 (ls_y sol) i) 0) as [Q|[Q|Q]]; [specialize (B Q); lra|exact Q|specialize (A Q); lra].
Qed.
Lemma cert_var j : (0 <= j < n)%Z -> (0 < nth0 (ls_z sol) j -> y j = vlo P (dense (si_x it)) r j) /\ (nth0 (ls_z sol) j < 0 -> y j = vup P (dense (si_x it)) r j)
  /\ (nthb (ls_vs sol) j = BBasic -> nth0 (ls_z sol) j = 0).
Proof.
  intros Hj. pose proof (po_m P HP). destruct (ld_var _ _ _ _ HD j) as (A & B & C); [rewrite (dl_nv _ _ _ _ _ _ _ HL); lia|].
  rewrite (nth0_arr _ _ _ _ (dl_vlb _ _ _ _ _ _ _ HL)) in A by lia. rewrite (nth0_arr _ _ _ _ (dl_vub _ _ _ _ _ _ _ HL)) in B by lia. destruct (Z.ltb_spec j n); [|lia].
  split; [intros G; now apply A|]. split; [intros G; now apply B|exact C].
Qed.
End Certificate.
End Dual.
