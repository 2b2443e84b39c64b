(** The working set of a step: states, bounds attained and independence. *)
From Coq Require Import Reals Lra.
From Verif Require Import Base Num Cmp Sparse Vec VecFacts VecFacts2 VecReal RSum Mat MatFacts MatFacts2 MatFacts3 MatFacts4 Arr Gauss PreprocReal QnReal WorkingSet WorkingSetFacts DualEstFacts AugJacFacts AugJacMain AugJacReal AugJacQRReal Cauchy CauchyFacts StdCauchy StdCauchyFacts StdCauchyReal StdCauchyLP StdCauchyReach StdCauchyWS.
Local Open Scope R_scope.

Section WS.
Variable P : @sprob RN.
Hypothesis HP : prob_ok P.
Variable T : R.
Hypothesis HT : hi <= T <= 2 * hi.
Variable cs0 : list (list (Z * R)).
Variables (it : @siter RN) (cs : list (list (Z * R))) (r : R) (g : option (@vec RN)) (p : R).
Notation n := (sp_nv P).
Notation m := (sp_nc P).
Notation INV s := (inv P T cs0 s (PSolved it cs r g p)).
Notation x := (dense (si_x it)).
Notation fixed j := (@is_eq RN (dense (sp_vlb P) j) (dense (sp_vub P) j) (sp_eps P)).
Notation equation i := (@is_eq RN (dense (sp_clb P) i) (dense (sp_cub P) i) (sp_eps P)).

(** Bounds beyond the threshold are farther away than the trust radius. *)
Definition far : Prop := forall j, (0 <= j < n)%Z -> (dense (sp_vlb P) j <= - hi -> r <= x j - dense (sp_vlb P) j) /\ (hi <= dense (sp_vub P) j -> r <= dense (sp_vub P) j - x j).

(** The states of a working set agree with the bounds attained by the step [y]. *)
Definition var_meaning (y : Z -> R) (st : ast) (j : Z) : Prop :=
  match st with
  | ActLower => fixed j = false /\ - hi < dense (sp_vlb P) j /\ x j + y j = dense (sp_vlb P) j
  | ActUpper => fixed j = false /\ dense (sp_vub P) j < hi /\ x j + y j = dense (sp_vub P) j
  | ActBoth => fixed j = true /\ (x j + y j = dense (sp_vlb P) j \/ x j + y j = dense (sp_vub P) j \/ Rabs (y j) = r)
  | Inactive => fixed j = false
  end.
Definition cons_meaning (y : Z -> R) (st : ast) (i : Z) : Prop :=
  match st with
  | ActLower => - hi < dense (sp_clb P) i /\ lin P (dense (si_c it)) cs y i = dense (sp_clb P) i
  | ActUpper => dense (sp_cub P) i < hi /\ lin P (dense (si_c it)) cs y i = dense (sp_cub P) i
  | ActBoth => equation i = true /\ (lin P (dense (si_c it)) cs y i = dense (sp_clb P) i \/ lin P (dense (si_c it)) cs y i = dense (sp_cub P) i)
  | Inactive => True
  end.

Lemma bst_eqb b c : bstat_eqb b c = true <-> b = c.
Proof. destruct b, c; cbn; split; congruence. Qed.

Lemma vlo_r j : - r <= vlo P x r j.
Proof. apply (proj1 (vlo_le P x r j (vlo P x r j))). apply Rle_refl. Qed.
Lemma vup_r j : vup P x r j <= r.
Proof. apply (proj1 (vup_ge P x r j (vup P x r j))). apply Rle_refl. Qed.
Lemma vlo_cases j : vlo P x r j = - r \/ (- hi < dense (sp_vlb P) j /\ vlo P x r j = dense (sp_vlb P) j - x j).
Proof.
  unfold vlo. destruct (@is_infinite RN _) eqn:E; [now left|]. apply not_true_iff_false in E. rewrite rn_is_infinite in E.
  unfold Rmax. destruct (Rle_dec _ _); [now left|]. right. split; [lra|reflexivity].
Qed.
Lemma vup_cases j : vup P x r j = r \/ (dense (sp_vub P) j < hi /\ vup P x r j = dense (sp_vub P) j - x j).
Proof.
  unfold vup. destruct (@is_infinite RN _) eqn:E; [now left|]. apply not_true_iff_false in E. rewrite rn_is_infinite in E.
  unfold Rmin. destruct (Rle_dec _ _); [|now left]. right. split; [lra|reflexivity].
Qed.

(** Variables *)
Lemma var_state_ok y vs j : 0 < r -> far -> (0 <= j < n)%Z -> at_bound T (nthb vs j) (vlo P x r j) (y j) (vup P x r j) -> r < hi ->
  (fixed j = true -> nthb vs j <> BBasic) ->
  var_meaning y (var_state P it r vs j) j /\ (nthb vs j <> BBasic -> var_state P it r vs j = Inactive -> Rabs (y j) = r)
  /\ (nthb vs j = BBasic -> var_state P it r vs j = Inactive).
Proof.
  intros Hr Hf Hj Hb Hh Hx. destruct (Hf j Hj) as [F1 F2]. pose proof (vlo_r j) as Vl. pose proof (vup_r j) as Vu. unfold var_state. destruct (fixed j) eqn:Ef.
  { split; [|split; [discriminate|intros; exfalso; now apply Hx]]. cbn [var_meaning]. split; [exact Ef|]. specialize (Hx eq_refl). destruct (nthb vs j); cbn [at_bound] in Hb; [|congruence| |lra].
    - destruct Hb as [-> _]. destruct (vlo_cases j) as [-> |[_ ->]]; [right; right; rewrite Rabs_Ropp; apply Rabs_right; lra|left; lra].
    - destruct Hb as [-> _]. destruct (vup_cases j) as [-> |[_ ->]]; [right; right; apply Rabs_right; lra|right; left; lra]. }
  destruct (nthb vs j) eqn:Eb; cbn [bstat_eqb andb at_bound] in *.
  - destruct Hb as [Hy _]. destruct (@nltb RN (x j - dense (sp_vlb P) j) r) eqn:E.
    + apply rn_ltb in E. cbn [var_meaning]. split; [split; [exact Ef|]|split; congruence]. destruct (Rle_lt_dec (dense (sp_vlb P) j) (- hi)) as [Hi|Hi]; [specialize (F1 Hi); lra|]. split; [exact Hi|].
      rewrite Hy. unfold vlo. destruct (@is_infinite RN _) eqn:Ei; [apply rn_is_infinite in Ei; lra|]. rewrite Rmax_left by lra. lra.
    + cbn [var_meaning]. split; [exact Ef|]. split; [intros _ _|congruence]. apply rn_ltb_false in E. rewrite Hy. unfold vlo. destruct (@is_infinite RN _); [|rewrite Rmax_right by lra]; rewrite Rabs_Ropp; apply Rabs_right; lra.
  - cbn [var_meaning]. split; [exact Ef|]. split; congruence.
  - destruct Hb as [Hy _]. destruct (@nltb RN (dense (sp_vub P) j - x j) r) eqn:E.
    + apply rn_ltb in E. cbn [var_meaning]. split; [split; [exact Ef|]|split; congruence]. destruct (Rle_lt_dec hi (dense (sp_vub P) j)) as [Hi|Hi]; [specialize (F2 Hi); lra|]. split; [exact Hi|].
      rewrite Hy. unfold vup. destruct (@is_infinite RN _) eqn:Ei; [apply rn_is_infinite in Ei; lra|]. rewrite Rmin_left by lra. lra.
    + cbn [var_meaning]. split; [exact Ef|]. split; [intros _ _|congruence]. apply rn_ltb_false in E. rewrite Hy. unfold vup. destruct (@is_infinite RN _); [|rewrite Rmin_right by lra]; apply Rabs_right; lra.
  - lra.
Qed.

(** Rows *)
Lemma row_lower c i v : - T < clo P c i -> v = clo P c i -> - hi < dense (sp_clb P) i /\ c i + v = dense (sp_clb P) i.
Proof. unfold clo. destruct (@is_infinite RN _) eqn:E; [intros; lra|]. apply not_true_iff_false in E. rewrite rn_is_infinite in E. intros _ ->. split; lra. Qed.
Lemma row_upper c i v : cup P c i < T -> v = cup P c i -> dense (sp_cub P) i < hi /\ c i + v = dense (sp_cub P) i.
Proof. unfold cup. destruct (@is_infinite RN _) eqn:E; [intros; lra|]. apply not_true_iff_false in E. rewrite rn_is_infinite in E. intros _ ->. split; lra. Qed.

Lemma slack_state_ok y vs cst i : 
  at_bound T (nthb cst i) (clo P (dense (si_c it)) i) (sumd n (fun j => mR cs i j * y j) + sl P y i - su P y i) (cup P (dense (si_c it)) i) ->
  at_bound T (nthb vs (n + i)) 0 (sl P y i) (2 * hi) -> at_bound T (nthb vs (n + m + i)) 0 (su P y i) (2 * hi) ->
  cons_meaning y (slack_state P vs cst i) i
  /\ (nthb cst i = BBasic \/ nthb vs (n + i) = BBasic \/ nthb vs (n + m + i) = BBasic -> slack_state P vs cst i = Inactive)
  /\ (nthb cst i <> BBasic -> nthb cst i <> BZero -> slack_state P vs cst i = Inactive -> nthb vs (n + i) = BBasic \/ nthb vs (n + m + i) = BBasic).
Proof.
  intros Hb Hl Hu. pose proof hi_pos as Hh. unfold slack_state.
  assert (Hlow : forall b v, at_bound T b 0 v (2 * hi) -> b = BLower /\ v = 0 \/ b = BBasic).
  { intros [] v; cbn [at_bound]; intros H; [left; split; [reflexivity|lra]|now right|lra|lra]. }
  destruct (Hlow _ _ Hl) as [[-> Zl]| ->], (Hlow _ _ Hu) as [[-> Zu]| ->]; destruct (nthb cst i) eqn:Ec; cbn [bstat_eqb andb cons_meaning at_bound] in *;
    try (split; [exact I|]; split; [reflexivity|]; intros; auto; congruence).
  - assert (Hrow : sumd n (fun j => mR cs i j * y j) = clo P (dense (si_c it)) i) by lra. destruct (row_lower _ _ _ (proj2 Hb) Hrow) as [A B].
    destruct (equation i) eqn:Ee; cbn [cons_meaning]; (split; [|split; [intros [|[|]]; congruence|discriminate]]); [split; [exact Ee|]; left|split; [exact A|]]; exact B.
  - assert (Hrow : sumd n (fun j => mR cs i j * y j) = cup P (dense (si_c it)) i) by lra. destruct (row_upper _ _ _ (proj2 Hb) Hrow) as [A B].
    destruct (equation i) eqn:Ee; cbn [cons_meaning]; (split; [|split; [intros [|[|]]; congruence|discriminate]]); [split; [exact Ee|]; right|split; [exact A|]]; exact B.
Qed.
Lemma plain_state_ok y cst i :
  at_bound T (nthb cst i) (clo P (dense (si_c it)) i) (sumd n (fun j => mR cs i j * y j)) (cup P (dense (si_c it)) i) ->
  cons_meaning y (plain_state cst i) i /\ (nthb cst i = BBasic -> plain_state cst i = Inactive)
  /\ (nthb cst i <> BBasic -> nthb cst i <> BZero -> plain_state cst i <> Inactive).
Proof.
  intros Hb. unfold plain_state. destruct (nthb cst i); cbn [cons_meaning at_bound] in *; (split; [|split; [congruence|intros; congruence]]); try exact I.
  - exact (row_lower _ _ _ (proj2 Hb) (proj1 Hb)).
  - exact (row_upper _ _ _ (proj2 Hb) (proj1 Hb)).
Qed.

(** ** With slack variables *)
Section Default.
Variables (L : @lpi RN) (sol : @lpsol RN).
Hypothesis HL : default_lp P L x (dense (si_c it)) (grad g) r p.
Hypothesis Hcs : Z.of_nat (length cs) = n.
Hypothesis HB : lp_base T L (cs ++ @slack_cols RN m) sol.
Hypothesis HR : regular_basis L (cs ++ @slack_cols RN m) sol.
Hypothesis Hr : 0 < r < hi.

Lemma def_var j : (0 <= j < n)%Z -> at_bound T (nthb (ls_vs sol) j) (vlo P x r j) (nth0 (ls_x sol) j) (vup P x r j).
Proof.
  intros Hj. pose proof (po_m P HP). pose proof (proj1 HB j ltac:(rewrite (dl_nv _ _ _ _ _ _ _ HL); lia)) as H0.
  rewrite (nth0_arr _ _ _ _ (dl_vlb _ _ _ _ _ _ _ HL)), (nth0_arr _ _ _ _ (dl_vub _ _ _ _ _ _ _ HL)) in H0 by lia. destruct (Z.ltb_spec j n); [exact H0|lia].
Qed.
Lemma def_slack q : (n <= q < n + 2 * m)%Z -> at_bound T (nthb (ls_vs sol) q) 0 (nth0 (ls_x sol) q) (2 * hi).
Proof.
  intros Hq. pose proof (po_n P HP). pose proof (proj1 HB q ltac:(rewrite (dl_nv _ _ _ _ _ _ _ HL); lia)) as H0.
  rewrite (nth0_arr _ _ _ _ (dl_vlb _ _ _ _ _ _ _ HL)), (nth0_arr _ _ _ _ (dl_vub _ _ _ _ _ _ _ HL)) in H0 by lia. destruct (Z.ltb_spec q n); [lia|exact H0].
Qed.
Lemma def_row i : (0 <= i < m)%Z -> at_bound T (nthb (ls_cs sol) i) (clo P (dense (si_c it)) i)
  (sumd n (fun j => mR cs i j * nth0 (ls_x sol) j) + sl P (nth0 (ls_x sol)) i - su P (nth0 (ls_x sol)) i) (cup P (dense (si_c it)) i).
Proof.
  intros Hi. pose proof (proj2 HB i ltac:(rewrite (dl_nc _ _ _ _ _ _ _ HL); lia)) as H0.
  rewrite (nth0_arr _ _ _ _ (dl_clb _ _ _ _ _ _ _ HL)), (nth0_arr _ _ _ _ (dl_cub _ _ _ _ _ _ _ HL)) in H0 by lia.
  rewrite (default_row P HP cs Hcs L) in H0 by (apply HL || lia). exact H0.
Qed.
Lemma def_nozero j : (0 <= j < n)%Z -> nthb (ls_vs sol) j <> BZero.
Proof. intros Hj E. pose proof (def_var j Hj) as H. rewrite E in H. cbn [at_bound] in H. pose proof (vlo_r j). lra. Qed.
Lemma def_lower q : (n <= q < n + 2 * m)%Z -> nthb (ls_vs sol) q = BLower \/ nthb (ls_vs sol) q = BBasic.
Proof. intros Hq. pose proof (def_slack q Hq) as H. pose proof hi_pos. destruct (nthb (ls_vs sol) q); cbn [at_bound] in H; auto; lra. Qed.
(** The slack variables of a constraint are not both basic. *)
Lemma def_one_lower i : (0 <= i < m)%Z -> nthb (ls_vs sol) (n + i) = BLower \/ nthb (ls_vs sol) (n + m + i) = BLower.
Proof.
  intros Hi. pose proof (po_n P HP) as Hn. destruct (def_lower (n + i) ltac:(lia)) as [|E1]; [now left|]. destruct (def_lower (n + m + i) ltac:(lia)) as [|E2]; [now right|]. exfalso.
  set (v := fun j => if (j =? n + i)%Z then 1 else if (j =? n + m + i)%Z then 1 else 0).
  assert (H : v (n + i)%Z = 0); [|unfold v in H; rewrite Z.eqb_refl in H; lra].
  apply (rb_cols _ _ _ HR v); [| |rewrite (dl_nv _ _ _ _ _ _ _ HL); lia].
  - intros j _ Hb. unfold v. destruct (Z.eqb_spec j (n + i)) as [E3|_]; [congruence|]. destruct (Z.eqb_spec j (n + m + i)) as [E3|_]; [congruence|reflexivity].
  - intros k Hk _. rewrite (dl_nc _ _ _ _ _ _ _ HL) in Hk. rewrite (default_row P HP cs Hcs L) by (apply HL || lia). rewrite sumd_zero.
    2:{ intros j Hj. unfold v. destruct (Z.eqb_spec j (n + i)) as [E3|_]; [lia|]. destruct (Z.eqb_spec j (n + m + i)) as [E3|_]; [lia|]. apply Rmult_0_r. }
    unfold sl, su, v. destruct (Z.eqb_spec (n + k) (n + i)) as [e1|e1]; destruct (Z.eqb_spec (n + m + k) (n + i)) as [e2|e2]; destruct (Z.eqb_spec (n + k) (n + m + i)) as [e3|e3]; destruct (Z.eqb_spec (n + m + k) (n + m + i)) as [e4|e4]; try lia; lra.
Qed.

Lemma def_independent w : consistent w -> wnv w = n -> wnc w = m ->
  (forall j, (0 <= j < n)%Z -> nthb (ls_vs sol) j = BBasic -> vstate w j = Inactive) ->
  (forall i, (0 <= i < m)%Z -> nthb (ls_cs sol) i = BBasic \/ nthb (ls_vs sol) (n + i) = BBasic \/ nthb (ls_vs sol) (n + m + i) = BBasic -> cstate w i = Inactive) ->
  rows_independent w cs.
Proof.
  intros C Wv Wc Hv Hc. apply independent_items; [exact C|]. rewrite Wv, Wc. intros a b Ha Hb Heq. pose proof (po_n P HP) as Hn. pose proof (po_m P HP) as Hm.
  set (a' := fun j => if (j <? n)%Z then a j else if (j <? n + m)%Z then - b (j - n)%Z else b (j - n - m)%Z).
  destruct (rb_rows _ _ _ HR a' b) as [A B].
  - rewrite (dl_nv _ _ _ _ _ _ _ HL). intros j Hj Eb. unfold a'. destruct (Z.ltb_spec j n) as [e1|e1]; [apply Ha; [lia|apply Hv; [lia|exact Eb]]|]. destruct (Z.ltb_spec j (n + m)).
    + rewrite (Hb (j - n)%Z); [apply Ropp_0|lia|]. apply Hc; [lia|]. right. left. now replace (n + (j - n))%Z with j by lia.
    + apply Hb; [lia|]. apply Hc; [lia|]. right. right. now replace (n + m + (j - n - m))%Z with j by lia.
  - rewrite (dl_nc _ _ _ _ _ _ _ HL). intros i Hi Eb. apply Hb; [exact Hi|]. apply Hc; auto.
  - rewrite (dl_nv _ _ _ _ _ _ _ HL), (dl_nc _ _ _ _ _ _ _ HL). intros j Hj. unfold a'. destruct (Z.ltb_spec j n) as [H1|H1].
    + rewrite <- (Heq j ltac:(lia)). f_equal. apply sumd_ext. intros i Hi. rewrite (mR_slack cs n m) by (assumption || lia). destruct (Z.ltb_spec j n); [reflexivity|lia].
    + destruct (Z.ltb_spec j (n + m)) as [H2|H2].
      * rewrite (sumd_ext m _ (fun i => (if (j - n =? i)%Z then 1 else 0) * b i)); [rewrite (sumd_delta _ _ b) by lia; lra|].
        intros i Hi. rewrite (mR_slack cs n m) by (assumption || lia). destruct (Z.ltb_spec j n); [lia|]. destruct (Z.ltb_spec j (n + m)); [|lia].
        destruct (Z.eqb_spec (n + i) j) as [e1|e1]; destruct (Z.eqb_spec (j - n) i) as [e2|e2]; try lia; reflexivity.
      * rewrite (sumd_ext m _ (fun i => -1 * ((if (j - n - m =? i)%Z then 1 else 0) * b i))); [rewrite sumd_scal, (sumd_delta _ _ b) by lia; lra|].
        intros i Hi. rewrite (mR_slack cs n m) by (assumption || lia). destruct (Z.ltb_spec j n); [lia|]. destruct (Z.ltb_spec j (n + m)); [lia|].
        destruct (Z.eqb_spec (n + m + i) j) as [e1|e1]; destruct (Z.eqb_spec (j - n - m) i) as [e2|e2]; try lia; ring.
  - split; [|rewrite (dl_nc _ _ _ _ _ _ _ HL) in B; exact B]. intros j Hj. specialize (A j ltac:(rewrite (dl_nv _ _ _ _ _ _ _ HL); lia)). unfold a' in A. destruct (Z.ltb_spec j n); [exact A|lia].
Qed.
End Default.

(** ** Without *)
Section Reduced.
Variables (L : @lpi RN) (sol : @lpsol RN).
Hypothesis HL : reduced_lp P L x (dense (si_c it)) (grad g) r.
Hypothesis HB : lp_base T L cs sol.
Hypothesis HR : regular_basis L cs sol.
Hypothesis Hr : 0 < r < hi.
Lemma red_var j : (0 <= j < n)%Z -> at_bound T (nthb (ls_vs sol) j) (vlo P x r j) (nth0 (ls_x sol) j) (vup P x r j).
Proof.
  intros Hj. pose proof (proj1 HB j ltac:(rewrite (rl_nv _ _ _ _ _ _ HL); lia)) as H0.
  rewrite (nth0_arr _ _ _ _ (rl_vlb _ _ _ _ _ _ HL)), (nth0_arr _ _ _ _ (rl_vub _ _ _ _ _ _ HL)) in H0 by lia. exact H0.
Qed.
Lemma red_row i : (0 <= i < m)%Z -> at_bound T (nthb (ls_cs sol) i) (clo P (dense (si_c it)) i) (sumd n (fun j => mR cs i j * nth0 (ls_x sol) j)) (cup P (dense (si_c it)) i).
Proof.
  intros Hi. pose proof (proj2 HB i ltac:(rewrite (rl_nc _ _ _ _ _ _ HL); lia)) as H0.
  rewrite (nth0_arr _ _ _ _ (rl_clb _ _ _ _ _ _ HL)), (nth0_arr _ _ _ _ (rl_cub _ _ _ _ _ _ HL)) in H0 by lia. unfold lp_row in H0. rewrite (rl_nv _ _ _ _ _ _ HL) in H0. exact H0.
Qed.
Lemma red_nozero j : (0 <= j < n)%Z -> nthb (ls_vs sol) j <> BZero.
Proof. intros Hj E. pose proof (red_var j Hj) as H. rewrite E in H. cbn [at_bound] in H. pose proof (vlo_r j). lra. Qed.
Lemma red_independent w : consistent w -> wnv w = n -> wnc w = m ->
  (forall j, (0 <= j < n)%Z -> nthb (ls_vs sol) j = BBasic -> vstate w j = Inactive) ->
  (forall i, (0 <= i < m)%Z -> nthb (ls_cs sol) i = BBasic -> cstate w i = Inactive) -> rows_independent w cs.
Proof.
  intros C Wv Wc Hv Hc. apply independent_items; [exact C|]. rewrite Wv, Wc. intros a b Ha Hb Heq.
  pose proof (rb_rows _ _ _ HR a b) as HH. rewrite (rl_nv _ _ _ _ _ _ HL), (rl_nc _ _ _ _ _ _ HL) in HH. apply HH; auto.
Qed.
End Reduced.
End WS.
