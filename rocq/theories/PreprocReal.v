(** The preprocessor over exact arithmetic: activity bounds of linear constraints and the invariant
    kept by the passes of preprocessor.c. *)
From Coq Require Import Reals Lra.
From Flocq Require Import Core.
From Verif Require Import Base Num Cmp Sparse Vec VecFacts VecFacts2 VecReal RSum Mat MatFacts MatFacts2 MatFacts3 MatFacts4 Arr Problem Preproc PreprocFacts.
Local Open Scope R_scope.

(** Half of SLEQP_INFINITY, the threshold of sleqp_is_infinite. *)
Definition hi : R := IZR (10 ^ 100) / 2.
Lemma hi_pos : 1 < hi.
Proof. unfold hi. assert (IZR 2 < IZR (10 ^ 100)) by (apply IZR_lt; reflexivity). revert H. generalize (IZR (10 ^ 100)). intros r H. lra. Qed.
Lemma rn_inf : @sleqp_infinity RN = 2 * hi.
Proof. unfold sleqp_infinity. rewrite rn_lit1. unfold hi. generalize (IZR (10 ^ 100)). intros r. rnum. field. Qed.
Global Opaque hi.
Lemma rn_is_infinite (x : R) : @is_infinite RN x = true <-> hi <= x.
Proof. unfold is_infinite. change (@nisnan RN x) with false. cbv iota. rewrite rn_leb. change (@ndiv RN) with Rdiv. rewrite rn_inf, rn_lit1. replace (2 * hi / 2) with hi by field. reflexivity. Qed.
Lemma rn_is_finite (x : R) : @is_finite RN x = true <-> Rabs x < hi.
Proof.
  unfold is_finite. rewrite negb_true_iff, <- not_true_iff_false, rn_is_infinite, rn_abs. lra.
Qed.
Lemma rn_is_finite' (x : R) : @is_finite RN x = true <-> - hi < x < hi.
Proof. rewrite rn_is_finite. split; [intros H; apply Rabs_def2 in H; lra|intros []; now apply Rabs_def1]. Qed.
Lemma rn_not_finite (x : R) : @is_finite RN x = false <-> x <= - hi \/ hi <= x.
Proof. rewrite <- not_true_iff_false, rn_is_finite'. lra. Qed.

Lemma rel_diff_real (x y : R) : exists c, 1 <= c /\ @rel_diff RN x y = (x - y) / c.
Proof.
  unfold rel_diff. rewrite !rn_max, !rn_abs, rn_n1. eexists. split; [apply Rmax_r|reflexivity].
Qed.
Lemma rn_is_lt (x y eps : R) : 0 <= eps -> @is_lt RN x y eps = true -> x < y.
Proof.
  intros He. unfold is_lt. rewrite rn_ltb. destruct (rel_diff_real x y) as (c & Hc & ->). change (@nopp RN eps) with (- eps). intros H.
  destruct (Rlt_le_dec x y); auto. assert (0 <= (x - y) / c) by (apply Rmult_le_pos; [lra|left; apply Rinv_0_lt_compat; lra]). lra.
Qed.
Lemma rn_is_gt (x y eps : R) : 0 <= eps -> @is_gt RN x y eps = true -> y < x.
Proof.
  intros He. unfold is_gt. rewrite rn_ltb. destruct (rel_diff_real x y) as (c & Hc & ->). intros H.
  destruct (Rlt_le_dec y x); auto. assert (0 <= (y - x) / c) by (apply Rmult_le_pos; [lra|left; apply Rinv_0_lt_compat; lra]). unfold Rdiv in *. lra.
Qed.
Lemma rn_is_eq0 (x y : R) : @is_eq RN x y 0 = true -> x = y.
Proof.
  unfold is_eq. rewrite rn_leb, rn_abs. destruct (rel_diff_real x y) as (c & Hc & ->). intros H.
  assert ((x - y) / c = 0) by (destruct (Req_dec ((x - y) / c) 0); auto; pose proof (Rabs_pos_lt _ H0); lra).
  assert (x - y = 0); [|lra]. apply (Rmult_eq_reg_r (/ c)); [unfold Rdiv in *; lra|]. apply Rgt_not_eq, Rinv_0_lt_compat. lra.
Qed.

Lemma esum_plus es (g h : Z -> R -> R) : esum es (fun j a => g j a + h j a) = esum es g + esum es h.
Proof. induction es as [|[j a] es IH]; cbn [esum]; [lra|]. rewrite IH. lra. Qed.
Lemma esum_minus es (g h : Z -> R -> R) : esum es (fun j a => g j a - h j a) = esum es g - esum es h.
Proof. induction es as [|[j a] es IH]; cbn [esum]; [lra|]. rewrite IH. lra. Qed.
Lemma esum_nonneg es (g : Z -> R -> R) : (forall j a, In (j, a) es -> 0 <= g j a) -> 0 <= esum es g.
Proof. induction es as [|[j a] es IH]; intros H; cbn [esum]; [lra|]. assert (0 <= g j a) by (apply H; now left). assert (0 <= esum es g) by (apply IH; intros; apply H; now right). lra. Qed.
Lemma esum_elem es (g : Z -> R -> R) j a : (forall j a, In (j, a) es -> 0 <= g j a) -> In (j, a) es -> g j a <= esum es g.
Proof.
  induction es as [|[k b] es IH]; intros H Hin; [destruct Hin|]. cbn [esum].
  assert (0 <= g k b) by (apply H; now left). assert (0 <= esum es g) by (apply esum_nonneg; intros; apply H; now right).
  destruct Hin as [E|Hin]; [injection E as -> ->; lra|]. assert (g j a <= esum es g) by (apply IH; auto; intros; apply H; now right). lra.
Qed.

(** ** Activity bounds *)

Section Act.
Variables (vl vu : Z -> R).

(** Largest and smallest value of [a * t] for [t] between the bounds. *)
Definition cmax (j : Z) (a : R) : R := if Rlt_dec 0 a then a * vu j else a * vl j.
Definition cmin (j : Z) (a : R) : R := if Rlt_dec 0 a then a * vl j else a * vu j.
Definition fin (v : R) : R := if @is_finite RN v then Rabs v else 0.
Definition mag (j : Z) (a : R) : R := Rabs a * (fin (vl j) + fin (vu j)).

Lemma fin_pos v : 0 <= fin v.
Proof. unfold fin. destruct (is_finite v); [apply Rabs_pos|lra]. Qed.
Lemma mag_pos j a : 0 <= mag j a.
Proof. unfold mag. apply Rmult_le_pos; [apply Rabs_pos|]. pose proof (fin_pos (vl j)). pose proof (fin_pos (vu j)). lra. Qed.

Lemma cmax_ub j a t : vl j <= t <= vu j -> a * t <= cmax j a.
Proof. intros H. unfold cmax. destruct (Rlt_dec 0 a); nra. Qed.
Lemma cmin_lb j a t : vl j <= t <= vu j -> cmin j a <= a * t.
Proof. intros H. unfold cmin. destruct (Rlt_dec 0 a); nra. Qed.

Definition proper j := vl j <= vu j /\ vl j < hi /\ - hi < vu j.

Lemma abs_mul_le a v : - (Rabs a * Rabs v) <= a * v <= Rabs a * Rabs v.
Proof. rewrite <- Rabs_mult. pose proof (Rle_abs (a * v)). pose proof (Rle_abs (- (a * v))). rewrite Rabs_Ropp in H0. lra. Qed.

Lemma cmax_mag j a : proper j -> - mag j a <= cmax j a.
Proof.
  intros (H1 & H2 & H3). unfold mag, cmax. pose proof (Rabs_pos a) as Ha. pose proof (fin_pos (vl j)). pose proof (fin_pos (vu j)). pose proof hi_pos.
  destruct (Rlt_dec 0 a).
  - destruct (@is_finite RN (vu j)) eqn:E.
    + assert (fin (vu j) = Rabs (vu j)) by (unfold fin; now rewrite E). pose proof (abs_mul_le a (vu j)). nra.
    + apply rn_not_finite in E. assert (0 <= a * vu j) by (apply Rmult_le_pos; lra). assert (0 <= Rabs a * (fin (vl j) + fin (vu j))) by (apply Rmult_le_pos; lra). lra.
  - destruct (@is_finite RN (vl j)) eqn:E.
    + assert (fin (vl j) = Rabs (vl j)) by (unfold fin; now rewrite E). pose proof (abs_mul_le a (vl j)). nra.
    + apply rn_not_finite in E. assert (0 <= a * vl j) by nra. assert (0 <= Rabs a * (fin (vl j) + fin (vu j))) by (apply Rmult_le_pos; lra). lra.
Qed.
Lemma cmin_mag j a : proper j -> cmin j a <= mag j a.
Proof.
  intros (H1 & H2 & H3). unfold mag, cmin. pose proof (Rabs_pos a) as Ha. pose proof (fin_pos (vl j)). pose proof (fin_pos (vu j)). pose proof hi_pos.
  destruct (Rlt_dec 0 a).
  - destruct (@is_finite RN (vl j)) eqn:E.
    + assert (fin (vl j) = Rabs (vl j)) by (unfold fin; now rewrite E). pose proof (abs_mul_le a (vl j)). nra.
    + apply rn_not_finite in E. assert (a * vl j <= 0) by nra. assert (0 <= Rabs a * (fin (vl j) + fin (vu j))) by (apply Rmult_le_pos; lra). lra.
  - destruct (@is_finite RN (vu j)) eqn:E.
    + assert (fin (vu j) = Rabs (vu j)) by (unfold fin; now rewrite E). pose proof (abs_mul_le a (vu j)). nra.
    + apply rn_not_finite in E. assert (a * vu j <= 0) by nra. assert (0 <= Rabs a * (fin (vl j) + fin (vu j))) by (apply Rmult_le_pos; lra). lra.
Qed.

Definition act_ok (mm : R * R) (A B : R) : Prop := (hi <= snd mm \/ snd mm = B) /\ (fst mm <= - hi \/ fst mm = A).

Lemma lin_step_ok j a mm A B : a <> 0 -> proper j -> act_ok mm A B -> - hi < B -> A < hi ->
  act_ok (@lin_step RN (vl j) (vu j) a mm) (A + cmin j a) (B + cmax j a).
Proof.
  intros Ha (H1 & H2 & H3) [HB HA] LB LA. destruct mm as [mn mx]. cbn [fst snd] in *. unfold lin_step, cmin, cmax.
  rewrite rn_n0, rn_inf. pose proof hi_pos.
  destruct (@neqb RN a 0) eqn:Ez; [apply rn_eqb in Ez; lra|]. clear Ez.
  assert (Hmx : @is_finite RN mx = true -> mx = B) by (rewrite rn_is_finite'; intros; destruct HB; lra).
  assert (Hmx' : @is_finite RN mx = false -> hi <= mx) by (rewrite rn_not_finite; intros []; destruct HB; lra).
  assert (Hmn : @is_finite RN mn = true -> mn = A) by (rewrite rn_is_finite'; intros; destruct HA; lra).
  assert (Hmn' : @is_finite RN mn = false -> mn <= - hi) by (rewrite rn_not_finite; intros []; destruct HA; lra).
  change (@nopp RN) with Ropp. change (@nadd RN) with Rplus. change (@nmul RN) with Rmult.
  destruct (Rlt_dec 0 a) as [Hp|Hp].
  - replace (@nltb RN 0 a) with true by (symmetry; now apply rn_ltb). split; cbn [fst snd].
    + destruct (@is_finite RN (vu j)); [|left; lra]. destruct (@is_finite RN mx); [right; rewrite Hmx; auto|left; auto].
    + destruct (@is_finite RN (vl j)); [|left; lra]. destruct (@is_finite RN mn); [right; rewrite Hmn; auto|left; auto].
  - replace (@nltb RN 0 a) with false by (symmetry; apply rn_ltb_false; lra).
    replace (@nltb RN a 0) with true by (symmetry; apply rn_ltb; lra). split; cbn [fst snd].
    + destruct (@is_finite RN (vu j)); [|left; lra]. destruct (@is_finite RN mx); [right; rewrite Hmx; auto|left; auto].
    + destruct (@is_finite RN (vu j)); [|left; lra]. destruct (@is_finite RN mn); [right; rewrite Hmn; auto|left; auto].
Qed.

Lemma lin_fold_ok (L : list (Z * R)) mm A B M : (forall j a, In (j, a) L -> a <> 0 /\ proper j) ->
  act_ok mm A B -> - M <= B -> A <= M -> M + esum L mag < hi ->
  act_ok (fold_left (fun mm e => @lin_step RN (vl (fst e)) (vu (fst e)) (snd e) mm) L mm) (A + esum L cmin) (B + esum L cmax).
Proof.
  revert mm A B M; induction L as [|[j a] L IH]; intros mm A B M HL Ho HB HA HM; cbn [fold_left esum fst snd] in *.
  - now rewrite !Rplus_0_r.
  - destruct (HL j a) as [Ha Hp]; [now left|]. pose proof (mag_pos j a). pose proof (cmax_mag j a Hp). pose proof (cmin_mag j a Hp).
    assert (0 <= esum L mag) by (apply esum_nonneg; intros; apply mag_pos).
    rewrite <- !Rplus_assoc. apply (IH _ _ _ (M + mag j a)); try lra.
    + intros; apply HL; now right.
    + apply lin_step_ok; auto; lra.
Qed.

End Act.

(** ** The invariant of the passes *)

Section Inv.
Variables (m : @mat RN) (cs : list (list (Z * R))) (vl vu ll lu : Z -> R) (feas : R).
Hypothesis HS : stores m cs.
Hypothesis Hfeas : 0 <= feas.
Let nl := mnr m.
Let nv := mnc m.
Let co : Z -> list (Z * R) := @coeffs RN m cs.
Hypothesis Hprop : forall j, (0 <= j < nv)%Z -> proper vl vu j.
Hypothesis Hmag : forall i, (0 <= i < nl)%Z -> esum (co i) (mag vl vu) < hi.

Definition act i (x : Z -> R) : R := esum (co i) (fun j a => a * x j).
Definition inbox (x : Z -> R) : Prop := forall j, (0 <= j < nv)%Z -> vl j <= x j <= vu j.
(** A bound of a row counts as infinite from [hi] on. *)
Definition rowok i (x : Z -> R) : Prop := (ll i <= act i x \/ ll i <= - hi) /\ (act i x <= lu i \/ hi <= lu i).
Definition feasible (x : Z -> R) : Prop := inbox x /\ forall i, (0 <= i < nl)%Z -> rowok i x.

Lemma co_in i j a : In (j, a) (co i) <-> (0 <= j < nv)%Z /\ mget cs i j = Some a /\ a <> 0.
Proof. unfold co. rewrite coeffs_in. rewrite rn_n0. rewrite rn_eqb_false. reflexivity. Qed.

Lemma act_sum i x : act i x = sumd nv (fun j => mR cs i j * x j).
Proof.
  unfold act. pose proof (layout_facts m cs HS) as (_ & Hc & _). fold nv in Hc.
  pose proof (coeffs_sorted m cs HS i) as Hs. fold nv in Hs. fold co in Hs.
  rewrite (esum_dense _ _ 0 (Z.to_nat nv)); [|rewrite Z2Nat.id by lia; exact Hs|lia].
  unfold sumd. apply rsum_ext. intros j Hj. rewrite Z2Nat.id in Hj by lia. unfold mR, mdense. rewrite oval_rn. rnum.
  destruct (get (co i) j) as [a|] eqn:E.
  - apply get_Some_In in E. apply co_in in E. destruct E as (_ & E & _). unfold mget in *. rnum. now rewrite E.
  - apply get_None in E. destruct (mget cs i j) as [a|] eqn:Ea; [|lra].
    destruct (Req_dec a 0) as [->|Hne]; [lra|]. exfalso. apply E. apply (In_keys _ j a). apply co_in. auto.
Qed.

Definition mmf i : R * R := fold_left (fun mm e => @lin_step RN (vl (fst e)) (vu (fst e)) (snd e) mm) (co i) (0, 0).

Lemma mmf_ok i : (0 <= i < nl)%Z -> act_ok (mmf i) (esum (co i) (cmin vl vu)) (esum (co i) (cmax vl vu)).
Proof.
  intros Hi. unfold mmf. replace (esum (co i) (cmin vl vu)) with (0 + esum (co i) (cmin vl vu)) by lra.
  replace (esum (co i) (cmax vl vu)) with (0 + esum (co i) (cmax vl vu)) by lra.
  apply lin_fold_ok with (M := 0); try lra.
  - intros j a Hin. apply co_in in Hin. split; [tauto|]. apply Hprop. tauto.
  - split; cbn [fst snd]; right; reflexivity.
  - rewrite Rplus_0_l. auto.
Qed.

Lemma act_le i x : inbox x -> act i x <= esum (co i) (cmax vl vu).
Proof.
  intros Hx. assert (0 <= esum (co i) (fun j a => cmax vl vu j a - a * x j)).
  { apply esum_nonneg. intros j a Hin. apply co_in in Hin. pose proof (cmax_ub vl vu j a (x j) (Hx j ltac:(tauto))). lra. }
  rewrite esum_minus in H. unfold act. lra.
Qed.
Lemma act_ge i x : inbox x -> esum (co i) (cmin vl vu) <= act i x.
Proof.
  intros Hx. assert (0 <= esum (co i) (fun j a => a * x j - cmin vl vu j a)).
  { apply esum_nonneg. intros j a Hin. apply co_in in Hin. pose proof (cmin_lb vl vu j a (x j) (Hx j ltac:(tauto))). lra. }
  rewrite esum_minus in H. unfold act. lra.
Qed.
Lemma act_max i x j a : inbox x -> In (j, a) (co i) -> act i x <= esum (co i) (cmax vl vu) - (cmax vl vu j a - a * x j).
Proof.
  intros Hx Hin. assert (cmax vl vu j a - a * x j <= esum (co i) (fun j a => cmax vl vu j a - a * x j)).
  { apply (esum_elem (co i) (fun j a => cmax vl vu j a - a * x j)); auto. intros k b Hk. apply co_in in Hk. pose proof (cmax_ub vl vu k b (x k) (Hx k ltac:(tauto))). lra. }
  rewrite esum_minus in H. unfold act. lra.
Qed.
Lemma act_min i x j a : inbox x -> In (j, a) (co i) -> esum (co i) (cmin vl vu) + (a * x j - cmin vl vu j a) <= act i x.
Proof.
  intros Hx Hin. assert (a * x j - cmin vl vu j a <= esum (co i) (fun j a => a * x j - cmin vl vu j a)).
  { apply (esum_elem (co i) (fun j a => a * x j - cmin vl vu j a)); auto. intros k b Hk. apply co_in in Hk. pose proof (cmin_lb vl vu k b (x k) (Hx k ltac:(tauto))). lra. }
  rewrite esum_minus in H. unfold act. lra.
Qed.

Definition vb j : R * R := fold_left (fun b e => @var_step RN (vl j) (vu j) (ll (fst e)) (lu (fst e)) (mmf (fst e)) (snd e) b) (nth (Z.to_nat j) cs []) (vl j, vu j).

Lemma var_step_ok i j a b x : (0 <= i < nl)%Z -> (0 <= j < nv)%Z -> mget cs i j = Some a -> feasible x ->
  fst b <= x j <= snd b -> fst (@var_step RN (vl j) (vu j) (ll i) (lu i) (mmf i) a b) <= x j <= snd (@var_step RN (vl j) (vu j) (ll i) (lu i) (mmf i) a b).
Proof.
  intros Hi Hj Ha [Hx Hr] Hb. unfold var_step. rewrite rn_n0, rn_n1. destruct (@neqb RN a 0) eqn:Ez; [exact Hb|]. apply rn_eqb_false in Ez.
  assert (Hin : In (j, a) (co i)) by (apply co_in; auto).
  pose proof (act_max i x j a Hx Hin) as Q1. pose proof (act_min i x j a Hx Hin) as Q2. specialize (Hr i Hi). unfold rowok in Hr. destruct (mmf_ok i Hi) as [QB QA].
  specialize (Hx j Hj). rewrite !rn_max, !rn_min. change (@nadd RN) with Rplus. change (@nmul RN) with Rmult. change (@ndiv RN) with Rdiv. change (@nsub RN) with Rminus.
  cbv zeta. rnum. match goal with |- context[if ?c then ?t else b] => set (b1 := if c then t else b) end.
  assert (H1 : fst b1 <= x j <= snd b1).
  { unfold b1. match goal with |- context[if ?c then _ else b] => destruct c eqn:E end; [|exact Hb].
    apply andb_prop in E. destruct E as [E E3]. apply andb_prop in E. destruct E as [E1 E2]. apply rn_is_finite' in E1, E2, E3.
    assert (HA : fst (mmf i) = esum (co i) (cmin vl vu)) by (destruct QA; lra). rewrite HA.
    set (A := esum (co i) (cmin vl vu)) in *. cbv zeta. assert (Hd : forall t, 1 / a * t = t / a) by (intros; unfold Rdiv; lra). rewrite Hd.
    assert (Hd2 : a * ((lu i - A) / a + vl j) = lu i - A + a * vl j) by (field; auto).
    destruct (@nltb RN 0 a) eqn:El.
    - apply rn_ltb in El. cbn [fst snd]. split; [lra|]. apply Rmin_glb; [lra|]. unfold cmin in Q2. destruct (Rlt_dec 0 a); [|lra]. apply (Rmult_le_reg_l a); [lra|]. rewrite Hd2. lra.
    - apply rn_ltb_false in El. cbn [fst snd]. split; [|lra]. apply Rmax_lub; [lra|]. unfold cmin in Q2. destruct (Rlt_dec 0 a); [lra|]. apply (Rmult_le_reg_l (- a)); [lra|].
      rewrite !Ropp_mult_distr_l_reverse, Hd2. nra. }
  clearbody b1. 
  match goal with |- context[if ?c then _ else b1] => destruct c eqn:E end; [|exact H1].
  apply andb_prop in E. destruct E as [E E3]. apply andb_prop in E. destruct E as [E1 E2]. apply rn_is_finite' in E1, E2, E3.
  assert (HB : snd (mmf i) = esum (co i) (cmax vl vu)) by (destruct QB; lra). rewrite HB.
  set (B := esum (co i) (cmax vl vu)) in *. cbv zeta. assert (Hd : forall t, 1 / a * t = t / a) by (intros; unfold Rdiv; lra). rewrite Hd.
  assert (Hd2 : a * ((ll i - B) / a + vu j) = ll i - B + a * vu j) by (field; auto).
  destruct (@nltb RN 0 a) eqn:El.
  - apply rn_ltb in El. cbn [fst snd]. split; [|lra]. apply Rmax_lub; [lra|]. unfold cmax in Q1. destruct (Rlt_dec 0 a); [|lra]. apply (Rmult_le_reg_l a); [lra|]. rewrite Hd2. lra.
  - apply rn_ltb_false in El. cbn [fst snd]. split; [lra|]. apply Rmin_glb; [lra|]. unfold cmax in Q1. destruct (Rlt_dec 0 a); [lra|]. apply (Rmult_le_reg_l (- a)); [lra|].
    rewrite !Ropp_mult_distr_l_reverse, Hd2. nra.
Qed.

Lemma vb_ok j x : (0 <= j < nv)%Z -> feasible x -> fst (vb j) <= x j <= snd (vb j).
Proof.
  intros Hj Hx. unfold vb. destruct (nth_col m cs j HS Hj) as [_ Hs].
  assert (G : forall es b, (forall i a, In (i, a) es -> (0 <= i < nl)%Z /\ mget cs i j = Some a) -> fst b <= x j <= snd b ->
    fst (fold_left (fun b e => @var_step RN (vl j) (vu j) (ll (fst e)) (lu (fst e)) (mmf (fst e)) (snd e) b) es b) <= x j
      <= snd (fold_left (fun b e => @var_step RN (vl j) (vu j) (ll (fst e)) (lu (fst e)) (mmf (fst e)) (snd e) b) es b)).
  { induction es as [|[i a] es IH]; intros b He Hb; cbn [fold_left]; [exact Hb|]. apply IH; [intros; apply He; now right|]. cbn [fst snd].
    destruct (He i a) as [H1 H2]; [now left|]. now apply var_step_ok. }
  apply G.
  - intros i a Hin. split; [apply (sorted_in_In _ _ _ _ Hs), (In_keys _ _ _ Hin)|]. unfold mget. exact (In_get _ _ _ _ _ Hs Hin).
  - cbn [fst snd]. destruct Hx as [Hx _]. auto.
Qed.

(** The bounds of a singleton row, divided by its coefficient. *)
Definition slo i (a : R) : R := if Rlt_dec a 0 then lu i / a else ll i / a.
Definition sup i (a : R) : R := if Rlt_dec a 0 then ll i / a else lu i / a.

Lemma singleton_equiv i j a x : co i = [(j, a)] -> (ll i <= act i x <= lu i <-> slo i a <= x j <= sup i a).
Proof.
  intros E. assert (Ha : a <> 0) by (assert (In (j, a) (co i)) by (rewrite E; now left); apply co_in in H; tauto).
  unfold act. rewrite E. cbn [esum]. rewrite Rplus_0_r. unfold slo, sup.
  assert (H1 : lu i = a * (lu i / a)) by (field; auto). assert (H2 : ll i = a * (ll i / a)) by (field; auto).
  set (u := lu i / a) in *. set (l := ll i / a) in *. rewrite H1, H2. destruct (Rlt_dec a 0); split; intros; nra.
Qed.

Definition cb_ok (cb : @cbound RN) : Prop := (0 <= cb_cons cb < nl)%Z /\ co (cb_cons cb) = [(cb_var cb, cb_factor cb)]
  /\ cb_lb cb = slo (cb_cons cb) (cb_factor cb) /\ cb_ub cb = sup (cb_cons cb) (cb_factor cb).

Definition nonfin (x : R) : Prop := x <= - hi \/ hi <= x.
(** Why a row may be dropped. *)
Definition reason i : Prop :=
  (ll i <= - hi /\ hi <= lu i)
  \/ (forall x, inbox x -> ll i <= act i x <= lu i)
  \/ (exists j a, co i = [(j, a)] /\ (0 <= j < nv)%Z /\ (nonfin (slo i a) \/ slo i a <= vl j) /\ (nonfin (sup i a) \/ vu j <= sup i a)).

Definition vok (fv : Z -> @vstate RN) j : Prop := vunchanged (fv j) = false ->
  (vs_value (fv j) = vl j \/ vs_value (fv j) = vu j) /\ - hi < vs_value (fv j) < hi /\ (feas = 0 -> forall x, feasible x -> x j = vs_value (fv j)).
Definition forced (fv : Z -> @vstate RN) i : Prop := forall j a, In (j, a) (co i) -> vunchanged (fv j) = false.
Definition cok (E : Z -> Prop) (s : @pst RN) fv (fc : Z -> ckind) i : Prop :=
  match fc i with
  | CUnchanged => True
  | CRedundant => reason i \/ forced fv i \/ E i
  | CConverted k => exists cb, nth_error (ps_conv s) (Z.to_nat k) = Some cb /\ cb_cons cb = i
  end.
Definition rvok (rv : Z -> bool * bool) j : Prop := (fst (rv j) = true -> - hi < vl j /\ forall x, feasible x -> vl j < x j)
  /\ (snd (rv j) = true -> vu j < hi /\ forall x, feasible x -> x j < vu j).
Definition rcok (fc : Z -> ckind) (rc : Z -> bool * bool) i : Prop := cunchanged (fc i) = true ->
  (fst (rc i) = true -> - hi < ll i /\ forall x, inbox x -> ll i <= act i x)
  /\ (snd (rc i) = true -> lu i < hi /\ forall x, inbox x -> act i x <= lu i).

Definition SI (E : Z -> Prop) (s : @pst RN) fv fc rv rc : Prop :=
  arr (ps_vars s) nv fv /\ arr (ps_cons s) nl fc /\ arr (ps_vreq s) nv rv /\ arr (ps_creq s) nl rc
  /\ (forall j, (0 <= j < nv)%Z -> vok fv j) /\ (forall i, (0 <= i < nl)%Z -> cok E s fv fc i)
  /\ Forall cb_ok (ps_conv s) /\ (forall j, (0 <= j < nv)%Z -> rvok rv j) /\ (forall i, (0 <= i < nl)%Z -> rcok fc rc i).
Definition inv (E : Z -> Prop) s : Prop := exists fv fc rv rc, SI E s fv fc rv rc.
Definition noE (_ : Z) := False.

Ltac split_si := unfold SI; split; [|split; [|split; [|split; [|split; [|split; [|split; [|split]]]]]]].

Lemma inv_reset : inv noE (state_reset nv nl).
Proof.
  exists (fun _ => mkvs VUnchanged n0), (fun _ => CUnchanged), (fun _ => (false, false)), (fun _ => (false, false)).
  pose proof (layout_facts m cs HS) as (Hr & Hc & _).
  split_si; cbn [ps_vars ps_cons ps_vreq ps_creq ps_conv state_reset]; try (apply arr_repeat).
  - intros j _ H. discriminate.
  - intros i _. exact I.
  - constructor.
  - intros j _. split; discriminate.
  - intros i _ _. split; discriminate.
Qed.

Lemma inv_fix s j v s' : inv noE s -> (v = vl j \/ v = vu j) -> - hi < v < hi -> (feas = 0 -> forall x, feasible x -> x j = v) ->
  state_fix_var s j v = Ok s' -> inv noE s'.
Proof.
  intros (fv & fc & rv & rc & A1 & A2 & A3 & A4 & V & C & F & RV & RC) Hv Hf Hx E. unfold state_fix_var in E. unbind E. unbind E. unbind E.
  destruct (arr_get_inv _ _ _ _ _ A1 E0) as [Hj ->]. apply check_ok in E1. destruct (arr_set_inv _ _ _ _ _ _ A1 E2) as [_ A1'].
  injection E as <-. exists (upd fv j (mkvs VBoundFixed v)), fc, rv, rc. split_si; cbn [ps_vars ps_cons ps_vreq ps_creq ps_conv]; auto.
  - intros k Hk. unfold vok, upd. destruct (Z.eqb_spec k j) as [->|]; [cbn [vs_value]; auto|]. exact (V k Hk).
  - intros i Hi. specialize (C i Hi). unfold cok in *. destruct (fc i); auto. destruct C as [C|[C|C]]; auto. right. left. intros k a Hin. specialize (C k a Hin).
    unfold upd. destruct (Z.eqb_spec k j) as [->|]; [reflexivity|exact C].
Qed.

Lemma inv_remove E s i s' : inv E s -> reason i \/ E i -> state_remove_cons s i = Ok s' -> inv E s'.
Proof.
  intros (fv & fc & rv & rc & A1 & A2 & A3 & A4 & V & C & F & RV & RC) Hr Es. unfold state_remove_cons in Es. unbind Es. unbind Es. unbind Es. unbind Es.
  destruct (arr_get_inv _ _ _ _ _ A2 E0) as [Hi ->]. destruct (arr_set_inv _ _ _ _ _ _ A2 E2) as [_ A2']. destruct (arr_set_inv _ _ _ _ _ _ A4 E3) as [_ A4'].
  injection Es as <-. exists fv, (upd fc i CRedundant), rv, (upd rc i (true, true)). split_si; cbn [ps_vars ps_cons ps_vreq ps_creq ps_conv]; auto.
  - intros k Hk. specialize (C k Hk). unfold cok, upd in *. cbn [ps_conv]. destruct (Z.eqb_spec k i) as [->|]; [tauto|exact C].
  - intros k Hk. specialize (RC k Hk). unfold rcok, upd in *. destruct (Z.eqb_spec k i) as [->|]; [discriminate|exact RC].
Qed.

Lemma inv_weaken (E E' : Z -> Prop) s : (forall i, E i -> E' i) -> inv E s -> inv E' s.
Proof.
  intros H (fv & fc & rv & rc & A1 & A2 & A3 & A4 & V & C & F & RV & RC). exists fv, fc, rv, rc. split_si; auto.
  intros i Hi. specialize (C i Hi). unfold cok in *. destruct (fc i); auto. destruct C as [C|[C|C]]; auto.
Qed.

Lemma inv_convert s i j a lb ub low up s' : inv noE s -> co i = [(j, a)] -> lb = slo i a -> ub = sup i a ->
  state_convert s i j a lb ub low up = Ok s' -> inv noE s'.
Proof.
  intros (fv & fc & rv & rc & A1 & A2 & A3 & A4 & V & C & F & RV & RC) Hco Hl Hu Es. unfold state_convert in Es. unbind Es. unbind Es. unbind Es. unbind Es. unbind Es. unbind Es.
  destruct (arr_get_inv _ _ _ _ _ A2 E1) as [Hi ->]. destruct (arr_set_inv _ _ _ _ _ _ A2 E4) as [_ A2'].
  injection Es as <-. exists fv, (upd fc i (CConverted (Z.of_nat (length (ps_conv s))))), rv, rc. split_si; cbn [ps_vars ps_cons ps_vreq ps_creq ps_conv]; auto.
  - intros k Hk. specialize (C k Hk). unfold cok, upd in *. cbn [ps_conv]. destruct (Z.eqb_spec k i) as [->|].
    + rewrite Nat2Z.id. rewrite nth_error_app2 by lia. rewrite Nat.sub_diag. eexists. split; reflexivity.
    + destruct (fc k); auto. destruct C as (cb & C1 & C2). exists cb. split; [|exact C2]. rewrite nth_error_app1; [exact C1|]. apply nth_error_Some. congruence.
  - apply Forall_app. split; [exact F|]. constructor; [|constructor]. unfold cb_ok. cbn [cb_cons cb_var cb_factor cb_lb cb_ub]. auto.
  - intros k Hk. specialize (RC k Hk). unfold rcok, upd in *. destruct (Z.eqb_spec k i) as [->|]; [discriminate|exact RC].
Qed.

Lemma inv_vreq s j q s' : inv noE s -> (fst q = true -> - hi < vl j /\ forall x, feasible x -> vl j < x j) -> (snd q = true -> vu j < hi /\ forall x, feasible x -> x j < vu j) -> add_var_req s j q = Ok s' -> inv noE s'.
Proof.
  intros (fv & fc & rv & rc & A1 & A2 & A3 & A4 & V & C & F & RV & RC) H1 H2 Es. unfold add_var_req in Es. unbind Es. unbind Es.
  destruct (arr_get_inv _ _ _ _ _ A3 E) as [Hi ->]. destruct (arr_set_inv _ _ _ _ _ _ A3 E0) as [_ A3'].
  injection Es as <-. exists fv, fc, (upd rv j (req_or (rv j) q)), rc. split_si; cbn [ps_vars ps_cons ps_vreq ps_creq ps_conv]; auto.
  intros k Hk. specialize (RV k Hk). unfold rvok, upd in *. destruct (Z.eqb_spec k j) as [->|]; [|exact RV]. unfold req_or. cbn [fst snd]. rewrite !orb_true_iff. tauto.
Qed.

Lemma inv_creq s i q s' : inv noE s -> (fst q = true -> - hi < ll i /\ forall x, inbox x -> ll i <= act i x) ->
  (snd q = true -> lu i < hi /\ forall x, inbox x -> act i x <= lu i) -> add_cons_req s i q = Ok s' -> inv noE s'.
Proof.
  intros (fv & fc & rv & rc & A1 & A2 & A3 & A4 & V & C & F & RV & RC) H1 H2 Es. unfold add_cons_req in Es. unbind Es. unbind Es.
  destruct (arr_get_inv _ _ _ _ _ A4 E) as [Hi ->]. destruct (arr_set_inv _ _ _ _ _ _ A4 E0) as [_ A4'].
  injection Es as <-. exists fv, fc, rv, (upd rc i (req_or (rc i) q)). split_si; cbn [ps_vars ps_cons ps_vreq ps_creq ps_conv]; auto.
  intros k Hk. specialize (RC k Hk). unfold rcok, upd in *. destruct (Z.eqb_spec k i) as [->|]; [|exact RC]. intros Hu. specialize (RC Hu). unfold req_or. cbn [fst snd]. rewrite !orb_true_iff. tauto.
Qed.

Section Arrays.
Variables (vlb vub llb lub : list R).
Hypotheses (Hvlb : arr vlb nv vl) (Hvub : arr vub nv vu) (Hllb : arr llb nl ll) (Hlub : arr lub nl lu).

Lemma inv_force s i lower s' : inv noE s -> (0 <= i < nl)%Z ->
  (feas = 0 -> forall x, feasible x -> forall j a, In (j, a) (co i) -> x j = if Bool.eqb (@nltb RN 0 a) lower then vu j else vl j) ->
  @state_force RN m nv vlb vub s i lower = Ok s' -> inv noE s'.
Proof.
  intros Hs Hi Hfix Es. unfold state_force in Es. unbind Es. pose proof (row_coeffs_spec m cs HS i) as Hrc. fold nv in Hrc. rewrite Hrc in E. injection E as <-. fold co in Es.
  unbind Es. assert (Hs1 : inv (eq i) a).
  { apply (inv_remove _ s i a); auto. apply (inv_weaken noE); [intros k []|exact Hs]. }
  assert (Loop : forall L (t t' : @pst RN) (D : list (Z * R)), (forall j v, In (j, v) L -> In (j, v) (co i)) ->
    (exists fv fc rv rc, SI (eq i) t fv fc rv rc /\ forall j v, In (j, v) D -> vunchanged (fv j) = false) ->
    rfold (@force_var RN vlb vub lower) t L = Ok t' ->
    exists fv fc rv rc, SI (eq i) t' fv fc rv rc /\ forall j v, In (j, v) (D ++ L) -> vunchanged (fv j) = false).
  { induction L as [|[j v] L IH]; intros t t' D HL Ht El; cbn [rfold] in El.
    - injection El as <-. rewrite app_nil_r. exact Ht.
    - unbind El. replace (D ++ (j, v) :: L) with ((D ++ [(j, v)]) ++ L) by now rewrite <- app_assoc.
      apply (IH a0 t'); auto; [intros; apply HL; now right|]. clear IH El.
      destruct Ht as (fv & fc & rv & rc & (A1 & A2 & A3 & A4 & V & C & F & RV & RC) & HD).
      unfold force_var in E0. cbn [fst snd] in E0. rewrite rn_n0 in E0. unbind E0. unbind E0. unbind E0. unbind E0. injection E0 as <-.
      apply check_ok in E2. apply rn_is_finite' in E2. destruct (arr_get_inv _ _ _ _ _ A1 E3) as [Hj ->]. destruct (arr_set_inv _ _ _ _ _ _ A1 E4) as [_ A1'].
      assert (Hval : a1 = if Bool.eqb (@nltb RN 0 v) lower then vu j else vl j).
      { destruct (Bool.eqb (@nltb RN 0 v) lower); cbn [negb] in E1.
        - now destruct (arr_get_inv _ _ _ _ _ Hvub E1).
        - now destruct (arr_get_inv _ _ _ _ _ Hvlb E1). }
      exists (upd fv j (mkvs VForcingFixed a1)), fc, rv, rc. split.
      + split_si; cbn [ps_vars ps_cons ps_vreq ps_creq ps_conv]; auto.
        * intros k Hk. unfold vok, upd. destruct (Z.eqb_spec k j) as [->|]; [|exact (V k Hk)]. intros _. cbn [vs_value]. split; [rewrite Hval; destruct (Bool.eqb _ _); auto|]. split; [exact E2|].
          intros H0 x Hx. rewrite Hval. apply (Hfix H0 x Hx). apply HL. now left.
        * intros k Hk. specialize (C k Hk). unfold cok in *. cbn [ps_conv]. destruct (fc k); auto. destruct C as [C|[C|C]]; auto. right. left. intros k' b Hin. specialize (C k' b Hin).
          unfold upd. destruct (Z.eqb_spec k' j) as [->|]; [reflexivity|exact C].
      + intros k b Hin. unfold upd. destruct (Z.eqb_spec k j) as [->|Hne]; [reflexivity|]. apply in_app_iff in Hin. destruct Hin as [Hin|[Hin|[]]]; [eauto|congruence]. }
  assert (Fin : forall t, (exists fv fc rv rc, SI (eq i) t fv fc rv rc /\ forall j v, In (j, v) (co i) -> vunchanged (fv j) = false) -> inv noE t).
  { intros t (fv & fc & rv & rc & (A1 & A2 & A3 & A4 & V & C & F & RV & RC) & HD). exists fv, fc, rv, rc. split_si; auto.
    intros k Hk. specialize (C k Hk). unfold cok in *. destruct (fc k); auto. destruct C as [C|[C|<-]]; auto. }
  destruct (co i) as [|e L] eqn:Eco.
  - injection Es as <-. apply Fin. destruct Hs1 as (fv & fc & rv & rc & HSI). exists fv, fc, rv, rc. split; [exact HSI|]. intros j v [].
  - unbind Es. unbind Es. injection Es as <-. rewrite <- Eco in *.
    destruct (Loop (co i) a a1 [] (fun j v H => H)) as (fv & fc & rv & rc & HSI & HD); auto.
    { destruct Hs1 as (fv & fc & rv & rc & HSI). exists fv, fc, rv, rc. split; [exact HSI|]. intros j v []. }
    apply Fin. exists fv, fc, rv, rc. split; [exact HSI|exact HD].
Qed.

Lemma inv_fix_vars s s' : inv noE s -> @fix_vars RN nv vlb vub s = Ok s' -> inv noE s'.
Proof.
  intros Hs E. unfold fix_vars in E. revert E. apply rfold_inv; [exact Hs|]. clear s s' Hs. intros s j s' Hs Hj E. unbind E. unbind E.
  destruct (arr_get_inv _ _ _ _ _ Hvlb E0) as [Hj' ->]. destruct (arr_get_inv _ _ _ _ _ Hvub E1) as [_ ->].
  destruct (@neqb RN (vl j) (vu j)) eqn:En; [|injection E as <-; exact Hs]. apply rn_eqb in En. destruct (Hprop j Hj') as (P1 & P2 & P3).
  apply (inv_fix s j (vl j) s'); auto; [lra|]. intros _ x [Hx _]. specialize (Hx j Hj'). lra.
Qed.

(** State and infeasibility flag. *)
Definition pinv2 (si : @pst RN * bool) : Prop := inv noE (fst si) /\ (snd si = true -> ~ exists x, feasible x).

Lemma inv_convert_cons ents s i s' : inv noE s -> (0 <= i < nl)%Z -> length (co i) = 1%nat ->
  arr ents nl (fun i => (Z.of_nat (length (co i)), last (map Some (co i)) None)) ->
  @convert_cons RN vlb vub llb lub ents s i = Ok s' -> inv noE s'.
Proof.
  intros Hs Hi Hlen He E. unfold convert_cons in E. rnum. rewrite (arr_get_arr _ _ _ _ He Hi) in E. cbn [rbind snd] in E.
  destruct (co i) as [|[j a] [|]] eqn:Eco; try discriminate. cbn [map last] in E.
  rewrite (arr_get_arr _ _ _ _ Hlub Hi), (arr_get_arr _ _ _ _ Hllb Hi) in E. cbn [rbind] in E. unbind E. clear E0.
  assert (Hin : In (j, a) (co i)) by (rewrite Eco; now left). apply co_in in Hin. destruct Hin as (Hj & _ & Ha).
  rewrite (arr_get_arr _ _ _ _ Hvlb Hj), (arr_get_arr _ _ _ _ Hvub Hj) in E. cbn [rbind] in E. rewrite rn_n0 in E. change (@ndiv RN) with Rdiv in E.
  replace (if @nltb RN a 0 then lu i / a else ll i / a) with (slo i a) in E.
  2:{ unfold slo. destruct (Rlt_dec a 0) as [H|H]; [apply rn_ltb in H; now rewrite H|]. replace (@nltb RN a 0) with false; [reflexivity|]. symmetry. apply rn_ltb_false. lra. }
  replace (if @nltb RN a 0 then ll i / a else lu i / a) with (sup i a) in E.
  2:{ unfold sup. destruct (Rlt_dec a 0) as [H|H]; [apply rn_ltb in H; now rewrite H|]. replace (@nltb RN a 0) with false; [reflexivity|]. symmetry. apply rn_ltb_false. lra. }
  destruct (@is_finite RN (slo i a) && @nltb RN (vl j) (slo i a)) eqn:B1; cbn [orb] in E; [now apply (inv_convert _ _ _ _ _ _ _ _ _ Hs Eco eq_refl eq_refl E)|].
  destruct (@is_finite RN (sup i a) && @nltb RN (sup i a) (vu j)) eqn:B2; cbn [orb] in E; [now apply (inv_convert _ _ _ _ _ _ _ _ _ Hs Eco eq_refl eq_refl E)|].
  apply (inv_remove noE s i s'); auto. left. right. right. exists j, a. split; [exact Eco|]. split; [exact Hj|].
  apply andb_false_iff in B1, B2. split.
  - destruct B1 as [B|B]; [left; now apply rn_not_finite|right; now apply rn_ltb_false].
  - destruct B2 as [B|B]; [left; now apply rn_not_finite|right; now apply rn_ltb_false].
Qed.

Lemma inv_singleton ents si i si' : pinv2 si -> (0 <= i < nl)%Z ->
  arr ents nl (fun i => (Z.of_nat (length (co i)), last (map Some (co i)) None)) ->
  @singleton_step RN vlb vub llb lub ents si i = Ok si' -> pinv2 si'.
Proof.
  intros [Hs Hinf] Hi He E. unfold singleton_step in E. destruct si as [s inf]. cbn [fst snd] in *. unbind E.
  destruct (cunchanged a); cbn [negb] in E; [|injection E as <-; split; auto].
  rnum. rewrite (arr_get_arr _ _ _ _ He Hi), (arr_get_arr _ _ _ _ Hlub Hi), (arr_get_arr _ _ _ _ Hllb Hi) in E. cbn [rbind fst] in E. clear E0.
  destruct (@is_infinite RN (nopp (ll i)) && @is_infinite RN (lu i)) eqn:Ef.
  - unbind E. injection E as <-. apply andb_prop in Ef. destruct Ef as [F1 F2]. apply rn_is_infinite in F1, F2. change (@nopp RN) with Ropp in F1. split; [|exact Hinf]. cbn [fst].
    apply (inv_remove noE s i a0); auto. left. left. lra.
  - rewrite rn_n0 in E. destruct (Z.eqb_spec (Z.of_nat (length (co i))) 0) as [Hz|Hz].
    + assert (Hco : co i = []) by (destruct (co i); [reflexivity|cbn in Hz; lia]). assert (Ha : forall x, act i x = 0) by (intros x; unfold act; now rewrite Hco).
      destruct (@nltb RN 0 (ll i) || @nltb RN (lu i) 0) eqn:Eb.
      * injection E as <-. split; [exact Hs|]. intros _ (x & _ & Hx). specialize (Hx i Hi). unfold rowok in Hx. rewrite Ha in Hx. pose proof hi_pos. apply orb_prop in Eb. rewrite !rn_ltb in Eb. lra.
      * unbind E. injection E as <-. apply orb_false_elim in Eb. rewrite !rn_ltb_false in Eb. split; [|exact Hinf]. cbn [fst]. apply (inv_remove noE s i a0); auto.
        left. right. left. intros x _. rewrite Ha. lra.
    + destruct (Z.eqb_spec (Z.of_nat (length (co i))) 1) as [H1|H1]; [|injection E as <-; split; auto].
      unbind E. injection E as <-. split; [|exact Hinf]. cbn [fst]. apply (inv_convert_cons ents s i a0); auto. lia.
Qed.

Section Mms.
Variable mms : list (R * R).
Hypothesis Hmms : arr mms nl mmf.

Lemma inv_redundant s i s' : inv noE s -> (0 <= i < nl)%Z -> @redundant_step RN llb lub mms feas s i = Ok s' -> inv noE s'.
Proof.
  intros Hs Hi E. unfold redundant_step in E. unbind E. destruct (cunchanged a); cbn [negb] in E; [|injection E as <-; auto]. clear E0.
  rnum. rewrite (arr_get_arr _ _ _ _ Hmms Hi), (arr_get_arr _ _ _ _ Hlub Hi), (arr_get_arr _ _ _ _ Hllb Hi) in E. cbn [rbind fst] in E.
  match type of E with (if ?c then _ else _) = _ => destruct c eqn:Ec end; [|injection E as <-; auto].
  apply andb_prop in Ec. destruct Ec as [Ec C4]. apply andb_prop in Ec. destruct Ec as [Ec C3]. apply andb_prop in Ec. destruct Ec as [C1 C2].
  apply negb_true_iff in C1, C2. rewrite <- not_true_iff_false, rn_is_infinite in C1, C2. change (@nopp RN) with Ropp in C1.
  apply rn_is_lt in C3; [|exact Hfeas]. apply rn_is_gt in C4; [|exact Hfeas]. apply (inv_remove noE s i s'); auto. left. right. left.
  intros x Hx. pose proof (act_le i x Hx). pose proof (act_ge i x Hx). destruct (mmf_ok i Hi) as [[Q|Q] [Q'|Q']]; rnum; try lra.
Qed.

Lemma inv_check_cons_step si i si' : pinv2 si -> (0 <= i < nl)%Z -> @check_cons_step RN m nv vlb vub llb lub mms feas si i = Ok si' -> pinv2 si'.
Proof.
  intros [Hs Hinf] Hi E. unfold check_cons_step in E. destruct si as [s inf]. cbn [fst snd] in *. unbind E.
  destruct (cunchanged a); cbn [negb] in E; [|injection E as <-; split; auto]. clear E0.
  rnum. rewrite (arr_get_arr _ _ _ _ Hmms Hi), (arr_get_arr _ _ _ _ Hlub Hi), (arr_get_arr _ _ _ _ Hllb Hi) in E. cbn [rbind fst] in E. change (@nsub RN) with Rminus in E. rewrite rn_n0 in E.
  pose proof (mmf_ok i Hi) as [QB QA].
  set (lowi := @is_finite RN (ll i) && @is_lt RN (snd (mmf i) - ll i) 0 feas) in *.
  set (upi := @is_finite RN (lu i) && @is_lt RN (lu i - fst (mmf i)) 0 feas) in *.
  assert (Hlow : lowi = true -> ~ exists x, feasible x).
  { unfold lowi. intros H. apply andb_prop in H. destruct H as [F L]. apply rn_is_finite' in F. apply rn_is_lt in L; [|exact Hfeas].
    intros (x & Hx & Hr). specialize (Hr i Hi). unfold rowok in Hr. pose proof (act_le i x Hx). destruct QB; lra. }
  assert (Hup : upi = true -> ~ exists x, feasible x).
  { unfold upi. intros H. apply andb_prop in H. destruct H as [F L]. apply rn_is_finite' in F. apply rn_is_lt in L; [|exact Hfeas].
    intros (x & Hx & Hr). specialize (Hr i Hi). unfold rowok in Hr. pose proof (act_ge i x Hx). destruct QA; lra. }
  match type of E with (if ?c then _ else _) = _ => destruct c eqn:Ec end.
  - unbind E. injection E as <-. split; [|exact Hinf]. cbn [fst]. apply (inv_force s i true a0); auto.
    intros H0 x [Hx Hr] j b Hin. apply andb_prop in Ec. destruct Ec as [Ec C3]. apply andb_prop in Ec. destruct Ec as [C1 C2]. apply rn_is_finite' in C1.
    rewrite H0 in C3. apply rn_is_eq0 in C3. assert (HB : esum (co i) (cmax vl vu) = ll i) by (destruct QB; lra).
    pose proof (act_max i x j b Hx Hin) as Q. specialize (Hr i Hi). unfold rowok in Hr. apply co_in in Hin. destruct Hin as (Hj & _ & Hb). specialize (Hx j Hj).
    unfold cmax in Q at 2. destruct (Rlt_dec 0 b) as [Hp|Hp].
    + replace (@nltb RN 0 b) with true by (symmetry; now apply rn_ltb). cbn [Bool.eqb]. nra.
    + replace (@nltb RN 0 b) with false by (symmetry; apply rn_ltb_false; lra). cbn [Bool.eqb]. nra.
  - clear Ec. match type of E with (if ?c then _ else _) = _ => destruct c eqn:Ec end.
    + unbind E. injection E as <-. split; [|cbn [snd]; rewrite orb_true_iff; tauto]. cbn [fst]. apply (inv_force s i false a0); auto.
      intros H0 x [Hx Hr] j b Hin. apply andb_prop in Ec. destruct Ec as [Ec C3]. apply andb_prop in Ec. destruct Ec as [C1 C2]. apply rn_is_finite' in C1.
      rewrite H0 in C3. apply rn_is_eq0 in C3. assert (HA : esum (co i) (cmin vl vu) = lu i) by (destruct QA; lra).
      pose proof (act_min i x j b Hx Hin) as Q. specialize (Hr i Hi). unfold rowok in Hr. apply co_in in Hin. destruct Hin as (Hj & _ & Hb). specialize (Hx j Hj).
      unfold cmin in Q at 2. destruct (Rlt_dec 0 b) as [Hp|Hp].
      * replace (@nltb RN 0 b) with true by (symmetry; now apply rn_ltb). cbn [Bool.eqb]. nra.
      * replace (@nltb RN 0 b) with false by (symmetry; apply rn_ltb_false; lra). cbn [Bool.eqb]. nra.
    + injection E as <-. split; [exact Hs|]. cbn [snd]. rewrite !orb_true_iff. tauto.
Qed.

Lemma inv_cons_req s i s' : inv noE s -> (0 <= i < nl)%Z -> @cons_req_step RN llb lub mms feas s i = Ok s' -> inv noE s'.
Proof.
  intros Hs Hi E. unfold cons_req_step in E. unbind E. destruct (cunchanged a); cbn [negb] in E; [|injection E as <-; auto]. clear E0.
  rnum. rewrite (arr_get_arr _ _ _ _ Hmms Hi), (arr_get_arr _ _ _ _ Hlub Hi), (arr_get_arr _ _ _ _ Hllb Hi) in E. cbn [rbind fst] in E.
  pose proof (mmf_ok i Hi) as [QB QA]. unbind E.
  assert (Hs1 : inv noE a0).
  { match type of E0 with (if ?c then _ else _) = _ => destruct c eqn:Ec end; [|injection E0 as <-; auto]. apply andb_prop in Ec. destruct Ec as [C1 C2].
    apply rn_is_gt in C1; [|exact Hfeas]. apply rn_is_finite' in C2. apply (inv_creq s i (true, false)); auto; cbn [fst snd]; [|discriminate]. intros _. split; [lra|].
    intros x Hx. pose proof (act_ge i x Hx). destruct QA; lra. }
  match type of E with (if ?c then _ else _) = _ => destruct c eqn:Ec end; [|injection E as <-; auto]. apply andb_prop in Ec. destruct Ec as [C1 C2].
  apply rn_is_lt in C1; [|exact Hfeas]. apply rn_is_finite' in C2. apply (inv_creq a0 i (false, true)); auto; cbn [fst snd]; [discriminate|]. intros _. split; [lra|].
  intros x Hx. pose proof (act_le i x Hx). destruct QB; lra.
Qed.

Lemma inv_check_vars bs si j si' : pinv2 si -> (0 <= j < nv)%Z -> arr bs nv vb -> @check_vars_step RN vlb vub bs feas si j = Ok si' -> pinv2 si'.
Proof.
  intros [Hs Hinf] Hj Hbs E. unfold check_vars_step in E. destruct si as [s inf]. cbn [fst snd] in *. unbind E.
  destruct (vunchanged a); cbn [negb] in E; [|injection E as <-; split; auto]. clear E0.
  rnum. rewrite (arr_get_arr _ _ _ _ Hbs Hj), (arr_get_arr _ _ _ _ Hvlb Hj), (arr_get_arr _ _ _ _ Hvub Hj) in E. cbn [rbind] in E.
  unbind E. unbind E. injection E as <-. split; cbn [fst snd].
  - assert (Hs1 : inv noE a0).
    { match type of E0 with (if ?c then _ else _) = _ => destruct c eqn:Ec end; [|injection E0 as <-; auto]. apply andb_prop in Ec. destruct Ec as [C1 C2].
      apply rn_is_finite' in C2. apply rn_is_gt in C1; [|exact Hfeas]. apply (inv_vreq s j (true, false)); auto; cbn [fst snd]; [|discriminate]. intros _. split; [lra|].
      intros x Hx. pose proof (vb_ok j x Hj Hx). lra. }
    match type of E1 with (if ?c then _ else _) = _ => destruct c eqn:Ec end; [|injection E1 as <-; auto]. apply andb_prop in Ec. destruct Ec as [C1 C2].
    apply rn_is_finite' in C2. apply rn_is_lt in C1; [|exact Hfeas]. apply (inv_vreq a0 j (false, true)); auto; cbn [fst snd]; [discriminate|]. intros _. split; [lra|].
    intros x Hx. pose proof (vb_ok j x Hj Hx). lra.
  - rewrite orb_true_iff. intros [H|H]; [auto|]. apply rn_is_lt in H; [|exact Hfeas]. intros (x & Hx). pose proof (vb_ok j x Hj Hx). lra.
Qed.

End Mms.
End Arrays.
End Inv.
