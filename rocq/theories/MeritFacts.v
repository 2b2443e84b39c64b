(** Total violation, merit function and step length over exact arithmetic. *)
From Coq Require Import Reals Lra.
From Flocq Require Import Core.
From Verif Require Import Base Num Cmp Sparse Vec VecFacts Order OrdArith RSum VecReal Mat MatFacts MatFacts2 WorkingSet Feas FeasFacts.
Local Open Scope R_scope.

(** Distance of a number to an interval. *)
Definition rviol (c l u : R) : R := Rmax 0 (Rmax (c - u) (l - c)).

Lemma sumd_succ n f : (0 <= n)%Z -> sumd (n + 1) f = sumd n f + f n.
Proof.
  intros H. unfold sumd. replace (Z.to_nat (n + 1)) with (S (Z.to_nat n)) by lia. cbn [rsum]. now rewrite Z2Nat.id by lia.
Qed.

Lemma sumd_const d k : (0 <= d)%Z -> sumd d (fun _ => k) = IZR d * k.
Proof.
  intros Hd. revert d Hd. apply (natlike_ind (fun d => sumd d (fun _ => k) = IZR d * k)).
  - unfold sumd. cbn. lra.
  - intros n Hn IH. rewrite <- Z.add_1_r, sumd_succ, IH, plus_IZR by lia. lra.
Qed.

Lemma sumd_abs_le d f g b : (0 <= d)%Z -> (forall i, (0 <= i < d)%Z -> Rabs (f i - g i) <= b) ->
  Rabs (sumd d f - sumd d g) <= IZR d * b.
Proof.
  intros Hd H. replace (sumd d f - sumd d g) with (sumd d (fun i => f i - g i)).
  - rewrite <- sumd_const by auto. eapply Rle_trans; [apply rsum_abs|]. apply sumd_le. exact H.
  - rewrite (sumd_ext d _ (fun i => f i + -1 * g i)) by (intros; lra). rewrite sumd_plus, sumd_scal. lra.
Qed.

Lemma rviol_lip c c' l u : Rabs (rviol c l u - rviol c' l u) <= Rabs (c - c').
Proof.
  unfold rviol, Rmax. repeat destruct (Rle_dec _ _); unfold Rabs; repeat destruct (Rcase_abs _); lra.
Qed.

Lemma violation_real (c l u : R) : l <= u -> @violation RN c l u = rviol c l u.
Proof.
  intros H. unfold violation, rviol. destruct (@nltb RN u c) eqn:E1; [|destruct (@nltb RN c l) eqn:E2].
  - apply rn_ltb in E1. cbn [nsub RN]. rewrite Rmax_right; [rewrite Rmax_left; lra|]. eapply Rle_trans; [|apply Rmax_l]. lra.
  - apply rn_ltb in E2. cbn [nsub RN]. rewrite Rmax_right; [rewrite Rmax_right; lra|]. eapply Rle_trans; [|apply Rmax_r]. lra.
  - apply rn_ltb_false in E1. apply rn_ltb_false in E2. rewrite rn_n0, Rmax_left; auto. apply Rmax_lub; lra.
Qed.

Section Merit.
Variables (nc : Z) (l u : rvec).
Hypotheses (Wl : wf l) (Wu : wf u) (Dl : vdim l = nc) (Du : vdim u = nc).
Hypothesis Hlu : forall i, (0 <= i < nc)%Z -> (dense l i : R) <= dense u i.

Definition total_viol (c : Z -> R) : R := sumd nc (fun i => rviol (c i) (dense l i) (dense u i)).

Lemma rno_nan (v : rvec) : no_nan v. Proof. intros i _. exact I. Qed.

Lemma total_violation_real (c : rvec) : wf c -> vdim c = nc -> total_violation nc c l u = Ok (total_viol (dense c)).
Proof.
  intros Wc Dc. rewrite (total_violation_dense nc c l u); auto using rno_nan. f_equal.
  set (ft := fun m i => if nltb n0 (viol_at c l u i) then nadd m (viol_at c l u i) else m).
  assert (Hn : (0 <= nc)%Z) by (destruct Wc; lia).
  apply (fold_zrange_inv (fun k (m : R) => m = sumd k (fun i => rviol (dense c i) (dense l i) (dense u i))) ft nc n0 Hn).
  - rewrite rn_n0. reflexivity.
  - intros i t Hi ->. unfold ft, viol_at. rewrite violation_real by auto. rewrite sumd_succ by lia.
    destruct (@nltb RN n0 _) eqn:E; [reflexivity|]. apply rn_ltb_false in E. rewrite rn_n0 in E.
    assert (0 <= rviol (dense c i) (dense l i) (dense u i)) by apply Rmax_l. lra.
Qed.

Lemma total_viol_nonneg c : 0 <= total_viol c.
Proof. apply sumd_nonneg. intros. apply Rmax_l. Qed.

Lemma merit_func_real obj (c : rvec) pen : wf c -> vdim c = nc ->
  merit_func nc (obj : @num RN) c l u pen = Ok (obj + pen * total_viol (dense c)).
Proof. intros Wc Dc. unfold merit_func. rewrite total_violation_real by auto. reflexivity. Qed.

Lemma merit_linear_real obj dobj (c dj cache : rvec) (eps pen : R) : wf c -> wf dj -> vdim c = nc -> vdim dj = nc ->
  (0 <= vcap cache)%Z -> 0 <= eps -> 0 <= pen ->
  exists m, merit_linear nc (obj : @num RN) dobj c dj l u eps pen cache = Ok m
   /\ Rabs (m - (obj + dobj + pen * total_viol (fun i => dense c i + dense dj i))) <= pen * (IZR nc * eps).
Proof.
  intros Wc Wd Dc Dd Hcap He Hp. unfold merit_linear, vec_add.
  destruct (vec_add_scaled_spec dj c n1 n1 eps cache) as (z & E & Wz & Dz & Hz); auto; try congruence.
  rewrite E. cbn [rbind]. rewrite total_violation_real; [|auto|congruence]. cbn [rbind].
  eexists. split; [reflexivity|]. cbn [nadd nmul RN].
  match goal with |- Rabs ?x <= _ => replace x with (pen * (total_viol (dense z) - total_viol (fun i => dense c i + dense dj i))) by lra end.
  rewrite Rabs_mult, (Rabs_right pen) by lra. apply Rmult_le_compat_l; [auto|].
  assert (Hn : (0 <= nc)%Z) by (destruct Wc; lia).
  apply sumd_abs_le; [auto|]. intros i Hi. eapply Rle_trans; [apply rviol_lip|].
  assert (Hci : @comb_at RN n1 n1 dj c i = dense dj i + dense c i).
  { unfold comb_at. rewrite combine_real, rn_n1. fold (dense dj i) (dense c i). lra. }
  assert (Hd : dense z i = if @is_zero RN (@comb_at RN n1 n1 dj c i) eps then 0 else dense c i + dense dj i).
  { unfold dense at 1. rewrite Hz, Hci. unfold dense. 
    destruct (get (vent dj) i) as [a|] eqn:E1, (get (vent c) i) as [b|] eqn:E2; rewrite ?oval_rn;
      destruct (@is_zero RN _ eps); rewrite ?oval_rn; lra. }
  rewrite Hd. clear Hd Hz. rewrite Hci. destruct (@is_zero RN (dense dj i + dense c i) eps) eqn:Ez.
  - apply rn_is_zero in Ez. rewrite Rabs_minus_sym.
    rewrite Rminus_0_r, Rplus_comm. exact Ez.
  - rewrite Rminus_diag_eq by reflexivity. rewrite Rabs_R0. exact He.
Qed.

Lemma merit_quadratic_real obj dobj (c dj cache dp dh : rvec) (eps pen : R) : wf c -> wf dj -> vdim c = nc -> vdim dj = nc ->
  (0 <= vcap cache)%Z -> 0 <= eps -> 0 <= pen -> wf dp -> wf dh -> vdim dp = vdim dh ->
  exists m, merit_quadratic nc (obj : @num RN) dobj c dj l u dp dh eps pen cache = Ok m
   /\ Rabs (m - (obj + dobj + 1 / 2 * dotd (vdim dp) (dense dp) (dense dh) + pen * total_viol (fun i => dense c i + dense dj i)))
      <= pen * (IZR nc * eps).
Proof.
  intros Wc Wd Dc Dd Hcap He Hp Wp Wh Dh. unfold merit_quadratic.
  destruct (merit_linear_real obj dobj c dj cache eps pen) as (m & -> & Hm); auto. cbn [rbind].
  rewrite vec_dot_real by auto. cbn [rbind]. eexists. split; [reflexivity|]. cbn [nadd nmul nlit RN]. unfold rn_lit.
  match goal with |- Rabs ?x <= _ => match type of Hm with Rabs ?y <= _ => replace x with y by lra end end. exact Hm.
Qed.
End Merit.

(** ** Maximum step length *)
Section MaxStep.
Variables (x d l u : rvec) (m0 : R).
Hypotheses (Wx : wf x) (Wd : wf d) (Wl : wf l) (Wu : wf u).
Hypotheses (Dd : vdim d = vdim x) (Dl : vdim l = vdim x) (Du : vdim u = vdim x).
Hypothesis Hbox : forall i, (0 <= i < vdim x)%Z -> (dense l i : R) <= dense x i <= dense u i.
Hypothesis Hm0 : 0 < m0.

Let n := vdim x.
Let X i : R := dense x i.
Let D i : R := dense d i.
Let L i : R := dense l i.
Let U i : R := dense u i.

Lemma step_fold (g : R -> R -> R -> R -> R) (b : rvec) m : wf b -> vdim b = n -> (forall t, g t 0 0 0 = t) ->
  exists rows, @feas_rows RN x d b = Ok rows /\
   fold_left (fun m row => let '(i, (xv, dv, bv)) := row in g m xv dv bv) rows m
   = fold_left (fun m i => g m (X i) (D i) (dense b i)) (zrange n) m.
Proof.
  intros Wb Db H0. destruct (@feas_rows_spec RN x d b) as (idxs & S1 & S2 & S3 & _); auto.
  eexists. split; [exact S2|]. rewrite fold_left_map. apply fold_left_sparse; [exact S1|].
  intros i t Hi Hn. specialize (S3 i Hn). unfold trip in S3.
  pose proof (f_equal (fun t => fst (fst t)) S3) as E1. pose proof (f_equal (fun t => snd (fst t)) S3) as E2.
  pose proof (f_equal snd S3) as E3. cbn [fst snd] in E1, E2, E3. unfold X, D. rewrite E1, E2, E3, rn_n0. apply H0.
Qed.

Lemma upper_step_real m xv dv uv : xv <= uv -> @upper_step RN m xv dv uv =
  if Rlt_dec 0 dv then if Rlt_dec xv uv then Rmin m ((uv - xv) / dv) else m else m.
Proof.
  intros H. unfold upper_step. rewrite rn_n0, rn_min. cbn [nltb nsub ndiv RN].
  destruct (Rlt_dec 0 dv), (Rlt_dec xv uv);
  repeat match goal with |- context [Rlt_bool ?a ?b] => destruct (Rlt_bool_spec a b) end; cbn [andb orb]; auto; lra.
Qed.
Lemma lower_step_real m xv dv lv : lv <= xv -> @lower_step RN m xv dv lv =
  if Rlt_dec dv 0 then if Rlt_dec lv xv then Rmin m ((lv - xv) / dv) else m else m.
Proof.
  intros H. unfold lower_step. rewrite rn_n0, rn_min. cbn [nltb nsub ndiv RN].
  destruct (Rlt_dec dv 0), (Rlt_dec lv xv);
  repeat match goal with |- context [Rlt_bool ?a ?b] => destruct (Rlt_bool_spec a b) end; cbn [andb orb]; auto; lra.
Qed.

Lemma max_step_real : exists r, @max_step_length RN x d l u m0 = Ok r
  /\ 0 < r <= m0
  /\ (forall i, (0 <= i < n)%Z -> ~ (X i = U i /\ 0 < D i) -> ~ (X i = L i /\ D i < 0) -> L i <= X i + r * D i <= U i)
  /\ (r = m0 \/ exists i, (0 <= i < n)%Z /\ ((0 < D i /\ X i + r * D i = U i) \/ (D i < 0 /\ X i + r * D i = L i))).
Proof.
  assert (Hn : (0 <= n)%Z) by (destruct Wx; auto).
  unfold max_step_length. rewrite Dl, Du, Dd, Z.eqb_refl. cbn [check rbind].
  assert (E0 : @nltb RN n0 m0 = true) by (apply rn_ltb; rewrite rn_n0; exact Hm0). rewrite E0. cbn [check rbind].
  destruct (step_fold (@upper_step RN) u m0) as (ru & -> & Eu); auto.
  { intros t. rewrite upper_step_real by lra. destruct (Rlt_dec 0 0); lra. }
  cbn [rbind]. set (m1 := fold_left (fun m i => @upper_step RN m (X i) (D i) (dense u i)) (zrange n) m0) in *.
  match goal with |- context [fold_left ?f ru ?a] => replace (fold_left f ru a) with m1 by (symmetry; exact Eu) end.
  clear Eu.
  assert (H1 : (fun k (m : R) => 0 < m <= m0 /\ (forall i, (0 <= i < k)%Z -> 0 < D i -> X i < U i -> X i + m * D i <= U i)
      /\ (m = m0 \/ exists i, (0 <= i < k)%Z /\ 0 < D i /\ X i + m * D i = U i)) n m1).
  { apply fold_zrange_inv; auto.
    - split; [lra|]. split; [intros; lia|now left].
    - intros i m Hi (Hm & Hb & Ha). rewrite upper_step_real by (apply Hbox; auto). fold (U i).
      destruct (Rlt_dec 0 (D i)) as [Hd|Hd]; [destruct (Rlt_dec (X i) (U i)) as [Hx|Hx]|].
      + assert (Hq : 0 < (U i - X i) / D i) by (apply Rdiv_lt_0_compat; lra).
        assert (Hqd : (U i - X i) / D i * D i = U i - X i) by (field; lra).
        set (q := (U i - X i) / D i) in *. pose proof (Rmin_l m q). pose proof (Rmin_r m q).
        split; [split; [apply Rmin_glb_lt; lra|lra]|]. split.
        * intros j Hj Hdj Hxj. destruct (Z.eq_dec j i) as [->|Hne].
          -- pose proof (Rmult_le_compat_r (D i) _ _ (Rlt_le _ _ Hd) H0). lra.
          -- specialize (Hb j ltac:(lia) Hdj Hxj). pose proof (Rmult_le_compat_r (D j) _ _ (Rlt_le _ _ Hdj) H). lra.
        * destruct (Rle_dec m q).
          -- rewrite Rmin_left by lra. destruct Ha as [Ha|(j & Hj & Ha)]; [now left|]. right. exists j. split; [lia|exact Ha].
          -- rewrite Rmin_right by lra. right. exists i. split; [lia|]. split; [auto|lra].
      + split; [auto|]. split.
        * intros j Hj Hdj Hxj. destruct (Z.eq_dec j i) as [->|Hne]; [lra|]. apply Hb; auto. lia.
        * destruct Ha as [Ha|(j & Hj & Ha)]; [now left|]. right. exists j. split; [lia|exact Ha].
      + split; [auto|]. split.
        * intros j Hj Hdj Hxj. destruct (Z.eq_dec j i) as [->|Hne]; [lra|]. apply Hb; auto. lia.
        * destruct Ha as [Ha|(j & Hj & Ha)]; [now left|]. right. exists j. split; [lia|exact Ha]. }
  cbn beta in H1. clearbody m1. destruct H1 as (M1 & M2 & M3).
  destruct (step_fold (@lower_step RN) l m1) as (rl & -> & El); auto.
  { intros t. rewrite lower_step_real by lra. destruct (Rlt_dec 0 0); lra. }
  cbn [rbind]. set (m2 := fold_left (fun m i => @lower_step RN m (X i) (D i) (dense l i)) (zrange n) m1) in *.
  match goal with |- context [fold_left ?f rl ?a] => replace (fold_left f rl a) with m2 by (symmetry; exact El) end.
  clear El.
  assert (H2 : (fun k (m : R) => 0 < m <= m1 /\ (forall i, (0 <= i < k)%Z -> D i < 0 -> L i < X i -> L i <= X i + m * D i)
      /\ (m = m1 \/ exists i, (0 <= i < k)%Z /\ D i < 0 /\ X i + m * D i = L i)) n m2).
  { apply fold_zrange_inv; auto.
    - split; [lra|]. split; [intros; lia|now left].
    - intros i m Hi (Hm & Hb & Ha). rewrite lower_step_real by (apply Hbox; auto). fold (L i).
      destruct (Rlt_dec (D i) 0) as [Hd|Hd]; [destruct (Rlt_dec (L i) (X i)) as [Hx|Hx]|].
      + assert (Hq : 0 < (L i - X i) / D i).
        { replace ((L i - X i) / D i) with ((X i - L i) / (- D i)) by (field; lra). apply Rdiv_lt_0_compat; lra. }
        assert (Hqd : (L i - X i) / D i * D i = L i - X i) by (field; lra).
        set (q := (L i - X i) / D i) in *. pose proof (Rmin_l m q). pose proof (Rmin_r m q).
        split; [split; [apply Rmin_glb_lt; lra|lra]|]. split.
        * intros j Hj Hdj Hxj. destruct (Z.eq_dec j i) as [->|Hne].
          -- pose proof (Rmult_le_compat_neg_l (D i) _ _ (Rlt_le _ _ Hd) H0). lra.
          -- specialize (Hb j ltac:(lia) Hdj Hxj). pose proof (Rmult_le_compat_neg_l (D j) _ _ (Rlt_le _ _ Hdj) H). lra.
        * destruct (Rle_dec m q).
          -- rewrite Rmin_left by lra. destruct Ha as [Ha|(j & Hj & Ha)]; [now left|]. right. exists j. split; [lia|exact Ha].
          -- rewrite Rmin_right by lra. right. exists i. split; [lia|]. split; [auto|lra].
      + split; [auto|]. split.
        * intros j Hj Hdj Hxj. destruct (Z.eq_dec j i) as [->|Hne]; [lra|]. apply Hb; auto. lia.
        * destruct Ha as [Ha|(j & Hj & Ha)]; [now left|]. right. exists j. split; [lia|exact Ha].
      + split; [auto|]. split.
        * intros j Hj Hdj Hxj. destruct (Z.eq_dec j i) as [->|Hne]; [lra|]. apply Hb; auto. lia.
        * destruct Ha as [Ha|(j & Hj & Ha)]; [now left|]. right. exists j. split; [lia|exact Ha]. }
  cbn beta in H2. clearbody m2. destruct H2 as (N1 & N2 & N3).
  assert (E2 : @nleb RN n0 m2 = true) by (apply rn_leb; rewrite rn_n0; lra). rewrite E2. cbn [check rbind].
  exists m2. split; [reflexivity|]. split; [lra|]. split.
  - intros i Hi Hu Hl. destruct (Hbox i Hi) as [B1 B2]. fold (L i) (X i) (U i) in B1, B2.
    destruct (Rtotal_order (D i) 0) as [Hd|[Hd|Hd]].
    + assert (L i < X i) by (destruct (Rle_lt_or_eq_dec _ _ B1); auto; exfalso; apply Hl; auto).
      specialize (N2 i Hi Hd H). split; [exact N2|].
      pose proof (Rmult_le_compat_neg_l (D i) 0 m2 (Rlt_le _ _ Hd) ltac:(lra)). lra.
    + rewrite Hd. lra.
    + assert (X i < U i) by (destruct (Rle_lt_or_eq_dec _ _ B2); auto; exfalso; apply Hu; auto).
      specialize (M2 i Hi Hd H). 
      pose proof (Rmult_le_compat_r (D i) m2 m1 (Rlt_le _ _ Hd) ltac:(lra)).
      pose proof (Rmult_le_compat_r (D i) 0 m2 (Rlt_le _ _ Hd) ltac:(lra)). split; lra.
  - destruct N3 as [->|(i & Hi & Hd & He)]; [|right; exists i; auto].
    destruct M3 as [->|(i & Hi & Hd & He)]; [now left|right; exists i; auto].
Qed.
End MaxStep.
