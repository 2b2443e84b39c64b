(** Vectors over exact arithmetic: inner products and norms (C04). *)
From Coq Require Import Reals Lra.
From Flocq Require Import Core.
From Verif Require Import Base Num Cmp Sparse Vec VecFacts RSum.
Local Open Scope R_scope.

Lemma rn_n0 : @n0 RN = 0. Proof. unfold n0; cbn; unfold rn_lit. field. Qed.
Lemma rn_n1 : @n1 RN = 1. Proof. unfold n1; cbn; unfold rn_lit. field. Qed.
Lemma rn_lit_eq p q : @nlit RN p q = IZR p / IZR q. Proof. reflexivity. Qed.
Lemma rn_lit1 p : @nlit RN p 1 = IZR p. Proof. cbn; unfold rn_lit. field. Qed.
Lemma rn_ltb (x y : R) : @nltb RN x y = true <-> x < y.
Proof. cbn. destruct (Rlt_bool_spec x y); split; intros; auto; try discriminate; lra. Qed.
Lemma rn_ltb_false (x y : R) : @nltb RN x y = false <-> y <= x.
Proof. cbn. destruct (Rlt_bool_spec x y); split; intros; auto; try discriminate; lra. Qed.
Lemma rn_leb (x y : R) : @nleb RN x y = true <-> x <= y.
Proof. cbn. destruct (Rle_bool_spec x y); split; intros; auto; try discriminate; lra. Qed.
Lemma rn_leb_false (x y : R) : @nleb RN x y = false <-> y < x.
Proof. cbn. destruct (Rle_bool_spec x y); split; intros; auto; try discriminate; lra. Qed.
Lemma rn_eqb (x y : R) : @neqb RN x y = true <-> x = y.
Proof. cbn. destruct (Req_bool_spec x y); split; intros; auto; try discriminate; lra. Qed.
Lemma rn_eqb_false (x y : R) : @neqb RN x y = false <-> x <> y.
Proof. cbn. destruct (Req_bool_spec x y); split; intros; auto; try discriminate; lra. Qed.
Lemma rn_max x y : @nmax RN x y = Rmax x y.
Proof.
  unfold nmax. destruct (@nltb RN y x) eqn:E.
  - apply rn_ltb in E. rewrite Rmax_left; lra.
  - apply rn_ltb_false in E. rewrite Rmax_right; lra.
Qed.
Lemma rn_min x y : @nmin RN x y = Rmin x y.
Proof.
  unfold nmin. destruct (@nltb RN x y) eqn:E.
  - apply rn_ltb in E. rewrite Rmin_left; lra.
  - apply rn_ltb_false in E. rewrite Rmin_right; lra.
Qed.
Lemma rn_abs x : @nabs RN x = Rabs x.
Proof.
  unfold nabs. destruct (@nltb RN n0 x) eqn:E.
  - apply rn_ltb in E. rewrite rn_n0 in E. rewrite Rabs_right; lra.
  - apply rn_ltb_false in E. rewrite rn_n0 in E. cbn. rewrite Rabs_left1; lra.
Qed.
Lemma rn_is_zero (x eps : R) : @is_zero RN x eps = true <-> Rabs x <= eps.
Proof. unfold is_zero. rewrite rn_leb, rn_abs. reflexivity. Qed.
Lemma rn_is_zero0 (x : R) : @is_zero RN x 0 = true <-> x = 0.
Proof.
  rewrite rn_is_zero. split.
  - intros H. destruct (Req_dec x 0); auto. pose proof (Rabs_pos_lt x H0). lra.
  - intros ->. rewrite Rabs_R0. lra.
Qed.

Notation rvec := (@vec RN).
Ltac rnum := change (@num RN) with R in *.

(** Dense inner product. *)
Definition dotd (d : Z) (f g : Z -> R) : R := sumd d (fun i => f i * g i).

Lemma oval_rn (o : option R) : @oval RN o = match o with Some x => x | None => 0 end.
Proof. destruct o; cbn; [reflexivity|]. apply rn_n0. Qed.

Lemma dense_range (v : rvec) i : wf v -> ~ (0 <= i < vdim v)%Z -> dense v i = 0.
Proof.
  intros (_ & Hs & _) H. unfold dense. replace (get (vent v) i) with (@None R); [apply oval_rn|].
  symmetry. apply get_None. intros Hi. apply H. apply (sorted_in_In _ _ _ _ Hs Hi).
Qed.

Lemma esum_vec (v : rvec) (g : Z -> R -> R) : wf v -> (forall i, g i 0 = 0) ->
  esum (vent v) g = sumd (vdim v) (fun i => g i (dense v i)).
Proof.
  intros (Hd & Hs & _) H0. rewrite (esum_dense _ _ 0 (Z.to_nat (vdim v))); [|rewrite Z2Nat.id by lia; exact Hs|lia].
  unfold sumd. apply rsum_ext. intros i Hi. unfold dense. rewrite oval_rn. rnum.
  destruct (@get R (vent v) i); [reflexivity|]. now rewrite H0.
Qed.

Lemma dot_loop_sum fuel (l1 l2 : list (Z * R)) acc lo1 lo2 hi :
  (length l1 + length l2 <= fuel)%nat ->
  sorted_in lo1 hi (keys l1) -> sorted_in lo2 hi (keys l2) ->
  @dot_loop RN fuel l1 l2 acc = acc + esum l1 (fun i x => x * match get l2 i with Some y => y | None => 0 end).
Proof.
  revert l1 l2 acc lo1 lo2; induction fuel as [|fuel IH]; intros l1 l2 acc lo1 lo2 Hf H1 H2.
  - destruct l1; cbn [length] in Hf; [|lia]. cbn. lra.
  - destruct l1 as [|[i x] l1]; [cbn; lra|]. destruct l2 as [|[j y] l2].
    { cbn [dot_loop]. rewrite (esum_ext _ _ (fun _ _ => 0)).
      - assert (E : forall l : list (Z*R), esum l (fun _ _ => 0) = 0).
        { induction l as [|[k z] l IHl]; cbn [esum]; lra. } rewrite E. lra.
      - intros. cbn [get]. lra. }
    cbn [keys map fst sorted_in] in H1, H2. destruct H1 as [Hi H1], H2 as [Hj H2].
    cbn [length] in Hf. cbn [dot_loop esum get].
    destruct (Z.eqb_spec i j) as [->|Hne].
    + rewrite (IH l1 l2 _ (j+1)%Z (j+1)%Z) by (auto; lia). rewrite Z.eqb_refl.
      match goal with |- _ = _ + (_ + esum l1 ?h) =>
        rewrite (esum_ext l1 h (fun i x => x * match get l2 i with Some y => y | None => 0 end)) end.
      * cbn. lra.
      * intros k z Hk. cbn [get]. destruct (Z.eqb_spec j k) as [->|]; [|reflexivity].
        assert (Hk' : In k (keys l1)) by (eapply In_keys, Hk). pose proof (sorted_in_In _ _ _ _ H1 Hk'). lia.
    + destruct (Z.ltb_spec i j) as [Hlt|Hge].
      * rewrite (IH l1 ((j,y)::l2) acc (i+1)%Z j); [|cbn [length]; lia|auto|cbn [keys map fst sorted_in]; split; [lia|auto]].
        cbn [get]. destruct (Z.eqb_spec j i); [lia|]. rewrite (get_below (j+1) hi l2 i) by (auto; lia). lra.
      * rewrite (IH ((i,x)::l1) l2 acc i (j+1)%Z); [|cbn [length]; lia|cbn [keys map fst sorted_in]; split; [lia|auto]|auto].
        cbn [esum]. destruct (Z.eqb_spec j i); [lia|]. f_equal. f_equal. apply esum_ext.
        intros k z Hk. destruct (Z.eqb_spec j k) as [->|]; [|reflexivity].
        assert (Hk' : In k (keys l1)) by (eapply In_keys, Hk). pose proof (sorted_in_In _ _ _ _ H1 Hk'). lia.
Qed.

Lemma vec_dot_real (x y : rvec) : wf x -> wf y -> vdim x = vdim y ->
  vec_dot x y = Ok (dotd (vdim x) (dense x) (dense y)).
Proof.
  intros Hx Hy Hd. unfold vec_dot. rewrite Hd, Z.eqb_refl. cbn [check rbind]. f_equal.
  destruct Hx as (Hdx & Hsx & Hcx), Hy as (Hdy & Hsy & Hcy). rewrite Hd in Hsx.
  rewrite (dot_loop_sum _ _ _ _ 0 0 (vdim y)) by auto. rewrite rn_n0.
  transitivity (esum (vent x) (fun i a => a * dense y i)).
  - rewrite Rplus_0_l. apply esum_ext. intros i a _. unfold dense. rewrite oval_rn. reflexivity.
  - rewrite esum_vec; [|unfold wf; rewrite Hd; auto|intros; lra]. unfold dotd. now rewrite Hd.
Qed.

Lemma fold_esum (es : list (Z * R)) (g : R -> R) a :
  fold_left (fun s e => s + g (snd e)) es a = a + esum es (fun _ x => g x).
Proof.
  revert a; induction es as [|[i x] es IH]; intros a; cbn [fold_left esum snd]; [lra|]. rewrite IH. lra.
Qed.

Lemma vec_norm_sq_real (v : rvec) : wf v -> vec_norm_sq v = dotd (vdim v) (dense v) (dense v).
Proof.
  intros H. unfold vec_norm_sq. cbn [nadd nmul RN]. rewrite (fold_esum _ (fun x => x * x)), rn_n0, Rplus_0_l.
  rewrite esum_vec; auto. intros; lra.
Qed.
Lemma vec_norm_real (v : rvec) : wf v -> vec_norm v = sqrt (dotd (vdim v) (dense v) (dense v)).
Proof. intros H. unfold vec_norm. cbn [nsqrt RN]. now rewrite vec_norm_sq_real. Qed.
Lemma vec_one_norm_real (v : rvec) : wf v -> vec_one_norm v = sumd (vdim v) (fun i => Rabs (dense v i)).
Proof.
  intros H. unfold vec_one_norm. cbn [nadd RN]. rewrite (fold_esum _ (@nabs RN)), rn_n0, Rplus_0_l.
  rewrite esum_vec; auto.
  - apply sumd_ext. intros. apply rn_abs.
  - intros. rewrite rn_abs. apply Rabs_R0.
Qed.

(** [m] is the maximum of [|f i|] over the coordinates (0 if there are none). *)
Definition is_max_abs (d : Z) (f : Z -> R) (m : R) : Prop :=
  0 <= m /\ (forall i, (0 <= i < d)%Z -> Rabs (f i) <= m)
  /\ (m = 0 \/ exists i, (0 <= i < d)%Z /\ m = Rabs (f i)).

Lemma fold_max_spec (es : list (Z * R)) a : 0 <= a ->
  let m := fold_left (fun s e => @nmax RN (@nabs RN (snd e)) s) es a in
  a <= m /\ (forall i x, In (i, x) es -> Rabs x <= m) /\ (m = a \/ exists i x, In (i, x) es /\ m = Rabs x).
Proof.
  revert a; induction es as [|[i x] es IH]; intros a Ha; cbn [fold_left snd].
  - repeat split; [lra|intros i x []|auto].
  - rewrite rn_max, rn_abs. specialize (IH (Rmax (Rabs x) a)). cbv zeta in IH.
    destruct IH as (H1 & H2 & H3); [eapply Rle_trans; [exact Ha|apply Rmax_r]|].
    pose proof (Rmax_l (Rabs x) a). pose proof (Rmax_r (Rabs x) a). split; [lra|]. split.
    + intros k z [E|Hk]; [injection E as <- <-; lra|eauto].
    + destruct H3 as [H3|(k & z & Hk & H3)].
      * rewrite H3. destruct (Rle_dec (Rabs x) a); [rewrite Rmax_right by lra; auto|].
        rewrite Rmax_left by lra. right. exists i, x. split; auto. now left.
      * right. exists k, z. split; auto. now right.
Qed.

Lemma vec_inf_norm_real (v : rvec) : wf v -> is_max_abs (vdim v) (dense v) (vec_inf_norm v).
Proof.
  intros H. unfold vec_inf_norm. rewrite rn_n0.
  destruct (fold_max_spec (vent v) 0 (Rle_refl 0)) as (H1 & H2 & H3). cbv zeta in *.
  split; [exact H1|]. split.
  - intros i Hi. unfold dense. rewrite oval_rn. destruct (get (vent v) i) eqn:E.
    + eapply H2. apply get_Some_In, E.
    + rewrite Rabs_R0. exact H1.
  - destruct H3 as [H3|(i & x & Hi & H3)]; [auto|right]. exists i. destruct H as (Hd & Hs & Hc). split.
    + eapply sorted_in_In; [exact Hs|]. eapply In_keys, Hi.
    + unfold dense. rewrite (In_get 0 (vdim v) _ _ _ Hs Hi). exact H3.
Qed.

Lemma is_max_abs_unique d f m m' : is_max_abs d f m -> is_max_abs d f m' -> m = m'.
Proof.
  intros (H1 & H2 & H3) (H1' & H2' & H3'). apply Rle_antisym.
  - destruct H3 as [->|(i & Hi & ->)]; auto.
  - destruct H3' as [->|(i & Hi & ->)]; auto.
Qed.

(** Linear combinations at drop tolerance zero are the dense ones. *)
Lemma combine_real (f g : R) (a b : option R) : @combine RN f g a b = f * oval a + g * oval b.
Proof. destruct a, b; cbn; unfold rn_lit; lra. Qed.

Lemma add_scaled_real (x y r : rvec) (a b : R) : wf x -> wf y -> vdim x = vdim y -> (0 <= vcap r)%Z ->
  exists z, vec_add_scaled x y a b 0 r = Ok z /\ wf z /\ vdim z = vdim x
    /\ forall i, dense z i = a * dense x i + b * dense y i.
Proof.
  intros Hx Hy Hd Hr. destruct (vec_add_scaled_spec x y a b 0 r Hx Hy Hd Hr) as (z & E & Hw & Hdz & Hg).
  exists z. repeat split; auto; try apply Hw. intros i. unfold dense at 1. rewrite Hg. unfold comb_at.
  rewrite combine_real. fold (dense x i) (dense y i).
  destruct (@is_zero RN (a * dense x i + b * dense y i) 0) eqn:Ez.
  - apply rn_is_zero0 in Ez. destruct (get (vent x) i), (get (vent y) i); rewrite oval_rn; symmetry; exact Ez.
  - unfold dense in *. destruct (get (vent x) i), (get (vent y) i); rewrite !oval_rn; cbn [oval] in *; try lra.
Qed.

Lemma vec_scale_real (v : rvec) (a : R) : wf v ->
  wf (vec_scale v a) /\ vdim (vec_scale v a) = vdim v /\ forall i, dense (vec_scale v a) i = a * dense v i.
Proof.
  intros H. unfold vec_scale. destruct (@neqb RN a n0) eqn:E0; [|destruct (@neqb RN a n1) eqn:E1].
  - apply rn_eqb in E0. rewrite rn_n0 in E0. subst a. split; [now apply wf_clear|]. split; [reflexivity|].
    intros i. unfold dense. cbn [vec_clear vent get]. rewrite oval_rn. lra.
  - apply rn_eqb in E1. rewrite rn_n1 in E1. subst a. split; [auto|]. split; [auto|]. intros; lra.
  - destruct H as (Hd & Hs & Hc). split; [|split; [reflexivity|]].
    + unfold wf; cbn [vdim vcap vent]. rewrite map_length. repeat split; auto.
      unfold keys. rewrite map_map. cbn [fst]. exact Hs.
    + intros i. unfold dense. cbn [vent]. rewrite (get_map_val (fun x => @nmul RN x a)). rewrite !oval_rn.
      destruct (get (vent v) i); cbn; lra.
Qed.

(** Algebra of the dense inner product. *)
Lemma dotd_ext d f f' g g' : (forall i, (0 <= i < d)%Z -> f i = f' i) -> (forall i, (0 <= i < d)%Z -> g i = g' i) ->
  dotd d f g = dotd d f' g'.
Proof. intros H1 H2. apply sumd_ext. intros. now rewrite H1, H2. Qed.
Lemma dotd_sym d f g : dotd d f g = dotd d g f.
Proof. apply sumd_ext. intros. apply Rmult_comm. Qed.
Lemma dotd_lin d a b f g h : dotd d (fun i => a * f i + b * g i) h = a * dotd d f h + b * dotd d g h.
Proof. unfold dotd. rewrite <- !sumd_scal, <- sumd_plus. apply sumd_ext. intros. lra. Qed.
Lemma dotd_nonneg d f : 0 <= dotd d f f.
Proof. apply sumd_nonneg. intros. apply Rle_0_sqr. Qed.
Lemma dotd_zero d f : dotd d f f = 0 <-> forall i, (0 <= i < d)%Z -> f i = 0.
Proof.
  split.
  - intros H i Hi. assert (E : f i * f i = 0).
    { apply (sumd_nonneg_zero d (fun i => f i * f i)); auto. intros; apply Rle_0_sqr. }
    apply Rmult_integral in E. tauto.
  - intros H. apply sumd_zero. intros i Hi. rewrite H by auto. lra.
Qed.
Lemma dotd_cauchy d f g : dotd d f g * dotd d f g <= dotd d f f * dotd d g g.
Proof. apply sumd_cauchy. Qed.

(** Norm axioms for the dense Euclidean norm. *)
Definition norm2 (d : Z) (f : Z -> R) : R := sqrt (dotd d f f).

Lemma norm2_cauchy d f g : Rabs (dotd d f g) <= norm2 d f * norm2 d g.
Proof.
  unfold norm2. rewrite <- sqrt_mult by apply dotd_nonneg. 
  rewrite <- sqrt_Rsqr_abs. apply sqrt_le_1_alt. apply dotd_cauchy.
Qed.
Lemma norm2_triangle d f g : norm2 d (fun i => f i + g i) <= norm2 d f + norm2 d g.
Proof.
  assert (Hf : 0 <= norm2 d f) by apply sqrt_pos. assert (Hg : 0 <= norm2 d g) by apply sqrt_pos.
  apply Rsqr_incr_0_var; [|lra]. unfold Rsqr at 1. unfold norm2 at 1 2.
  rewrite sqrt_sqrt by apply dotd_nonneg.
  replace (dotd d (fun i => f i + g i) (fun i => f i + g i)) with (dotd d f f + 2 * dotd d f g + dotd d g g).
  - assert (E1 : norm2 d f * norm2 d f = dotd d f f) by (apply sqrt_sqrt, dotd_nonneg).
    assert (E2 : norm2 d g * norm2 d g = dotd d g g) by (apply sqrt_sqrt, dotd_nonneg).
    pose proof (norm2_cauchy d f g). pose proof (Rle_abs (dotd d f g)). unfold Rsqr. nra.
  - unfold dotd. rewrite <- sumd_scal, <- !sumd_plus. apply sumd_ext. intros; lra.
Qed.
Lemma norm2_scal d a f : norm2 d (fun i => a * f i) = Rabs a * norm2 d f.
Proof.
  unfold norm2. rewrite <- sqrt_Rsqr_abs, <- sqrt_mult; [|apply Rle_0_sqr|apply dotd_nonneg].
  f_equal. unfold dotd, Rsqr. rewrite <- sumd_scal. apply sumd_ext. intros; lra.
Qed.
Lemma norm2_zero d f : norm2 d f = 0 <-> forall i, (0 <= i < d)%Z -> f i = 0.
Proof.
  unfold norm2. rewrite <- dotd_zero. split; intros H.
  - apply sqrt_eq_0; auto. apply dotd_nonneg.
  - rewrite H. apply sqrt_0.
Qed.
