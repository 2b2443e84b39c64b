(** Conjugate gradients in exact arithmetic: the invariant of the iteration. *)
From Coq Require Import Reals Lra.
From Verif Require Import Base Num Cmp Sparse Vec VecFacts RSum VecReal WorkingSet QnReal Steihaug.
Local Open Scope R_scope.

Definition lc (a : R) (x : Z -> R) (b : R) (y : Z -> R) : Z -> R := fun i => a * x i + b * y i.

Lemma dot_lc_l n a x b y w : dotd n (lc a x b y) w = a * dotd n x w + b * dotd n y w.
Proof. apply dotd_lin. Qed.
Lemma dot_lc_r n a x b y w : dotd n w (lc a x b y) = a * dotd n w x + b * dotd n w y.
Proof. rewrite dotd_sym, dot_lc_l, (dotd_sym _ x), (dotd_sym _ y). reflexivity. Qed.

(** A vector is determined by its inner products. *)
Lemma dot_determines n x y : (forall w, dotd n x w = dotd n y w) -> forall i, (0 <= i < n)%Z -> x i = y i.
Proof.
  intros H i Hi. pose proof (H (lc 1 x (-1) y)) as E.
  assert (Z0 : dotd n (lc 1 x (-1) y) (lc 1 x (-1) y) = 0) by (rewrite dot_lc_l; lra).
  apply (proj1 (dotd_zero _ _)) with (i := i) in Z0; auto. unfold lc in Z0. lra.
Qed.

(** ** Bessel: at most [n] orthogonal nonzero vectors of length [n] *)
Fixpoint ortho (n : Z) (l : list (Z -> R)) : Prop :=
  match l with
  | [] => True
  | x :: l => 0 < dotd n x x /\ (forall y, In y l -> dotd n x y = 0) /\ ortho n l
  end.

Fixpoint bsum (n : Z) (l : list (Z -> R)) (w : Z -> R) : R :=
  match l with [] => 0 | x :: l => dotd n w x * dotd n w x / dotd n x x + bsum n l w end.
Fixpoint bproj (n : Z) (l : list (Z -> R)) (w : Z -> R) : Z -> R :=
  match l with [] => fun _ => 0 | x :: l => lc (dotd n w x / dotd n x x) x 1 (bproj n l w) end.

Lemma dot_zero_l n w : dotd n (fun _ => 0) w = 0.
Proof. unfold dotd. apply sumd_zero. intros. lra. Qed.

Lemma bproj_orth n l w x : (forall y, In y l -> dotd n x y = 0) -> dotd n (bproj n l w) x = 0.
Proof.
  induction l as [|y l IH]; intros H; cbn [bproj]; [apply dot_zero_l|].
  rewrite dot_lc_l, IH; [|intros; apply H; now right]. rewrite (dotd_sym n y x), (H y) by now left. lra.
Qed.
Lemma bproj_w n l w : dotd n (bproj n l w) w = bsum n l w.
Proof.
  induction l as [|x l IH]; cbn [bproj bsum]; [apply dot_zero_l|].
  rewrite dot_lc_l, IH, (dotd_sym n x w). unfold Rdiv. ring.
Qed.
Lemma bproj_bproj n l w : ortho n l -> dotd n (bproj n l w) (bproj n l w) = bsum n l w.
Proof.
  induction l as [|x l IH]; cbn [ortho bproj bsum]; [intros; apply dot_zero_l|].
  intros (Hx & Ho & Hl). rewrite dot_lc_l, !dot_lc_r, (IH Hl), (dotd_sym n x (bproj n l w)), (bproj_orth n l w x Ho).
  field. lra.
Qed.
Lemma bessel n l w : ortho n l -> bsum n l w <= dotd n w w.
Proof.
  intros H. pose proof (dotd_nonneg n (lc 1 w (-1) (bproj n l w))) as P.
  rewrite dot_lc_l, !dot_lc_r, (dotd_sym n w (bproj _ _ _)), bproj_w, (bproj_bproj n l w H) in P. lra.
Qed.

Definition unit_at (k : Z) : Z -> R := fun i => if (k =? i)%Z then 1 else 0.
Lemma dot_unit n k x : (0 <= k < n)%Z -> dotd n (unit_at k) x = x k.
Proof.
  intros Hk. unfold dotd, unit_at, sumd. rewrite <- (rsum_delta (Z.to_nat n) k (x k)) by lia.
  apply rsum_ext. intros i Hi. destruct (Z.eqb_spec k i) as [->|]; lra.
Qed.
Lemma bsum_units n l : ortho n l -> sumd n (fun k => bsum n l (unit_at k)) = INR (length l).
Proof.
  induction l as [|x l IH]; cbn [ortho bsum length].
  - intros. apply sumd_zero. intros; reflexivity.
  - intros (Hx & _ & Hl). rewrite sumd_plus, (IH Hl), S_INR.
    rewrite (sumd_ext n _ (fun k => / dotd n x x * (x k * x k))).
    + rewrite sumd_scal. fold (dotd n x x). field_simplify; [lra|lra].
    + intros k Hk. rewrite dot_unit by exact Hk. unfold Rdiv. ring.
Qed.
Lemma ortho_length n l : (0 <= n)%Z -> ortho n l -> (Z.of_nat (length l) <= n)%Z.
Proof.
  intros Hn H. apply le_IZR. rewrite <- INR_IZR_INZ, <- (bsum_units n l H).
  apply Rle_trans with (sumd n (fun _ => 1)).
  - apply sumd_le. intros k Hk. apply Rle_trans with (dotd n (unit_at k) (unit_at k)); [now apply bessel|].
    rewrite dot_unit by exact Hk. unfold unit_at. rewrite Z.eqb_refl. lra.
  - unfold sumd. rewrite <- (Z2Nat.id n) at 2 by exact Hn. rewrite <- INR_IZR_INZ.
    generalize (Z.to_nat n). induction n0 as [|m IHm]; [cbn; lra|]. rewrite S_INR. cbn [rsum]. lra.
Qed.

(** ** The iteration *)
Definition self_adjoint (n : Z) (L : (Z -> R) -> Z -> R) : Prop :=
  forall x y, dotd n (L x) y = dotd n x (L y).
Definition projector (n : Z) (P : (Z -> R) -> Z -> R) : Prop :=
  self_adjoint n P /\ forall x i, (0 <= i < n)%Z -> P (P x) i = P x i.

(** The quadratic model. *)
Definition qmodel (n : Z) (grad : Z -> R) (B : (Z -> R) -> Z -> R) (p : Z -> R) : R :=
  dotd n grad p + / 2 * dotd n p (B p).

Section Abs.
Variables (n : Z) (grad : Z -> R) (B P : (Z -> R) -> Z -> R).
Hypothesis HB : self_adjoint n B.
Hypothesis HP : projector n P.
Notation "x ∙ y" := (dotd n x y) (at level 40).

Definition fixd (x : Z -> R) : Prop := forall w, x ∙ P w = x ∙ w.

(** [g] is the projected residual that follows the directions and projected residuals [h]. *)
Fixpoint chain (g : Z -> R) (h : list ((Z -> R) * (Z -> R))) : Prop :=
  match h with
  | [] => True
  | (d0, g0) :: t => (exists a, a <> 0 /\ forall w, a * (d0 ∙ B (P w)) = g ∙ w - g0 ∙ w) /\ chain g0 t
  end.

Record ainv (h : list ((Z -> R) * (Z -> R))) (z r g d : Z -> R) : Prop := {
  ai_r : forall w, r ∙ w = grad ∙ w + z ∙ B w;
  ai_g : forall w, g ∙ w = r ∙ P w;
  ai_zf : fixd z;
  ai_df : fixd d;
  ai_rd : r ∙ d = - (r ∙ g);
  ai_hr : forall di gi, In (di, gi) h -> r ∙ di = 0;
  ai_hb : forall di gi, In (di, gi) h -> d ∙ B di = 0;
  ai_sph : forall w, (forall di gi, In (di, gi) h -> w ∙ di = 0) -> forall di gi, In (di, gi) h -> w ∙ gi = 0;
  ai_df' : forall di gi, In (di, gi) h -> fixd di;
  ai_ch : chain g h;
  ai_sp : forall w, w ∙ d = 0 -> (forall di gi, In (di, gi) h -> w ∙ di = 0) -> w ∙ g = 0;
  ai_zs : forall w, (forall di gi, In (di, gi) h -> w ∙ di = 0) -> w ∙ z = 0;
  ai_or : ortho n (map snd h);
  ai_gf' : forall di gi, In (di, gi) h -> fixd gi
}.

Lemma b_sym x y : x ∙ B y = y ∙ B x.
Proof. rewrite dotd_sym. apply HB. Qed.
Lemma p_sym x y : x ∙ P y = P x ∙ y.
Proof. symmetry. apply HP. Qed.
Lemma p_idem x y : x ∙ P (P y) = x ∙ P y.
Proof. apply dotd_ext; [reflexivity|]. intros; now apply HP. Qed.

Lemma g_fix r g : (forall w, g ∙ w = r ∙ P w) -> fixd g.
Proof. intros H w. rewrite !H. apply p_idem. Qed.
Lemma g_norm r g : (forall w, g ∙ w = r ∙ P w) -> g ∙ g = r ∙ g.
Proof.
  intros H. transitivity (r ∙ P r).
  - rewrite (H g), p_sym, (dotd_sym n (P r) g), H. apply p_idem.
  - rewrite <- H. apply dotd_sym.
Qed.

(** Values of the model on a line. *)
Lemma model_line z r d t : (forall w, r ∙ w = grad ∙ w + z ∙ B w) ->
  qmodel n grad B (lc 1 z t d) = qmodel n grad B z + t * (r ∙ d) + / 2 * (t * t) * (d ∙ B d).
Proof.
  intros H. unfold qmodel. rewrite dot_lc_r.
  assert (E : lc 1 z t d ∙ B (lc 1 z t d) = z ∙ B z + 2 * t * (z ∙ B d) + t * t * (d ∙ B d)).
  { rewrite dot_lc_l. rewrite (b_sym z (lc _ _ _ _)), (b_sym d (lc _ _ _ _)), !dot_lc_l, (b_sym d z). ring. }
  rewrite E, (H d). field.
Qed.
Lemma norm_line z d t : lc 1 z t d ∙ lc 1 z t d = z ∙ z + 2 * t * (z ∙ d) + t * t * (d ∙ d).
Proof. rewrite dot_lc_l, !dot_lc_r, (dotd_sym n d z). ring. Qed.

Lemma chain_zero g h v : chain g h -> v ∙ g = 0 -> (forall di gi, In (di, gi) h -> v ∙ gi = 0) ->
  forall di gi, In (di, gi) h -> di ∙ B (P v) = 0.
Proof.
  revert g; induction h as [|[d0 g0] t IH]; intros g Hc Hg Hh di gi Hi; [destruct Hi|].
  cbn [chain] in Hc. destruct Hc as [(a & Ha & E) Hc].
  assert (Hg0 : v ∙ g0 = 0) by (apply (Hh d0 g0); now left).
  destruct Hi as [Ei|Hi].
  - injection Ei as <- <-. specialize (E v). rewrite (dotd_sym n g v), (dotd_sym n g0 v), Hg, Hg0 in E.
    destruct (Rmult_integral a (d0 ∙ B (P v))) as [|]; [lra|contradiction|auto].
  - apply (IH g0 Hc Hg0) with (gi := gi); auto. intros; eapply Hh; right; eauto.
Qed.

(** One iteration preserves the invariant. *)
Lemma ainv_step h z r g d z' r' g' d' : ainv h z r g d ->
  0 < r ∙ g -> 0 < d ∙ B d ->
  (forall w, z' ∙ w = z ∙ w + (r ∙ g / (d ∙ B d)) * (d ∙ w)) ->
  (forall w, r' ∙ w = r ∙ w + (r ∙ g / (d ∙ B d)) * (w ∙ B d)) ->
  (forall w, g' ∙ w = r' ∙ P w) ->
  (forall w, d' ∙ w = - (g' ∙ w) + (r' ∙ g' / (r ∙ g)) * (d ∙ w)) ->
  ainv ((d, g) :: h) z' r' g' d'.
Proof.
  intros I Hrg Hdbd Hz Hr Hg Hd. set (alpha := r ∙ g / (d ∙ B d)) in *. set (beta := r' ∙ g' / (r ∙ g)) in *.
  assert (Ha : 0 < alpha) by (apply Rdiv_lt_0_compat; auto).
  assert (Ead : alpha * (d ∙ B d) = r ∙ g) by (unfold alpha; field; lra).
  assert (Hr'd : forall di gi, In (di, gi) ((d, g) :: h) -> r' ∙ di = 0).
  { intros di gi [E|Hi].
    - injection E as <- <-. rewrite Hr, Ead, (ai_rd _ _ _ _ _ I). lra.
    - rewrite Hr, (ai_hr _ _ _ _ _ I di gi Hi), (b_sym di d), (ai_hb _ _ _ _ _ I di gi Hi). lra. }
  assert (Hsp : forall w, (forall di gi, In (di, gi) ((d, g) :: h) -> w ∙ di = 0) ->
      forall di gi, In (di, gi) ((d, g) :: h) -> w ∙ gi = 0).
  { intros w Hw di gi [E|Hi].
    - injection E as <- <-. apply (ai_sp _ _ _ _ _ I).
      + apply (Hw d g). now left.
      + intros. eapply Hw. right; eauto.
    - apply (ai_sph _ _ _ _ _ I w) with (di := di); auto. intros. eapply Hw. right; eauto. }
  assert (Hr'g := Hsp r' Hr'd).
  assert (Hfd : forall di gi, In (di, gi) ((d, g) :: h) -> fixd di).
  { intros di gi [E|Hi]; [injection E as <- <-; apply I|eapply (ai_df' _ _ _ _ _ I); eauto]. }
  assert (Hfg : forall di gi, In (di, gi) ((d, g) :: h) -> fixd gi).
  { intros di gi [E|Hi]; [injection E as <- <-; eapply g_fix, I|eapply (ai_gf' _ _ _ _ _ I); eauto]. }
  assert (Hg'f : fixd g') by (eapply g_fix; exact Hg).
  (* the chain *)
  assert (Hch : chain g' ((d, g) :: h)).
  { cbn [chain]. split; [|apply I]. exists alpha. split; [lra|]. intros w.
    rewrite (Hg w), (Hr (P w)), (ai_g _ _ _ _ _ I w), (b_sym d). lra. }
  (* projected residuals and directions *)
  assert (Hbp : forall di gi, In (di, gi) ((d, g) :: h) -> g' ∙ B di = di ∙ B (P r')).
  { intros di gi Hi. rewrite (b_sym di), <- p_sym, (dotd_sym n r'). rewrite (dotd_sym n (P _) r').
    apply Hg. }
  assert (Hgb : forall di gi, In (di, gi) h -> g' ∙ B di = 0).
  { intros di gi Hi. rewrite (Hbp di gi) by now right. cbn [chain] in Hch.
    apply (chain_zero g h r' (ai_ch _ _ _ _ _ I)) with (gi := gi); auto.
    - apply (Hr'g d g). now left.
    - intros. eapply Hr'g. right; eauto. }
  constructor; auto.
  - intros w. rewrite Hr, Hz, (ai_r _ _ _ _ _ I), (b_sym w d). lra.
  - intros w. rewrite !Hz, (ai_zf _ _ _ _ _ I w), (ai_df _ _ _ _ _ I w). lra.
  - intros w. rewrite !Hd, (Hg'f w), (ai_df _ _ _ _ _ I w). lra.
  - rewrite (dotd_sym n r' d'), Hd, (dotd_sym n g' r'), (dotd_sym n d r'), (Hr'd d g) by now left. lra.
  - intros di gi [E|Hi].
    + injection E as <- <-. rewrite Hd.
      assert (E : alpha * (g' ∙ B d) = r' ∙ g').
      { rewrite (Hbp d g) by now left. cbn [chain] in Hch. 
        assert (E : r' ∙ g' = r ∙ g' + alpha * (g' ∙ B d)) by apply Hr.
        rewrite <- (Hbp d g) by now left.
        assert (E2 : r ∙ g' = 0); [|lra].
        rewrite <- (Hr'g d g) by now left.
        rewrite (dotd_sym n r g'), Hg. rewrite (dotd_sym n r' g), (ai_g _ _ _ _ _ I). rewrite (p_sym r' r). apply dotd_sym. }
      assert (E2 : g' ∙ B d = r' ∙ g' / alpha) by (rewrite <- E; field; lra).
      rewrite E2. unfold beta. replace (d ∙ B d) with (r ∙ g / alpha) by (rewrite <- Ead; field; lra). field. lra.
    + rewrite Hd, (Hgb di gi Hi), (ai_hb _ _ _ _ _ I di gi Hi). lra.
  - intros w Hw Hh. rewrite dotd_sym, Hd in Hw. rewrite (dotd_sym n d w), (Hh d g) in Hw by now left.
    rewrite dotd_sym. lra.
  - intros w Hw. rewrite dotd_sym, Hz, (dotd_sym n z), (dotd_sym n d), (Hw d g) by now left.
    rewrite (ai_zs _ _ _ _ _ I); [lra|]. intros. eapply Hw. right; eauto.
  - cbn [map snd ortho]. split; [rewrite (g_norm r g); [lra|apply I]|]. split; [|apply I].
    intros y Hy. apply in_map_iff in Hy as ([di gi] & <- & Hi). cbn [snd].
    rewrite (ai_g _ _ _ _ _ I). rewrite p_sym, dotd_sym, (ai_gf' _ _ _ _ _ I di gi Hi), dotd_sym.
    apply (ai_sph _ _ _ _ _ I r) with (di := di); auto. apply (ai_hr _ _ _ _ _ I).
Qed.
End Abs.

(** ** Intersections of a line with the sphere *)
Section Sphere.
Variables (zz zd dd rad : R).
Hypotheses (Hdd : 0 < dd) (Hin : zz <= rad * rad).
Let inner := zd * zd - dd * (zz - rad * rad).
Definition tmax := 1 / dd * (- zd + sqrt inner).
Definition tmin := 1 / dd * (- zd - sqrt inner).
Definition qn (t : R) := zz + 2 * t * zd + t * t * dd.

Lemma inner_nonneg : 0 <= inner.
Proof. unfold inner. pose proof (Rle_0_sqr zd). unfold Rsqr in *. nra. Qed.
Lemma sqrt_inner : sqrt inner * sqrt inner = inner.
Proof. apply sqrt_sqrt, inner_nonneg. Qed.
Lemma qn_factor t : qn t - rad * rad = dd * ((t - tmax) * (t - tmin)).
Proof.
  pose proof sqrt_inner as H. unfold qn, tmax, tmin. set (q := sqrt inner) in *.
  assert (E : dd * ((t - 1 / dd * (- zd + q)) * (t - 1 / dd * (- zd - q))) = dd * (t * t) + 2 * t * zd + (zd * zd - q * q) / dd)
    by (field; lra).
  rewrite E, H. unfold inner. field. lra.
Qed.
Lemma sqrt_inner_ge : Rabs zd <= sqrt inner.
Proof.
  rewrite <- sqrt_Rsqr_abs. apply sqrt_le_1_alt. unfold Rsqr, inner. nra.
Qed.
Lemma tmax_nonneg : 0 <= tmax.
Proof.
  unfold tmax. pose proof sqrt_inner_ge as H. pose proof (Rle_abs zd). 
  apply Rmult_le_pos; [|lra]. apply Rlt_le. unfold Rdiv. rewrite Rmult_1_l. now apply Rinv_0_lt_compat.
Qed.
Lemma tmin_nonpos : tmin <= 0.
Proof.
  unfold tmin. pose proof sqrt_inner_ge as H. pose proof (Rle_abs (- zd)). rewrite Rabs_Ropp in H0.
  assert (0 < 1 / dd) by (unfold Rdiv; rewrite Rmult_1_l; now apply Rinv_0_lt_compat).
  assert (0 <= 1 / dd * (zd + sqrt inner)) by (apply Rmult_le_pos; lra). lra.
Qed.
Lemma qn_tmax : qn tmax = rad * rad.
Proof. pose proof (qn_factor tmax). nra. Qed.
Lemma qn_tmin : qn tmin = rad * rad.
Proof. pose proof (qn_factor tmin). nra. Qed.
(** Inside the sphere a nonnegative factor is at most [tmax], outside at least. *)
Lemma qn_in t : 0 <= t -> qn t <= rad * rad -> t <= tmax.
Proof.
  intros Ht H. destruct (Rle_dec t tmax) as [|Hn]; [auto|]. exfalso. pose proof (qn_factor t) as E.
  pose proof tmin_nonpos. pose proof tmax_nonneg. assert (0 < (t - tmax) * (t - tmin)) by (apply Rmult_lt_0_compat; lra).
  assert (0 < dd * ((t - tmax) * (t - tmin))) by (apply Rmult_lt_0_compat; auto). lra.
Qed.
Lemma qn_out t : 0 < t -> rad * rad <= qn t -> tmax <= t.
Proof.
  intros Ht H. destruct (Rle_dec tmax t) as [|Hn]; [auto|]. exfalso. pose proof (qn_factor t) as E.
  pose proof tmin_nonpos. assert (0 < (tmax - t) * (t - tmin)) by (apply Rmult_lt_0_compat; lra).
  assert (0 < dd * ((tmax - t) * (t - tmin))) by (apply Rmult_lt_0_compat; auto). lra.
Qed.
End Sphere.

Lemma dense_lc d (x y r : rvec) (a b : R) : vok d x -> vok d y -> (0 <= vcap r)%Z ->
  exists z, vec_add_scaled x y (a : @num RN) (b : @num RN) (0 : @num RN) r = Ok z /\ vok d z
    /\ dense z = lc a (dense x) b (dense y).
Proof. apply add_scaled_fun. Qed.
Lemma norm_sq_fun d (x : rvec) : vok d x -> vec_norm_sq x = dotd d (dense x) (dense x).
Proof. intros [W D]. rewrite vec_norm_sq_real by exact W. now rewrite D. Qed.
Lemma norm_fun d (x : rvec) : vok d x -> vec_norm x = sqrt (dotd d (dense x) (dense x)).
Proof. intros [W D]. rewrite vec_norm_real by exact W. now rewrite D. Qed.

Lemma bdry_sol_spec n (z d res : rvec) (rad : R) : vok n z -> vok n d -> (0 <= vcap res)%Z ->
  0 < dotd n (dense d) (dense d) -> dotd n (dense z) (dense z) <= rad * rad ->
  exists p, bdry_sol z d (0 : @num RN) (rad : @num RN) res = Ok p /\ vok n p
    /\ dense p = lc 1 (dense z) (tmax (dotd n (dense z) (dense z)) (dotd n (dense z) (dense d)) (dotd n (dense d) (dense d)) rad) (dense d).
Proof.
  intros Hz Hd Hr Hdd Hin. unfold bdry_sol. rewrite (dot_fun n z d Hz Hd). cbn [rbind].
  rewrite (norm_fun n z Hz), (norm_fun n d Hd). cbn [nmul nsub nadd ndiv nopp nsqrt RN].
  rewrite !sqrt_sqrt by apply dotd_nonneg.
  pose proof (proj2 (rn_ltb 0 _) Hdd) as E1. rewrite <- rn_n0 in E1. rewrite E1. cbn [check rbind].
  pose proof (inner_nonneg _ (dotd n (dense z) (dense d)) _ rad Hdd Hin) as E2.
  apply (proj2 (rn_leb 0 _)) in E2. rewrite <- rn_n0 in E2. rewrite E2. cbn [check rbind].
  rewrite rn_n1.
  destruct (dense_lc n z d res 1 (tmax (dotd n (dense z) (dense z)) (dotd n (dense z) (dense d)) (dotd n (dense d) (dense d)) rad) Hz Hd Hr)
    as (p & Ep & Hp & Dp).
  exists p. split; [exact Ep|]. split; [exact Hp|exact Dp].
Qed.

(** ** The solver *)

(** [f] computes the map [L] on vectors of length [n]. *)
Definition computes (n : Z) (L : (Z -> R) -> Z -> R) (f : rvec -> rvec -> res rvec) : Prop :=
  forall v t, vok n v -> vok n t ->
    exists p, f v t = Ok p /\ vok n p /\ forall i, (0 <= i < n)%Z -> dense p i = L (dense v) i.

Section Solver.
Variables (n : Z) (gv : rvec) (B P : (Z -> R) -> Z -> R) (hess proj : rvec -> rvec -> res rvec).
Variables (rad tol : R).
Hypothesis Hn : (0 <= n)%Z.
Hypothesis Hgv : vok n gv.
Hypothesis HB : self_adjoint n B.
Hypothesis HP : projector n P.
Hypothesis Hh : computes n B hess.
Hypothesis Hp : computes n P proj.
Hypothesis Hrad : 0 < rad.
Hypothesis Htol : 0 < tol.
Notation "x ∙ y" := (dotd n x y) (at level 40).
Let grad := dense gv.
Let m := qmodel n grad B.

(** Bounds of the curvature in the nullspace. *)
Definition curv_bounds (lo hi : R) : Prop :=
  forall x, fixd n P x -> lo * (x ∙ x) <= x ∙ B x <= hi * (x ∙ x).
Definition ray_ok (lo hi : R) : Prop :=
  lo <= 1 <= hi /\ forall a b, a <= 1 <= b -> curv_bounds a b -> a <= lo /\ hi <= b.

Record cinv (h : list ((Z -> R) * (Z -> R))) (s : @cg RN) : Prop := {
  ci_d : vok n (cd s); ci_bd : vok n (cbd s); ci_g : vok n (cgr s);
  ci_r : vok n (cr s); ci_z : vok n (cz s); ci_c : vok n (ccache s);
  ci_a : ainv n grad B P h (dense (cz s)) (dense (cr s)) (dense (cgr s)) (dense (cd s));
  ci_rg : crg s = dense (cr s) ∙ dense (cgr s);
  ci_zn : czn s = dense (cz s) ∙ dense (cz s);
  ci_in : dense (cz s) ∙ dense (cz s) < rad * rad;
  ci_ray : ray_ok (cmin s) (cmax s)
}.

(** [p] is at least as good as every point of the ray inside the trust region. *)
Definition ray_min (z d p : Z -> R) : Prop :=
  forall t, 0 <= t -> lc 1 z t d ∙ lc 1 z t d <= rad * rad -> m p <= m (lc 1 z t d).

Inductive exit_ok (p : Z -> R) (du : R) : Prop :=
| XIn : P (lc 1 grad 1 (B p)) ∙ P (lc 1 grad 1 (B p)) < tol -> du = -1 -> exit_ok p du
| XCurv d : p ∙ p = rad * rad -> du = -1 -> fixd n P d -> 0 < d ∙ d -> d ∙ B d <= 0 -> exit_ok p du
| XBdry : p ∙ p = rad * rad -> du * (rad * rad) = - (p ∙ B p + grad ∙ p) -> 0 <= du -> exit_ok p du.

Definition out_ok (h : list ((Z -> R) * (Z -> R))) (s : @cg RN) (o : @cg_out RN) : Prop :=
  match o with
  | CgDone p du s' => vok n p /\ fixd n P (dense p) /\ dense p ∙ dense p <= rad * rad
      /\ exit_ok (dense p) du /\ ray_ok (cmin s') (cmax s')
      /\ (dense p = dense (cz s) /\ crg s < tol \/ ray_min (dense (cz s)) (dense (cd s)) (dense p))
  | CgNext s' => cinv ((dense (cd s), dense (cgr s)) :: h) s'
      /\ ray_min (dense (cz s)) (dense (cd s)) (dense (cz s'))
  end.

Lemma vok_cap (v : rvec) : vok n v -> (0 <= vcap v)%Z.
Proof. intros [(_ & _ & W) _]. lia. Qed.

Lemma ray_ok_step lo hi d bd : ray_ok lo hi -> vok n d -> vok n bd -> fixd n P (dense d) ->
  (forall w, w ∙ dense bd = w ∙ B (dense d)) ->
  exists lo' hi', collect_rayleigh d bd (lo : @num RN) (hi : @num RN) = Ok (lo', hi') /\ ray_ok lo' hi'.
Proof.
  intros [R1 R2] Hd Hbd Hf E. unfold collect_rayleigh. rewrite (norm_sq_fun n d Hd).
  destruct (@neqb RN _ _) eqn:E0; [exists lo, hi; split; [reflexivity|split; auto]|].
  apply rn_eqb_false in E0. rewrite rn_n0 in E0. rewrite (dot_fun n d bd Hd Hbd). cbn [rbind].
  rewrite E, rn_min, rn_max. cbn [ndiv RN]. set (q := dense d ∙ B (dense d) / (dense d ∙ dense d)).
  exists (Rmin lo q), (Rmax hi q). split; [reflexivity|].
  pose proof (dotd_nonneg n (dense d)) as N0. assert (N1 : 0 < dense d ∙ dense d) by lra.
  split.
  - pose proof (Rmin_l lo q). pose proof (Rmax_l hi q). lra.
  - intros a b Hab Hc. destruct (R2 a b Hab Hc) as [A1 A2]. destruct (Hc (dense d) Hf) as [C1 C2]. split.
    + apply Rmin_glb; auto. unfold q. apply Rmult_le_reg_r with (dense d ∙ dense d); auto. field_simplify; lra.
    + apply Rmax_lub; auto. unfold q. apply Rmult_le_reg_r with (dense d ∙ dense d); auto. field_simplify; lra.
Qed.

Lemma rg_nonneg h s : cinv h s -> 0 <= crg s.
Proof.
  intros I. rewrite (ci_rg _ _ I), <- (g_norm n P HP) by apply I. apply dotd_nonneg.
Qed.

(** A step with zero length would have a zero residual. *)
Lemma dd_pos h s : cinv h s -> 0 < crg s -> 0 < dense (cd s) ∙ dense (cd s).
Proof.
  intros I Hrg. pose proof (dotd_nonneg n (dense (cd s))) as N0.
  destruct (Req_dec (dense (cd s) ∙ dense (cd s)) 0) as [E|]; [|lra]. exfalso.
  pose proof (ai_rd _ _ _ _ _ _ _ _ _ (ci_a _ _ I)) as E2. rewrite <- (ci_rg _ _ I) in E2.
  assert (E3 : dense (cr s) ∙ dense (cd s) = 0); [|lra].
  pose proof (dotd_cauchy n (dense (cr s)) (dense (cd s))) as C. rewrite E in C. nra.
Qed.

Lemma fix_lc x y a b : fixd n P x -> fixd n P y -> fixd n P (lc a x b y).
Proof. intros Hx Hy w. rewrite !dot_lc_l, Hx, Hy. reflexivity. Qed.

Lemma grad_exit h s : cinv h s ->
  P (lc 1 grad 1 (B (dense (cz s)))) ∙ P (lc 1 grad 1 (B (dense (cz s)))) = crg s.
Proof.
  intros I. rewrite (ci_rg _ _ I). set (rr := lc 1 grad 1 (B (dense (cz s)))).
  assert (E : forall w, rr ∙ w = dense (cr s) ∙ w).
  { intros w. unfold rr. rewrite dot_lc_l, (ai_r _ _ _ _ _ _ _ _ _ (ci_a _ _ I) w), (HB (dense (cz s)) w). lra. }
  rewrite <- (g_norm n P HP (dense (cr s)) (dense (cgr s))) by apply I.
  assert (E2 : forall w, P rr ∙ w = dense (cgr s) ∙ w).
  { intros w. rewrite (proj1 HP rr w), E. symmetry. apply I. }
  rewrite E2, dotd_sym, E2. reflexivity.
Qed.

(** The values of the model along the direction. *)
Lemma m_line h s t : cinv h s ->
  m (lc 1 (dense (cz s)) t (dense (cd s))) = m (dense (cz s)) - t * crg s + / 2 * (t * t) * (dense (cd s) ∙ B (dense (cd s))).
Proof.
  intros I. unfold m. rewrite (model_line n grad B HB _ (dense (cr s))) by apply I.
  rewrite (ai_rd _ _ _ _ _ _ _ _ _ (ci_a _ _ I)), <- (ci_rg _ _ I). ring.
Qed.
Lemma qn_line (s : @cg RN) t : lc 1 (dense (cz s)) t (dense (cd s)) ∙ lc 1 (dense (cz s)) t (dense (cd s))
  = qn (dense (cz s) ∙ dense (cz s)) (dense (cz s) ∙ dense (cd s)) (dense (cd s) ∙ dense (cd s)) t.
Proof. unfold qn. apply norm_line. Qed.

Lemma neg_curv_spec h s step : cinv h s -> vok n step -> 0 < crg s ->
  (forall w, w ∙ dense (cbd s) = w ∙ B (dense (cd s))) ->
  dense (cd s) ∙ B (dense (cd s)) <= 0 ->
  exists p, neg_curv gv step (0 : @num RN) (rad : @num RN) (dense (cd s) ∙ B (dense (cd s)) : @num RN) s = Ok p /\ vok n p
    /\ fixd n P (dense p) /\ dense p ∙ dense p = rad * rad /\ ray_min (dense (cz s)) (dense (cd s)) (dense p).
Proof.
  intros I Hst Hrg Hbd Hneg. unfold neg_curv.
  rewrite (dot_fun n _ _ (ci_z _ _ I) (ci_d _ _ I)). cbn [rbind]. rewrite (norm_sq_fun n _ (ci_d _ _ I)).
  pose proof (dd_pos _ _ I Hrg) as Hdd.
  pose proof (proj2 (rn_ltb 0 _) Hdd) as E1. rewrite <- rn_n0 in E1. rewrite E1. cbn [check rbind].
  rewrite (dot_fun n _ _ Hgv (ci_d _ _ I)). cbn [rbind]. rewrite (dot_fun n _ _ (ci_z _ _ I) (ci_bd _ _ I)). cbn [rbind].
  rewrite Hbd, rn_n1, (ci_zn _ _ I). fold grad.
  assert (Hin : dense (cz s) ∙ dense (cz s) <= rad * rad) by (pose proof (ci_in _ _ I); lra).
  assert (Hrd : grad ∙ dense (cd s) + dense (cz s) ∙ B (dense (cd s)) = - crg s).
  { rewrite <- (ai_r _ _ _ _ _ _ _ _ _ (ci_a _ _ I)), (ai_rd _ _ _ _ _ _ _ _ _ (ci_a _ _ I)), (ci_rg _ _ I). reflexivity. }
  set (zz := dense (cz s) ∙ dense (cz s)) in *. set (zd := dense (cz s) ∙ dense (cd s)) in *.
  set (dd := dense (cd s) ∙ dense (cd s)) in *. set (dBd := dense (cd s) ∙ B (dense (cd s))) in *.
  cbn [nmul nsub nadd ndiv nopp nsqrt RN]. fold (tmax zz zd dd rad) (tmin zz zd dd rad).
  set (T := tmax zz zd dd rad). set (T' := tmin zz zd dd rad).
  assert (HT : 0 <= T) by (apply tmax_nonneg; auto).
  assert (Hm : forall t, m (lc 1 (dense (cz s)) t (dense (cd s))) = m (dense (cz s)) - t * crg s + / 2 * (t * t) * dBd)
    by (intros; apply (m_line h); auto).
  assert (Hmin : ray_min (dense (cz s)) (dense (cd s)) (lc 1 (dense (cz s)) T (dense (cd s)))).
  { intros t Ht Hb. rewrite qn_line in Hb. apply (qn_in zz zd dd rad Hdd Hin) in Hb; [|exact Ht]. fold T in Hb.
    rewrite !Hm. assert (A1 : t * t <= T * T) by nra.
    assert (A2 : 0 <= (T * T - t * t) * - dBd) by (apply Rmult_le_pos; lra).
    assert (A3 : 0 <= (T - t) * crg s) by (apply Rmult_le_pos; rnum; lra). rnum. lra. }
  assert (G : forall tau, tau = T \/ tau = T' -> m (lc 1 (dense (cz s)) tau (dense (cd s))) <= m (lc 1 (dense (cz s)) T (dense (cd s))) ->
    exists p, vec_add_scaled (cz s) (cd s) (1 : @num RN) (tau : @num RN) (0 : @num RN) step = Ok p /\ vok n p
      /\ fixd n P (dense p) /\ dense p ∙ dense p = rad * rad /\ ray_min (dense (cz s)) (dense (cd s)) (dense p)).
  { intros tau Ht Hle. destruct (dense_lc n _ _ step 1 tau (ci_z _ _ I) (ci_d _ _ I) (vok_cap _ Hst)) as (p & Ep & Vp & Dp).
    exists p. split; [exact Ep|]. split; [exact Vp|]. rewrite Dp. split; [apply fix_lc; apply I|]. split.
    - rewrite qn_line. destruct Ht as [->| ->]; [now apply qn_tmax|now apply qn_tmin].
    - intros t Ht0 Hb. eapply Rle_trans; [exact Hle|now apply Hmin]. }
  match goal with |- context [if ?b then _ else _] => destruct b eqn:E end.
  - apply (G T'); [now right|]. rewrite !Hm. apply rn_ltb in E. rewrite Hrd in E.
    unfold half_lit in E. change (@nlit RN 1 2) with (IZR 1 / IZR 2) in E. fold T T' in E. nra.
  - apply (G T); [now left|lra].
Qed.

Lemma comb_line h s t : cinv h s -> let p := lc 1 (dense (cz s)) t (dense (cd s)) in
  p ∙ B p + grad ∙ p = - t * (crg s - t * (dense (cd s) ∙ B (dense (cd s)))).
Proof.
  intros I p. pose proof (ci_a _ _ I) as A.
  assert (E1 : dense (cr s) ∙ dense (cz s) = 0) by (apply (ai_zs _ _ _ _ _ _ _ _ _ A); apply (ai_hr _ _ _ _ _ _ _ _ _ A)).
  assert (E2 : B (dense (cd s)) ∙ dense (cz s) = 0).
  { apply (ai_zs _ _ _ _ _ _ _ _ _ A). intros di gi Hi. rewrite dotd_sym, (b_sym n B HB). now apply (ai_hb _ _ _ _ _ _ _ _ _ A di gi). }
  pose proof (ai_r _ _ _ _ _ _ _ _ _ A (dense (cz s))) as E3. pose proof (ai_r _ _ _ _ _ _ _ _ _ A (dense (cd s))) as E4.
  pose proof (ai_rd _ _ _ _ _ _ _ _ _ A) as E5. rewrite <- (ci_rg _ _ I) in E5. rewrite dotd_sym in E2.
  assert (E6 : p ∙ B p = dense (cz s) ∙ B (dense (cz s)) + 2 * t * (dense (cz s) ∙ B (dense (cd s))) + t * t * (dense (cd s) ∙ B (dense (cd s)))).
  { unfold p. rewrite dot_lc_l, (b_sym n B HB (dense (cz s)) (lc _ _ _ _)), (b_sym n B HB (dense (cd s)) (lc _ _ _ _)), !dot_lc_l,
      (b_sym n B HB (dense (cd s)) (dense (cz s))). ring. }
  rewrite E6. unfold p. rewrite dot_lc_r. rnum. nra.
Qed.

Lemma body_spec h s step : cinv h s -> vok n step ->
  exists o, cg_body hess proj gv step (0 : @num RN) (rad : @num RN) (tol : @num RN) s = Ok o /\ out_ok h s o.
Proof.
  intros I Hst. unfold cg_body. rewrite rn_abs. pose proof (rg_nonneg _ _ I) as Hrg0. rnum.
  rewrite Rabs_right by lra.
  destruct (@nltb RN (crg s) tol) eqn:Et.
  { apply rn_ltb in Et. destruct (copy_fun n _ _ (ci_z _ _ I) Hst) as (p & Ep & Vp & _ & Dp). rewrite Ep. cbn [rbind].
    eexists. split; [reflexivity|]. cbn [out_ok]. split; [exact Vp|]. rewrite Dp. split; [apply I|].
    split; [pose proof (ci_in _ _ I); lra|]. split; [|split; [apply I|left; auto]].
    apply XIn; [rewrite (grad_exit _ _ I); exact Et|]. cbn. unfold rn_lit. lra. }
  apply rn_ltb_false in Et. assert (Hrg : 0 < crg s) by (rnum; lra).
  destruct (Hh _ _ (ci_d _ _ I) (ci_bd _ _ I)) as (bd & Eb & Vb & Db). rewrite Eb. cbn [rbind].
  assert (Hbd : forall w, w ∙ dense bd = w ∙ B (dense (cd s))) by (intros; apply dotd_ext; auto).
  destruct (ray_ok_step (cmin s) (cmax s) (cd s) bd) as (lo & hi & Er & Hr); auto; try apply I.
  rewrite Er. cbn [rbind fst snd cd cbd cgr cr cz ccache crg czn cmin cmax].
  set (s1 := mkcg (cd s) bd (cgr s) (cr s) (cz s) (ccache s) (crg s) (czn s) lo hi).
  assert (I1 : cinv h s1) by (destruct I; constructor; auto).
  rewrite (dot_fun n _ _ (ci_d _ _ I) Vb). cbn [rbind]. rewrite Hbd.
  pose proof (dd_pos _ _ I Hrg) as Hdd.
  assert (Hin : dense (cz s) ∙ dense (cz s) <= rad * rad) by (pose proof (ci_in _ _ I); lra).
  destruct (@nleb RN _ _) eqn:Ec.
  { apply rn_leb in Ec. rewrite rn_n0 in Ec.
    destruct (neg_curv_spec h s1 step I1 Hst Hrg Hbd Ec) as (p & Ep & Vp & Fp & Np & Mp).
    match goal with |- context [@neg_curv ?N ?a ?b ?c ?d ?e ?f] =>
      change (@neg_curv N a b c d e f) with (@neg_curv RN gv step 0 rad (dense (cd s1) ∙ B (dense (cd s1))) s1) end.
    rewrite Ep. cbn [rbind]. eexists. split; [reflexivity|]. cbn [out_ok].
    split; [exact Vp|]. split; [exact Fp|]. split; [lra|]. split; [|split; [exact Hr|right; exact Mp]].
    apply XCurv with (d := dense (cd s)); auto; [cbn; unfold rn_lit; lra|apply I]. }
  apply rn_leb_false in Ec. rewrite rn_n0 in Ec.
  set (dBd := dense (cd s) ∙ B (dense (cd s))) in *. rewrite rn_n1. cbn [ndiv nmul RN].
  set (alpha := crg s / dBd).
  assert (Ha : 0 < alpha) by (apply Rdiv_lt_0_compat; auto).
  assert (Ead : alpha * dBd = crg s) by (unfold alpha; field; lra).
  destruct (dense_lc n _ _ (ccache s) 1 alpha (ci_z _ _ I) (ci_d _ _ I) (vok_cap _ (ci_c _ _ I))) as (zn & Ez & Vz & Dz).
  rewrite Ez. cbn [rbind]. rewrite (norm_sq_fun n zn Vz).
  pose proof (fun t => m_line h s t I) as Hm. fold dBd in Hm.
  destruct (@nleb RN (rad * rad) _) eqn:Eo.
  { apply rn_leb in Eo. rewrite Dz, qn_line in Eo.
    destruct (bdry_sol_spec n _ _ step rad (ci_z _ _ I) (ci_d _ _ I) (vok_cap _ Hst) Hdd Hin) as (p & Ep & Vp & Dp).
    rewrite Ep. cbn [rbind]. unfold steihaug_dual.
    destruct (Hh p bd Vp Vb) as (bp & Ebp & Vbp & Dbp). rewrite Ebp. cbn [rbind].
    rewrite (dot_fun n p bp Vp Vbp). cbn [rbind]. rewrite (dot_fun n p gv Vp Hgv). cbn [rbind].
    assert (Hbp : dense p ∙ dense bp = dense p ∙ B (dense p)) by (apply dotd_ext; auto). rewrite Hbp.
    rewrite (dotd_sym n (dense p) (dense gv)). fold grad. cbn [fst snd].
    eexists. split; [reflexivity|]. cbn [out_ok cmin cmax].
    set (T := tmax (dense (cz s) ∙ dense (cz s)) (dense (cz s) ∙ dense (cd s)) (dense (cd s) ∙ dense (cd s)) rad) in *.
    assert (HT : 0 <= T) by (apply tmax_nonneg; auto).
    assert (HTa : T <= alpha) by (eapply qn_out; eauto).
    assert (HTd : T * dBd <= crg s) by (rewrite <- Ead; apply Rmult_le_compat_r; lra).
    assert (Hnorm : dense p ∙ dense p = rad * rad) by (rewrite Dp, qn_line; now apply qn_tmax).
    split; [exact Vp|]. split; [rewrite Dp; apply fix_lc; apply I|]. split; [lra|].
    pose proof (comb_line h s T I) as Hc. cbv zeta in Hc. rewrite <- Dp in Hc. fold dBd in Hc.
    assert (Hc0 : dense p ∙ B (dense p) + grad ∙ dense p <= 0) by (rewrite Hc; nra).
    split; [|split; [exact Hr|right]].
    - cbn [nadd nopp ndiv nmul RN]. apply XBdry; [exact Hnorm| |].
      + destruct (@nltb RN _ _) eqn:E.
        * field. lra.
        * apply rn_ltb_false in E. rewrite rn_n0 in *. rnum. lra.
      + destruct (@nltb RN _ _) eqn:E.
        * apply Rmult_le_pos; [lra|]. apply Rlt_le, Rinv_0_lt_compat. nra.
        * rewrite rn_n0. lra.
    - intros t Ht Hb. rewrite qn_line in Hb. apply (qn_in _ _ _ rad Hdd Hin) in Hb; [|exact Ht]. fold T in Hb.
      rewrite Dp, !Hm.
      assert (A1 : 0 <= (T - t) * (crg s - / 2 * (T + t) * dBd)).
      { apply Rmult_le_pos; [lra|]. assert ((T + t) * dBd <= 2 * crg s) by nra. rnum. lra. }
      rnum. lra. }
  apply rn_leb_false in Eo.
  destruct (copy_fun n _ _ Vz (ci_z _ _ I)) as (z' & Ez' & Vz' & _ & Dz'). rewrite Ez'. cbn [rbind].
  destruct (dense_lc n _ _ zn 1 alpha (ci_r _ _ I) Vb (vok_cap _ Vz)) as (rn & Ern & Vrn & Drn). rewrite Ern. cbn [rbind].
  destruct (copy_fun n _ _ Vrn (ci_r _ _ I)) as (r' & Er' & Vr' & _ & Dr'). rewrite Er'. cbn [rbind].
  destruct (Hp _ _ Vr' (ci_g _ _ I)) as (g' & Eg' & Vg' & Dg'). rewrite Eg'. cbn [rbind].
  rewrite (dot_fun n _ _ Vr' Vg'). cbn [rbind].
  assert (Em1 : @nlit RN (-1) 1 = -1) by (cbn; unfold rn_lit; lra). rewrite Em1.
  destruct (dense_lc n _ _ rn (-1) (1 / crg s * (dense r' ∙ dense g')) Vg' (ci_d _ _ I) (vok_cap _ Vrn)) as (dn' & Edn & Vdn & Ddn).
  rewrite Edn. cbn [rbind].
  destruct (copy_fun n _ _ Vdn (ci_d _ _ I)) as (d' & Ed' & Vd' & _ & Dd'). rewrite Ed'. cbn [rbind].
  eexists. split; [reflexivity|]. cbn [out_ok cz]. split.
  - constructor; cbn [cd cbd cgr cr cz ccache crg czn cmin cmax]; auto.
    + apply (ainv_step n grad B P HB HP h (dense (cz s)) (dense (cr s))); auto.
      * apply I.
      * rewrite <- (ci_rg _ _ I). exact Hrg.
      * intros w. rewrite Dz', Dz, dot_lc_l, <- (ci_rg _ _ I). fold dBd alpha. lra.
      * intros w. rewrite Dr', Drn, dot_lc_l, <- (ci_rg _ _ I), (dotd_sym n (dense bd)), Hbd. fold dBd alpha. lra.
      * intros w. rewrite (p_sym n P HP). apply dotd_ext; auto.
      * intros w. rewrite Dd', Ddn, dot_lc_l, <- (ci_rg _ _ I). field. rnum; lra.
    + rewrite Dz'. reflexivity.
    + rewrite Dz'. exact Eo.
  - intros t Ht Hb. rewrite Dz', Dz, !Hm.
    assert (A1 : 0 <= / 2 * dBd * ((t - alpha) * (t - alpha))).
    { apply Rmult_le_pos; [lra|]. apply Rle_0_sqr. }
    rewrite <- Ead. rnum. lra.
Qed.

Variables (max_iter : Z) (time_limit : R) (clock : Z -> R).

Definition zerof : Z -> R := fun _ => 0.
Lemma m_zero : m zerof = 0.
Proof. unfold m, qmodel. rewrite (dotd_sym n grad). unfold zerof. rewrite !dot_zero_l. lra. Qed.

Lemma ray_start h s : cinv h s -> m (lc 1 (dense (cz s)) 0 (dense (cd s))) = m (dense (cz s)).
Proof. intros I. rewrite (m_line h s 0 I). rnum. lra. Qed.
Lemma ray_min_le h s p : cinv h s -> ray_min (dense (cz s)) (dense (cd s)) p -> m p <= m (dense (cz s)).
Proof.
  intros I Hr. rewrite <- (ray_start h s I). apply Hr; [lra|].
  rewrite qn_line. unfold qn. pose proof (ci_in _ _ I). rnum. nra.
Qed.

Lemma hist_length h s : cinv h s -> (Z.of_nat (length h) <= n)%Z.
Proof. intros I. rewrite <- (map_length snd h). apply ortho_length; [exact Hn|]. apply (ci_a _ _ I). Qed.

(** The outcome of the loop from iteration [i] and state [s]. *)
Definition loop_ok (s : @cg RN) (step : rvec) (i : Z) (r : res (rvec * R * @cg RN)) : Prop :=
  (r = Err EAbortTime /\ exists k, (i <= k <= n)%Z /\ time_hit (time_limit : @num RN) clock k = true) \/
  exists p du s', r = Ok (p, du, s') /\ ray_ok (cmin s') (cmax s') /\
    ((p = step /\ du = -1 /\ exists k, (i <= k <= n)%Z /\ iter_limit max_iter k = true) \/
     (vok n p /\ fixd n P (dense p) /\ dense p ∙ dense p <= rad * rad /\ exit_ok (dense p) du /\ m (dense p) <= m (dense (cz s)) /\
      (crg s < tol \/ ray_min (dense (cz s)) (dense (cd s)) (dense p)))).

Lemma loop_spec fuel h s step : cinv h s -> vok n step -> (n < Z.of_nat (length h) + Z.of_nat fuel)%Z ->
  loop_ok s step (Z.of_nat (length h))
    (cg_loop fuel hess proj gv step (0 : @num RN) (rad : @num RN) (tol : @num RN) max_iter (time_limit : @num RN) clock (Z.of_nat (length h)) s).
Proof.
  revert h s; induction fuel as [|fuel IH]; intros h s I Hst Hf; pose proof (hist_length h s I) as HL; [lia|].
  cbn [cg_loop].
  destruct (iter_limit max_iter (Z.of_nat (length h))) eqn:El.
  { right. exists step, (-1), s. split; [f_equal; f_equal; f_equal; cbn; unfold rn_lit; lra|]. split; [apply I|]. left.
    split; [reflexivity|]. split; [reflexivity|]. exists (Z.of_nat (length h)). split; [lia|exact El]. }
  destruct (time_hit (time_limit : @num RN) clock (Z.of_nat (length h))) eqn:Et.
  { left. split; [reflexivity|]. exists (Z.of_nat (length h)). split; [lia|exact Et]. }
  destruct (body_spec h s step I Hst) as (o & Eo & Ho). rewrite Eo. cbn [rbind]. destruct o as [s'|p du s']; cbn [out_ok] in Ho.
  - destruct Ho as [I' Hr]. specialize (IH _ _ I' Hst).
    assert (EL : (Z.of_nat (length h) + 1 = Z.of_nat (length ((dense (cd s), dense (cgr s)) :: h)))%Z) by (symmetry; exact (Nat2Z.inj_succ (length h))).
    rewrite EL.
    destruct IH as [[E (k & Hk & Tk)]|(p & du & s2 & E & R2 & Hc)]; [cbn [length]; lia| |].
    + left. split; [exact E|]. exists k. cbn [length] in Hk. split; [lia|exact Tk].
    + right. exists p, du, s2. split; [exact E|]. split; [exact R2|].
      destruct Hc as [(E1 & E2 & k & Hk & Lk)|(V & F & Nn & X & Mp & _)].
      * left. split; [exact E1|]. split; [exact E2|]. exists k. cbn [length] in Hk. split; [lia|exact Lk].
      * right. split; [exact V|]. split; [exact F|]. split; [exact Nn|]. split; [exact X|].
        split; [eapply Rle_trans; [exact Mp|]; eapply ray_min_le; eauto|].
        right. intros t Ht Hb. eapply Rle_trans; [exact Mp|]. now apply Hr.
  - destruct Ho as (V & F & Nn & X & R2 & Hc). right. exists p, du, s'. split; [reflexivity|]. split; [exact R2|].
    right. split; [exact V|]. split; [exact F|]. split; [exact Nn|]. split; [exact X|].
    destruct Hc as [[E Ht]|Hr].
    + split; [rewrite E; lra|left; exact Ht].
    + split; [eapply ray_min_le; eauto|right; exact Hr].
Qed.

(** The state before the first iteration. *)
Lemma cinv_init (s : @cg RN) r g d (lo : R) : vok n (cbd s) -> vok n (ccache s) -> vok n (cz s) ->
  vok n r -> dense r = grad -> vok n g -> (forall i, (0 <= i < n)%Z -> dense g i = P (dense r) i) ->
  vok n d -> dense d = (fun i => -1 * dense g i) -> lo = dense r ∙ dense g ->
  cinv [] (mkcg d (cbd s) g r (vec_clear (cz s)) (ccache s) (lo : @num RN) (0 : @num RN) (1 : @num RN) (1 : @num RN)).
Proof.
  intros Vb Vc Vz Vr Dr Vg Dg Vd Dd El.
  assert (Dz : dense (vec_clear (cz s)) = zerof).
  { apply FunctionalExtensionality.functional_extensionality. intros i. unfold dense, zerof. cbn. unfold rn_lit. lra. }
  assert (Vz' : vok n (vec_clear (cz s))) by (destruct Vz; split; [now apply wf_clear|auto]).
  assert (Hg : forall w, dense g ∙ w = dense r ∙ P w).
  { intros w. rewrite (p_sym n P HP). apply dotd_ext; auto. }
  assert (Hd : forall w, dense d ∙ w = - (dense g ∙ w)).
  { intros w. rewrite Dd. replace (- (dense g ∙ w)) with (-1 * (dense g ∙ w)) by lra. unfold dotd. rewrite <- sumd_scal.
    apply sumd_ext. intros. lra. }
  constructor; cbn [cd cbd cgr cr cz ccache crg czn cmin cmax]; auto; rewrite ?Dz.
  - constructor; try (cbn [In chain map ortho]; tauto).
    + intros w. rewrite Dr. unfold zerof. rewrite dot_zero_l. lra.
    + intros w. unfold zerof. now rewrite !dot_zero_l.
    + intros w. rewrite !Hd, !Hg. now rewrite (p_idem n P HP).
    + rewrite dotd_sym, Hd, dotd_sym. reflexivity.
    + intros w Hw _. rewrite dotd_sym, Hd in Hw. rewrite dotd_sym. lra.
    + intros w _. rewrite dotd_sym. unfold zerof. apply dot_zero_l.
  - unfold zerof. rewrite dot_zero_l. reflexivity.
  - unfold zerof. rewrite dot_zero_l. nra.
  - split; [lra|]. intros a b H _. lra.
Qed.
End Solver.
