(** Finite sums of reals over an index range: the dense meaning of sparse loops. *)
From Coq Require Import Reals Lra.
From Verif Require Import Base Num Sparse.
Local Open Scope R_scope.

Fixpoint rsum (n : nat) (f : Z -> R) : R :=
  match n with O => 0 | S m => rsum m f + f (Z.of_nat m) end.

(** Sum over the coordinates [0 <= i < d]. *)
Definition sumd (d : Z) (f : Z -> R) : R := rsum (Z.to_nat d) f.

Lemma rsum_ext n f g : (forall i, (0 <= i < Z.of_nat n)%Z -> f i = g i) -> rsum n f = rsum n g.
Proof.
  induction n as [|n IH]; intros H; [reflexivity|]. cbn [rsum]. rewrite IH, H; auto; try lia.
  intros i Hi. apply H. lia.
Qed.
Lemma rsum_plus n f g : rsum n (fun i => f i + g i) = rsum n f + rsum n g.
Proof. induction n as [|n IH]; cbn [rsum]; [lra|]. rewrite IH. lra. Qed.
Lemma rsum_scal n c f : rsum n (fun i => c * f i) = c * rsum n f.
Proof. induction n as [|n IH]; cbn [rsum]; [lra|]. rewrite IH. lra. Qed.
Lemma rsum_zero n f : (forall i, (0 <= i < Z.of_nat n)%Z -> f i = 0) -> rsum n f = 0.
Proof.
  induction n as [|n IH]; intros H; [reflexivity|]. cbn [rsum]. rewrite IH, H; try lia; try lra.
  intros; apply H; lia.
Qed.
Lemma rsum_le n f g : (forall i, (0 <= i < Z.of_nat n)%Z -> f i <= g i) -> rsum n f <= rsum n g.
Proof.
  induction n as [|n IH]; intros H; cbn [rsum]; [lra|].
  assert (rsum n f <= rsum n g) by (apply IH; intros; apply H; lia).
  specialize (H (Z.of_nat n)). assert (f (Z.of_nat n) <= g (Z.of_nat n)) by (apply H; lia). lra.
Qed.
Lemma rsum_nonneg n f : (forall i, (0 <= i < Z.of_nat n)%Z -> 0 <= f i) -> 0 <= rsum n f.
Proof. intros H. rewrite <- (rsum_zero n (fun _ => 0)); auto. now apply rsum_le. Qed.
Lemma rsum_nonneg_zero n f : (forall i, (0 <= i < Z.of_nat n)%Z -> 0 <= f i) -> rsum n f = 0 ->
  forall i, (0 <= i < Z.of_nat n)%Z -> f i = 0.
Proof.
  induction n as [|n IH]; intros H E i Hi; [lia|]. cbn [rsum] in E.
  assert (H1 : 0 <= rsum n f) by (apply rsum_nonneg; intros; apply H; lia).
  assert (H2 : 0 <= f (Z.of_nat n)) by (apply H; lia).
  destruct (Z.eq_dec i (Z.of_nat n)) as [->|]; [lra|].
  apply IH; try lia; try lra. intros; apply H; lia.
Qed.
Lemma rsum_elem n f i : (forall i, (0 <= i < Z.of_nat n)%Z -> 0 <= f i) -> (0 <= i < Z.of_nat n)%Z -> f i <= rsum n f.
Proof.
  induction n as [|n IH]; intros H Hi; [lia|]. cbn [rsum].
  assert (H1 : 0 <= rsum n f) by (apply rsum_nonneg; intros; apply H; lia).
  assert (H2 : 0 <= f (Z.of_nat n)) by (apply H; lia).
  destruct (Z.eq_dec i (Z.of_nat n)) as [->|]; [lra|].
  assert (f i <= rsum n f) by (apply IH; try lia; intros; apply H; lia). lra.
Qed.
Lemma rsum_swap n m (f : Z -> Z -> R) :
  rsum n (fun i => rsum m (fun j => f i j)) = rsum m (fun j => rsum n (fun i => f i j)).
Proof.
  induction n as [|n IH]; cbn [rsum].
  - symmetry. apply rsum_zero. auto.
  - rewrite IH, <- rsum_plus. reflexivity.
Qed.
Lemma rsum_delta n k a : (0 <= k < Z.of_nat n)%Z -> rsum n (fun i => if (k =? i)%Z then a else 0) = a.
Proof.
  induction n as [|n IH]; intros Hk; [lia|]. cbn [rsum].
  destruct (Z.eqb_spec k (Z.of_nat n)) as [->|Hne].
  - rewrite rsum_zero; [lra|]. intros i Hi. destruct (Z.eqb_spec (Z.of_nat n) i); [lia|reflexivity].
  - rewrite IH by lia. lra.
Qed.
Lemma rsum_abs n f : Rabs (rsum n f) <= rsum n (fun i => Rabs (f i)).
Proof.
  induction n as [|n IH]; cbn [rsum]; [rewrite Rabs_R0; lra|].
  eapply Rle_trans; [apply Rabs_triang|]. lra.
Qed.
Lemma rsum_split n m f : rsum (n + m) f = rsum n f + rsum m (fun i => f (Z.of_nat n + i)%Z).
Proof.
  induction m as [|m IH]; [rewrite Nat.add_0_r; cbn; lra|].
  rewrite Nat.add_succ_r. cbn [rsum]. rewrite IH, Nat2Z.inj_add. lra.
Qed.

(** Sum over the stored entries of a sparse list. *)
Fixpoint esum (es : list (Z * R)) (g : Z -> R -> R) : R :=
  match es with [] => 0 | (i, x) :: es' => g i x + esum es' g end.

Lemma esum_dense (es : list (Z * R)) (g : Z -> R -> R) lo n :
  sorted_in lo (Z.of_nat n) (keys es) -> (0 <= lo)%Z ->
  esum es g = rsum n (fun i => match get es i with Some x => g i x | None => 0 end).
Proof.
  revert lo; induction es as [|[i x] es IH]; intros lo H Hlo; cbn [esum].
  - symmetry. apply rsum_zero. auto.
  - cbn [keys map fst sorted_in] in H. destruct H as [Hi H]. rewrite (IH _ H) by lia.
    rewrite <- (rsum_delta n i (g i x)) by lia. rewrite <- rsum_plus. apply rsum_ext. intros k Hk. cbn [get].
    destruct (Z.eqb_spec i k) as [->|Hne]; [|lra].
    rewrite (get_below (k+1) (Z.of_nat n)) by (auto; lia). lra.
Qed.

Lemma esum_ext es g h : (forall i x, In (i, x) es -> g i x = h i x) -> esum es g = esum es h.
Proof.
  induction es as [|[i x] es IH]; intros H; cbn [esum]; [reflexivity|].
  rewrite IH, (H i x); auto. { now left. } intros; apply H; now right.
Qed.

Lemma sumd_ext d f g : (forall i, (0 <= i < d)%Z -> f i = g i) -> sumd d f = sumd d g.
Proof. intros H. apply rsum_ext. intros i Hi. apply H. lia. Qed.
Lemma sumd_plus d f g : sumd d (fun i => f i + g i) = sumd d f + sumd d g. Proof. apply rsum_plus. Qed.
Lemma sumd_scal d c f : sumd d (fun i => c * f i) = c * sumd d f. Proof. apply rsum_scal. Qed.
Lemma sumd_swap d e (f : Z -> Z -> R) :
  sumd d (fun i => sumd e (fun j => f i j)) = sumd e (fun j => sumd d (fun i => f i j)).
Proof. apply rsum_swap. Qed.
Lemma sumd_nonneg d f : (forall i, (0 <= i < d)%Z -> 0 <= f i) -> 0 <= sumd d f.
Proof. intros H. apply rsum_nonneg. intros i Hi. apply H. lia. Qed.
Lemma sumd_nonneg_zero d f : (forall i, (0 <= i < d)%Z -> 0 <= f i) -> sumd d f = 0 ->
  forall i, (0 <= i < d)%Z -> f i = 0.
Proof. intros H E i Hi. apply (rsum_nonneg_zero (Z.to_nat d) f); auto; try lia. intros; apply H; lia. Qed.
Lemma sumd_zero d f : (forall i, (0 <= i < d)%Z -> f i = 0) -> sumd d f = 0.
Proof. intros H. apply rsum_zero. intros; apply H; lia. Qed.
Lemma sumd_le d f g : (forall i, (0 <= i < d)%Z -> f i <= g i) -> sumd d f <= sumd d g.
Proof. intros H. apply rsum_le. intros; apply H; lia. Qed.
Lemma sumd_elem d f i : (forall i, (0 <= i < d)%Z -> 0 <= f i) -> (0 <= i < d)%Z -> f i <= sumd d f.
Proof. intros H Hi. apply rsum_elem; try lia. intros; apply H; lia. Qed.

(** Cauchy-Schwarz. *)
Lemma sumd_cauchy d f g :
  (sumd d (fun i => f i * g i)) * (sumd d (fun i => f i * g i)) <=
  sumd d (fun i => f i * f i) * sumd d (fun i => g i * g i).
Proof.
  set (a := sumd d (fun i => f i * f i)). set (b := sumd d (fun i => f i * g i)). set (c := sumd d (fun i => g i * g i)).
  assert (Ha : 0 <= a) by (apply sumd_nonneg; intros; apply Rle_0_sqr).
  assert (Hq : forall t, 0 <= a * (t * t) + 2 * b * t + c).
  { intros t. replace (a * (t * t) + 2 * b * t + c)
      with (sumd d (fun i => (t * f i + g i) * (t * f i + g i))).
    - apply sumd_nonneg. intros. apply Rle_0_sqr.
    - unfold a, b, c.
      replace (sumd d (fun i => f i * f i) * (t * t)) with (sumd d (fun i => (t * t) * (f i * f i))) by (rewrite sumd_scal; lra).
      replace (2 * sumd d (fun i => f i * g i) * t) with (sumd d (fun i => (2 * t) * (f i * g i))) by (rewrite sumd_scal; lra).
      rewrite <- !sumd_plus. apply sumd_ext. intros. lra. }
  destruct (Req_dec a 0) as [E|E].
  - assert (Hb : b = 0).
    { unfold b. apply sumd_zero. intros i Hi.
      assert (Hf : f i * f i = 0) by (apply (sumd_nonneg_zero d (fun i => f i * f i)); auto; intros; apply Rle_0_sqr).
      apply Rmult_integral in Hf. destruct Hf as [Hf|Hf]; rewrite Hf; lra. }
    rewrite Hb, E. lra.
  - assert (Hpos : 0 < a) by lra. specialize (Hq (- b / a)).
    assert (Hm : 0 <= a * (a * (- b / a * (- b / a)) + 2 * b * (- b / a) + c)) by (apply Rmult_le_pos; lra).
    replace (a * (a * (- b / a * (- b / a)) + 2 * b * (- b / a) + c)) with (a * c - b * b) in Hm by (field; lra).
    lra.
Qed.
