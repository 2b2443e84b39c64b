(** Solution of square systems over the reals by elimination: every regular system has a solution.
    Used to show that exact factorizations exist, not a model of code. *)
From Coq Require Import Reals Lra.
From Verif Require Import Base RSum.
Local Open Scope R_scope.

Lemma sumd_succ k f : (0 <= k)%Z -> sumd (k + 1) f = sumd k f + f k.
Proof. intros H. unfold sumd. replace (Z.to_nat (k + 1)) with (S (Z.to_nat k)) by lia. cbn [rsum]. now rewrite Z2Nat.id. Qed.
Lemma sumd_add a b f : (0 <= a)%Z -> (0 <= b)%Z -> sumd (a + b) f = sumd a f + sumd b (fun i => f (a + i)%Z).
Proof. intros Ha Hb. unfold sumd. rewrite Z2Nat.inj_add, rsum_split, Z2Nat.id by lia. reflexivity. Qed.

(** Only zero is mapped to zero. *)
Definition regular (d : Z) (M : Z -> Z -> R) : Prop :=
  forall x, (forall i, (0 <= i < d)%Z -> sumd d (fun j => M i j * x j) = 0) -> forall i, (0 <= i < d)%Z -> x i = 0.

(** A solution is unique. *)
Lemma regular_unique d M x y : regular d M ->
  (forall i, (0 <= i < d)%Z -> sumd d (fun j => M i j * x j) = sumd d (fun j => M i j * y j)) ->
  forall i, (0 <= i < d)%Z -> x i = y i.
Proof.
  intros HM H i Hi. assert (x i - y i = 0); [|lra]. apply (HM (fun i => x i - y i)); [|exact Hi]. intros k Hk. specialize (H k Hk).
  rewrite (sumd_ext d _ (fun j => M k j * x j + (-1) * (M k j * y j))) by (intros; ring).
  rewrite sumd_plus, sumd_scal. lra.
Qed.

(** The last row below [n] with a nonzero entry. *)
Fixpoint pivot (n : nat) (c : Z -> R) : option Z :=
  match n with
  | O => None
  | S n' => if Req_EM_T (c (Z.of_nat n')) 0 then pivot n' c else Some (Z.of_nat n')
  end.
Lemma pivot_some n c p : pivot n c = Some p -> (0 <= p < Z.of_nat n)%Z /\ c p <> 0.
Proof.
  induction n as [|n IH]; cbn [pivot]; [discriminate|]. destruct (Req_EM_T (c (Z.of_nat n)) 0).
  - intros H. apply IH in H as [H1 H2]. split; [lia|exact H2].
  - intros [= <-]. split; [lia|assumption].
Qed.
Lemma pivot_none n c : pivot n c = None -> forall i, (0 <= i < Z.of_nat n)%Z -> c i = 0.
Proof.
  induction n as [|n IH]; cbn [pivot]; [intros; lia|]. destruct (Req_EM_T (c (Z.of_nat n)) 0); [|discriminate].
  intros H i Hi. destruct (Z.eq_dec i (Z.of_nat n)) as [->|]; [assumption|]. apply IH; auto. lia.
Qed.

Definition swap (p k i : Z) : Z := if (i =? p)%Z then k else if (i =? k)%Z then p else i.
Lemma swap_range p k i d : (0 <= p < d)%Z -> (0 <= k < d)%Z -> (0 <= i < d)%Z -> (0 <= swap p k i < d)%Z.
Proof. intros. unfold swap. destruct (i =? p)%Z; [lia|]. destruct (i =? k)%Z; lia. Qed.
Lemma swap_swap p k i : swap p k (swap p k i) = i.
Proof. unfold swap. destruct (Z.eqb_spec i p) as [->|]; [|destruct (Z.eqb_spec i k) as [->|]].
  - destruct (Z.eqb_spec k p) as [->|]; [reflexivity|]. now rewrite Z.eqb_refl.
  - now rewrite Z.eqb_refl.
  - destruct (Z.eqb_spec i p); [contradiction|]. destruct (Z.eqb_spec i k); [contradiction|reflexivity].
Qed.

Fixpoint gauss (d : nat) (M : Z -> Z -> R) (b : Z -> R) : Z -> R :=
  match d with
  | O => fun _ => 0
  | S d' =>
    let k := Z.of_nat d' in
    match pivot (S d') (fun i => M i k) with
    | None => fun _ => 0
    | Some p =>
      let A i j := M (swap p k i) j in
      let c i := b (swap p k i) in
      let x := gauss d' (fun i j => A i j - A i k / A k k * A k j) (fun i => c i - A i k / A k k * c k) in
      fun j => if (j =? k)%Z then (c k - sumd k (fun j => A k j * x j)) / A k k else x j
    end
  end.

Lemma gauss_solves d : forall M b, regular (Z.of_nat d) M ->
  forall i, (0 <= i < Z.of_nat d)%Z -> sumd (Z.of_nat d) (fun j => M i j * gauss d M b j) = b i.
Proof.
  induction d as [|d IH]; intros M b HM i Hi; [lia|]. cbn [gauss]. set (k := Z.of_nat d) in *.
  assert (Hk : (0 <= k)%Z) by (unfold k; lia).
  replace (Z.of_nat (S d)) with (k + 1)%Z in * by (unfold k; lia).
  destruct (pivot (S d) (fun i => M i k)) as [p|] eqn:Ep.
  2:{ exfalso. assert (H0 : forall i, (0 <= i < k + 1)%Z -> M i k = 0).
      { intros r Hr. apply (pivot_none (S d) (fun i => M i k) Ep). unfold k in *. lia. }
      assert (H1 : (if (k =? k)%Z then 1 else 0) = 0).
      { apply (HM (fun j => if (j =? k)%Z then 1 else 0)); [|lia]. intros r Hr. apply sumd_zero. intros j Hj.
        destruct (Z.eqb_spec j k) as [->|]; [rewrite H0 by lia|]; lra. }
      rewrite Z.eqb_refl in H1. lra. }
  apply pivot_some in Ep. destruct Ep as [Hp Hpk]. replace (Z.of_nat (S d)) with (k + 1)%Z in Hp by (unfold k; lia).
  set (A := fun i j => M (swap p k i) j). set (c := fun i => b (swap p k i)). cbv zeta.
  assert (HA : A k k <> 0). { unfold A. unfold swap. destruct (Z.eqb_spec k p) as [->|]; [exact Hpk|]. now rewrite Z.eqb_refl. }
  set (M' := fun i j => A i j - A i k / A k k * A k j). set (b' := fun i => c i - A i k / A k k * c k).
  assert (HM' : regular k M').
  { intros x Hx. set (x' := fun j => if (j =? k)%Z then - sumd k (fun j => A k j * x j) / A k k else x j).
    assert (Hx' : forall j, (0 <= j < k)%Z -> x' j = x j) by (intros j Hj; unfold x'; destruct (Z.eqb_spec j k); [lia|reflexivity]).
    assert (Hxk : x' k = - sumd k (fun j => A k j * x j) / A k k) by (unfold x'; now rewrite Z.eqb_refl).
    assert (Hrow : forall i, (0 <= i < k + 1)%Z -> sumd (k + 1) (fun j => A i j * x' j) = 0).
    { intros r Hr. rewrite sumd_succ by exact Hk. rewrite (sumd_ext k _ (fun j => A r j * x j)) by (intros j Hj; now rewrite Hx').
      rewrite Hxk. destruct (Z.eq_dec r k) as [->|Hne]; [field; exact HA|].
      specialize (Hx r ltac:(lia)). unfold M' in Hx.
      rewrite (sumd_ext k _ (fun j => A r j * x j + (- (A r k / A k k)) * (A k j * x j))) in Hx by (intros; ring).
      rewrite sumd_plus, sumd_scal in Hx. rewrite <- Hx. field. exact HA. }
    intros j Hj. rewrite <- Hx' by exact Hj. apply HM; [|lia]. intros r Hr.
    specialize (Hrow (swap p k r) (swap_range p k r (k + 1) ltac:(lia) ltac:(lia) Hr)). unfold A in Hrow. rewrite swap_swap in Hrow. exact Hrow. }
  specialize (IH M' b' HM').
  set (x := gauss d M' b') in *.
  set (y := fun j => if (j =? k)%Z then (c k - sumd k (fun j => A k j * x j)) / A k k else x j).
  assert (Hy : forall j, (0 <= j < k)%Z -> y j = x j) by (intros j Hj; unfold y; destruct (Z.eqb_spec j k); [lia|reflexivity]).
  assert (Hyk : y k = (c k - sumd k (fun j => A k j * x j)) / A k k) by (unfold y; now rewrite Z.eqb_refl).
  assert (Hrow : forall i, (0 <= i < k + 1)%Z -> sumd (k + 1) (fun j => A i j * y j) = c i).
  { intros r Hr. rewrite sumd_succ by exact Hk. rewrite (sumd_ext k _ (fun j => A r j * x j)) by (intros j Hj; now rewrite Hy).
    rewrite Hyk. destruct (Z.eq_dec r k) as [->|Hne]; [field; exact HA|].
    specialize (IH r ltac:(lia)). unfold M', b' in IH.
    rewrite (sumd_ext k _ (fun j => A r j * x j + (- (A r k / A k k)) * (A k j * x j))) in IH by (intros; ring).
    rewrite sumd_plus, sumd_scal in IH.
    replace (sumd k (fun j => A r j * x j)) with (c r - A r k / A k k * c k + A r k / A k k * sumd k (fun j => A k j * x j)) by lra.
    field. exact HA. }
  specialize (Hrow (swap p k i) (swap_range p k i (k + 1) ltac:(lia) ltac:(lia) Hi)). unfold A, c in Hrow. rewrite !swap_swap in Hrow. exact Hrow.
Qed.

(** Every regular system is solved. *)
Lemma gauss_ok d M b : (0 <= d)%Z -> regular d M -> forall i, (0 <= i < d)%Z -> sumd d (fun j => M i j * gauss (Z.to_nat d) M b j) = b i.
Proof. intros Hd HM i Hi. pose proof (gauss_solves (Z.to_nat d) M b) as G. rewrite Z2Nat.id in G by exact Hd. now apply G. Qed.
