(** Scaling in exact arithmetic. *)
From Coq Require Import Reals Lra.
From Flocq Require Import Core BinarySingleNaN.
From Coquelicot Require Import Coquelicot.
From Verif Require Import Base Num Cmp Sparse Vec VecFacts VecFacts2 VecFacts3 Order RSum VecReal Mat MatFacts MatFacts2 MatFacts3 MatFacts4 Arr Problem Scale ScaleFacts.
Local Open Scope R_scope.

Definition p2 (e : Z) : R := bpow radix2 e.
Lemma p2_pos e : 0 < p2 e. Proof. apply bpow_gt_0. Qed.
Lemma p2_plus a b : p2 (a + b) = p2 a * p2 b. Proof. apply bpow_plus. Qed.
Lemma p2_0 : p2 0 = 1. Proof. reflexivity. Qed.
Lemma p2_opp a : p2 a * p2 (- a) = 1.
Proof. rewrite <- p2_plus. replace (a + - a)%Z with 0%Z by lia. reflexivity. Qed.
Lemma p2_neq0 a : p2 a <> 0. Proof. pose proof (p2_pos a). lra. Qed.

Lemma p2_opp_eq a : p2 (- a) = / p2 a.
Proof. pose proof (p2_opp a). apply Rmult_eq_reg_l with (p2 a); [|apply p2_neq0]. rewrite H. field. apply p2_neq0. Qed.

Lemma dense_vldexp k (v : rvec) i : @dense RN (vldexp k v) i = dense v i * p2 (k i).
Proof.
  unfold dense. rewrite vldexp_get. rewrite !oval_rn. destruct (get (vent v) i); cbn; [reflexivity|]. lra.
Qed.

Lemma mR_cols_ldexp k (cs : list (list (Z * R))) i j : (0 <= j < Z.of_nat (length cs))%Z ->
  mR (@cols_ldexp RN RN_Ldexp k 0 cs) i j = mR cs i j * p2 (k i j).
Proof.
  intros Hj. unfold mR, mdense. rewrite (@cols_ldexp_get RN RN_Ldexp) by exact Hj. rewrite !oval_rn.
  rnum. destruct (mget cs i j); cbn; [reflexivity|]. lra.
Qed.

Lemma r_undo (x : R) a b : (a + b = 0)%Z -> r_ldexp (r_ldexp x a) b = x.
Proof. intros H. unfold r_ldexp. rewrite Rmult_assoc, <- bpow_plus, H. simpl. lra. Qed.

(** ** Optimality conditions *)

(** First-order conditions at a point [x] with gradient [g], constraint values [c], Jacobian [J],
    multipliers [lam] (constraints), [mu] (variables), for [lb <= x <= ub], [cl <= c <= cu]. *)
Record kkt_pt := mkkkt {
  kx : Z -> R; kg : Z -> R; kc : Z -> R; kJ : Z -> Z -> R; klam : Z -> R; kmu : Z -> R;
  klb : Z -> R; kub : Z -> R; kcl : Z -> R; kcu : Z -> R }.

Definition compl (v l u d : R) : Prop := (0 < d -> v = u) /\ (d < 0 -> v = l).

Definition stationary (n m : Z) (k : kkt_pt) : Prop :=
  forall j, (0 <= j < n)%Z -> kg k j + sumd m (fun i => kJ k i j * klam k i) + kmu k j = 0.
Definition feasible (n m : Z) (k : kkt_pt) : Prop :=
  (forall j, (0 <= j < n)%Z -> klb k j <= kx k j <= kub k j) /\
  (forall i, (0 <= i < m)%Z -> kcl k i <= kc k i <= kcu k i).
Definition complementarity (n m : Z) (k : kkt_pt) : Prop :=
  (forall j, (0 <= j < n)%Z -> compl (kx k j) (klb k j) (kub k j) (kmu k j)) /\
  (forall i, (0 <= i < m)%Z -> compl (kc k i) (kcl k i) (kcu k i) (klam k i)).

Lemma scaled_compl v l u d a b : 0 < a -> 0 < b -> compl v l u d <-> compl (v * a) (l * a) (u * a) (d * b).
Proof.
  intros Ha Hb. unfold compl. split; intros [H1 H2]; split; intros H.
  - rewrite H1; auto. nra.
  - rewrite H2; auto. nra.
  - apply Rmult_eq_reg_r with a; [|lra]. apply H1. nra.
  - apply Rmult_eq_reg_r with a; [|lra]. apply H2. nra.
Qed.

Lemma scaled_le a l v : 0 < a -> l <= v <-> l * a <= v * a.
Proof. intros Ha. split; intros H; nra. Qed.

(** Multiplying the quantities of [k] by powers of two as a change of variables [x = 2^v y],
    objective [2^-o f] and constraints [2^-c_i c_i] demands. *)
Definition kscale (v c : Z -> Z) (o : Z) (k : kkt_pt) : kkt_pt := mkkkt
  (fun j => kx k j * p2 (- v j)) (fun j => kg k j * p2 (v j - o)) (fun i => kc k i * p2 (- c i))
  (fun i j => kJ k i j * p2 (v j - c i)) (fun i => klam k i * p2 (c i - o)) (fun j => kmu k j * p2 (v j - o))
  (fun j => klb k j * p2 (- v j)) (fun j => kub k j * p2 (- v j))
  (fun i => kcl k i * p2 (- c i)) (fun i => kcu k i * p2 (- c i)).

Lemma kscale_stationary v c o n m k : stationary n m k <-> stationary n m (kscale v c o k).
Proof.
  unfold stationary, kscale; cbn [kg kJ klam kmu].
  split; intros H j Hj; specialize (H j Hj).
  - rewrite (sumd_ext m _ (fun i => p2 (v j - o) * (kJ k i j * klam k i))).
    + rewrite sumd_scal. nra.
    + intros i Hi. replace (v j - o)%Z with ((v j - c i) + (c i - o))%Z by lia. rewrite p2_plus. ring.
  - rewrite (sumd_ext m _ (fun i => p2 (v j - o) * (kJ k i j * klam k i))) in H.
    + rewrite sumd_scal in H. apply Rmult_eq_reg_r with (p2 (v j - o)); [|apply p2_neq0]. rewrite Rmult_0_l, <- H. ring.
    + intros i Hi. replace (v j - o)%Z with ((v j - c i) + (c i - o))%Z by lia. rewrite p2_plus. ring.
Qed.

Lemma kscale_feasible v c o n m k : feasible n m k <-> feasible n m (kscale v c o k).
Proof.
  unfold feasible, kscale; cbn [kx klb kub kc kcl kcu].
  split; intros [H1 H2]; (split; intros i Hi; [specialize (H1 i Hi)|specialize (H2 i Hi)]).
  - pose proof (p2_pos (- v i)). nra.
  - pose proof (p2_pos (- c i)). nra.
  - pose proof (p2_pos (- v i)). nra.
  - pose proof (p2_pos (- c i)). nra.
Qed.

Lemma kscale_compl v c o n m k : complementarity n m k <-> complementarity n m (kscale v c o k).
Proof.
  unfold complementarity, kscale; cbn [kx klb kub kc kcl kcu klam kmu].
  split; intros [H1 H2]; (split; intros i Hi; [specialize (H1 i Hi)|specialize (H2 i Hi)]).
  - apply scaled_compl; auto using p2_pos.
  - apply scaled_compl; auto using p2_pos.
  - apply scaled_compl in H1; auto using p2_pos.
  - apply scaled_compl in H2; auto using p2_pos.
Qed.

Lemma stationary_ext n m k k' :
  (forall j, (0 <= j < n)%Z -> kg k j = kg k' j /\ kmu k j = kmu k' j) ->
  (forall i, (0 <= i < m)%Z -> klam k i = klam k' i) ->
  (forall i j, (0 <= i < m)%Z -> (0 <= j < n)%Z -> kJ k i j = kJ k' i j) ->
  stationary n m k <-> stationary n m k'.
Proof.
  intros H1 H2 H3. unfold stationary. split; intros H j Hj; specialize (H j Hj); destruct (H1 j Hj) as [E1 E2].
  - rewrite <- E1, <- E2. rewrite (sumd_ext m _ (fun i => kJ k i j * klam k i)); [exact H|].
    intros i Hi. now rewrite H2, H3.
  - rewrite E1, E2. rewrite (sumd_ext m _ (fun i => kJ k' i j * klam k' i)); [exact H|].
    intros i Hi. now rewrite H2, H3.
Qed.

(** ** Chain rule *)

(** [t] at coordinate [j]. *)
Definition put1 (x : Z -> R) (j : Z) (t : R) : Z -> R := fun i => if (i =? j)%Z then t else x i.

(** [d] is the partial derivative of [F] at [x] in direction [j]. *)
Definition partial_at (F : (Z -> R) -> R) (x : Z -> R) (j : Z) (d : R) : Prop :=
  is_derive (fun t => F (put1 x j t)) (x j) d.

(** The function of the scaled problem: [2^-o F (2^v y)]. *)
Definition scaled_fun (F : (Z -> R) -> R) (v : Z -> Z) (o : Z) (y : Z -> R) : R :=
  F (fun j => y j * p2 (v j)) * p2 (- o).

Lemma scaled_partial F v o y j d :
  (forall f g : Z -> R, (forall i, f i = g i) -> F f = F g) ->
  partial_at F (fun i => y i * p2 (v i)) j d -> partial_at (scaled_fun F v o) y j (d * p2 (v j - o)).
Proof.
  intros Hext H. unfold partial_at, scaled_fun in *.
  apply is_derive_ext with (f := fun t => F (put1 (fun i => y i * p2 (v i)) j (t * p2 (v j))) * p2 (- o)).
  { intros t. f_equal. apply Hext. intros i. unfold put1. destruct (Z.eqb_spec i j) as [->|]; reflexivity. }
  replace (d * p2 (v j - o)) with ((p2 (v j) * d) * p2 (- o)).
  2:{ replace (v j - o)%Z with (v j + - o)%Z by lia. rewrite p2_plus. ring. }
  apply is_derive_ext with (f := fun t => p2 (- o) * F (put1 (fun i => y i * p2 (v i)) j (t * p2 (v j)))); [intros t; apply Rmult_comm|].
  rewrite Rmult_comm. apply is_derive_scal.
  apply (is_derive_comp (fun t => F (put1 (fun i => y i * p2 (v i)) j t)) (fun t => t * p2 (v j)) (y j) d (p2 (v j))); [exact H|].
  auto_derive; [trivial|ring].
Qed.

(** ** Hessians *)

(** The Hessian of the Lagrangian with multipliers [lam] applied to [d]. *)
Definition hess_apply (n m : Z) (H0 : Z -> Z -> R) (Hc : Z -> Z -> Z -> R) (lam d : Z -> R) (j : Z) : R :=
  sumd n (fun k => (H0 j k + sumd m (fun i => lam i * Hc i j k)) * d k).

(** Second derivatives of the scaled functions. *)
Definition H0_scaled (v : Z -> Z) (o : Z) (H0 : Z -> Z -> R) (j k : Z) : R := H0 j k * p2 (v j) * p2 (v k) * p2 (- o).
Definition Hc_scaled (v c : Z -> Z) (Hc : Z -> Z -> Z -> R) (i j k : Z) : R := Hc i j k * p2 (v j) * p2 (v k) * p2 (- c i).

Lemma hess_scaled n m H0 Hc v c o lam d j :
  hess_apply n m H0 Hc (fun i => lam i * p2 (- c i + o)) (fun k => d k * p2 (v k)) j * p2 (v j - o)
  = hess_apply n m (H0_scaled v o H0) (Hc_scaled v c Hc) lam d j.
Proof.
  unfold hess_apply. rewrite Rmult_comm, <- sumd_scal. apply sumd_ext. intros k Hk.
  unfold H0_scaled, Hc_scaled.
  rewrite (sumd_ext m (fun i => lam i * (Hc i j k * p2 (v j) * p2 (v k) * p2 (- c i)))
             (fun i => p2 (v j) * p2 (v k) * p2 (- o) * (lam i * p2 (- c i + o) * Hc i j k))).
  - rewrite sumd_scal. replace (v j - o)%Z with (v j + - o)%Z by lia. rewrite p2_plus. ring.
  - intros i Hi. rewrite p2_plus. pose proof (p2_opp o).
    replace (p2 (v j) * p2 (v k) * p2 (- o) * (lam i * (p2 (- c i) * p2 o) * Hc i j k))
      with (p2 (v j) * p2 (v k) * lam i * p2 (- c i) * Hc i j k * (p2 o * p2 (- o))) by ring.
    rewrite H. ring.
Qed.
