(** Property theorems C47, C48: problems. *)
From Coq Require Import Reals Lra.
From Flocq Require Import Core BinarySingleNaN.
From Verif Require Import Base Num Cmp Sparse Vec VecFacts VecFacts2 Order F64Facts OrdArith RSum VecReal Mat MatFacts MatFacts2 MatFacts3 MatFacts4 Problem ProblemFacts.
Local Open Scope Z_scope.

(** ** C47 *)

(** Well-formed bound vectors of the same dimension; every bound is infinite or at most 1e100 in
    absolute value, and not NaN ([usual]). *)
Definition usual_bounds (dim : Z) (lb ub : @vec F64) : Prop :=
  wf lb /\ wf ub /\ vdim lb = dim /\ vdim ub = dim
  /\ forall i, 0 <= i < dim -> usual (dense lb i) /\ usual (dense ub i).
(** [lb <= ub], [lb] not +infinity, [ub] not -infinity, everywhere. *)
Definition consistent (dim : Z) (lb ub : @vec F64) : Prop :=
  forall i, 0 <= i < dim -> consistent_at (dense lb i) (dense ub i).

Lemma bounds_phase dim lb ub c d : usual_bounds dim lb ub ->
  (no_cross (vmapped map_lower lb c) (vmapped map_upper ub d) <-> consistent dim lb ub)
  /\ (consistent dim lb ub -> vec_is_finite (vmapped map_lower lb c) = true /\ vec_is_finite (vmapped map_upper ub d) = true).
Proof.
  intros (W1 & W2 & D1 & D2 & Hu).
  assert (Z1 : @map_lower F64 n0 = n0) by reflexivity. assert (Z2 : @map_upper F64 n0 = n0) by reflexivity.
  assert (Hg : forall (v : @vec F64) i x, wf v -> get (vent v) i = Some x -> 0 <= i < vdim v /\ dense v i = x).
  { intros v i x (_ & Hs & _) E. split; [|unfold dense; now rewrite E].
    apply (sorted_in_In _ _ _ _ Hs). destruct (in_dec Z.eq_dec i (keys (vent v))) as [H|H]; [auto|]. apply get_None in H. congruence. }
  split.
  - unfold no_cross, consistent. cbn [vmapped vdim]. rewrite D1. split; intros H i Hi; specialize (H i Hi); destruct (Hu i Hi) as [Ul Uu];
      rewrite (dense_mapped map_lower lb c i Z1), (dense_mapped map_upper ub d i Z2) in *; now apply cross_iff.
  - intros H. split.
    + apply finite_lower; auto. intros i x E. destruct (Hg lb i x W1 E) as [Hi <-]. rewrite D1 in Hi.
      destruct (Hu i Hi) as [[Ul _] _]. destruct (H i Hi) as (_ & Hp & _). auto.
    + apply finite_upper; auto. intros i x E. destruct (Hg ub i x W2 E) as [Hi <-]. rewrite D2 in Hi.
      destruct (Hu i Hi) as [_ [Uu _]]. destruct (H i Hi) as (_ & _ & Hp). auto.
Qed.

(** Construction succeeds exactly for consistent bounds; otherwise it fails.
    Partial: NaN bounds and finite bounds beyond 1e100 are excluded, see the refutations below. *)
Theorem C47_create_partial : forall (f : @ufunc F64) vlb vub glb gub coeffs cs llb lub eps,
  0 <= uf_nv f -> 0 <= uf_nc f ->
  usual_bounds (uf_nv f) vlb vub -> usual_bounds (uf_nc f) glb gub -> usual_bounds (mnr coeffs) llb lub ->
  stores coeffs cs -> mnc coeffs = uf_nv f -> mat_is_finite coeffs = Ok true ->
  ((exists p, problem_create f vlb vub glb gub coeffs llb lub eps = Ok p)
   <-> consistent (uf_nv f) vlb vub /\ consistent (uf_nc f) glb gub /\ consistent (mnr coeffs) llb lub).
Proof.
  intros f vlb vub glb gub coeffs cs llb lub eps Hnv Hnc Uv Ug Ul Hs Hc Hf.
  destruct (problem_create_spec f vlb vub glb gub coeffs cs llb lub eps)
    as (c1 & c2 & c3 & c4 & c5 & c6 & _ & _ & _ & _ & _ & _ & H); auto; try apply Uv; try apply Ug; try apply Ul; try reflexivity.
  destruct (bounds_phase _ _ _ c1 c2 Uv) as [P1 Q1]. destruct (bounds_phase _ _ _ c3 c4 Ug) as [P2 Q2]. destruct (bounds_phase _ _ _ c5 c6 Ul) as [P3 Q3].
  rewrite <- P1, <- P2, <- P3. rewrite <- P1 in Q1. rewrite <- P2 in Q2. rewrite <- P3 in Q3. clear P1 P2 P3.
  destruct H as [[Hb He]|(_ & _ & _ & _ & _ & _ & [[He Hn]|(N1 & N2 & N3 & clb & cub & lin & gj & He & _)])].
  - split.
    + intros [p Hp]. destruct He as [He|He]; rewrite He in Hp; discriminate.
    + intros (H1 & H2 & H3). exfalso. destruct (Q1 H1) as [q1 q1']. destruct (Q2 H2) as [q2 q2']. destruct (Q3 H3) as [q3 q3'].
      destruct Hb as [Hb|[Hb|[Hb|[Hb|[Hb|Hb]]]]]; congruence.
  - split.
    + intros [p Hp]. rewrite He in Hp. discriminate.
    + intros H. exfalso. tauto.
  - split; [auto|]. intros _. eexists. exact He.
Qed.
Print Assumptions C47_create_partial.

(** If no lower bound is +infinity and no upper bound -infinity, inconsistent bounds give the error
    "illegal argument". *)
Theorem C47_error_partial : forall (f : @ufunc F64) vlb vub glb gub coeffs cs llb lub eps,
  0 <= uf_nv f -> 0 <= uf_nc f ->
  usual_bounds (uf_nv f) vlb vub -> usual_bounds (uf_nc f) glb gub -> usual_bounds (mnr coeffs) llb lub ->
  (forall i, pinf (dense vlb i) = false /\ ninf (dense vub i) = false /\ pinf (dense glb i) = false /\ ninf (dense gub i) = false
     /\ pinf (dense llb i) = false /\ ninf (dense lub i) = false) ->
  stores coeffs cs -> mnc coeffs = uf_nv f -> mat_is_finite coeffs = Ok true ->
  (exists i, (0 <= i < uf_nv f /\ (f64val (dense vub i) < f64val (dense vlb i))%R)
     \/ (0 <= i < uf_nc f /\ (f64val (dense gub i) < f64val (dense glb i))%R)
     \/ (0 <= i < mnr coeffs /\ (f64val (dense lub i) < f64val (dense llb i))%R)) ->
  problem_create f vlb vub glb gub coeffs llb lub eps = Err EIllegalArg.
Proof.
  intros f vlb vub glb gub coeffs cs llb lub eps Hnv Hnc Uv Ug Ul Hi Hs Hc Hf (i & Hx).
  destruct (problem_create_spec f vlb vub glb gub coeffs cs llb lub eps)
    as (c1 & c2 & c3 & c4 & c5 & c6 & _ & _ & _ & _ & _ & _ & H); auto; try apply Uv; try apply Ug; try apply Ul; try reflexivity.
  assert (Fl : forall dim lb ub c, usual_bounds dim lb ub -> (forall i, pinf (dense lb i) = false) -> vec_is_finite (vmapped map_lower lb c) = true).
  { intros dim lb ub c (W1 & W2 & D1 & D2 & Hu) Hp. apply finite_lower; auto. intros j x E.
    assert (Hj : 0 <= j < vdim lb). { apply (sorted_in_In _ _ _ _ (proj1 (proj2 W1))). destruct (in_dec Z.eq_dec j (keys (vent lb))) as [H'|H']; [auto|]. apply get_None in H'. congruence. }
    assert (dense lb j = x) as <- by (unfold dense; now rewrite E). split; [|apply Hp]. rewrite D1 in Hj. apply (Hu j Hj). }
  assert (Fu : forall dim lb ub c, usual_bounds dim lb ub -> (forall i, ninf (dense ub i) = false) -> vec_is_finite (vmapped map_upper ub c) = true).
  { intros dim lb ub c (W1 & W2 & D1 & D2 & Hu) Hp. apply finite_upper; auto. intros j x E.
    assert (Hj : 0 <= j < vdim ub). { apply (sorted_in_In _ _ _ _ (proj1 (proj2 W2))). destruct (in_dec Z.eq_dec j (keys (vent ub))) as [H'|H']; [auto|]. apply get_None in H'. congruence. }
    assert (dense ub j = x) as <- by (unfold dense; now rewrite E). split; [|apply Hp]. rewrite D2 in Hj. apply (Hu j Hj). }
  pose proof (Fl _ _ _ c1 Uv (fun i => proj1 (Hi i))) as F1. pose proof (Fu _ _ _ c2 Uv (fun i => proj1 (proj2 (Hi i)))) as F2.
  pose proof (Fl _ _ _ c3 Ug (fun i => proj1 (proj2 (proj2 (Hi i))))) as F3. pose proof (Fu _ _ _ c4 Ug (fun i => proj1 (proj2 (proj2 (proj2 (Hi i)))))) as F4.
  pose proof (Fl _ _ _ c5 Ul (fun i => proj1 (proj2 (proj2 (proj2 (proj2 (Hi i))))))) as F5. pose proof (Fu _ _ _ c6 Ul (fun i => proj2 (proj2 (proj2 (proj2 (proj2 (Hi i))))))) as F6.
  destruct H as [[Hb _]|(_ & _ & _ & _ & _ & _ & [[He Hn]|(N1 & N2 & N3 & _)])].
  - exfalso. destruct Hb as [Hb|[Hb|[Hb|[Hb|[Hb|Hb]]]]]; congruence.
  - exact He.
  - exfalso. destruct (bounds_phase _ _ _ c1 c2 Uv) as [P1 _]. destruct (bounds_phase _ _ _ c3 c4 Ug) as [P2 _]. destruct (bounds_phase _ _ _ c5 c6 Ul) as [P3 _].
    apply P1 in N1. apply P2 in N2. apply P3 in N3. destruct Hx as [[Hj Hv]|[[Hj Hv]|[Hj Hv]]].
    + destruct (N1 i Hj). lra. + destruct (N2 i Hj). lra. + destruct (N3 i Hj). lra.
Qed.
Print Assumptions C47_error_partial.

(** The constraint bounds of a created problem are the general bounds followed by the linear ones, the infinities
    of the right sign replaced by 1e100 in absolute value. *)
Theorem C47_stacked : forall (f : @ufunc F64) vlb vub glb gub coeffs cs llb lub eps p,
  0 <= uf_nv f -> 0 <= uf_nc f ->
  wf vlb -> wf vub -> wf glb -> wf gub -> wf llb -> wf lub ->
  vdim vlb = uf_nv f -> vdim vub = uf_nv f -> vdim glb = uf_nc f -> vdim gub = uf_nc f ->
  vdim llb = mnr coeffs -> vdim lub = mnr coeffs ->
  stores coeffs cs -> mnc coeffs = uf_nv f -> mat_is_finite coeffs = Ok true ->
  problem_create f vlb vub glb gub coeffs llb lub eps = Ok p ->
  let low x := if ninf x then @nopp F64 sleqp_infinity else x in
  let up x := if pinf x then @sleqp_infinity F64 else x in
  wf (p_clb p) /\ wf (p_cub p) /\ vdim (p_clb p) = uf_nc f + mnr coeffs /\ vdim (p_cub p) = uf_nc f + mnr coeffs
  /\ (forall i, dense (p_vlb p) i = low (dense vlb i) /\ dense (p_vub p) i = up (dense vub i))
  /\ (forall i, 0 <= i < uf_nc f -> dense (p_clb p) i = low (dense glb i) /\ dense (p_cub p) i = up (dense gub i))
  /\ (forall i, 0 <= i < mnr coeffs -> dense (p_clb p) (uf_nc f + i) = low (dense llb i) /\ dense (p_cub p) (uf_nc f + i) = up (dense lub i))
  /\ stores (p_lin p) cs /\ mnr (p_lin p) = mnr coeffs /\ mnc (p_lin p) = uf_nv f.
Proof.
  intros f vlb vub glb gub coeffs cs llb lub eps p Hnv Hnc W1 W2 W3 W4 W5 W6 D1 D2 D3 D4 D5 D6 Hs Hc Hf E low up.
  destruct (problem_create_spec f vlb vub glb gub coeffs cs llb lub eps)
    as (c1 & c2 & c3 & c4 & c5 & c6 & _ & _ & _ & _ & _ & _ & H); auto; try reflexivity.
  destruct H as [[Hb He]|(_ & _ & _ & _ & _ & _ & [[He Hn]|(N1 & N2 & N3 & clb & cub & lin & gj & He & Wc & Wc' & Dc & Dc' & Gl & Gu & Sl & Rl & Cl & _)])].
  - destruct He as [He|He]; rewrite He in E; discriminate.
  - rewrite He in E; discriminate.
  - rewrite He in E. apply (f_equal (fun r => match r with Ok q => q | _ => p end)) in E. cbv iota beta in E. subst p.
    cbn [p_clb p_cub p_vlb p_vub p_lin]. repeat (split; [assumption|]). split; [|split; [|split]].
    + intros i. rewrite !dense_mapped by reflexivity. split; [apply map_lower_if|apply map_upper_if].
    + intros i Hi. rewrite Gl, Gu. destruct (Z.ltb_spec i (uf_nc f)); [|lia]. split; [apply map_lower_if|apply map_upper_if].
    + intros i Hi. rewrite Gl, Gu. destruct (Z.ltb_spec (uf_nc f + i) (uf_nc f)); [lia|].
      replace (uf_nc f + i - uf_nc f) with i by lia. split; [apply map_lower_if|apply map_upper_if].
    + auto.
Qed.
Print Assumptions C47_stacked.

(** A problem with one variable, no general constraints and no linear rows. *)
Definition tiny_func : @ufunc F64 := mkufunc 1 0 (fun _ v => Ok v) (fun _ m => Ok m) (fun _ _ _ p => Ok p).
Definition tiny_mat : @mat F64 := mkmat 0 1 0 0 [0; 0] [].
Definition is_ok {A} (r : res A) : bool := match r with Ok _ => true | _ => false end.

(** The full claim fails: a NaN bound is accepted ... *)
Theorem C47_nan_refuted : exists (f : @ufunc F64) vlb vub glb gub coeffs llb lub eps,
  wf vlb /\ wf vub /\ vdim vlb = uf_nv f /\ vdim vub = uf_nv f
  /\ (exists i, 0 <= i < vdim vlb /\ nisnan (dense vlb i) = true)
  /\ exists p, problem_create f vlb vub glb gub coeffs llb lub eps = Ok p.
Proof.
  exists tiny_func, (mkvec 1 1 [(0, B754_nan : f64)]), (mkvec 1 1 [(0, f64_of_Z 1)]), (evec 0), (evec 0), tiny_mat, (evec 0), (evec 0), (f64_of_Z 0).
  split; [unfold wf; cbn; repeat split; auto; lia|]. split; [unfold wf; cbn; repeat split; auto; lia|]. split; [reflexivity|]. split; [reflexivity|].
  split; [exists 0; split; [cbn; lia|reflexivity]|].
  match goal with |- exists p, ?x = Ok p => assert (H : is_ok x = true) by (vm_compute; reflexivity); destruct x as [p|c|] end; try discriminate. eauto.
Qed.
Print Assumptions C47_nan_refuted.

(** ... and consistent bounds are rejected if finite ones exceed 1e100: lower 2^1000, upper +infinity. *)
Theorem C47_huge_refuted : exists (f : @ufunc F64) vlb vub glb gub coeffs llb lub eps,
  wf vlb /\ wf vub /\ vdim vlb = uf_nv f /\ vdim vub = uf_nv f
  /\ uf_nv f = 1 /\ @nltb F64 (dense vlb 0) (dense vub 0) = true /\ nisinf (dense vlb 0) = false
  /\ uf_nc f = 0 /\ mnr coeffs = 0
  /\ problem_create f vlb vub glb gub coeffs llb lub eps = Err EIllegalArg.
Proof.
  exists tiny_func, (mkvec 1 1 [(0, f64_of_Z (2 ^ 1000))]), (mkvec 1 1 [(0, B754_infinity false : f64)]), (evec 0), (evec 0), tiny_mat, (evec 0), (evec 0), (f64_of_Z 0).
  split; [unfold wf; cbn; repeat split; auto; lia|]. split; [unfold wf; cbn; repeat split; auto; lia|]. split; [reflexivity|]. split; [reflexivity|].
  split; [reflexivity|]. split; [vm_compute; reflexivity|]. split; [vm_compute; reflexivity|]. split; [reflexivity|]. split; [reflexivity|].
  match goal with |- ?x = Err _ => assert (H : match x with Err EIllegalArg => true | _ => false end = true) by (vm_compute; reflexivity); destruct x as [p|[]|] end; try discriminate. reflexivity.
Qed.
Print Assumptions C47_huge_refuted.

(** Non-vacuity: [0 <= x <= +infinity] meets the hypotheses and is accepted. *)
Example C47_example : exists vlb vub, usual_bounds 1 vlb vub /\ consistent 1 vlb vub /\ pinf (dense vub 0) = true
  /\ usual_bounds 0 (evec 0) (evec 0) /\ stores tiny_mat [[]] /\ mat_is_finite tiny_mat = Ok true
  /\ is_ok (problem_create tiny_func vlb vub (evec 0) (evec 0) tiny_mat (evec 0) (evec 0) (f64_of_Z 0)) = true.
Proof.
  exists (mkvec 1 0 []), (mkvec 1 1 [(0, B754_infinity false : f64)]).
  assert (U0 : usual (@n0 F64)). { split; [apply nn_0|]. right; right. change (f64val (@n0 F64)) with (@val F64 F64_Ord n0). rewrite val_0, Rabs_R0. destruct inf_lit as [_ H]. lra. }
  split; [|split; [|split; [|split; [|split; [|split]]]]].
  - split; [unfold wf; cbn; repeat split; auto; lia|]. split; [unfold wf; cbn; repeat split; auto; lia|]. split; [reflexivity|]. split; [reflexivity|].
    intros i Hi. assert (i = 0) as -> by lia. split; [exact U0|]. split; [reflexivity|now left].
  - intros i Hi. assert (i = 0) as -> by lia. split; [|split; reflexivity].
    change (f64val (dense (mkvec 1 0 []) 0)) with (@val F64 F64_Ord n0). rewrite val_0. change (0 <= big)%R. pose proof big_pos. lra.
  - reflexivity.
  - split; [unfold wf; cbn; repeat split; auto; lia|]. split; [unfold wf; cbn; repeat split; auto; lia|]. split; [reflexivity|]. split; [reflexivity|]. intros; lia.
  - apply (stores_repeat_nil (N := F64) 0 1 0); lia.
  - reflexivity.
  - vm_compute. reflexivity.
Qed.

(** ** C48 *)

(** [reach cs p]: [p] was created with linear coefficients [cs] and then moved by any number of
    [set_value] calls.  The user function computes [g] (values), [gs] (Jacobian columns). *)

(** Bit-exact: general values first, then the linear rows, accumulated over the entries of the point; row values
    at most [eps] in absolute value become zero. *)
Theorem C48_values : forall {N : Num} {O : Ord N} cs (p p' : problem) x g v,
  map_lower n0 = n0 -> map_upper n0 = n0 ->
  reach cs p -> wf x -> vdim x = uf_nv (p_func p) -> problem_set_value p x = Ok p' ->
  cons_oracle (p_func p) x g -> wf v -> vdim v = uf_nc (p_func p) + p_nl p ->
  exists z, problem_cons_val p' v = Ok z /\ wf z /\ vdim z = uf_nc (p_func p) + p_nl p
    /\ (forall i, 0 <= i < uf_nc (p_func p) -> dense z i = g i)
    /\ (forall i, 0 <= i < p_nl p -> dense z (uf_nc (p_func p) + i)
          = let r := fold_left (row_acc cs i) (vent x) n0 in if is_zero r (p_eps p) then n0 else r).
Proof. intros N O cs p p' x g v Z1 Z2. exact (cons_val_spec Z1 Z2 cs p x p' g v). Qed.
Print Assumptions C48_values.

(** Exact arithmetic: the linear part is [A x], up to the drop tolerance. *)
Theorem C48_values_real : forall cs (p p' : @problem RN) x g v,
  reach cs p -> wf x -> vdim x = uf_nv (p_func p) -> problem_set_value p x = Ok p' ->
  cons_oracle (p_func p) x g -> wf v -> vdim v = uf_nc (p_func p) + p_nl p -> (0 <= p_eps p)%R ->
  exists z, problem_cons_val p' v = Ok z
    /\ (forall i, 0 <= i < uf_nc (p_func p) -> dense z i = g i)
    /\ (forall i, 0 <= i < p_nl p ->
         (Rabs (dense z (uf_nc (p_func p) + i) - sumd (uf_nv (p_func p)) (fun j => mR cs i j * dense x j)) <= p_eps p)%R).
Proof.
  intros cs p p' x g v Hr Wx Dx E Ho Wv Dv He.
  destruct (cons_val_spec (N := RN) eq_refl eq_refl cs p x p' g v) as (z & Ez & _ & _ & G1 & G2); auto.
  exists z. split; [exact Ez|]. split; [exact G1|]. intros i Hi. rewrite (G2 i Hi). unfold flush.
  pose proof (reach_inv (N := RN) eq_refl eq_refl cs p Hr) as (_ & _ & Sl & Rl & Cl & _).
  destruct (mult_vec_real (p_lin p) cs x Sl Wx) as (r & Er & Lr & Gr); [congruence|].
  destruct (mat_mult_vec_spec (p_lin p) cs x Sl Wx) as (r' & Er' & Lr' & Gr'); [congruence|]. rewrite Er in Er'. injection Er' as <-.
  assert (Hv : fold_left (row_acc cs i) (vent x) (@n0 RN) = sumd (uf_nv (p_func p)) (fun j => mR cs i j * dense x j)%R).
  { rewrite <- (Gr' i) by lia. rewrite rn_n0. etransitivity; [exact (Gr i ltac:(lia))|]. now rewrite Cl. }
  match goal with |- context [@is_zero RN ?a ?e] => destruct (@is_zero RN a e) eqn:Ez' end.
  - apply rn_is_zero in Ez'. rewrite rn_n0. rewrite Rminus_0_l, Rabs_Ropp. rewrite <- Hv. exact Ez'.
  - rewrite <- Hv. rewrite Rminus_diag_eq by reflexivity. rewrite Rabs_R0. exact He.
Qed.
Print Assumptions C48_values_real.

Theorem C48_jacobian : forall {N : Num} {O : Ord N} cs (p p' : problem) x gs m,
  map_lower n0 = n0 -> map_upper n0 = n0 ->
  reach cs p -> wf x -> vdim x = uf_nv (p_func p) -> problem_set_value p x = Ok p' ->
  jac_oracle (p_func p) x gs -> mwf m -> mnr m = uf_nc (p_func p) + p_nl p -> mnc m = uf_nv (p_func p) ->
  exists z zs, problem_cons_jac p' m = Ok z /\ stores z zs /\ mnr z = uf_nc (p_func p) + p_nl p /\ mnc z = uf_nv (p_func p)
    /\ (forall i j, 0 <= i < uf_nc (p_func p) -> 0 <= j < uf_nv (p_func p) -> mget zs i j = mget gs i j)
    /\ (forall i j, 0 <= i < p_nl p -> 0 <= j < uf_nv (p_func p) -> mget zs (uf_nc (p_func p) + i) j = mget cs i j).
Proof. intros N O cs p p' x gs m Z1 Z2. exact (cons_jac_spec Z1 Z2 cs p x p' gs m). Qed.
Print Assumptions C48_jacobian.

(** The Hessian product is the user's, at the current point, with the multipliers of the general constraints. *)
Theorem C48_hessian : forall {N : Num} {O : Ord N} cs (p p' : problem) x d y r,
  map_lower n0 = n0 -> map_upper n0 = n0 ->
  reach cs p -> wf x -> vdim x = uf_nv (p_func p) -> problem_set_value p x = Ok p' ->
  wf y -> vdim y = uf_nc (p_func p) + p_nl p ->
  exists y', wf y' /\ vdim y' = uf_nc (p_func p) /\ (forall i, 0 <= i < uf_nc (p_func p) -> dense y' i = dense y i)
    /\ problem_hess_prod p' d y r = func_hess_prod (p_func p) x d y' r.
Proof. intros N O cs p p' x d y r Z1 Z2. exact (hess_prod_spec Z1 Z2 cs p x p' d y r). Qed.
Print Assumptions C48_hessian.

(** The side conditions hold for both arithmetics. *)
Example C48_zero : @map_lower F64 n0 = n0 /\ @map_upper F64 n0 = n0 /\ @map_lower RN n0 = n0 /\ @map_upper RN n0 = n0.
Proof. repeat split. Qed.

(** Non-vacuity: one variable, one general constraint [3 x0] evaluated at 2, one linear constraint [5 x0]. *)
Definition small_func : @ufunc F64 :=
  mkufunc 1 1 (fun x v => vec_push (mkvec (vdim v) 1 (vent v)) 0 (nmul (f64_of_Z 3) (dense x 0))) (fun _ m => Ok m) (fun _ _ _ p => Ok p).
Definition small_mat : @mat F64 := mkmat 1 1 1 1 [0; 1] [(0, f64_of_Z 5)].
Definition small_run : res (list (Z * SpecFloat.spec_float)) :=
  p <- problem_create small_func (mkvec 1 0 []) (mkvec 1 1 [(0, f64_of_Z 4)]) (mkvec 1 0 []) (mkvec 1 1 [(0, B754_infinity false : f64)]) small_mat
         (mkvec 1 0 []) (mkvec 1 1 [(0, f64_of_Z 100)]) (f64_of_Z 0) ;;
  p <- problem_set_value p (mkvec 1 1 [(0, f64_of_Z 2)]) ;;
  z <- problem_cons_val p (mkvec 2 0 []) ;; Ok (map (fun e => (fst e, B2SF (snd e : f64))) (vent z)).
Example C48_example : small_run = Ok [(0, B2SF (f64_of_Z 6)); (1, B2SF (f64_of_Z 10))].
Proof. vm_compute. reflexivity. Qed.
Example C48_example_reach : exists p, reach [[(0, f64_of_Z 5)]] p /\ uf_nc (p_func p) = 1 /\ p_nl p = 1.
Proof.
  set (W := fun (l : list (Z * f64)) => mkvec 1 1 l : @vec F64).
  assert (We : wf (mkvec 1 0 [] : @vec F64)) by (unfold wf; cbn; repeat split; auto; lia).
  assert (Wf : forall a : f64, wf (mkvec 1 1 [(0, a)] : @vec F64)) by (intros a; unfold wf; cbn; repeat split; auto; lia).
  assert (Hs : stores small_mat [[(0, f64_of_Z 5)]]).
  { split; [|reflexivity]. unfold layout, small_mat. cbn [mnr mnc mcols mnnz ment mcap concat app length].
    split; [lia|]. split; [lia|]. split; [intros [|[|j]] Hj; [reflexivity|reflexivity|lia]|]. split; [reflexivity|]. split; [exists []; reflexivity|]. split; [lia|].
    constructor; [|constructor]. cbn. lia. }
  assert (Hf : mat_is_finite small_mat = Ok true) by reflexivity.
  destruct (problem_create small_func (mkvec 1 0 []) (mkvec 1 1 [(0, f64_of_Z 4)]) (mkvec 1 0 []) (mkvec 1 1 [(0, B754_infinity false : f64)]) small_mat
         (mkvec 1 0 []) (mkvec 1 1 [(0, f64_of_Z 100)]) (f64_of_Z 0)) as [p|c|] eqn:E.
  - exists p. split.
    + apply (reach_create _ small_func (mkvec 1 0 []) (mkvec 1 1 [(0, f64_of_Z 4)]) (mkvec 1 0 []) (mkvec 1 1 [(0, B754_infinity false : f64)]) small_mat
         (mkvec 1 0 []) (mkvec 1 1 [(0, f64_of_Z 100)]) (f64_of_Z 0)); auto; try reflexivity; try (cbn; lia).
    + assert (H : match problem_create small_func (mkvec 1 0 []) (mkvec 1 1 [(0, f64_of_Z 4)]) (mkvec 1 0 []) (mkvec 1 1 [(0, B754_infinity false : f64)]) small_mat
         (mkvec 1 0 []) (mkvec 1 1 [(0, f64_of_Z 100)]) (f64_of_Z 0) with Ok p => (uf_nc (p_func p) =? 1) && (p_nl p =? 1) | _ => false end = true) by (vm_compute; reflexivity).
      rewrite E in H. apply andb_true_iff in H. destruct H as [H1 H2]. apply Z.eqb_eq in H1, H2. auto.
  - exfalso. assert (H : is_ok (problem_create small_func (mkvec 1 0 []) (mkvec 1 1 [(0, f64_of_Z 4)]) (mkvec 1 0 []) (mkvec 1 1 [(0, B754_infinity false : f64)]) small_mat
         (mkvec 1 0 []) (mkvec 1 1 [(0, f64_of_Z 100)]) (f64_of_Z 0)) = true) by (vm_compute; reflexivity). rewrite E in H. discriminate.
  - exfalso. assert (H : is_ok (problem_create small_func (mkvec 1 0 []) (mkvec 1 1 [(0, f64_of_Z 4)]) (mkvec 1 0 []) (mkvec 1 1 [(0, B754_infinity false : f64)]) small_mat
         (mkvec 1 0 []) (mkvec 1 1 [(0, f64_of_Z 100)]) (f64_of_Z 0)) = true) by (vm_compute; reflexivity). rewrite E in H. discriminate.
Qed.
