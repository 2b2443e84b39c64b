(** Evaluation of the model over exact arithmetic, for the examples. *)
From Coq Require Import Reals Lra.
From Flocq Require Import Core BinarySingleNaN.
From Verif Require Import Base Num Cmp Sparse Vec VecReal Mat PreprocReal.
Local Open Scope R_scope.

Lemma hi_big : 1000000 < hi.
Proof.
  pose proof rn_inf as H. unfold sleqp_infinity in H. rewrite rn_lit1 in H.
  assert (2000000 < IZR (10 ^ 100)) by (apply IZR_lt; reflexivity). rewrite H in H0. lra.
Qed.

Lemma ev_lt (x y : R) : x < y -> @is_lt RN x y 0 = true.
Proof.
  intros H. destruct (rel_diff_real x y) as (c & Hc & E). unfold is_lt. apply rn_ltb. cbn [nopp RN]. rewrite E, Ropp_0.
  unfold Rdiv. assert (0 < / c) by (apply Rinv_0_lt_compat; lra). nra.
Qed.
Lemma ev_lt_false (x y : R) : y <= x -> @is_lt RN x y 0 = false.
Proof. intros H. destruct (@is_lt RN x y 0) eqn:E; [|reflexivity]. apply rn_is_lt in E; lra. Qed.
Lemma ev_gt (x y : R) : y < x -> @is_gt RN x y 0 = true.
Proof.
  intros H. destruct (rel_diff_real x y) as (c & Hc & E). unfold is_gt. apply rn_ltb. rewrite E.
  unfold Rdiv. assert (0 < / c) by (apply Rinv_0_lt_compat; lra). nra.
Qed.
Lemma ev_gt_false (x y : R) : x <= y -> @is_gt RN x y 0 = false.
Proof. intros H. destruct (@is_gt RN x y 0) eqn:E; [|reflexivity]. apply rn_is_gt in E; lra. Qed.
Lemma ev_eq (x y : R) : x = y -> @is_eq RN x y 0 = true.
Proof.
  intros ->. destruct (rel_diff_real y y) as (c & Hc & E). unfold is_eq. apply rn_leb. rewrite rn_abs, E.
  replace ((y - y) / c) with 0 by (field; lra). rewrite Rabs_R0. lra.
Qed.
Lemma ev_eq_false (x y : R) : x <> y -> @is_eq RN x y 0 = false.
Proof. intros H. destruct (@is_eq RN x y 0) eqn:E; [|reflexivity]. apply rn_is_eq0 in E. tauto. Qed.
Lemma ev_zero_false (x : R) : x <> 0 -> @is_zero RN x 0 = false.
Proof. intros H. destruct (@is_zero RN x 0) eqn:E; [|reflexivity]. apply rn_is_zero0 in E. tauto. Qed.
Lemma ev_infinite_false (x : R) : x < hi -> @is_infinite RN x = false.
Proof. intros H. destruct (@is_infinite RN x) eqn:E; [|reflexivity]. apply rn_is_infinite in E. lra. Qed.

Lemma rbind_step {A B} (m : res A) (k : A -> res B) a r : m = Ok a -> k a = r -> rbind m k = r.
Proof. intros ->. exact (fun H => H). Qed.
Lemma rfold_step {A S} (f : S -> A -> res S) s a l s' r : f s a = Ok s' -> rfold f s' l = r -> rfold f s (a :: l) = r.
Proof. intros E H. cbn [rfold]. rewrite E. exact H. Qed.
Lemma if_step {A} (b c : bool) (x y r : A) : b = c -> (if c then x else y) = r -> (if b then x else y) = r.
Proof. now intros ->. Qed.

(** Computes everything except operations and comparisons of reals (and [merge_entries], which
    occurs in the closures of functions with fixed variables). *)
Ltac rcbv := cbv -[RN nltb nleb neqb is_finite is_infinite is_lt is_gt is_eq is_zero sleqp_infinity nadd nsub nmul ndiv nopp nlit nsqrt nisnan nisinf
   merge_entries Rplus Rmult Ropp Rminus Rdiv Rinv IZR hi].
Ltac slv := clear; pose proof hi_big; rewrite ?rn_inf; cbv [RN nadd nsub nmul ndiv nopp nlit rn_lit]; lra.
Ltac neq := first [apply Rlt_not_eq; slv | apply Rgt_not_eq; slv].

(** Decides one comparison of closed terms. *)
Ltac dec1 :=
  match goal with
  | |- context [@nltb RN ?a ?b] => first [rewrite (proj2 (rn_ltb a b)) by slv | rewrite (proj2 (rn_ltb_false a b)) by slv]
  | |- context [@nleb RN ?a ?b] => first [rewrite (proj2 (rn_leb a b)) by slv | rewrite (proj2 (rn_leb_false a b)) by slv]
  | |- context [@neqb RN ?a ?b] => first [rewrite (proj2 (rn_eqb a b)) by slv | rewrite (proj2 (rn_eqb_false a b)) by neq]
  | |- context [@is_finite RN ?a] =>
    first [rewrite (proj2 (rn_is_finite' a)) by (split; slv) | rewrite (proj2 (rn_not_finite a)) by (left; slv) | rewrite (proj2 (rn_not_finite a)) by (right; slv)]
  | |- context [@is_infinite RN ?a] => first [rewrite (proj2 (rn_is_infinite a)) by slv | rewrite (ev_infinite_false a) by slv]
  | |- context [@is_lt RN ?a ?b 0] => first [rewrite (ev_lt a b) by slv | rewrite (ev_lt_false a b) by slv]
  | |- context [@is_gt RN ?a ?b 0] => first [rewrite (ev_gt a b) by slv | rewrite (ev_gt_false a b) by slv]
  | |- context [@is_eq RN ?a ?b 0] => first [rewrite (ev_eq a b) by slv | rewrite (ev_eq_false a b) by neq]
  | |- context [@is_zero RN ?a 0] => first [rewrite (proj2 (rn_is_zero0 a)) by slv | rewrite (ev_zero_false a) by neq]
  | |- context [@nisnan RN ?a] => change (@nisnan RN a) with false
  | |- context [@nisinf RN ?a] => change (@nisinf RN a) with false
  end.
(** A term without long chains of comparisons. *)
Ltac leaf := rcbv; repeat (dec1; cbv iota beta); reflexivity.

(** Evaluates [t = ?r] bind by bind and loop by loop; [unf tt] unfolds the head of the functions that
    are not to be computed in one go. *)
Ltac ev unf :=
  lazymatch goal with
  | |- rbind ?m ?k = _ => eapply rbind_step; [ev unf | cbv beta; ev unf]
  | |- rfold ?f ?s ?l = _ =>
    let l' := eval cbv -[RN num nlit IZR] in l in change l with l';
    lazymatch l' with
    | nil => reflexivity
    | cons _ _ => eapply rfold_step; [cbv beta; ev unf | ev unf]
    end
  | |- (if ?b then _ else _) = _ => eapply if_step; [leaf | cbv iota; ev unf]
  | |- Ok _ = _ => leaf
  | |- _ => tryif (progress (unf tt)) then ev unf else leaf
  end.
