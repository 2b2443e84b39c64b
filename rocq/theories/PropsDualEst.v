(** C61, C62: the augmented system without constraints and the estimation of multipliers. *)
From Coq Require Import Reals Lra.
From Flocq Require Import BinarySingleNaN.
From Verif Require Import Base Num Cmp Sparse Vec VecFacts Order VecFacts2 RSum VecReal Mat MatFacts MatFacts2 Arr
  WorkingSet WorkingSetFacts Cauchy CauchyFacts DualEst DualEstFacts PropsVec PropsCauchy.
Local Open Scope Z_scope.

(** ** C61: systems with the rows of the working set, over the reals *)
Section C61.
Local Open Scope R_scope.

(** The matrix of the working set has the unit vectors of the active variables as its rows:
    its product with [x], and the product of its transpose with [y]. *)
Definition row_is (w : wset) (x : Z -> R) (k : Z) (v : R) : Prop :=
  forall j, ws_content w k = Ok j -> x j = v.
Definition solves (w : wset) (x b : Z -> R) : Prop := forall k, (0 <= k < ws_size w)%Z -> row_is w x k (b k).
Definition transposed (w : wset) (y : Z -> R) (j : Z) : R :=
  match ws_var_index w j with Ok k => if (k =? none)%Z then 0 else y k | _ => 0 end.
Definition dist2 (n : Z) (x y : Z -> R) : R := sumd n (fun j => (x j - y j) * (x j - y j)).

Lemma content_var w k j : consistent w -> wnc w = 0%Z -> (0 <= k < ws_size w)%Z -> ws_content w k = Ok j ->
  (0 <= j < wnv w)%Z /\ vix w j = k.
Proof.
  intros C Hc Hk E. pose proof (cont_ok w C k Hk) as E'. rewrite E in E'. injection E' as ->.
  destruct (cont_cases w C k Hk) as [[H1 H2]|[H1 _]]; [|lia]. split; [exact H1|]. apply (vix_cont_id w C k Hk). lia.
Qed.

(** The solution of smallest norm. *)
Theorem C61_min_norm : forall w (rhs sol : rvec), consistent w -> in_order w -> wnc w = 0%Z ->
  wf rhs -> vdim rhs = ws_size w -> wf sol -> vdim sol = wnv w ->
  exists x, box_min_norm (wnv w) w rhs sol = Ok x /\ wf x /\ vdim x = wnv w
    /\ solves w (dense x) (dense rhs)
    /\ forall x', solves w x' (dense rhs) -> dist2 (wnv w) (dense x) (fun _ => 0) <= dist2 (wnv w) x' (fun _ => 0).
Proof.
  intros w rhs sol C I Hc Hr Dr Hs Ds.
  destruct (box_min_norm_spec w rhs sol C I Hc Hr Dr Hs Ds) as (x & E & W & D & G).
  assert (HS : solves w (dense x) (dense rhs)).
  { intros k Hk j Ej. destruct (content_var w k j C Hc Hk Ej) as [Hj Ei]. unfold dense. rewrite (G j Hj), Ei.
    unfold none. destruct (Z.eqb_spec k (-1)); [lia|reflexivity]. }
  exists x. split; [exact E|]. split; [exact W|]. split; [exact D|]. split; [exact HS|].
  intros x' Hx'. unfold dist2. apply sumd_le. intros j Hj.
  destruct (Z.eq_dec (vix w j) none) as [En|En].
  - assert (dense x j = 0) as ->.
    { unfold dense. rewrite (G j Hj), En, Z.eqb_refl. cbn [oval]. apply rn_n0. }
    pose proof (Rle_0_sqr (x' j - 0)). unfold Rsqr in H. lra.
  - destruct (vix_cont w C j Hj En) as [R1 R2].
    assert (Ec : ws_content w (vix w j) = Ok j) by (rewrite (cont_ok w C _ R1), R2; reflexivity).
    rewrite (Hx' _ R1 j Ec), (HS _ R1 j Ec). apply Rle_refl.
Qed.

(** The least squares multipliers. *)
Theorem C61_lsq : forall w (rhs sol : rvec), consistent w -> in_order w -> wnc w = 0%Z ->
  wf rhs -> vdim rhs = wnv w -> wf sol -> vdim sol = ws_size w ->
  exists y, box_lsq (wnv w) w rhs sol = Ok y /\ wf y /\ vdim y = ws_size w
    /\ forall y', dist2 (wnv w) (transposed w (dense y)) (dense rhs) <= dist2 (wnv w) (transposed w y') (dense rhs).
Proof.
  intros w rhs sol C I Hc Hr Dr Hs Ds.
  destruct (box_lsq_spec w rhs sol C I Hc Hr Dr Hs Ds) as (y & E & W & D & G).
  exists y. split; [exact E|]. split; [exact W|]. split; [exact D|].
  intros y'. unfold dist2. apply sumd_le. intros j Hj. unfold transposed. rewrite (proj1 (vix_ok w C j Hj)).
  destruct (Z.eqb_spec (vix w j) none) as [En|En]; [apply Rle_refl|].
  destruct (vix_cont w C j Hj En) as [R1 R2].
  assert (dense y (vix w j) = dense rhs j) as -> by (unfold dense; rewrite (G _ R1), R2; reflexivity).
  pose proof (Rle_0_sqr (y' (vix w j) - dense rhs j)). unfold Rsqr in H. rnum. lra.
Qed.

(** The projection onto the null space. *)
Theorem C61_project : forall w (rhs sol : rvec), consistent w -> wnc w = 0%Z ->
  wf rhs -> vdim rhs = wnv w -> wf sol -> vdim sol = wnv w ->
  exists x, box_project (wnv w) w rhs sol = Ok x /\ wf x /\ vdim x = wnv w
    /\ solves w (dense x) (fun _ => 0)
    /\ forall z, solves w z (fun _ => 0) -> dist2 (wnv w) (dense x) (dense rhs) <= dist2 (wnv w) z (dense rhs).
Proof.
  intros w rhs sol C Hc Hr Dr Hs Ds.
  destruct (box_project_spec w rhs sol C Hr Dr Hs Ds) as (x & E & W & D & G).
  assert (HS : solves w (dense x) (fun _ => 0)).
  { intros k Hk j Ej. destruct (content_var w k j C Hc Hk Ej) as [Hj Ei]. unfold dense. rewrite (G j Hj), Ei.
    unfold none. destruct (Z.eqb_spec k (-1)); [lia|apply rn_n0]. }
  exists x. split; [exact E|]. split; [exact W|]. split; [exact D|]. split; [exact HS|].
  intros z Hz. unfold dist2. apply sumd_le. intros j Hj.
  destruct (Z.eq_dec (vix w j) none) as [En|En].
  - assert (dense x j = dense rhs j) as -> by (unfold dense; rewrite (G j Hj), En, Z.eqb_refl; reflexivity).
    pose proof (Rle_0_sqr (z j - dense rhs j)). unfold Rsqr in H. rnum. lra.
  - destruct (vix_cont w C j Hj En) as [R1 R2].
    assert (Ec : ws_content w (vix w j) = Ok j) by (rewrite (cont_ok w C _ R1), R2; reflexivity).
    rewrite (Hz _ R1 j Ec), (HS _ R1 j Ec). apply Rle_refl.
Qed.

(** Without bounds the working set is empty and the three solutions are zero, empty and the
    right-hand side. *)
Theorem C61_unconstrained : forall w (rhs sol : rvec), consistent w -> ws_size w = 0%Z ->
  unc_set_iterate w = Ok tt
  /\ (wf rhs -> vdim rhs = 0%Z -> wf sol -> vdim sol = wnv w -> exists x, unc_min_norm (wnv w) w rhs sol = Ok x /\ wf x /\ vdim x = wnv w
        /\ solves w (dense x) (dense rhs) /\ forall j, dense x j = 0)
  /\ (wf rhs -> vdim rhs = wnv w -> wf sol -> vdim sol = 0%Z -> exists y, unc_lsq (wnv w) w rhs sol = Ok y /\ wf y /\ vdim y = 0%Z
        /\ forall y', dist2 (wnv w) (transposed w (dense y)) (dense rhs) <= dist2 (wnv w) (transposed w y') (dense rhs))
  /\ (wf rhs -> vdim rhs = wnv w -> wf sol -> vdim sol = wnv w -> exists x, unc_project (wnv w) w rhs sol = Ok x /\ wf x /\ vdim x = wnv w
        /\ forall j, dense x j = dense rhs j).
Proof.
  intros w rhs sol C Hz. split; [unfold unc_set_iterate; now rewrite Hz|]. split; [|split].
  - intros Hr Dr Hs Ds. unfold unc_min_norm. rewrite Ds, Dr, Hz, !Z.eqb_refl. cbn [check rbind].
    exists (vec_clear sol). split; [reflexivity|]. split; [|split; [exact Ds|split]].
    + destruct Hs as (A & B & D). unfold wf, vec_clear, vnnz in *. cbn [vdim vcap vent length keys map sorted_in]. repeat split; auto; lia.
    + intros k Hk. lia.
    + intros j. unfold dense, vec_clear. cbn [vent get oval]. apply rn_n0.
  - intros Hr Dr Hs Ds. unfold unc_lsq. rewrite Dr, Ds, Hz, !Z.eqb_refl. cbn [check rbind].
    exists sol. split; [reflexivity|]. split; [exact Hs|]. split; [exact Ds|]. intros y'.
    unfold dist2. apply sumd_le. intros j Hj. unfold transposed. rewrite (proj1 (vix_ok w C j Hj)).
    destruct (Z.eqb_spec (vix w j) none) as [En|En]; [apply Rle_refl|]. destruct (vix_cont w C j Hj En). lia.
  - intros Hr Dr Hs Ds. unfold unc_project. rewrite Dr, Ds, !Z.eqb_refl. cbn [check rbind].
    destruct (vec_copy_spec rhs sol Hr Hs ltac:(congruence)) as (t & E & W & D & V). exists t. split; [exact E|]. split; [exact W|].
    split; [congruence|]. intros j. unfold dense. now rewrite V.
Qed.
End C61.
Print Assumptions C61_min_norm.
Print Assumptions C61_lsq.
Print Assumptions C61_project.
Print Assumptions C61_unconstrained.

(** The order of the working set matters: for variables added in another order two of the three
    functions fail an assertion. *)
Theorem C61_order_refuted : exists w (rhs : @vec F64), consistent w /\ wnc w = 0 /\ wf rhs /\ vdim rhs = ws_size w /\ vdim rhs = wnv w
  /\ box_min_norm (wnv w) w rhs (mkvec 2 0 []) = Trap /\ box_lsq (wnv w) w rhs (mkvec 2 0 []) = Trap.
Proof.
  assert (H0 : holds (ws_create 2 0) [] []) by (apply create_holds; lia).
  destruct (add_var_holds _ _ _ 1 ActLower H0) as (w1 & E1 & H1 & _); [cbn; lia|reflexivity|cbn; tauto|discriminate|].
  assert (Nv : wnv w1 = 2) by (vm_compute in E1; injection E1 as <-; reflexivity).
  destruct (add_var_holds _ _ _ 0 ActUpper H1) as (w2 & E2 & H2 & _); [lia|reflexivity|cbn; lia|discriminate|].
  exists w2, (ve 2 [(0, 1); (1, 1)]). split; [eapply holds_consistent; eassumption|].
  vm_compute in E1. injection E1 as <-. vm_compute in E2. injection E2 as <-.
  split; [reflexivity|]. split; [unfold wf; cbn; lia|]. split; [reflexivity|]. split; [reflexivity|].
  assert (T : forall r : res (@vec F64), match r with Trap => true | _ => false end = true -> r = Trap) by (intros []; congruence || reflexivity).
  split; apply T; vm_compute; reflexivity.
Qed.
Print Assumptions C61_order_refuted.

(** Example: three variables, the first and the last at a bound. *)
Definition ex_w : wset := match (w <- ws_add_var (ws_create 3 0) 0 ActLower ;; ws_add_var w 2 ActUpper) with Ok w => w | _ => ws_create 0 0 end.
Lemma ex_w_ok : consistent ex_w /\ in_order ex_w /\ wnc ex_w = 0 /\ wnv ex_w = 3 /\ ws_size ex_w = 2.
Proof.
  assert (H0 : holds (ws_create 3 0) [] []) by (apply create_holds; lia).
  destruct (add_var_holds _ _ _ 0 ActLower H0) as (w1 & E1 & H1 & _); [cbn; lia|reflexivity|cbn; tauto|discriminate|].
  assert (Nv : wnv w1 = 3) by (vm_compute in E1; injection E1 as <-; reflexivity).
  destruct (add_var_holds _ _ _ 2 ActUpper H1) as (w2 & E2 & H2 & _); [lia|reflexivity|cbn; lia|discriminate|].
  assert (E : ex_w = w2) by (unfold ex_w; rewrite E1; cbn [rbind]; now rewrite E2). rewrite E.
  split; [eapply holds_consistent; eassumption|].
  vm_compute in E1. injection E1 as <-. vm_compute in E2. injection E2 as <-. clear.
  split; [|repeat split]. intros k l a b Hk Hl. cbn in Hl. assert (k = 0) as -> by lia. assert (l = 1) as -> by lia.
  vm_compute. intros [= <-] [= <-]. reflexivity.
Qed.
Example C61_example :
  match box_min_norm 3 ex_w (ve 2 [(0, 4); (1, 6)]) (mkvec 3 0 []), box_lsq 3 ex_w (ve 3 [(0, 4); (1, 5); (2, 6)]) (mkvec 2 0 []),
        box_project 3 ex_w (ve 3 [(0, 4); (1, 5); (2, 6)]) (mkvec 3 0 []) with
  | Ok x, Ok y, Ok p => show x = show (ve 3 [(0, 4); (2, 6)]) /\ show y = show (ve 2 [(0, 4); (1, 6)]) /\ show p = show (ve 3 [(1, 5)])
  | _, _, _ => False
  end.
Proof. vm_compute. repeat split. Qed.
Example C61_unconstrained_example : consistent (ws_create 3 0) /\ ws_size (ws_create 3 0) = 0
  /\ match unc_project 3 (ws_create 3 0) (ve 3 [(0, 4); (2, 6)]) (mkvec 3 0 []) with Ok x => show x = show (ve 3 [(0, 4); (2, 6)]) | _ => False end.
Proof.
  split; [eapply holds_consistent, create_holds; lia|]. split; [reflexivity|]. vm_compute. reflexivity.
Qed.

(** ** C62: multipliers *)
Section C62.
Context {N : Num} {O : Ord N}.

(** Signs that multipliers may have. *)
Definition right_sign (s : ast) (v : num) : bool :=
  match s with ActUpper => (n0 <? v)%num | ActLower => (v <? n0)%num | ActBoth => true | Inactive => false end.
Definition wrong_sign (s : ast) (v : num) : bool :=
  match s with ActUpper => (v <? n0)%num | ActLower => (n0 <? v)%num | _ => false end.
(** The multiplier of an item of state [s] at position [k] of the working set, from the least
    squares solution [y]; the number of multipliers of the wrong sign. *)
Definition clipped (y : vec) (s : ast) (k : Z) : option num :=
  match get (vent y) k with Some v => if right_sign s v then Some v else None | None => None end.
Definition num_wrong (y : vec) (st : Z -> res ast) (ix : Z -> res Z) (n : Z) : Z :=
  len (filter (fun j => match st j, ix j with
                        | Ok s, Ok k => match get (vent y) k with Some v => wrong_sign s v | None => false end
                        | _, _ => false end) (zrange n)).

Lemma right_not_wrong s v : negb (kept s v) && dropped s v = wrong_sign s v.
Proof.
  destruct s; cbn; try reflexivity.
  - destruct (n0 <? v)%num eqn:E; [|now rewrite andb_false_r]. destruct (v <? n0)%num eqn:E2; [|reflexivity].
    destruct (nn_dec v) as [Hv|Hv]; [|destruct (nan_ltb v n0 Hv); congruence].
    apply ltb_iff in E; [|apply nn_0|exact Hv]. apply ltb_iff in E2; [|exact Hv|apply nn_0]. lra.
  - destruct (v <? n0)%num eqn:E; [|now rewrite andb_false_r]. destruct (n0 <? v)%num eqn:E2; [|reflexivity].
    destruct (nn_dec v) as [Hv|Hv]; [|destruct (nan_ltb v n0 Hv); congruence].
    apply ltb_iff in E; [|exact Hv|apply nn_0]. apply ltb_iff in E2; [|apply nn_0|exact Hv]. lra.
Qed.
Lemma right_supports s v : right_sign s v = true -> state_supports s v = true.
Proof.
  pose proof (right_not_wrong s v) as H. destruct s; cbn in *; intros E; try discriminate; try reflexivity.
  - rewrite E in H. cbn in H. now rewrite <- H.
  - rewrite E in H. cbn in H. now rewrite <- H.
Qed.

(** For all working sets listed in order, gradients and solvers of the least squares problem: no
    assertion fails, each multiplier is the one of the least squares solution if it has the right
    sign and is left out otherwise, all wrong ones are counted, and the result is supported by the
    working set. *)
Theorem C62_least_squares : forall w lsq grad neg_grad sol cons_dual vars_dual,
  consistent w -> in_order w ->
  wf grad -> vdim grad = wnv w -> wf neg_grad -> vdim neg_grad = wnv w -> wf sol ->
  wf cons_dual -> vdim cons_dual = wnc w -> wf vars_dual -> vdim vars_dual = wnv w ->
  len (wvst w) = wnv w -> len (wcst w) = wnc w ->
  forall neg y, vec_copy grad neg_grad = Ok neg ->
  (forall s, wf s -> vdim s = ws_size w -> lsq (vec_scale neg (nlit (-1) 1)) s = Ok y) -> wf y -> vdim y = ws_size w ->
  exists e, est_lsq (wnv w) w lsq grad neg_grad sol cons_dual vars_dual = Ok e
    /\ (forall j s k, 0 <= j < wnv w -> ws_var_state w j = Ok s -> ws_var_index w j = Ok k -> get (vent (e_vars e)) j = clipped y s k)
    /\ (forall i s k, 0 <= i < wnc w -> ws_cons_state w i = Ok s -> ws_cons_index w i = Ok k -> get (vent (e_cons e)) i = clipped y s k)
    /\ e_cvars e = num_wrong y (ws_var_state w) (ws_var_index w) (wnv w)
    /\ e_ccons e = num_wrong y (ws_cons_state w) (ws_cons_index w) (wnc w)
    /\ supports_vars_dual w (e_vars e) = Ok true /\ supports_cons_dual w (e_cons e) = Ok true
    /\ wf (e_vars e) /\ wf (e_cons e).
Proof.
  intros w lsq grad neg_grad sol cons_dual vars_dual C I Hg Dg Hn Dn Hs Hc Dc Hv Dv Lv Lc neg y Hneg Hl Hy Dy.
  destruct (est_lsq_spec w C I lsq grad neg_grad sol cons_dual vars_dual y neg Hg Dg Hn Dn Hs Hc Dc Hv Dv
              (fun s H1 H2 _ => Hl s H1 H2) Hneg Hy Dy) as (e & E & (W1 & D1) & (W2 & D2) & G1 & G2 & N1 & N2).
  exists e. split; [exact E|].
  assert (Q1 : forall j s k, 0 <= j < wnv w -> ws_var_state w j = Ok s -> ws_var_index w j = Ok k -> get (vent (e_vars e)) j = clipped y s k).
  { intros j s k Hj Es Ek. rewrite (G1 j Hj). unfold vix, vstate. rewrite Es, Ek. reflexivity. }
  assert (Q2 : forall i s k, 0 <= i < wnc w -> ws_cons_state w i = Ok s -> ws_cons_index w i = Ok k -> get (vent (e_cons e)) i = clipped y s k).
  { intros j s k Hj Es Ek. rewrite (G2 j Hj). unfold cix, cstate. rewrite Es, Ek. reflexivity. }
  split; [exact Q1|]. split; [exact Q2|]. split; [|split; [|split; [|split; [|split; assumption]]]].
  - rewrite N1. unfold num_wrong. do 2 f_equal. apply filter_ext_in. intros j Hj. apply zrange_In in Hj.
    destruct (vix_ok w C j Hj) as (E1 & E2 & _). rewrite E1, E2. unfold wrong_at. destruct (get (vent y) (vix w j)); [|reflexivity]. apply right_not_wrong.
  - rewrite N2. unfold num_wrong. do 2 f_equal. apply filter_ext_in. intros j Hj. apply zrange_In in Hj.
    destruct (cix_ok w C j Hj) as (E1 & E2 & _). rewrite E1, E2. unfold wrong_at. destruct (get (vent y) (cix w j)); [|reflexivity]. apply right_not_wrong.
  - unfold supports_vars_dual. rewrite D1, Z.eqb_refl. cbn [check rbind].
    destruct (supports_range_spec (e_vars e) (wvst w) W1 ltac:(congruence)) as (r & Er & Hr). rewrite Er. f_equal. apply Hr.
    intros j x Hx. assert (Hj : 0 <= j < wnv w).
    { apply get_Some_In, (in_map fst) in Hx. destruct W1 as (_ & Ws & _). apply (sorted_in_In _ _ _ _ Ws) in Hx. cbn in Hx. lia. }
    destruct (vix_ok w C j Hj) as (E1 & E2 & _). rewrite (Q1 j _ _ Hj E2 E1) in Hx. unfold clipped in Hx.
    destruct (get (vent y) (vix w j)) as [v|]; [|discriminate]. destruct (right_sign (vstate w j) v) eqn:Es; [|discriminate]. injection Hx as ->.
    exists (vstate w j). split; [|now apply right_supports]. unfold ws_var_state in E2. apply rbind_ok in E2. destruct E2 as (? & _ & E2).
    apply arr_get_nth in E2; [exact E2|lia].
  - unfold supports_cons_dual. rewrite D2, Z.eqb_refl. cbn [check rbind].
    destruct (supports_range_spec (e_cons e) (wcst w) W2 ltac:(congruence)) as (r & Er & Hr). rewrite Er. f_equal. apply Hr.
    intros j x Hx. assert (Hj : 0 <= j < wnc w).
    { apply get_Some_In, (in_map fst) in Hx. destruct W2 as (_ & Ws & _). apply (sorted_in_In _ _ _ _ Ws) in Hx. cbn in Hx. lia. }
    destruct (cix_ok w C j Hj) as (E1 & E2 & _). rewrite (Q2 j _ _ Hj E2 E1) in Hx. unfold clipped in Hx.
    destruct (get (vent y) (cix w j)) as [v|]; [|discriminate]. destruct (right_sign (cstate w j) v) eqn:Es; [|discriminate]. injection Hx as ->.
    exists (cstate w j). split; [|now apply right_supports]. unfold ws_cons_state in E2. apply rbind_ok in E2. destruct E2 as (? & _ & E2).
    apply arr_get_nth in E2; [exact E2|lia].
Qed.
End C62.
Print Assumptions C62_least_squares.

Section C62m.
Context {N : Num} {O : Ord N}.

Lemma supported_active w d j x : consistent w -> wf d -> supports_vars_dual w d = Ok true -> no_zeros (vent d) ->
  get (vent d) j = Some x -> 0 <= j < wnv w /\ vix w j <> none.
Proof.
  intros C W S Z G. unfold supports_vars_dual in S. destruct (Z.eqb_spec (vdim d) (wnv w)) as [D|]; [|discriminate]. cbn [check rbind] in S.
  assert (Hj : 0 <= j < wnv w).
  { pose proof G as G'. apply get_Some_In, (in_map fst) in G'. destruct W as (_ & Ws & _). apply (sorted_in_In _ _ _ _ Ws) in G'. cbn in G'. lia. }
  split; [exact Hj|]. destruct (vix_ok w C j Hj) as (E1 & E2 & E3). intros En. apply E3 in En. rewrite En in E2.
  unfold ws_var_state in E2. apply rbind_ok in E2. destruct E2 as (? & _ & E2).
  unfold supports_range in S.
  assert (Hall : forall es b, rfold (fun (ok : bool) e => if ok then s <- arr_get (wvst w) (fst e) ;; Ok (state_supports s (snd e)) else Ok false) b es = Ok true ->
     b = true /\ forall i v, In (i, v) es -> exists s, arr_get (wvst w) i = Ok s /\ state_supports s v = true).
  { clear. induction es as [|[i v] es IH]; intros b; cbn [rfold].
    - intros [= ->]. split; [reflexivity|]. intros i v [].
    - destruct b; cbn [rbind].
      + destruct (arr_get (wvst w) (fst (i, v))) as [s| |] eqn:E; cbn [rbind fst snd] in *; try discriminate. intros H. apply IH in H.
        destruct H as [H1 H2]. split; [reflexivity|]. intros i' v' [[= <- <-]|Hin]; [exists s; auto|auto].
      + intros H. apply IH in H. destruct H; discriminate. }
  apply Hall in S. destruct S as [_ S]. destruct (S j x (get_Some_In _ _ _ G)) as (s & Es & Hs). rewrite E2 in Es. injection Es as <-.
  cbn in Hs. rewrite (Z j x (get_Some_In _ _ _ G)) in Hs. discriminate.
Qed.
Lemma supported_active_c w d j x : consistent w -> wf d -> supports_cons_dual w d = Ok true -> no_zeros (vent d) ->
  get (vent d) j = Some x -> 0 <= j < wnc w /\ cix w j <> none.
Proof.
  intros C W S Z G. unfold supports_cons_dual in S. destruct (Z.eqb_spec (vdim d) (wnc w)) as [D|]; [|discriminate]. cbn [check rbind] in S.
  assert (Hj : 0 <= j < wnc w).
  { pose proof G as G'. apply get_Some_In, (in_map fst) in G'. destruct W as (_ & Ws & _). apply (sorted_in_In _ _ _ _ Ws) in G'. cbn in G'. lia. }
  split; [exact Hj|]. destruct (cix_ok w C j Hj) as (E1 & E2 & E3). intros En. apply E3 in En. rewrite En in E2.
  unfold ws_cons_state in E2. apply rbind_ok in E2. destruct E2 as (? & _ & E2).
  unfold supports_range in S.
  assert (Hall : forall es b, rfold (fun (ok : bool) e => if ok then s <- arr_get (wcst w) (fst e) ;; Ok (state_supports s (snd e)) else Ok false) b es = Ok true ->
     b = true /\ forall i v, In (i, v) es -> exists s, arr_get (wcst w) i = Ok s /\ state_supports s v = true).
  { clear. induction es as [|[i v] es IH]; intros b; cbn [rfold].
    - intros [= ->]. split; [reflexivity|]. intros i v [].
    - destruct b; cbn [rbind].
      + destruct (arr_get (wcst w) (fst (i, v))) as [s| |] eqn:E; cbn [rbind fst snd] in *; try discriminate. intros H. apply IH in H.
        destruct H as [H1 H2]. split; [reflexivity|]. intros i' v' [[= <- <-]|Hin]; [exists s; auto|auto].
      + intros H. apply IH in H. destruct H; discriminate. }
  apply Hall in S. destruct S as [_ S]. destruct (S j x (get_Some_In _ _ _ G)) as (s & Es & Hs). rewrite E2 in Es. injection Es as <-.
  cbn in Hs. rewrite (Z j x (get_Some_In _ _ _ G)) in Hs. discriminate.
Qed.

Lemma range_supported (d a b : vec) st : wf d -> wf a -> wf b -> len st = vdim d -> vdim a = vdim d -> vdim b = vdim d ->
  supports_range a st = Ok true -> supports_range b st = Ok true ->
  (forall j, get (vent d) j = get (vent a) j \/ get (vent d) j = get (vent b) j) -> supports_range d st = Ok true.
Proof.
  intros Wd Wa Wb L Da Db Sa Sb H.
  destruct (supports_range_spec d st Wd L) as (r & E & Hr). rewrite E. f_equal. apply Hr.
  destruct (supports_range_spec a st Wa ltac:(congruence)) as (ra & Ea & Ha). rewrite Sa in Ea. injection Ea as <-.
  destruct (supports_range_spec b st Wb ltac:(congruence)) as (rb & Eb & Hb). rewrite Sb in Eb. injection Eb as <-.
  intros j x Hx. destruct (H j) as [G|G]; rewrite G in Hx; [exact (proj1 Ha eq_refl j x Hx)|exact (proj1 Hb eq_refl j x Hx)].
Qed.

(** Multipliers that may be handed to the merge. *)
Definition vars_ok (w : wset) (d : vec) : Prop := wf d /\ supports_vars_dual w d = Ok true /\ no_zeros (vent d).
Definition cons_ok (w : wset) (d : vec) : Prop := wf d /\ supports_cons_dual w d = Ok true /\ no_zeros (vent d).
(** Least squares multipliers first, those of the linear program where there are none. *)
Definition prefer (a b : option num) : option num := match a with Some x => Some x | None => b end.

Lemma mixed_vars w a b d clip : consistent w -> len (wvst w) = wnv w -> vars_ok w a -> (clip = true -> vars_ok w b) -> wf d -> vdim d = wnv w ->
  exists r, copy_or_merge clip (wnav w) a b d = Ok r /\ wf r /\ supports_vars_dual w r = Ok true
    /\ forall j, get (vent r) j = if clip then prefer (get (vent a) j) (get (vent b) j) else get (vent a) j.
Proof.
  intros C L (Wa & Sa & Za) Hb Wd Dd. unfold copy_or_merge.
  assert (Da : vdim a = wnv w) by (unfold supports_vars_dual in Sa; destruct (Z.eqb_spec (vdim a) (wnv w)); [assumption|discriminate]).
  assert (Ra : supports_range a (wvst w) = Ok true) by (unfold supports_vars_dual in Sa; rewrite Da, Z.eqb_refl in Sa; exact Sa).
  destruct clip; cbn [negb].
  - destruct (Hb eq_refl) as (Wb & Sb & Zb).
    assert (Db : vdim b = wnv w) by (unfold supports_vars_dual in Sb; destruct (Z.eqb_spec (vdim b) (wnv w)); [assumption|discriminate]).
    assert (Rb : supports_range b (wvst w) = Ok true) by (unfold supports_vars_dual in Sb; rewrite Db, Z.eqb_refl in Sb; exact Sb).
    destruct (dual_merge_spec a b d (wnav w) Wa Wb Wd ltac:(congruence) ltac:(congruence) Za Zb) as (r & E & Wr & Dr & G).
    + destruct (cs_bound w C). lia.
    + intros l Hl Hin. apply (active_vars_bound w C l Hl). intros j Hj. destruct (Hin j Hj) as [H|H].
      * destruct (get (vent a) j) as [x|] eqn:E; [|congruence]. exact (supported_active w a j x C Wa Sa Za E).
      * destruct (get (vent b) j) as [x|] eqn:E; [|congruence]. exact (supported_active w b j x C Wb Sb Zb E).
    + exists r. split; [exact E|]. split; [exact Wr|]. split; [|exact G].
      unfold supports_vars_dual. rewrite Dr, Dd, Z.eqb_refl. cbn [check rbind].
      apply (range_supported r a b); auto; try congruence. intros j. rewrite G. destruct (get (vent a) j); auto.
  - destruct (vec_copy_spec a d Wa Wd ltac:(congruence)) as (r & E & Wr & Dr & G). exists r. split; [exact E|]. split; [exact Wr|].
    split; [|intros j; now rewrite G]. unfold supports_vars_dual. rewrite Dr, Da, Z.eqb_refl. cbn [check rbind].
    unfold supports_range. rewrite G. exact Ra.
Qed.
Lemma mixed_cons w a b d clip : consistent w -> len (wcst w) = wnc w -> cons_ok w a -> (clip = true -> cons_ok w b) -> wf d -> vdim d = wnc w ->
  exists r, copy_or_merge clip (wnac w) a b d = Ok r /\ wf r /\ supports_cons_dual w r = Ok true
    /\ forall j, get (vent r) j = if clip then prefer (get (vent a) j) (get (vent b) j) else get (vent a) j.
Proof.
  intros C L (Wa & Sa & Za) Hb Wd Dd. unfold copy_or_merge.
  assert (Da : vdim a = wnc w) by (unfold supports_cons_dual in Sa; destruct (Z.eqb_spec (vdim a) (wnc w)); [assumption|discriminate]).
  assert (Ra : supports_range a (wcst w) = Ok true) by (unfold supports_cons_dual in Sa; rewrite Da, Z.eqb_refl in Sa; exact Sa).
  destruct clip; cbn [negb].
  - destruct (Hb eq_refl) as (Wb & Sb & Zb).
    assert (Db : vdim b = wnc w) by (unfold supports_cons_dual in Sb; destruct (Z.eqb_spec (vdim b) (wnc w)); [assumption|discriminate]).
    assert (Rb : supports_range b (wcst w) = Ok true) by (unfold supports_cons_dual in Sb; rewrite Db, Z.eqb_refl in Sb; exact Sb).
    destruct (dual_merge_spec a b d (wnac w) Wa Wb Wd ltac:(congruence) ltac:(congruence) Za Zb) as (r & E & Wr & Dr & G).
    + destruct (cs_bound w C). lia.
    + intros l Hl Hin. apply (active_cons_bound w C l Hl). intros j Hj. destruct (Hin j Hj) as [H|H].
      * destruct (get (vent a) j) as [x|] eqn:E; [|congruence]. exact (supported_active_c w a j x C Wa Sa Za E).
      * destruct (get (vent b) j) as [x|] eqn:E; [|congruence]. exact (supported_active_c w b j x C Wb Sb Zb E).
    + exists r. split; [exact E|]. split; [exact Wr|]. split; [|exact G].
      unfold supports_cons_dual. rewrite Dr, Dd, Z.eqb_refl. cbn [check rbind].
      apply (range_supported r a b); auto; try congruence. intros j. rewrite G. destruct (get (vent a) j); auto.
  - destruct (vec_copy_spec a d Wa Wd ltac:(congruence)) as (r & E & Wr & Dr & G). exists r. split; [exact E|]. split; [exact Wr|].
    split; [|intros j; now rewrite G]. unfold supports_cons_dual. rewrite Dr, Da, Z.eqb_refl. cbn [check rbind].
    unfold supports_range. rewrite G. exact Ra.
Qed.

(** For all working sets and multipliers supported by them and without stored zeros: no assertion
    fails, the multipliers of the linear program are asked for exactly if something was clipped,
    they fill the gaps of the least squares multipliers in the block (variables or constraints)
    where something was clipped, and the result is supported by the working set. *)
Theorem C62_mixed_partial : forall w e lp old_cons old_vars cons_dual vars_dual,
  consistent w -> len (wvst w) = wnv w -> len (wcst w) = wnc w ->
  vars_ok w (e_vars e) -> cons_ok w (e_cons e) ->
  wf cons_dual -> vdim cons_dual = wnc w -> wf vars_dual -> vdim vars_dual = wnv w ->
  (0 < e_ccons e \/ 0 < e_cvars e -> exists dc dv, lp old_cons old_vars = Ok (dc, dv) /\ cons_ok w dc /\ vars_ok w dv) ->
  exists c v, est_mixed w (Ok e) lp old_cons old_vars cons_dual vars_dual = Ok (c, v)
    /\ supports_cons_dual w c = Ok true /\ supports_vars_dual w v = Ok true
    /\ (e_cvars e <= 0 -> forall j, get (vent v) j = get (vent (e_vars e)) j)
    /\ (e_ccons e <= 0 -> forall i, get (vent c) i = get (vent (e_cons e)) i)
    /\ (forall dc dv, lp old_cons old_vars = Ok (dc, dv) ->
          (0 < e_cvars e -> forall j, get (vent v) j = prefer (get (vent (e_vars e)) j) (get (vent dv) j))
          /\ (0 < e_ccons e -> forall i, get (vent c) i = prefer (get (vent (e_cons e)) i) (get (vent dc) i))).
Proof.
  intros w e lp oc ov cd vd C Lv Lc Hv Hc Wc Dc Wv Dv Hlp. unfold est_mixed. cbn [rbind].
  assert (Hd : exists dc dv, (if (0 <? e_ccons e) || (0 <? e_cvars e) then lp oc ov else Ok (oc, ov)) = Ok (dc, dv)
      /\ ((0 <? e_ccons e) = true -> cons_ok w dc) /\ ((0 <? e_cvars e) = true -> vars_ok w dv)
      /\ (0 < e_ccons e \/ 0 < e_cvars e -> lp oc ov = Ok (dc, dv))).
  { destruct ((0 <? e_ccons e) || (0 <? e_cvars e)) eqn:E.
    - apply orb_true_iff in E. rewrite !Z.ltb_lt in E. destruct (Hlp E) as (dc & dv & E1 & H1 & H2). exists dc, dv. auto.
    - apply orb_false_iff in E. destruct E as [E1 E2]. exists oc, ov. split; [reflexivity|]. rewrite E1, E2. split; [discriminate|]. split; [discriminate|].
      apply Z.ltb_ge in E1, E2. intros [|]; lia. }
  destruct Hd as (dc & dv & Ed & H1 & H2 & H3). rewrite Ed. cbn [rbind fst snd].
  destruct (mixed_vars w (e_vars e) dv vd (0 <? e_cvars e) C Lv Hv H2 Wv Dv) as (v & Ev & W1 & S1 & G1). rewrite Ev. cbn [rbind].
  destruct (mixed_cons w (e_cons e) dc cd (0 <? e_ccons e) C Lc Hc H1 Wc Dc) as (c & Ec & W2 & S2 & G2). rewrite Ec. cbn [rbind].
  exists c, v. split; [reflexivity|]. split; [exact S2|]. split; [exact S1|]. split; [|split].
  - intros H j. rewrite G1, (proj2 (Z.ltb_ge _ _) H). reflexivity.
  - intros H j. rewrite G2, (proj2 (Z.ltb_ge _ _) H). reflexivity.
  - intros dc' dv' E. split; intros H j.
    + rewrite (H3 (or_intror H)) in E. injection E as -> ->. rewrite G1, (proj2 (Z.ltb_lt _ _) H). reflexivity.
    + rewrite (H3 (or_introl H)) in E. injection E as -> ->. rewrite G2, (proj2 (Z.ltb_lt _ _) H). reflexivity.
Qed.
End C62m.
Print Assumptions C62_mixed_partial.

(** Working sets filled in increasing order are listed in order. *)
Lemma sorted_nth lo hi l : sorted_in lo hi l -> forall a b x y, (a < b)%nat -> nth_error l a = Some x -> nth_error l b = Some y -> x < y.
Proof.
  revert lo. induction l as [|z l IH]; intros lo Hs a b x y Hab Ha Hb; [destruct a; discriminate|].
  cbn [sorted_in] in Hs. destruct Hs as [Hz Hs]. destruct b as [|b]; [lia|]. cbn [nth_error] in Hb. destruct a as [|a].
  - cbn in Ha. injection Ha as ->. apply nth_error_In in Hb. apply (sorted_in_In _ _ _ _ Hs) in Hb. lia.
  - cbn in Ha. apply (IH _ Hs a b); auto. lia.
Qed.
Lemma sorted_map_add d lo hi l : sorted_in lo hi l -> sorted_in (d + lo) (d + hi) (map (Z.add d) l).
Proof.
  revert lo. induction l as [|z l IH]; intros lo Hs; [exact I|]. cbn [sorted_in map] in *. destruct Hs as [Hz Hs].
  split; [lia|]. replace (d + z + 1) with (d + (z + 1)) by lia. now apply IH.
Qed.
Lemma sorted_cat2 lo mid hi l1 l2 : lo <= mid <= hi -> sorted_in lo mid l1 -> sorted_in mid hi l2 -> sorted_in lo hi (l1 ++ l2).
Proof.
  revert lo. induction l1 as [|z l IH]; intros lo Hm H1 H2; cbn [app].
  - apply (sorted_in_weaken mid lo hi hi); auto; lia.
  - cbn [sorted_in] in *. destruct H1 as [Hz H1]. split; [lia|]. apply IH; auto. lia.
Qed.
Lemma holds_in_order w vs cs : holds w vs cs -> sorted_in 0 (wnv w) (keys vs) -> sorted_in 0 (wnc w) (keys cs) -> in_order w.
Proof.
  intros H Sv Sc k l a b Hk Hl Ea Eb.
  assert (Hs : sorted_in 0 (wnv w + wnc w) (items (wnv w) vs cs)).
  { unfold items. apply (sorted_cat2 0 (wnv w)).
    - pose proof (h_nv _ _ _ H). pose proof (h_nc _ _ _ H). lia.
    - exact Sv.
    - replace (wnv w) with (wnv w + 0) at 1 by lia. now apply sorted_map_add. }
  assert (Hlen : len (items (wnv w) vs cs) = ws_size w) by (rewrite items_len; unfold ws_size; rewrite (h_nav _ _ _ H), (h_nac _ _ _ H); lia).
  assert (Hn : forall k, 0 <= k < ws_size w -> exists x, nth_error (items (wnv w) vs cs) (Z.to_nat k) = Some x).
  { intros k' Hk'. destruct (nth_error (items (wnv w) vs cs) (Z.to_nat k')) as [x|] eqn:E; [eauto|].
    apply nth_error_None in E. lia. }
  destruct (Hn k) as (x & Ex); [lia|]. destruct (Hn l) as (y & Ey); [lia|].
  rewrite (content_at w vs cs k x H) in Ea by (lia || exact Ex). injection Ea as <-.
  rewrite (content_at w vs cs l y H) in Eb by (lia || exact Ey). injection Eb as <-.
  apply (sorted_nth _ _ _ Hs (Z.to_nat k) (Z.to_nat l)); auto. lia.
Qed.

(** With only bounds on the variables nothing is ever clipped: for all histories of calls, the
    multipliers estimated by least squares for the working set of the step, the multipliers of the
    step and the mixed estimate (whatever the linear program returns) are the negative gradient on
    the working set and zero elsewhere. *)
Theorem C62_box : forall nv (lb ub : rvec) (eps : R) st fixed h it (r : R),
  (0 <= nv)%Z -> wf lb -> vdim lb = nv -> wf ub -> vdim ub = nv ->
  length st = Z.to_nat nv -> length fixed = Z.to_nat nv ->
  calls_ok nv lb ub false h -> current (None, @n0 RN) h = (Some it, r) ->
  exists c, (c0 <- cb_create nv 0 lb ub eps st fixed ;; rfold cb_exec (c0, None) (h ++ [OSolve])) = Ok (c, Some it)
  /\ forall w vs cs (neg_grad sol cons_dual vars_dual : rvec), holds w vs cs -> wnv w = nv -> wnc w = 0%Z ->
     wf neg_grad -> vdim neg_grad = nv -> wf sol -> wf cons_dual -> vdim cons_dual = 0%Z -> wf vars_dual -> vdim vars_dual = nv ->
     exists w' e, cb_working_set c w = Ok w'
       /\ est_lsq nv w' (box_lsq nv w') (ci_grad it) neg_grad sol cons_dual vars_dual = Ok e
       /\ e_cvars e = 0%Z /\ e_ccons e = 0%Z
       /\ (forall j, (0 <= j < nv)%Z -> exists s, ws_var_state w' j = Ok s
             /\ dense (e_vars e) j = if active s then (- dense (ci_grad it) j)%R else 0%R)
       /\ (exists z, cb_estimate_duals c vars_dual = Ok z /\ forall j, (0 <= j < nv)%Z -> dense z j = dense (e_vars e) j)
       /\ forall lp oc ov, exists y z, est_mixed w' (Ok e) lp oc ov cons_dual vars_dual = Ok (y, z)
             /\ forall j, (0 <= j < nv)%Z -> dense z j = dense (e_vars e) j.
Proof.
  intros nv lb ub eps st fixed h it r Hn Hl El Hu Eu Hst Hfx Hh Hc.
  destruct (cb_final nv lb ub eps st fixed h it r Hn Hl El Hu Eu Hst Hfx Hh Hc)
    as (c & ld & ud & E & Hit & Hr & (t1 & T1 & C1) & (t2 & T2 & C2) & Hcn & Hfin). cbv zeta in Hfin.
  destruct Hfin as (_ & _ & _ & Wz & Dz & Gz & Hs & _).
  destruct Hit as (_ & _ & X3 & X4 & _).
  exists c. split; [exact E|]. intros w vs cs neg_grad sol cons_dual vars_dual Hw Ew Ec Hng Dng Hsol Hcd Dcd Hvd Dvd.
  destruct (cb_working_set_spec c w vs cs _ Hw ltac:(congruence) ltac:(rewrite Hcn; exact Hs)) as (w' & Ew' & E1 & E2 & H').
  rewrite Hcn in H'. set (S := fun j => @state_at RN r (dense ld j) (dense ud j) (dense (ci_grad it) j)
      (@is_finite RN (dense lb j) && @is_finite RN (dense ub j) && @neqb RN (dense lb j) (dense ub j))) in *.
  rewrite Ew in E1. rewrite Ec in E2.
  pose proof (holds_consistent _ _ _ H') as Cw.
  assert (Iw : in_order w').
  { apply (holds_in_order _ _ _ H'); [|exact I]. rewrite E1. unfold keys. rewrite map_map. cbn [fst]. rewrite map_id. apply sorted_filter, zrange_sorted. }
  assert (Sj : forall j, (0 <= j < nv)%Z -> ws_var_state w' j = Ok (S j)).
  { intros j Hj. unfold ws_var_state. rewrite E1. destruct (Z.ltb_spec j nv); [|lia]. cbn [check rbind].
    pose proof (h_vst _ _ _ H') as Hv. rewrite E1 in Hv. rewrite (arr_get_arr _ _ _ _ Hv Hj). unfold stf.
    rewrite (get_map_filter_any _ _ 0 nv) by apply zrange_sorted.
    replace (existsb (Z.eqb j) (zrange nv)) with true by (symmetry; apply existsb_In, zrange_In; lia). cbn [andb].
    assert (Hs' : forall s, Ok (match (if active s then Some s else None) with Some s => s | None => Inactive end) = Ok s) by (intros []; reflexivity).
    apply Hs'. }
  destruct (vec_copy_spec (ci_grad it) neg_grad X3 Hng ltac:(congruence)) as (neg & En & Wn & Dn & Vn).
  destruct (vec_scale_spec neg (nlit (-1) 1) Wn) as (Ws & Ds & Gs).
  assert (Em : @neqb RN (nlit (-1) 1) n0 = false) by (apply rn_eqb_false; rewrite rn_n0, rn_lit1; rnum; lra).
  assert (Em1 : @neqb RN (nlit (-1) 1) n1 = false) by (apply rn_eqb_false; rewrite rn_n1, rn_lit1; rnum; lra).
  rewrite Em, Em1 in Gs.
  assert (Hbl : forall s, wf s -> vdim s = ws_size w' -> exists y, box_lsq nv w' (vec_scale neg (nlit (-1) 1)) s = Ok y /\ wf y /\ vdim y = ws_size w'
     /\ forall k, (0 <= k < ws_size w')%Z -> get (vent y) k = get (vent (vec_scale neg (nlit (-1) 1))) (cont w' k)).
  { intros s W D. pose proof (box_lsq_spec w' (vec_scale neg (nlit (-1) 1)) s Cw Iw E2 Ws ltac:(congruence) W D) as HH. rewrite E1 in HH. exact HH. }
  destruct (cs_bound w' Cw) as [B1 B2].
  destruct (vec_resize_spec sol (ws_size w') Hsol) as (s1 & Es & Ws1 & Ds1 & _); [unfold ws_size; lia|].
  destruct (Hbl s1 Ws1 Ds1) as (y & Ey & Wy & Dy & Gy).
  (* the solution computed does not depend on the memory it is written to *)
  pose (lsq := fun (_ s : rvec) => @Ok (@vec RN) y).
  assert (Esame : est_lsq nv w' (box_lsq nv w') (ci_grad it) neg_grad sol cons_dual vars_dual
                = est_lsq nv w' lsq (ci_grad it) neg_grad sol cons_dual vars_dual).
  { unfold est_lsq. rewrite Es. cbn [rbind]. rewrite En. cbn [rbind]. rewrite Ey. reflexivity. }
  assert (E0 : wnv w' = nv) by exact E1. rewrite <- E0 in Hn, Hh, Hcn, Dz, Gz, Hs, Sj, X4, Dng, Dvd |- *. rewrite <- E0 in Esame.
  assert (Dcd' : vdim cons_dual = wnc w') by congruence.
  destruct (C62_least_squares w' lsq (ci_grad it) neg_grad sol cons_dual vars_dual Cw Iw X3 X4 Hng Dng Hsol Hcd Dcd' Hvd Dvd
     ltac:(pose proof (proj1 (h_vst _ _ _ H')); lia) ltac:(pose proof (proj1 (h_cst _ _ _ H')); lia) neg y En ltac:(reflexivity) Wy Dy)
    as (e & Ee & Q1 & Q2 & N1 & N2 & S1 & S2 & We & Wc).
  exists w', e. split; [exact Ew'|]. split; [now rewrite Esame|].
  assert (HY : forall j, (0 <= j < wnv w')%Z -> exists k, ws_var_index w' j = Ok k /\
             get (vent y) k = if active (S j) then option_map (fun x => @nmul RN x (nlit (-1) 1)) (get (vent (ci_grad it)) j) else None).
  { intros j Hj. destruct (vix_ok w' Cw j Hj) as (I1 & I2 & I3). exists (vix w' j). split; [exact I1|].
    rewrite (Sj j Hj) in I2. injection I2 as I2. rewrite <- I2 in I3. destruct (active (S j)) eqn:Ea.
    - assert (Hne : vix w' j <> none) by (intros Hx; apply I3 in Hx; apply active_iff in Ea; congruence).
      destruct (vix_cont w' Cw j Hj Hne) as [R1 R2]. rewrite (Gy _ R1), R2, Gs, Vn. reflexivity.
    - assert (Hx : vix w' j = none) by (apply I3; destruct (S j); [reflexivity| | |]; discriminate).
      rewrite Hx. apply get_out; [exact Wy|]. unfold none. lia. }
  assert (HG : forall j v, (0 <= j < wnv w')%Z -> active (S j) = true -> get (vent (ci_grad it)) j = Some v -> wrong_sign (S j) (@nmul RN v (nlit (-1) 1)) = false
                /\ (right_sign (S j) (@nmul RN v (nlit (-1) 1)) = false -> v = 0%R)).
  { intros j v Hj Ha Hv. assert (Hd : dense (ci_grad it) j = v) by (unfold dense; rewrite Hv; reflexivity).
    unfold S, state_at, act_at in Ha |- *. rewrite Hd in Ha |- *. rewrite rn_lit1. cbn [nmul nopp RN] in Ha |- *.
    rewrite rn_n0 in Ha |- *.
    destruct (@nleb RN 0%R (- v)%R) eqn:Eg; [apply rn_leb in Eg|apply rn_leb_false in Eg].
    - match goal with |- context [negb ?b] => destruct b end; cbn [negb] in Ha |- *; [discriminate Ha|].
      match goal with |- context [if ?b then ActBoth else _] => destruct b end; cbn [wrong_sign right_sign]; [split; [reflexivity|discriminate]|].
      rewrite rn_n0. split; [apply rn_ltb_false; lra|]. intros H. apply rn_ltb_false in H. lra.
    - match goal with |- context [negb ?b] => destruct b end; cbn [negb] in Ha |- *; [discriminate Ha|].
      match goal with |- context [if ?b then ActBoth else _] => destruct b end; cbn [wrong_sign right_sign]; [split; [reflexivity|discriminate]|].
      rewrite rn_n0. split; [apply rn_ltb_false; lra|]. intros H. apply rn_ltb_false in H. lra. }
  assert (HV : forall j, (0 <= j < wnv w')%Z -> dense (e_vars e) j = if active (S j) then (- dense (ci_grad it) j)%R else 0%R).
  { intros j Hj. destruct (HY j Hj) as (k & I1 & I2). assert (Hd : dense (e_vars e) j = oval (get (vent (e_vars e)) j)) by reflexivity.
    rewrite Hd, (Q1 j (S j) k Hj (Sj j Hj) I1). unfold clipped. rewrite I2. destruct (active (S j)) eqn:Ea; [|cbn [oval]; apply rn_n0].
    assert (Hg : dense (ci_grad it) j = oval (get (vent (ci_grad it)) j)) by reflexivity. rewrite Hg.
    destruct (get (vent (ci_grad it)) j) as [v|] eqn:Ev; cbn [option_map oval].
    - destruct (HG j v Hj Ea Ev) as [_ G2]. destruct (right_sign (S j) _) eqn:Er.
      + cbn [oval]. rewrite rn_lit1. cbn [nmul RN]. lra.
      + specialize (G2 eq_refl). subst v. cbn [oval]. rewrite rn_n0. rnum. lra.
    - rewrite rn_n0. rnum. lra. }
  assert (HN : e_cvars e = 0%Z).
  { rewrite N1. unfold num_wrong. rewrite (filter_ext_in _ (fun _ => false)); [now induction (zrange (wnv w'))|].
    intros j Hj. apply zrange_In in Hj. rewrite (Sj j Hj). destruct (HY j Hj) as (k & I1 & I2). rewrite I1, I2.
    destruct (active (S j)) eqn:Ea; [|reflexivity]. destruct (get (vent (ci_grad it)) j) as [v|] eqn:Ev; [|reflexivity].
    cbn [option_map]. apply (HG j v Hj Ea Ev). }
  assert (HC : e_ccons e = 0%Z) by (rewrite N2, E2; reflexivity).
  split; [exact HN|]. split; [exact HC|]. split; [intros j Hj; exists (S j); split; [apply Sj, Hj|apply HV, Hj]|]. split.
  - destruct (vec_copy_spec (cb_duals c) vars_dual Wz Hvd ltac:(congruence)) as (z & Ez & Hz & Ddz & Gdz). exists z. split; [exact Ez|].
    intros j Hj. rewrite (HV j Hj). assert (Hd : dense z j = oval (get (vent z) j)) by reflexivity.
    rewrite Hd, Gdz, Gz. destruct (Z.leb_spec 0 j); [|lia]. destruct (Z.ltb_spec j (wnv w')); [|lia]. cbn [andb].
    assert (HA : @act_at RN r (dense ld j) (dense ud j) (dense (ci_grad it) j) = active (S j)).
    { unfold S, state_at. destruct (@act_at RN _ _ _ _); [|reflexivity].
      match goal with |- context [if ?b then ActBoth else _] => destruct b end; [reflexivity|].
      match goal with |- context [if ?b then ActUpper else _] => destruct b end; reflexivity. }
    rewrite HA. destruct (active (S j)); cbn [oval]; [reflexivity|apply rn_n0].
  - intros lp oc ov. unfold est_mixed. cbn [rbind]. rewrite HN, HC. cbn [Z.ltb Z.compare orb rbind]. unfold copy_or_merge. cbn [negb fst snd].
    assert (Dev : vdim (e_vars e) = wnv w').
    { unfold supports_vars_dual in S1. destruct (Z.eqb_spec (vdim (e_vars e)) (wnv w')); [assumption|discriminate]. }
    assert (Dec : vdim (e_cons e) = wnc w').
    { unfold supports_cons_dual in S2. destruct (Z.eqb_spec (vdim (e_cons e)) (wnc w')); [assumption|discriminate]. }
    destruct (vec_copy_spec (e_vars e) vars_dual We Hvd ltac:(congruence)) as (z & Ez & _ & _ & Gz'). rewrite Ez. cbn [rbind].
    destruct (vec_copy_spec (e_cons e) cons_dual Wc Hcd ltac:(congruence)) as (z2 & Ez2 & _). rewrite Ez2. cbn [rbind].
    exists z2, z. split; [reflexivity|]. intros j Hj. unfold dense. now rewrite Gz'.
Qed.
Print Assumptions C62_box.

(** Stored zeros: the multiplier of a fixed variable is kept whatever its value; if it is a stored
    zero and another multiplier was clipped, an assertion of the merge fails. *)
Theorem C62_stored_zero_refuted : exists w (y : @vec F64) e lp,
  consistent w /\ in_order w /\ wf y /\ vdim y = ws_size w
  /\ est_lsq (wnv w) w (fun _ _ => Ok y) (mkvec 2 0 []) (mkvec 2 0 []) (mkvec 0 0 []) (mkvec 0 0 []) (mkvec 2 0 []) = Ok e
  /\ vars_ok w (snd lp) /\ cons_ok w (fst lp)
  /\ est_mixed w (Ok e) (fun _ _ => Ok lp) (mkvec 0 0 []) (mkvec 2 0 []) (mkvec 0 0 []) (mkvec 2 0 []) = Trap.
Proof.
  assert (H0 : holds (ws_create 2 0) [] []) by (apply create_holds; lia).
  destruct (add_var_holds _ _ _ 0 ActBoth H0) as (w1 & E1 & H1 & _); [cbn; lia|reflexivity|cbn; tauto|discriminate|].
  assert (Nv : wnv w1 = 2) by (vm_compute in E1; injection E1 as <-; reflexivity).
  destruct (add_var_holds _ _ _ 1 ActUpper H1) as (w2 & E2 & H2 & _); [lia|reflexivity|cbn; lia|discriminate|].
  pose proof (holds_consistent _ _ _ H2) as C.
  vm_compute in E1. injection E1 as <-. vm_compute in E2. injection E2 as <-.
  match type of C with consistent ?x => pose (w := x) end.
  pose (y := ve 2 [(0, 0); (1, -3)]). pose (lp := (mkvec 0 0 [], ve 2 [(0, 4); (1, 5)]) : @vec F64 * @vec F64).
  destruct (est_lsq (wnv w) w (fun _ _ => Ok y) (mkvec 2 0 []) (mkvec 2 0 []) (mkvec 0 0 []) (mkvec 0 0 []) (mkvec 2 0 [])) as [e| |] eqn:Ee.
  - exists w, y, e, lp. split; [exact C|]. split.
    { apply (holds_in_order w _ _ H2); cbn; lia. }
    split; [unfold wf; cbn; lia|]. split; [reflexivity|]. split; [exact Ee|].
    assert (B : forall r : res bool, match r with Ok b => b | _ => false end = true -> r = Ok true) by (intros [[]| |]; try discriminate; reflexivity).
    assert (T : forall r : res (@vec F64 * @vec F64), match r with Trap => true | _ => false end = true -> r = Trap) by (intros []; congruence || reflexivity).
    split; [|split].
    + split; [unfold wf; cbn; lia|]. split; [apply B; vm_compute; reflexivity|].
      intros i x [[= <- <-]|[[= <- <-]|[]]]; vm_compute; reflexivity.
    + split; [unfold wf; cbn; lia|]. split; [apply B; vm_compute; reflexivity|]. intros i x [].
    + apply T. rewrite <- Ee. vm_compute. reflexivity.
  - exfalso. assert (H : match est_lsq (wnv w) w (fun _ _ => Ok y) (mkvec 2 0 []) (mkvec 2 0 []) (mkvec 0 0 []) (mkvec 0 0 []) (mkvec 2 0 []) with Ok _ => true | _ => false end = true)
      by (vm_compute; reflexivity). rewrite Ee in H. discriminate.
  - exfalso. assert (H : match est_lsq (wnv w) w (fun _ _ => Ok y) (mkvec 2 0 []) (mkvec 2 0 []) (mkvec 0 0 []) (mkvec 0 0 []) (mkvec 2 0 []) with Ok _ => true | _ => false end = true)
      by (vm_compute; reflexivity). rewrite Ee in H. discriminate.
Qed.
Print Assumptions C62_stored_zero_refuted.

(** Example: two variables and a constraint are active, the multiplier of the second variable has
    the wrong sign and is replaced by the one of the linear program. *)
Definition ex_w3 : wset := match (w <- ws_add_var (ws_create 3 1) 0 ActLower ;; w <- ws_add_var w 2 ActUpper ;; ws_add_cons w 0 ActBoth) with Ok w => w | _ => ws_create 0 0 end.
Definition ex_y : @vec F64 := ve 3 [(0, -1); (1, -2); (2, 5)].
Definition ex_est := est_lsq 3 ex_w3 (fun _ _ => Ok ex_y) (mkvec 3 0 []) (mkvec 3 0 []) (mkvec 0 0 []) (mkvec 1 0 []) (mkvec 3 0 []).
Example C62_example_hyps : consistent ex_w3 /\ in_order ex_w3 /\ wf ex_y /\ vdim ex_y = ws_size ex_w3 /\ wnv ex_w3 = 3 /\ wnc ex_w3 = 1.
Proof.
  assert (H0 : holds (ws_create 3 1) [] []) by (apply create_holds; lia).
  destruct (add_var_holds _ _ _ 0 ActLower H0) as (w1 & E1 & H1 & _); [cbn; lia|reflexivity|cbn; tauto|discriminate|].
  assert (Nv : wnv w1 = 3 /\ wnc w1 = 1) by (vm_compute in E1; injection E1 as <-; split; reflexivity).
  destruct (add_var_holds _ _ _ 2 ActUpper H1) as (w2 & E2 & H2 & V2 & C2); [lia|reflexivity|cbn; lia|discriminate|].
  destruct (add_cons_holds _ _ _ 0 ActBoth H2) as (w3 & E3 & H3 & V3 & C3); [lia|cbn; tauto|discriminate|].
  assert (E : ex_w3 = w3) by (unfold ex_w3; rewrite E1; cbn [rbind]; rewrite E2; cbn [rbind]; now rewrite E3). rewrite E.
  split; [eapply holds_consistent; eassumption|]. split; [eapply holds_in_order; [eassumption| |]; cbn; lia|].
  split; [unfold wf; cbn; lia|]. split; [|split; lia]. rewrite <- E. vm_compute. reflexivity.
Qed.
Example C62_example :
  match ex_est with
  | Ok e => show (e_vars e) = show (ve 3 [(0, -1)]) /\ show (e_cons e) = show (ve 1 [(0, 5)]) /\ e_cvars e = 1 /\ e_ccons e = 0
    /\ match est_mixed ex_w3 ex_est (fun _ _ => Ok (ve 1 [(0, 2)], ve 3 [(0, -7); (2, 3)])) (mkvec 1 0 []) (mkvec 3 0 []) (mkvec 1 0 []) (mkvec 3 0 []) with
       | Ok (c, v) => show c = show (ve 1 [(0, 5)]) /\ show v = show (ve 3 [(0, -1); (2, 3)])
       | _ => False
       end
  | _ => False
  end.
Proof. vm_compute. repeat split. Qed.
