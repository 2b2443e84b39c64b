(** C60: the step of the linear model on boxes. *)
From Coq Require Import Reals Lra.
From Flocq Require Import BinarySingleNaN.
From Verif Require Import Base Num Cmp Sparse Vec VecFacts Order VecFacts2 RSum VecReal Mat MatFacts MatFacts2 Arr
  WorkingSet WorkingSetFacts Cauchy CauchyFacts PropsVec.
Local Open Scope Z_scope.

(** ** Specification *)

(** Histories of calls: the iterate and the radius in force. *)
Fixpoint current {N : Num} (cur : option citer * num) (h : list cop) : option citer * num :=
  match h with
  | [] => cur
  | OIter it r :: h => current (Some it, r) h
  | ORadius r :: h => current (fst cur, r) h
  | OSolve :: h => current cur h
  end.

(** Admissible calls: iterates within the bounds, nonnegative radii, steps only after an
    iterate was set. *)
Definition iter_ok {N : Num} (nv : Z) (lb ub : vec) (it : citer) : Prop :=
  wf (ci_x it) /\ vdim (ci_x it) = nv /\ wf (ci_grad it) /\ vdim (ci_grad it) = nv
  /\ forall j, 0 <= j < nv -> in_box_at (ci_x it) lb ub j.
Definition radius_ok {N : Num} (r : num) : Prop := (n0 <=? r)%num = true /\ (r =? nlit (-1) 1)%num = false.
Fixpoint calls_ok {N : Num} (nv : Z) (lb ub : vec) (started : bool) (h : list cop) : Prop :=
  match h with
  | [] => True
  | OIter it r :: h => iter_ok nv lb ub it /\ radius_ok r /\ calls_ok nv lb ub true h
  | ORadius r :: h => radius_ok r /\ calls_ok nv lb ub started h
  | OSolve :: h => started = true /\ calls_ok nv lb ub started h
  end.

(** ** Invariant *)
Section Hist.
Context {N : Num} {O : Ord N}.

Record cb_inv (nv : Z) (lb ub : vec) (eps : num) (s : cbox * option citer) (cur : option citer * num) : Prop := {
  v_nv : cb_nv (fst s) = nv; v_lb : cb_lb (fst s) = lb; v_ub : cb_ub (fst s) = ub; v_eps : cb_zero (fst s) = eps;
  v_dir : vdim (cb_dir (fst s)) = nv /\ nv <= vcap (cb_dir (fst s));
  v_duals : vdim (cb_duals (fst s)) = nv /\ nv <= vcap (cb_duals (fst s));
  v_st : length (cb_st (fst s)) = Z.to_nat nv;
  v_fixed : arr (cb_fixed (fst s)) nv (fun j => is_finite (dense lb j) && is_finite (dense ub j) && (dense lb j =? dense ub j)%num);
  v_ld : wf (cb_ld (fst s)); v_ud : wf (cb_ud (fst s));
  v_it : snd s = fst cur;
  v_rad : fst cur <> None -> cb_radius (fst s) = snd cur /\ radius_ok (snd cur);
  v_diff : match fst cur with
           | None => True
           | Some it => iter_ok nv lb ub it
             /\ (exists r, vec_add_scaled lb (ci_x it) n1 (nlit (-1) 1) eps r = Ok (cb_ld (fst s)) /\ 0 <= vcap r)
             /\ (exists r, vec_add_scaled ub (ci_x it) n1 (nlit (-1) 1) eps r = Ok (cb_ud (fst s)) /\ 0 <= vcap r)
           end }.

Lemma cb_create_inv nv lb ub eps st fixed : 0 <= nv -> wf lb -> vdim lb = nv -> wf ub -> vdim ub = nv ->
  length st = Z.to_nat nv -> length fixed = Z.to_nat nv -> forall r,
  exists c, cb_create nv 0 lb ub eps st fixed = Ok c /\ cb_inv nv lb ub eps (c, None) (None, r).
Proof.
  intros Hn Hl El Hu Eu Hs Hf r. unfold cb_create. cbn [Z.eqb check rbind].
  assert (HE : forall c, 0 <= c -> vec_create nv c = Ok (mkvec nv c [])).
  { intros c Hc. unfold vec_create. destruct (Z.leb_spec 0 nv); [|lia]. destruct (Z.leb_spec 0 c); [|lia]. reflexivity. }
  unfold vec_create_empty, vec_create_full. rewrite !HE by lia. cbn [rbind].
  destruct (fixed_vars_spec nv lb ub fixed Hl Hu Hn Hf) as (f & E & Hfx). rewrite E. cbn [rbind].
  eexists. split; [reflexivity|].
  split; cbn [fst snd cb_nv cb_lb cb_ub cb_zero cb_dir cb_duals cb_st cb_fixed cb_ld cb_ud vdim vcap]; auto; try lia;
    try (repeat split; cbn [vdim vent vcap keys map sorted_in length]; lia || exact I); try tauto.
Qed.

Lemma cb_exec_inv nv lb ub eps s cur o started : wf lb -> vdim lb = nv -> wf ub -> vdim ub = nv ->
  cb_inv nv lb ub eps s cur -> calls_ok nv lb ub started [o] -> (started = true -> fst cur <> None) ->
  exists s', cb_exec s o = Ok s' /\ cb_inv nv lb ub eps s' (current cur [o]).
Proof.
  intros Hl El Hu Eu HI Ho Hst. pose proof HI as [I1 I2 I3 I4 I5 I6 I7 I8 I9 I10 I11 I12 I13].
  destruct o as [it r|r|]; cbn [calls_ok current] in *.
  - destruct Ho as (Hit & Hr & _). pose proof Hit as (X1 & X2 & X3 & X4 & X5).
    unfold cb_exec, cb_set_iterate, compute_diffs.
    cbn [cb_set_radius cb_nv cb_lb cb_ub cb_zero cb_dir cb_duals cb_st cb_fixed cb_ld cb_ud cb_radius cb_obj]. rewrite I2, I3, I4.
    destruct (vec_is_boxed_spec (ci_x it) lb ub X1 Hl Hu) as (b & Eb & Hb); [congruence|congruence|].
    rewrite Eb. cbn [rbind]. assert (b = true) by (apply Hb; rewrite X2; exact X5). subst b. cbn [check rbind].
    assert (Hcl : 0 <= vcap (cb_ld (fst s))) by (destruct I9 as (? & ? & ?); lia).
    assert (Hcu : 0 <= vcap (cb_ud (fst s))) by (destruct I10 as (? & ? & ?); lia).
    destruct (vec_add_scaled_spec lb (ci_x it) n1 (nlit (-1) 1) eps (cb_ld (fst s)) Hl X1) as (ld & Ed & Hld & _ & _); [congruence|exact Hcl|].
    destruct (vec_add_scaled_spec ub (ci_x it) n1 (nlit (-1) 1) eps (cb_ud (fst s)) Hu X1) as (ud & Eu' & Hud & _ & _); [congruence|exact Hcu|].
    rewrite Ed. cbn [rbind]. rewrite Eu'. cbn [rbind]. eexists. split; [reflexivity|].
    split; cbn [fst snd cb_nv cb_lb cb_ub cb_zero cb_dir cb_duals cb_st cb_fixed cb_ld cb_ud cb_radius]; auto.
    split; [exact Hit|]. split; eauto.
  - destruct Ho as (Hr & _). unfold cb_exec. eexists. split; [reflexivity|].
    split; cbn [cb_set_radius fst snd cb_nv cb_lb cb_ub cb_zero cb_dir cb_duals cb_st cb_fixed cb_ld cb_ud cb_radius]; auto.
  - destruct Ho as (Hs & _). specialize (Hst Hs). destruct (I12 Hst) as [Er Hr]. unfold cb_exec. rewrite Er, (proj2 Hr). cbn [negb check rbind].
    rewrite I11. destruct (fst cur) as [it|] eqn:Ec; [|congruence]. destruct I13 as (Hit & D1 & D2).
    destruct (cb_solve_spec (fst s) it) as (c' & E & F1 & F2 & F3 & F4 & F5 & F6 & F7 & F8 & F9 & F10 & F11 & F12 & F13 & F14 & F15 & F16).
    { destruct Hit as (X1 & X2 & X3 & X4 & X5). split; rewrite ?I1; auto.
      - rewrite <- El. apply Hl.
      - destruct I8 as [Hlen _]. exact Hlen. }
    rewrite E. cbn [rbind]. eexists. split; [reflexivity|].
    split; cbn [fst snd]; try congruence; auto.
    + rewrite F9, F10, I1. split; [reflexivity|apply I5].
    + rewrite F12, F13, I1. split; [reflexivity|apply I6].
    + destruct F15 as [Hlen _]. now rewrite Hlen, I1.
    + intros _. rewrite F2. split; [exact Er|exact Hr].
    + rewrite Ec. rewrite F6, F7. auto.
Qed.

Lemma cb_run_inv nv lb ub eps : wf lb -> vdim lb = nv -> wf ub -> vdim ub = nv -> forall h s cur started,
  cb_inv nv lb ub eps s cur -> calls_ok nv lb ub started h -> (started = true -> fst cur <> None) ->
  exists s', rfold cb_exec s h = Ok s' /\ cb_inv nv lb ub eps s' (current cur h).
Proof.
  intros Hl El Hu Eu. induction h as [|o h IH]; intros s cur started HI Ho Hst.
  - exists s. split; [reflexivity|exact HI].
  - assert (Ho1 : calls_ok nv lb ub started [o]) by (destruct o; cbn [calls_ok] in *; tauto).
    destruct (cb_exec_inv nv lb ub eps s cur o started Hl El Hu Eu HI Ho1 Hst) as (s1 & E1 & H1).
    destruct (IH s1 (current cur [o]) (match o with OIter _ _ => true | _ => started end) H1) as (s' & E & H).
    + destruct o; cbn [calls_ok] in Ho; tauto.
    + destruct o; cbn [current fst] in *; auto; intros _; congruence.
    + exists s'. cbn [rfold]. rewrite E1. cbn [rbind]. split; [exact E|]. destruct o; exact H.
Qed.
End Hist.

Lemma get_map_filter_any {V} (P : Z -> bool) (g : Z -> V) lo hi idxs i :
  sorted_in lo hi idxs ->
  get (map (fun i => (i, g i)) (filter P idxs)) i = if existsb (Z.eqb i) idxs && P i then Some (g i) else None.
Proof.
  revert lo; induction idxs as [|j idxs IH]; simpl; intros lo H; [reflexivity|].
  destruct H as [Hj H]. specialize (IH _ H).
  destruct (Z.eqb_spec i j) as [->|Hne]; simpl.
  - destruct (P j) eqn:EP; simpl.
    + now rewrite Z.eqb_refl.
    + rewrite IH. now rewrite andb_false_r.
  - destruct (P j) eqn:EP; simpl.
    + destruct (Z.eqb_spec j i); [congruence|]. exact IH.
    + exact IH.
Qed.

Section Final.
Context {N : Num} {O : Ord N}.

Lemma cb_final nv lb ub eps st fixed h it r : 0 <= nv -> wf lb -> vdim lb = nv -> wf ub -> vdim ub = nv ->
  length st = Z.to_nat nv -> length fixed = Z.to_nat nv ->
  calls_ok nv lb ub false h -> current (None, n0) h = (Some it, r) ->
  exists c ld ud, (c0 <- cb_create nv 0 lb ub eps st fixed ;; rfold cb_exec (c0, None) (h ++ [OSolve])) = Ok (c, Some it)
    /\ iter_ok nv lb ub it /\ radius_ok r
    /\ (exists t, vec_add_scaled lb (ci_x it) n1 (nlit (-1) 1) eps t = Ok ld /\ 0 <= vcap t)
    /\ (exists t, vec_add_scaled ub (ci_x it) n1 (nlit (-1) 1) eps t = Ok ud /\ 0 <= vcap t)
    /\ cb_nv c = nv
    /\ let L := dense ld in let U := dense ud in let G := dense (ci_grad it) in
       let D := fun j => step_at r (L j) (U j) (G j) in
       let A := fun j => act_at r (L j) (U j) (G j) in
       let F := fun j => is_finite (dense lb j) && is_finite (dense ub j) && (dense lb j =? dense ub j)%num in
       wf (cb_dir c) /\ vdim (cb_dir c) = nv /\ (forall j, get (vent (cb_dir c)) j = if (0 <=? j) && (j <? nv) then Some (D j) else None)
       /\ wf (cb_duals c) /\ vdim (cb_duals c) = nv
       /\ (forall j, get (vent (cb_duals c)) j = if (0 <=? j) && (j <? nv) && A j then Some (nopp (G j)) else None)
       /\ arr (cb_st c) nv (fun j => state_at r (L j) (U j) (G j) (F j))
       /\ cb_obj c = fold_left (fun o j => nadd o (nmul (D j) (G j))) (zrange nv) (ci_obj it).
Proof.
  intros Hn Hl El Hu Eu Hs Hf Hh Hc.
  destruct (cb_create_inv nv lb ub eps st fixed Hn Hl El Hu Eu Hs Hf n0) as (c0 & E0 & H0). rewrite E0. cbn [rbind].
  destruct (cb_run_inv nv lb ub eps Hl El Hu Eu h (c0, None) (None, n0) false H0 Hh) as (s & E & HI); [discriminate|].
  rewrite rfold_app, E. cbn [rbind rfold]. rewrite Hc in HI. destruct HI as [I1 I2 I3 I4 I5 I6 I7 I8 I9 I10 I11 I12 I13].
  cbn [fst snd] in *. destruct (I12 ltac:(discriminate)) as [Er Hr]. destruct I13 as (Hit & D1 & D2).
  unfold cb_exec. rewrite Er, (proj2 Hr), I11. cbn [negb check rbind].
  destruct (cb_solve_spec (fst s) it) as (c & Es & F1 & F2 & F3 & F4 & F5 & F6 & F7 & F8 & F9 & F10 & F11 & F12 & F13 & F14 & F15 & F16).
  { destruct Hit as (X1 & X2 & X3 & X4 & X5). split; rewrite ?I1; auto. destruct I8 as [Hlen _]. exact Hlen. }
  rewrite Es. cbn [rbind]. exists c, (cb_ld (fst s)), (cb_ud (fst s)). split; [reflexivity|].
  split; [exact Hit|]. split; [exact Hr|]. split; [exact D1|]. split; [exact D2|]. split; [congruence|].
  cbv zeta. rewrite I1, Er in *.
  assert (Hin : forall j, existsb (Z.eqb j) (zrange nv) = (0 <=? j) && (j <? nv)).
  { intros j. apply Bool.eq_true_iff_eq. rewrite existsb_In, zrange_In, andb_true_iff, Z.leb_le, Z.ltb_lt. reflexivity. }
  assert (Hft : forall l : list Z, filter (fun _ => true) l = l) by (induction l as [|a l IH]; cbn [filter]; congruence).
  split.
  { split; [rewrite F9; exact Hn|]. rewrite F9, F10, F11. split.
    - rewrite <- (Hft (zrange nv)). apply sorted_map_pair, sorted_filter, zrange_sorted.
    - rewrite map_length, zrange_length. lia. }
  split; [exact F9|]. split.
  { intros j. rewrite F11, <- (Hft (zrange nv)), (get_map_filter _ _ 0 nv) by apply zrange_sorted. rewrite Hin, andb_true_r. reflexivity. }
  split.
  { split; [rewrite F12; exact Hn|]. rewrite F12, F13, F14. split.
    - apply sorted_map_pair, sorted_filter, zrange_sorted.
    - rewrite map_length. pose proof (filter_length_le (fun j => act_at r (dense (cb_ld (fst s)) j) (dense (cb_ud (fst s)) j) (dense (ci_grad it) j)) (zrange nv)) as H.
      rewrite zrange_length in H. lia. }
  split; [exact F12|]. split.
  { intros j. rewrite F14, (get_map_filter _ _ 0 nv) by apply zrange_sorted. rewrite Hin. reflexivity. }
  split; [|exact F16].
  eapply arr_ext; [exact F15|]. intros j Hj. cbv beta. f_equal. unfold cb_fix. destruct I8 as [Hlen Hnth].
  apply nth_error_nth. rewrite (Hnth j Hj). reflexivity.
Qed.

Lemma state_supported tr l u g fx : state_supports (state_at tr l u g fx) (nopp g) = true \/ state_at tr l u g fx = Inactive.
Proof.
  unfold state_at. destruct (act_at tr l u g); [left|now right]. destruct fx; [reflexivity|].
  destruct (n0 <=? nopp g)%num eqn:E; cbn [state_supports]; apply negb_true_iff.
  - destruct (leb_nn _ _ E) as [H1 H2]. apply leb_iff in E; auto. now apply ltb_false_iff.
  - destruct (nn_dec (nopp g)) as [H|H].
    + apply leb_false_iff in E; auto using nn_0. apply ltb_false_iff; auto using nn_0. lra.
    + apply (nan_ltb _ n0 H).
Qed.

(** *** C60: working set and multipliers *)

(** After every admissible history of calls that ends with a step, in any ordered arithmetic (NaN
    included): the working set that is handed out is consistent, and the multipliers handed out are the
    components of the negative gradient at the active variables, with the signs the working set
    demands. *)
Theorem C60_working_set : forall nv lb ub eps st fixed h it r,
  0 <= nv -> wf lb -> vdim lb = nv -> wf ub -> vdim ub = nv ->
  length st = Z.to_nat nv -> length fixed = Z.to_nat nv ->
  calls_ok nv lb ub false h -> current (None, n0) h = (Some it, r) ->
  exists c, (c0 <- cb_create nv 0 lb ub eps st fixed ;; rfold cb_exec (c0, None) (h ++ [OSolve])) = Ok (c, Some it)
  /\ forall w vs cs z, holds w vs cs -> wnv w = nv -> wnc w = 0 -> wf z -> vdim z = nv ->
     exists w' z', cb_working_set c w = Ok w' /\ consistent w' /\ ws_valid w' = Ok true
       /\ cb_estimate_duals c z = Ok z' /\ wf z' /\ vdim z' = nv
       /\ supports_vars_dual w' z' = Ok true
       /\ forall j, 0 <= j < nv -> exists s, ws_var_state w' j = Ok s
          /\ get (vent z') j = (if active s then Some (nopp (dense (ci_grad it) j)) else None).
Proof.
  intros nv lb ub eps st fixed h it r Hn Hl El Hu Eu Hs Hf Hh Hc.
  destruct (cb_final nv lb ub eps st fixed h it r Hn Hl El Hu Eu Hs Hf Hh Hc)
    as (c & ld & ud & E & Hit & Hr & _ & _ & Hcn & Hfin). cbv zeta in Hfin.
  destruct Hfin as (_ & _ & _ & Wm & Dm & Gm & Hst & _).
  exists c. split; [exact E|]. intros w vs cs z Hw Ew Ec Hz Dz.
  destruct (cb_working_set_spec c w vs cs _ Hw ltac:(congruence) ltac:(rewrite Hcn; exact Hst)) as (w' & Ew' & E1 & E2 & H').
  destruct (vec_copy_spec (cb_duals c) z Wm Hz ltac:(congruence)) as (z' & Ez & Wz & Dz' & Gz).
  exists w', z'. split; [exact Ew'|]. split; [eapply holds_consistent; exact H'|]. split.
  { eapply holds_valid; [exact H'|]. unfold ws_size. pose proof (h_nav _ _ _ H') as A1. pose proof (h_nac _ _ _ H') as A2.
    rewrite A1, A2. cbn [length]. rewrite Z.add_0_l. apply fine_length; [lia|]. apply (h_vs _ _ _ H'). }
  split; [exact Ez|]. split; [exact Wz|]. split; [congruence|].
  assert (Hstate : forall j, 0 <= j < nv -> ws_var_state w' j = Ok (state_at r (dense ld j) (dense ud j) (dense (ci_grad it) j)
            (is_finite (dense lb j) && is_finite (dense ub j) && (dense lb j =? dense ub j)%num))).
  { intros j Hj. unfold ws_var_state. rewrite E1, Ew. destruct (Z.ltb_spec j nv); [|lia]. cbn [check rbind].
    pose proof (h_vst _ _ _ H') as Hv. rewrite E1, Ew in Hv. rewrite (arr_get_arr _ _ _ _ Hv Hj). f_equal. unfold stf.
    rewrite Hcn, (get_map_filter_any _ _ 0 nv) by apply zrange_sorted.
    replace (existsb (Z.eqb j) (zrange nv)) with true by (symmetry; apply existsb_In, zrange_In; lia). cbn [andb].
    destruct (state_at r _ _ _ _) eqn:Es; reflexivity. }
  assert (Hget : forall j, 0 <= j < nv -> get (vent z') j = (if active (state_at r (dense ld j) (dense ud j) (dense (ci_grad it) j)
            (is_finite (dense lb j) && is_finite (dense ub j) && (dense lb j =? dense ub j)%num)) then Some (nopp (dense (ci_grad it) j)) else None)).
  { intros j Hj. rewrite Gz, Gm. destruct (Z.leb_spec 0 j); [|lia]. destruct (Z.ltb_spec j nv); [|lia]. cbn [andb].
    unfold state_at. destruct (act_at r _ _ _); [|reflexivity]. destruct (_ && _ && _); [reflexivity|]. destruct (_ <=? _)%num; reflexivity. }
  split.
  - unfold supports_vars_dual. rewrite E1, Ew, Dz', Dm, Z.eqb_refl. cbn [check rbind].
    destruct (supports_range_spec z' (wvst w') Wz) as (b & Eb & Hb).
    { pose proof (h_vst _ _ _ H') as [Hv _]. rewrite Dz', Dm, Hv, E1, Ew. lia. }
    rewrite Eb. f_equal. apply Hb. intros j x Hg.
    assert (Hj : 0 <= j < nv).
    { destruct Wz as (_ & Wz & _). rewrite Dz', Dm in Wz. apply (sorted_in_In _ _ _ _ Wz). eapply In_keys, get_Some_In, Hg. }
    rewrite (Hget j Hj) in Hg. pose proof (h_vst _ _ _ H') as Hva. rewrite E1, Ew in Hva. pose proof Hva as [_ Hv].
    assert (Hws := Hstate j Hj). unfold ws_var_state in Hws. rewrite E1, Ew in Hws.
    destruct (Z.ltb_spec j nv); [|lia]. cbn [check rbind] in Hws.
    rewrite (arr_get_arr _ _ _ _ Hva Hj) in Hws. injection Hws as Hws.
    eexists. split; [apply Hv; exact Hj|]. rewrite Hws.
    destruct (state_supported r (dense ld j) (dense ud j) (dense (ci_grad it) j)
            (is_finite (dense lb j) && is_finite (dense ub j) && (dense lb j =? dense ub j)%num)) as [Hsp|Hsp].
    + destruct (active _); [|discriminate]. injection Hg as <-. exact Hsp.
    + rewrite Hsp in Hg. discriminate.
  - intros j Hj. eexists. split; [apply Hstate; exact Hj|]. apply Hget, Hj.
Qed.
End Final.
Print Assumptions C60_working_set.

(** ** Exact arithmetic *)
Section Real.
Local Open Scope R_scope.

(** Steps within the bounds and the trust region of the maximum norm. *)
Definition step_ok (nv : Z) (lb ub x : rvec) (r : R) (d : Z -> R) : Prop :=
  forall j, (0 <= j < nv)%Z -> Rabs (d j) <= r /\ dense lb j <= dense x j + d j <= dense ub j.

(** The linear model of the objective. *)
Definition model (it : @citer RN) (nv : Z) (d : Z -> R) : R :=
  ci_obj it + dotd nv (dense (ci_grad it)) d.

(** What the state of a variable says about the point the step leads to. *)
Definition state_ok (lb ub x : rvec) (r eps : R) (j : Z) (dj : R) (s : ast) : Prop :=
  match s with
  | Inactive => Rabs dj = r
  | ActLower => Rabs (dense x j + dj - dense lb j) <= eps
  | ActUpper => Rabs (dense x j + dj - dense ub j) <= eps
  | ActBoth => dense lb j = dense ub j
  end.

Lemma add_scaled_eps (x y t z : rvec) (e : R) : wf x -> wf y -> vdim x = vdim y -> (0 <= vcap t)%Z ->
  vec_add_scaled x y n1 (nlit (-1) 1) e t = Ok z ->
  forall j, dense z j = dense x j - dense y j \/ (dense z j = 0 /\ Rabs (dense x j - dense y j) <= e).
Proof.
  intros Hx Hy Hd Ht E j.
  destruct (vec_add_scaled_spec x y n1 (nlit (-1) 1) e t Hx Hy Hd Ht) as (z' & E' & Hw & Hdz & Hg).
  rewrite E' in E. injection E as ->. clear E'.
  assert (Ev : @comb_at RN n1 (nlit (-1) 1) x y j = dense x j - dense y j).
  { unfold comb_at, dense. rewrite combine_real, rn_n1, rn_lit1. rnum. lra. }
  specialize (Hg j). rewrite Ev in Hg. set (v := dense x j - dense y j) in *.
  assert (Hn : get (vent x) j = None -> get (vent y) j = None -> v = 0).
  { intros A B. unfold v, dense. rewrite A, B. cbn [oval]. rewrite rn_n0. rnum. lra. }
  assert (Hcase : get (vent z) j = Some v \/ get (vent z) j = None /\ (v = 0 \/ Rabs v <= e)).
  { rewrite Hg. destruct (get (vent x) j); [|destruct (get (vent y) j)];
      try (destruct (@is_zero RN v e) eqn:Ez; [right; split; [reflexivity|right; now apply rn_is_zero in Ez]|now left]).
    right. split; [reflexivity|]. left. now apply Hn. }
  assert (Hz : dense z j = @oval RN (get (vent z) j)) by reflexivity.
  destruct Hcase as [A|[A [B|B]]]; rewrite A in Hz; cbn [oval] in Hz; rewrite ?rn_n0 in Hz; rewrite Hz.
  - now left.
  - left. now rewrite B.
  - now right.
Qed.

Lemma fold_obj (D G : Z -> R) n o : (0 <= n)%Z ->
  fold_left (fun o j => @nadd RN o (@nmul RN (D j) (G j))) (zrange n) o = o + dotd n G D.
Proof.
  intros Hn. unfold dotd. rewrite <- (Z2Nat.id n Hn). generalize (Z.to_nat n) as k. clear n Hn. induction k as [|k IH].
  - cbn. lra.
  - rewrite Nat2Z.inj_succ, <- Z.add_1_r, zrange_succ by lia. rewrite fold_left_app. cbn [fold_left]. rewrite IH.
    rewrite Z.add_1_r, <- Nat2Z.inj_succ. unfold sumd. rewrite !Nat2Z.id. cbn [rsum nadd nmul RN]. lra.
Qed.

Lemma abs_between (x a : R) : Rabs x <= a -> - a <= x <= a.
Proof. intros H. unfold Rabs in H. destruct (Rcase_abs x); lra. Qed.

(** One component: the step chosen minimises [g * d] up to the dropped differences. *)
Lemma step_at_min (r e l u g x lo up : R) : 0 <= r -> 0 <= e -> lo <= x <= up ->
  (l = lo - x \/ l = 0 /\ Rabs (lo - x) <= e) -> (u = up - x \/ u = 0 /\ Rabs (up - x) <= e) ->
  let d := @step_at RN r l u g in
  (Rabs d <= r /\ lo <= x + d <= up)
  /\ forall d', Rabs d' <= r -> lo <= x + d' <= up -> g * d <= g * d' + e * Rabs g.
Proof.
  intros Hr He Hx Hl Hu. cbv zeta. unfold step_at. rewrite rn_n0.
  assert (Hl' : l <= 0 /\ lo - x <= l /\ l <= lo - x + e).
  { destruct Hl as [->|[-> Hl]]; [lra|]. apply abs_between in Hl. lra. }
  assert (Hu' : 0 <= u /\ u <= up - x /\ up - x - e <= u).
  { destruct Hu as [->|[-> Hu]]; [lra|]. apply abs_between in Hu. lra. }
  cbn [nopp RN].
  destruct (@nleb RN 0 (- g)) eqn:E1.
  - apply rn_leb in E1. assert (Hg : g <= 0) by lra. rewrite (Rabs_left1 g Hg).
    destruct (@nltb RN r u) eqn:E2; [apply rn_ltb in E2|apply rn_ltb_false in E2].
    + split; [rewrite Rabs_right by lra; lra|]. intros d' Hd Hb. apply abs_between in Hd. nra.
    + split; [rewrite Rabs_right by lra; lra|]. intros d' Hd Hb. apply abs_between in Hd. nra.
  - apply rn_leb_false in E1. assert (Hg : 0 < g) by lra. rewrite (Rabs_right g) by lra.
    destruct (@nltb RN l (- r)) eqn:E2; [apply rn_ltb in E2|apply rn_ltb_false in E2].
    + split; [rewrite Rabs_left1 by lra; lra|]. intros d' Hd Hb. apply abs_between in Hd. nra.
    + split; [rewrite Rabs_left1 by lra; lra|]. intros d' Hd Hb. apply abs_between in Hd. nra.
Qed.

(** *** C60: the step minimises the linear model *)

(** For all bounds, iterates within them, radii and histories of calls: the step lies within bounds
    and trust region, the value handed out is the value of the linear model at the step and no
    admissible step is better by more than the differences the sparse storage drops; variables in the
    working set end up at the bound named by their state, all others at the trust region. *)
Theorem C60_step_partial : forall nv (lb ub : rvec) (eps : R) st fixed h it (r : R),
  (0 <= nv)%Z -> wf lb -> vdim lb = nv -> wf ub -> vdim ub = nv -> 0 <= eps ->
  length st = Z.to_nat nv -> length fixed = Z.to_nat nv ->
  calls_ok nv lb ub false h -> current (None, @n0 RN) h = (Some it, r) ->
  exists c, (c0 <- cb_create nv 0 lb ub eps st fixed ;; rfold cb_exec (c0, None) (h ++ [OSolve])) = Ok (c, Some it)
  /\ forall t, wf t -> vdim t = nv -> exists d, cb_lp_step c t = Ok d /\ wf d /\ vdim d = nv
     /\ step_ok nv lb ub (ci_x it) r (dense d)
     /\ cb_obj_val c = model it nv (dense d)
     /\ (forall d', step_ok nv lb ub (ci_x it) r d' ->
           cb_obj_val c <= model it nv d' + eps * sumd nv (fun j => Rabs (dense (ci_grad it) j)))
     /\ forall w vs cs, holds w vs cs -> wnv w = nv -> wnc w = 0%Z ->
        exists w', cb_working_set c w = Ok w' /\
        forall j, (0 <= j < nv)%Z -> exists s, ws_var_state w' j = Ok s /\ state_ok lb ub (ci_x it) r eps j (dense d j) s.
Proof.
  intros nv lb ub eps st fixed h it r Hn Hl El Hu Eu He Hs Hf Hh Hc.
  destruct (cb_final nv lb ub eps st fixed h it r Hn Hl El Hu Eu Hs Hf Hh Hc)
    as (c & ld & ud & E & Hit & Hr & (t1 & T1 & C1) & (t2 & T2 & C2) & Hcn & Hfin). cbv zeta in Hfin.
  destruct Hfin as (Wd & Dd & Gd & _ & _ & _ & Hst & Hob).
  destruct Hit as (X1 & X2 & X3 & X4 & X5).
  assert (Hr0 : 0 <= r). { destruct Hr as [Hr _]. apply rn_leb in Hr. rewrite rn_n0 in Hr. exact Hr. }
  exists c. split; [exact E|]. intros t Ht Dt.
  destruct (vec_copy_spec (cb_dir c) t Wd Ht ltac:(congruence)) as (d & Ed & Hd & Ddd & Gdd).
  exists d. split; [exact Ed|]. split; [exact Hd|]. split; [congruence|].
  pose proof (add_scaled_eps lb (ci_x it) t1 ld eps Hl X1 ltac:(congruence) C1 T1) as Hld.
  pose proof (add_scaled_eps ub (ci_x it) t2 ud eps Hu X1 ltac:(congruence) C2 T2) as Hud.
  assert (Hbox : forall j, (0 <= j < nv)%Z -> dense lb j <= dense (ci_x it) j <= dense ub j).
  { intros j Hj. destruct (X5 j Hj) as [B1 B2]. apply rn_ltb_false in B1, B2. rnum. lra. }
  assert (HD : forall j, (0 <= j < nv)%Z -> dense d j = @step_at RN r (dense ld j) (dense ud j) (dense (ci_grad it) j)).
  { intros j Hj. unfold dense at 1. rewrite Gdd, Gd. destruct (Z.leb_spec 0 j); [|lia]. destruct (Z.ltb_spec j nv); [|lia]. reflexivity. }
  assert (Hmin := fun j (Hj : (0 <= j < nv)%Z) => step_at_min r eps (dense ld j) (dense ud j) (dense (ci_grad it) j) (dense (ci_x it) j)
     (dense lb j) (dense ub j) Hr0 He (Hbox j Hj) (Hld j) (Hud j)). cbv zeta in Hmin.
  assert (HO : cb_obj_val c = model it nv (dense d)).
  { unfold cb_obj_val, model. rewrite Hob, fold_obj by exact Hn. f_equal. unfold dotd. apply sumd_ext. intros j Hj. rewrite HD by exact Hj. reflexivity. }
  split.
  { intros j Hj. rewrite (HD j Hj). apply (Hmin j Hj). }
  split; [exact HO|]. split.
  { intros d' Hd'. rewrite HO. unfold model, dotd. rewrite <- sumd_scal.
    assert (sumd nv (fun j => dense (ci_grad it) j * dense d j) <=
            sumd nv (fun j => dense (ci_grad it) j * d' j + eps * Rabs (dense (ci_grad it) j))).
    { apply sumd_le. intros j Hj. rewrite (HD j Hj). destruct (Hd' j Hj) as [B1 B2]. apply (Hmin j Hj); assumption. }
    rewrite sumd_plus in H. rnum. lra. }
  intros w vs cs Hw Ew Ec.
  destruct (cb_working_set_spec c w vs cs _ Hw ltac:(congruence) ltac:(rewrite Hcn; exact Hst)) as (w' & Ew' & E1 & E2 & H').
  exists w'. split; [exact Ew'|]. intros j Hj.
  eexists. split.
  { unfold ws_var_state. rewrite E1, Ew. destruct (Z.ltb_spec j nv); [|lia]. cbn [check rbind].
    pose proof (h_vst _ _ _ H') as Hv. rewrite E1, Ew in Hv. rewrite (arr_get_arr _ _ _ _ Hv Hj). unfold stf.
    rewrite Hcn, (get_map_filter_any _ _ 0 nv) by apply zrange_sorted.
    replace (existsb (Z.eqb j) (zrange nv)) with true by (symmetry; apply existsb_In, zrange_In; lia). cbn [andb]. reflexivity. }
  set (s := @state_at RN _ _ _ _ _).
  replace (match (if active s then Some s else None) with Some s => s | None => Inactive end) with s by (destruct s; reflexivity).
  pose proof (Hmin j Hj) as [[M1 M2] _]. rewrite <- (HD j Hj) in M1, M2.
  pose proof (HD j Hj) as HDj. unfold step_at in HDj. unfold s, state_at, act_at.
  specialize (Hld j). specialize (Hud j). pose proof (Hbox j Hj) as Hb. cbn [nopp RN] in *. rewrite rn_n0 in *.
  destruct (@nleb RN 0 (- dense (ci_grad it) j)) eqn:G1.
  - destruct (@nltb RN r (dense ud j)) eqn:G2; cbn [negb].
    + cbn [state_ok]. rewrite HDj. apply Rabs_right. lra.
    + destruct (@is_finite RN (dense lb j) && @is_finite RN (dense ub j) && @neqb RN (dense lb j) (dense ub j)) eqn:G3; cbn [state_ok].
      * apply andb_true_iff in G3. destruct G3 as [_ G3]. now apply rn_eqb in G3.
      * rewrite HDj. destruct Hud as [->|[-> Hud]]; [rewrite Rabs_right by (rnum; lra); rnum; lra|].
        rewrite Rplus_0_r, <- Rabs_Ropp. replace (- (dense (ci_x it) j - dense ub j)) with (dense ub j - dense (ci_x it) j) by (rnum; lra). exact Hud.
  - destruct (@nltb RN (dense ld j) (- r)) eqn:G2; cbn [negb].
    + cbn [state_ok]. rewrite HDj. rewrite Rabs_Ropp. apply Rabs_right. lra.
    + destruct (@is_finite RN (dense lb j) && @is_finite RN (dense ub j) && @neqb RN (dense lb j) (dense ub j)) eqn:G3; cbn [state_ok].
      * apply andb_true_iff in G3. destruct G3 as [_ G3]. now apply rn_eqb in G3.
      * rewrite HDj. destruct Hld as [->|[-> Hld]]; [rewrite Rabs_right by (rnum; lra); rnum; lra|].
        rewrite Rplus_0_r, <- Rabs_Ropp. replace (- (dense (ci_x it) j - dense lb j)) with (dense lb j - dense (ci_x it) j) by (rnum; lra). exact Hld.
Qed.
End Real.
Print Assumptions C60_step_partial.

(** ** Without bounds *)
Section Unc.
Context {N : Num} {O : Ord N}.

Definition ustep (r g : num) : num := if (n0 <=? nopp g)%num then r else nopp r.

Lemma cu_solve_spec c it : 0 <= cu_nv c -> wf (ci_grad it) -> vdim (cu_dir c) = cu_nv c -> cu_nv c <= vcap (cu_dir c) ->
  let D := fun j => ustep (cu_radius c) (dense (ci_grad it) j) in
  exists c', cu_solve c it = Ok c' /\ cu_nv c' = cu_nv c /\ cu_radius c' = cu_radius c
    /\ vdim (cu_dir c') = cu_nv c /\ vcap (cu_dir c') = vcap (cu_dir c)
    /\ vent (cu_dir c') = map (fun j => (j, D j)) (filter (fun _ => true) (zrange (cu_nv c)))
    /\ cu_obj c' = fold_left (fun o j => nadd o (nmul (D j) (dense (ci_grad it) j))) (zrange (cu_nv c)) (ci_obj it).
Proof.
  intros Hn Hg Hd Hc D. unfold cu_solve.
  destruct (zrange_loop (fun j s => let '(lg, d, o) := s in
      (forall k, j <= k -> drop_lt k lg = drop_lt k (vent (ci_grad it)))
      /\ (vdim d = cu_nv c /\ vcap d = vcap (cu_dir c) /\ vent d = map (fun j => (j, D j)) (filter (fun _ => true) (zrange j)))
      /\ o = fold_left (fun o j => nadd o (nmul (D j) (dense (ci_grad it) j))) (zrange j) (ci_obj it))
     (cu_body (cu_radius c)) (cu_nv c) (vent (ci_grad it), vec_clear (cu_dir c), ci_obj it))
    as ([[lg d] o] & E & _ & (I1 & I2 & I3) & O1).
  - exact Hn.
  - cbn [vec_clear vdim vcap vent]. repeat split; auto.
  - intros j [[lg d] o] Hj (Hdr & (I1 & I2 & I3) & O1). unfold cu_body. rewrite (Hdr j ltac:(lia)), head_at_dense by assumption.
    assert (PD : forall x, vec_push d j x = Ok (mkvec (vdim d) (vcap d) (vent d ++ [(j, x)])))
      by (intros x; eapply push_next; [lia|lia|exact I3]).
    assert (HD : D j = ustep (cu_radius c) (dense (ci_grad it) j)) by reflexivity. unfold ustep in HD.
    assert (OB : forall p, p = nadd o (nmul (D j) (dense (ci_grad it) j)) ->
       p = fold_left (fun o j => nadd o (nmul (D j) (dense (ci_grad it) j))) (zrange (j + 1)) (ci_obj it)).
    { intros p ->. rewrite zrange_succ by lia. rewrite fold_left_app. cbn [fold_left]. now rewrite O1. }
    destruct (n0 <=? nopp (dense (ci_grad it) j))%num; rewrite PD; cbn [rbind]; eexists; (split; [reflexivity|]); cbn [vdim vcap vent];
      (split; [intros k Hk; rewrite drop_lt_drop_lt by lia; reflexivity|]); rewrite !map_filter_snoc by lia; cbv beta;
      (split; [repeat split; auto; rewrite I3, HD; reflexivity|]); apply OB; rewrite HD; reflexivity.
  - rewrite E. cbn [rbind]. eexists. split; [reflexivity|]. cbn [cu_nv cu_radius cu_dir cu_obj]. auto 10.
Qed.

Definition cu_inv (nv : Z) (s : cunc * option citer) (cur : option citer * num) : Prop :=
  cu_nv (fst s) = nv /\ vdim (cu_dir (fst s)) = nv /\ nv <= vcap (cu_dir (fst s))
  /\ snd s = fst cur /\ match fst cur with None => True | Some it => wf (ci_grad it) /\ cu_radius (fst s) = snd cur /\ radius_ok (snd cur) end.

Fixpoint ucalls_ok (nv : Z) (started : bool) (h : list cop) : Prop :=
  match h with
  | [] => True
  | OIter it r :: h => wf (ci_grad it) /\ vdim (ci_grad it) = nv /\ radius_ok r /\ ucalls_ok nv true h
  | ORadius r :: h => radius_ok r /\ ucalls_ok nv started h
  | OSolve :: h => started = true /\ ucalls_ok nv started h
  end.

Lemma cu_exec_inv nv s cur o started : 0 <= nv -> cu_inv nv s cur -> ucalls_ok nv started [o] -> (started = true -> fst cur <> None) ->
  exists s', cu_exec s o = Ok s' /\ cu_inv nv s' (current cur [o]).
Proof.
  intros Hn (I1 & I2 & I3 & I4 & I5) Ho Hst. destruct o as [it r|r|]; cbn [ucalls_ok current] in *.
  - destruct Ho as (H1 & H2 & H3 & _). eexists. split; [reflexivity|]. unfold cu_inv, cu_set_radius.
    cbn [fst snd cu_nv cu_dir cu_radius]. auto 10.
  - destruct Ho as (H3 & _). eexists. split; [reflexivity|]. unfold cu_inv, cu_set_radius. cbn [fst snd cu_nv cu_dir cu_radius].
    destruct (fst cur); intuition auto.
  - destruct Ho as (Hs & _). specialize (Hst Hs). unfold cu_exec. destruct (fst cur) as [it|] eqn:Ec; [|congruence].
    destruct I5 as (G1 & G2 & G3). rewrite G2, (proj2 G3), I4. cbn [negb check rbind].
    destruct (cu_solve_spec (fst s) it) as (c' & E & F1 & F2 & F3 & F4 & F5 & F6); [lia|exact G1|congruence|congruence|].
    rewrite E. cbn [rbind]. eexists. split; [reflexivity|]. unfold cu_inv. cbn [fst snd]. rewrite Ec, F1, F2, F3, F4. auto 10.
Qed.

Lemma cu_run_inv nv : 0 <= nv -> forall h s cur started, cu_inv nv s cur -> ucalls_ok nv started h -> (started = true -> fst cur <> None) ->
  exists s', rfold cu_exec s h = Ok s' /\ cu_inv nv s' (current cur h).
Proof.
  intros Hn. induction h as [|o h IH]; intros s cur started HI Ho Hst.
  - exists s. split; [reflexivity|exact HI].
  - assert (Ho1 : ucalls_ok nv started [o]) by (destruct o; cbn [ucalls_ok] in *; tauto).
    destruct (cu_exec_inv nv s cur o started Hn HI Ho1 Hst) as (s1 & E1 & H1).
    destruct (IH s1 (current cur [o]) (match o with OIter _ _ => true | _ => started end) H1) as (s' & E & H).
    + destruct o; cbn [ucalls_ok] in Ho; tauto.
    + destruct o; cbn [current fst] in *; auto; intros _; congruence.
    + exists s'. cbn [rfold]. rewrite E1. cbn [rbind]. split; [exact E|]. destruct o; exact H.
Qed.

Lemma cu_final nv h it r : 0 <= nv -> ucalls_ok nv false h -> current (None, n0) h = (Some it, r) ->
  exists c, (c0 <- cu_create nv ;; rfold cu_exec (c0, None) (h ++ [OSolve])) = Ok (c, Some it)
    /\ radius_ok r /\ cu_nv c = nv /\ vdim (cu_dir c) = nv /\ nv <= vcap (cu_dir c)
    /\ vent (cu_dir c) = map (fun j => (j, ustep r (dense (ci_grad it) j))) (filter (fun _ => true) (zrange nv))
    /\ cu_obj c = fold_left (fun o j => nadd o (nmul (ustep r (dense (ci_grad it) j)) (dense (ci_grad it) j))) (zrange nv) (ci_obj it).
Proof.
  intros Hn Hh Hc. unfold cu_create, vec_create_full, vec_create. rewrite (proj2 (Z.leb_le 0 nv) Hn), ?(proj2 (Z.leb_le nv nv) ltac:(lia)).
  cbn [check rbind andb].
  destruct (cu_run_inv nv Hn h (mkcunc nv (nlit (-1) 1) (mkvec nv nv []) n0, None) (None, n0) false) as (s & E & I1 & I2 & I3 & I4 & I5).
  { unfold cu_inv. cbn [fst snd cu_nv cu_dir vdim vcap]. repeat split; auto; lia. }
  { exact Hh. } { discriminate. }
  rewrite Hc in I4, I5. cbn [fst snd] in I4, I5. destruct I5 as (G1 & G2 & G3).
  rewrite rfold_app, E. cbn [rbind rfold]. unfold cu_exec at 1. rewrite G2, (proj2 G3), I4. cbn [negb check rbind].
  destruct (cu_solve_spec (fst s) it) as (c' & E' & F1 & F2 & F3 & F4 & F5 & F6); [lia|exact G1|congruence|congruence|].
  rewrite E'. cbn [rbind]. exists c'. split; [reflexivity|]. split; [exact G3|]. rewrite F1, F3, F4, F5, F6, G2, I1. auto 10.
Qed.
End Unc.

(** For all numbers of variables, radii and histories of calls, without bounds: the step is a
    minimiser of the linear model over the trust region, nothing is active afterwards and all
    multipliers are zero. *)
Theorem C60_unconstrained_step : forall nv h (it : @citer RN) (r : R),
  (0 <= nv)%Z -> ucalls_ok nv false h -> current (None, @n0 RN) h = (Some it, r) ->
  exists c, (c0 <- cu_create nv ;; rfold cu_exec (c0, None) (h ++ [OSolve])) = Ok (c, Some it)
  /\ (forall t, wf t -> vdim t = nv -> exists d, cu_lp_step c t = Ok d /\ wf d /\ vdim d = nv
     /\ (forall j, (0 <= j < nv)%Z -> (Rabs (dense d j) <= r)%R)
     /\ cu_obj_val c = model it nv (dense d)
     /\ (forall d', (forall j, (0 <= j < nv)%Z -> (Rabs (d' j) <= r)%R) -> (cu_obj_val c <= model it nv d')%R))
  /\ (forall w vs cs, holds w vs cs -> holds (cu_working_set c w) [] [])
  /\ forall y z : rvec, fst (cu_estimate_duals c y z) = vec_clear y /\ snd (cu_estimate_duals c y z) = vec_clear z.
Proof.
  intros nv h it r Hn Hh Hc.
  destruct (cu_final nv h it r Hn Hh Hc) as (c & E & Hr & En & Ed & Ecap & Ev & Eo).
  assert (Hr0 : (0 <= r)%R). { destruct Hr as [Hr _]. apply rn_leb in Hr. rewrite rn_n0 in Hr. exact Hr. }
  exists c. split; [exact E|]. split; [|split; [intros w vs cs Hw; eapply reset_holds; eassumption|auto]]. intros t Ht Dt.
  assert (Wd : wf (cu_dir c)).
  { unfold wf. rewrite Ed. split; [lia|]. split.
    - rewrite Ev. apply sorted_map_pair, sorted_filter, zrange_sorted.
    - unfold vnnz. rewrite Ev, map_length. pose proof (filter_length_le (fun _ => true) (zrange nv)). rewrite zrange_length in H. lia. }
  destruct (vec_copy_spec (cu_dir c) t Wd Ht ltac:(congruence)) as (d & Ed' & Hd & Ddd & Gdd).
  exists d. split; [exact Ed'|]. split; [exact Hd|]. split; [congruence|].
  assert (HD : forall j, (0 <= j < nv)%Z -> dense d j = @ustep RN r (dense (ci_grad it) j)).
  { intros j Hj. unfold dense at 1. rewrite Gdd, Ev, (get_map_filter_any _ _ 0 nv) by apply zrange_sorted.
    replace (existsb (Z.eqb j) (zrange nv)) with true by (symmetry; apply existsb_In, zrange_In; lia). reflexivity. }
  assert (HO : cu_obj_val c = model it nv (dense d)).
  { unfold cu_obj_val, model. rewrite Eo, fold_obj by exact Hn. f_equal. unfold dotd. apply sumd_ext. intros j Hj. rewrite HD by exact Hj. reflexivity. }
  assert (HR : forall g : R, (Rabs (@ustep RN r g) <= r)%R /\ forall d' : R, (Rabs d' <= r)%R -> (g * @ustep RN r g <= g * d')%R).
  { intros g. unfold ustep. rewrite rn_n0. cbn [nopp RN]. match goal with |- context [if ?b then _ else _] => destruct b eqn:G end; [apply rn_leb in G|apply rn_leb_false in G].
    - split; [rewrite Rabs_right; [apply Rle_refl|apply Rle_ge; exact Hr0]|]. intros d' Hd'. apply abs_between in Hd'. nra.
    - split; [rewrite Rabs_Ropp, Rabs_right; [apply Rle_refl|apply Rle_ge; exact Hr0]|]. intros d' Hd'. apply abs_between in Hd'. nra. }
  split; [intros j Hj; rewrite (HD j Hj); apply HR|]. split; [exact HO|].
  intros d' Hd'. rewrite HO. unfold model, dotd. apply Rplus_le_compat_l. apply sumd_le. intros j Hj. rewrite (HD j Hj). apply HR, Hd', Hj.
Qed.
Print Assumptions C60_unconstrained_step.

(** ** Examples *)

Definition half (z : Z) : f64 := @nlit F64 z 2.
Definition ex_lb : @vec F64 := mkvec 4 3 [(0, fz (-1)); (2, fz 3); (3, fz (-8))].
Definition ex_ub : @vec F64 := mkvec 4 4 [(0, fz 1); (1, half 5); (2, fz 3); (3, fz 9)].
Definition ex_it1 : @citer F64 := mkciter (mkvec 4 1 [(2, fz 3)]) (fz 7) (mkvec 4 3 [(0, fz (-2)); (2, fz 1); (3, fz 5)]).
Definition ex_it2 : @citer F64 := mkciter (mkvec 4 2 [(0, half (-1)); (2, fz 3)]) (fz 6) (mkvec 4 3 [(0, fz (-2)); (1, fz 4); (3, fz 5)]).
Definition ex_h : list (@cop F64) := [OIter ex_it1 (fz 2); OSolve; ORadius (fz 5); OIter ex_it2 (fz 4); OSolve; ORadius (fz 3)].
Definition ex_st : list ast := [ActBoth; ActLower; Inactive; Inactive].
Definition ex_fx : list bool := [true; false; false; true].

Lemma box4 (x lb ub : @vec F64) :
  forallb (fun j => negb (dense x j <? dense lb j)%num && negb (dense ub j <? dense x j)%num) (zrange 4) = true ->
  forall j, 0 <= j < 4 -> in_box_at x lb ub j.
Proof.
  intros H j Hj. rewrite forallb_forall in H. specialize (H j (proj2 (zrange_In 4 j) Hj)).
  apply andb_true_iff in H. destruct H as [H1 H2]. apply negb_true_iff in H1, H2. now split.
Qed.

Example C60_working_set_hyps : wf ex_lb /\ wf ex_ub /\ calls_ok 4 ex_lb ex_ub false ex_h /\ current (None, @n0 F64) ex_h = (Some ex_it2, fz 3).
Proof.
  assert (I1 : iter_ok 4 ex_lb ex_ub ex_it1).
  { split; [unfold wf; cbn; lia|]. split; [reflexivity|]. split; [unfold wf; cbn; lia|]. split; [reflexivity|]. apply box4. vm_compute. reflexivity. }
  assert (I2 : iter_ok 4 ex_lb ex_ub ex_it2).
  { split; [unfold wf; cbn; lia|]. split; [reflexivity|]. split; [unfold wf; cbn; lia|]. split; [reflexivity|]. apply box4. vm_compute. reflexivity. }
  assert (R1 : @radius_ok F64 (fz 2)) by (split; vm_compute; reflexivity).
  assert (R2 : @radius_ok F64 (fz 5)) by (split; vm_compute; reflexivity).
  assert (R3 : @radius_ok F64 (fz 4)) by (split; vm_compute; reflexivity).
  assert (R4 : @radius_ok F64 (fz 3)) by (split; vm_compute; reflexivity).
  split; [unfold wf; cbn; lia|]. split; [unfold wf; cbn; lia|]. split; [|reflexivity].
  unfold ex_h. cbn [calls_ok]. auto 20.
Qed.

(** The result: a step to the upper bound, to the lower bound, within a fixed variable, to the
    trust region. *)
Example C60_working_set_example :
  match (c0 <- cb_create 4 0 ex_lb ex_ub (nlit 1 1000000000000000) ex_st ex_fx ;; rfold cb_exec (c0, None) (ex_h ++ [OSolve])) with
  | Ok (c, _) =>
    match (w <- cb_working_set c (ws_create 4 0) ;; z <- cb_estimate_duals c (mkvec 4 0 []) ;; d <- cb_lp_step c (mkvec 4 0 []) ;;
           Ok (wvst w, show z, show d, B2SF (cb_obj_val c))) with
    | Ok (st, z, d, o) => st = [ActUpper; ActLower; ActBoth; Inactive]
        /\ z = map (fun e => (fst e, B2SF (snd e))) [(0, fz 2); (1, fz (-4)); (2, nopp (fz 0))]
        /\ d = map (fun e => (fst e, B2SF (snd e))) [(0, half 3); (1, fz 0); (2, fz 0); (3, fz (-3))]
        /\ o = B2SF (fz (6 - 3 - 15))
    | _ => False
    end
  | _ => False
  end.
Proof. vm_compute. repeat split. Qed.

(** The bounds are not respected in floating point arithmetic: the difference between bound and
    point is rounded, and so is the sum of point and step. *)
Theorem C60_step_in_bounds_refuted : exists (lb ub : @vec F64) (it : @citer F64) (r : f64) (c : @cbox F64) d,
  wf lb /\ vdim lb = 1 /\ wf ub /\ vdim ub = 1 /\ iter_ok 1 lb ub it /\ radius_ok r
  /\ (c0 <- cb_create 1 0 lb ub (nlit 1 1000000000000000) [Inactive] [false] ;;
      rfold cb_exec (c0, None) [OIter it r; OSolve]) = Ok (c, Some it)
  /\ cb_lp_step c (mkvec 1 0 []) = Ok d
  /\ (dense ub 0 <? nadd (dense (ci_x it) 0) (dense d 0))%num = true.
Proof.
  pose (x := fz (- 2 ^ 53)).
  pose (lb := mkvec 1 1 [(0, fz (- 2 ^ 54))] : @vec F64). pose (ub := mkvec 1 1 [(0, half 3)] : @vec F64).
  pose (it := mkciter (mkvec 1 1 [(0, x)]) (fz 0) (mkvec 1 1 [(0, fz (-1))]) : @citer F64).
  pose (r := fz (2 ^ 60)).
  pose (run := c0 <- cb_create 1 0 lb ub (nlit 1 1000000000000000) [Inactive] [false] ;; rfold cb_exec (c0, None) [OIter it r; OSolve]).
  assert (B : match run with
              | Ok (c, Some _) => match cb_lp_step c (mkvec 1 0 []) with
                             | Ok d => (dense ub 0 <? nadd (dense (ci_x it) 0) (dense d 0))%num
                             | _ => false end
              | _ => false end = true) by (vm_compute; reflexivity).
  assert (E : match run with Ok (c, i) => i = Some it | _ => True end).
  { unfold run. cbn [rfold]. unfold cb_exec at 1 2. cbn [fst snd].
    destruct (cb_create 1 0 lb ub _ _ _); [|exact I|exact I]. cbn [rbind]. cbn [snd fst].
    destruct (cb_set_iterate _ _ _); [|exact I|exact I]. cbn [rbind snd fst].
    destruct (check _); [|exact I|exact I]. cbn [rbind].
    destruct (cb_solve _ _); [|exact I|exact I]. cbn [rbind]. reflexivity. }
  exists lb, ub, it, r. destruct run as [[c [i|]]| |] eqn:Er; try discriminate B. injection E as ->.
  destruct (cb_lp_step c (mkvec 1 0 [])) as [d| |] eqn:Ed; try discriminate B.
  exists c, d. split; [unfold wf; cbn; lia|]. split; [reflexivity|]. split; [unfold wf; cbn; lia|]. split; [reflexivity|].
  split.
  { split; [unfold wf; cbn; lia|]. split; [reflexivity|]. split; [unfold wf; cbn; lia|]. split; [reflexivity|].
    intros j Hj. replace j with 0 by lia. split; vm_compute; reflexivity. }
  split; [split; vm_compute; reflexivity|]. split; [exact Er|]. split; [exact Ed|]. exact B.
Qed.
Print Assumptions C60_step_in_bounds_refuted.

(** Exact arithmetic: two variables, one stopped by its bound, one by the trust region. *)
Definition rx_lb : rvec := mkvec 2 2 [(0, (-1)%R); (1, (-8)%R)].
Definition rx_ub : rvec := mkvec 2 2 [(0, 1%R); (1, 9%R)].
Definition rx_it : @citer RN := mkciter (mkvec 2 1 [(1, 1%R)] : rvec) 5%R (mkvec 2 2 [(0, (-2)%R); (1, 4%R)] : rvec).
Example C60_step_example :
  calls_ok 2 rx_lb rx_ub false [OIter rx_it 1%R; OSolve; ORadius 3%R]
  /\ current (None, @n0 RN) [OIter rx_it 1%R; OSolve; ORadius 3%R] = (Some rx_it, 3%R)
  /\ step_ok 2 rx_lb rx_ub (ci_x rx_it) 3 (fun j => if (j =? 0)%Z then 1%R else (-3)%R)
  /\ ucalls_ok 2 false [OIter rx_it 1%R; OSolve; ORadius 3%R].
Proof.
  assert (Ri : forall x : R, (0 <= x)%R -> @radius_ok RN x).
  { intros x Hx. split; [apply rn_leb; rewrite rn_n0; exact Hx|]. apply rn_eqb_false. rewrite rn_lit1. rnum. lra. }
  split; [|split; [reflexivity|split]].
  - cbn [calls_ok]. split; [|split; [apply Ri; lra|split; [reflexivity|split; [apply Ri; lra|exact I]]]].
    split; [unfold wf; cbn; lia|]. split; [reflexivity|]. split; [unfold wf; cbn; lia|]. split; [reflexivity|].
    intros j Hj. assert (j = 0 \/ j = 1) as [->| ->] by lia; split; apply rn_ltb_false; unfold dense; cbn; unfold rn_lit; lra.
  - intros j Hj. assert (j = 0 \/ j = 1) as [->| ->] by lia; unfold dense; cbn; unfold rn_lit.
    + rewrite Rabs_right; lra.
    + rewrite Rabs_left; lra.
  - cbn [ucalls_ok]. split; [unfold wf; cbn; lia|]. split; [reflexivity|]. split; [apply Ri; lra|]. split; [reflexivity|]. split; [apply Ri; lra|exact I].
Qed.

(** ** C60, creation: problems with constraints are refused, and the radius stays at the value -1,
    which no trust region has, until the first [set_iterate] or [set_trust_radius]. *)
Theorem C60_created : forall (N : Num) nv nc (lb ub : vec) eps st fixed,
  (nc <> 0 -> cb_create nv nc lb ub eps st fixed = Trap)
  /\ forall c, cb_create nv nc lb ub eps st fixed = Ok c -> cb_radius c = nlit (-1) 1 /\ vent (cb_dir c) = [] /\ vent (cb_duals c) = [].
Proof.
  intros N nv nc lb ub eps st fixed. unfold cb_create. split.
  - intros H. destruct (Z.eqb_spec nc 0); [contradiction|]. reflexivity.
  - intros c E. apply rbind_ok in E. destruct E as (_ & _ & E).
    apply rbind_ok in E. destruct E as (ld & _ & E). apply rbind_ok in E. destruct E as (ud & _ & E).
    apply rbind_ok in E. destruct E as (d & Ed & E). apply rbind_ok in E. destruct E as (m & Em & E).
    apply rbind_ok in E. destruct E as (f & _ & E). injection E as <-. cbn [cb_radius cb_dir cb_duals].
    unfold vec_create_full, vec_create in Ed, Em.
    do 2 (apply rbind_ok in Ed; destruct Ed as (? & ? & Ed)). do 2 (apply rbind_ok in Em; destruct Em as (? & ? & Em)).
    injection Ed as <-. injection Em as <-. auto.
Qed.
Print Assumptions C60_created.
Example C60_created_example : exists c, @cb_create RN 2 0 rx_lb rx_ub 0%R [Inactive; Inactive] [false; false] = Ok c.
Proof. eexists. reflexivity. Qed.
