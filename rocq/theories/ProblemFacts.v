(** Facts about problem construction and constraint evaluation. *)
From Coq Require Import Reals Lra.
From Flocq Require Import Core BinarySingleNaN.
From Verif Require Import Base Num Cmp Sparse Vec VecFacts VecFacts2 VecFacts4 Order F64Facts OrdArith Mat MatFacts MatFacts2 MatFacts3 MatFacts4 Problem.
Local Open Scope Z_scope.

Section Generic.
Context {N : Num}.

Definition vmapped (f : num -> num) (v : vec) (cap : Z) : vec := mkvec (vdim v) cap (map (fun e => (fst e, f (snd e))) (vent v)).

Lemma keys_map (f : num -> num) (l : list (Z * num)) : keys (map (fun e => (fst e, f (snd e))) l) = keys l.
Proof. unfold keys. rewrite map_map. reflexivity. Qed.

Lemma get_mapped (f : num -> num) (l : list (Z * num)) i : get (map (fun e => (fst e, f (snd e))) l) i = option_map f (get l i).
Proof. induction l as [|[j x] l IH]; cbn [map get fst snd option_map]; [reflexivity|]. destruct (j =? i); [reflexivity|exact IH]. Qed.

Lemma dense_mapped f v cap i : f n0 = n0 -> dense (vmapped f v cap) i = f (dense v i).
Proof. intros H. unfold dense, vmapped. cbn [vent]. rewrite get_mapped. destruct (get (vent v) i); cbn; auto. Qed.

Lemma wf_mapped f v cap : wf v -> vnnz v <= cap -> wf (vmapped f v cap).
Proof.
  intros (H0 & Hs & Hc) Hcap. unfold wf, vmapped. cbn [vdim vent vcap]. rewrite keys_map, map_length. split; [auto|]. split; [auto|exact Hcap].
Qed.

Lemma wf_valid v : wf v -> vec_is_valid v = true.
Proof. intros (H0 & Hs & Hc). apply vec_is_valid_spec. auto. Qed.

Lemma convert_spec f src dim tgt : wf src -> vdim src = dim -> (forall t, tgt = Some t -> wf t) ->
  exists cap, vnnz src <= cap /\ convert f src dim tgt = (check (vec_is_finite (vmapped f src cap)) ;;; Ok (vmapped f src cap)).
Proof.
  intros Hw Hd Ht. unfold convert. rewrite (wf_valid _ Hw), Hd, Z.eqb_refl. cbn [check rbind].
  assert (exists t, match tgt with Some t => t <- vec_resize t dim ;; vec_reserve t (vnnz src) | None => vec_create dim (vnnz src) end = Ok t
     /\ wf t /\ vdim t = dim) as (t & E & Wt & Dt).
  { destruct tgt as [t|].
    - destruct (vec_resize_spec t dim) as (t1 & E1 & W1 & D1 & _); auto. { destruct Hw; lia. } rewrite E1. cbn [rbind].
      destruct (vec_reserve_spec t1 (vnnz src)) as (t2 & E2 & W2 & D2 & _); auto. { unfold vnnz; lia. } exists t2. split; [exact E2|]. split; [auto|congruence].
    - unfold vec_create. assert (0 <= dim) by (destruct Hw; lia). assert (0 <= vnnz src) by (unfold vnnz; lia).
      destruct (Z.leb_spec 0 dim), (Z.leb_spec 0 (vnnz src)); try lia. cbn [check rbind]. eexists. split; [reflexivity|].
      unfold wf. cbn [vdim vent vcap keys map length sorted_in]. auto. }
  rewrite E. cbn [rbind]. destruct (vec_copy_spec src t) as (t' & E' & W' & D' & V'); auto; [congruence|]. rewrite E'. cbn [rbind].
  exists (vcap t'). rewrite D', V'. split; [|reflexivity]. destruct W' as (_ & _ & H). rewrite V' in H. exact H.
Qed.

Definition no_cross (lb ub : vec) : Prop := forall i, 0 <= i < vdim lb -> nltb (dense ub i) (dense lb i) = false.

Lemma check_bounds_spec {O : Ord N} lb ub : wf lb -> wf ub -> vdim lb = vdim ub ->
  (check_bounds lb ub = Ok tt /\ no_cross lb ub) \/ (check_bounds lb ub = Err EIllegalArg /\ ~ no_cross lb ub).
Proof.
  intros (Hd & Hs & Hc) (Hd' & Hs' & Hc') E. unfold check_bounds. rewrite E, Z.eqb_refl. cbn [check rbind]. rewrite <- E.
  destruct (align2 (vdim lb) (vent lb) (vent ub)) as (idxs & Hsi & Hin & -> & _); auto. { rewrite E; auto. } cbn [rbind].
  assert (G : forall l, (forall i, In i l -> 0 <= i < vdim lb) ->
    (rfold (fun _ row => match snd row with
    | [l; u] => if nltb (oval u) (oval l) then Err EIllegalArg else Ok tt
    | _ => Trap end) tt (map (fun i => (i, [get (vent lb) i; get (vent ub) i])) l) = Ok tt /\ (forall i, In i l -> nltb (dense ub i) (dense lb i) = false))
    \/ (rfold (fun _ row => match snd row with
    | [l; u] => if nltb (oval u) (oval l) then Err EIllegalArg else Ok tt
    | _ => Trap end) tt (map (fun i => (i, [get (vent lb) i; get (vent ub) i])) l) = Err EIllegalArg /\ (exists i, In i l /\ nltb (dense ub i) (dense lb i) = true))).
  { intros l Hl. induction l as [|i l IH]; cbn [map rfold snd]; [left; split; auto; intros i []|].
    fold (dense lb i) (dense ub i). destruct (nltb (dense ub i) (dense lb i)) eqn:En; cbn [rbind].
    - right. split; [reflexivity|]. exists i. split; [now left|exact En].
    - destruct IH as [[-> H]|[-> (j & Hj & H)]].
      + intros j Hj. apply Hl. now right.
      + left. split; [reflexivity|]. intros j [<-|Hj]; auto.
      + right. split; [reflexivity|]. exists j. split; [now right|exact H]. }
  destruct (G idxs) as [[-> H]|[-> (i & Hi & H)]].
  - intros i Hi. eapply sorted_in_In; eauto.
  - left. split; [reflexivity|]. intros i Hi. destruct (in_dec Z.eq_dec i idxs) as [Hx|Hx]; [auto|].
    rewrite Hin in Hx. unfold dense.
    assert (get (vent lb) i = None) as -> by (apply get_None; tauto).
    assert (get (vent ub) i = None) as -> by (apply get_None; tauto). cbn [oval]. apply lt00.
  - right. split; [reflexivity|]. intros Hn. assert (Hr := sorted_in_In _ _ _ _ Hsi Hi). specialize (Hn i Hr). congruence.
Qed.

Lemma no_cross_concat lb1 ub1 lb2 ub2 lb ub : vdim lb1 = vdim ub1 -> vdim lb2 = vdim ub2 -> 0 <= vdim lb1 -> 0 <= vdim lb2 ->
  vdim lb = vdim lb1 + vdim lb2 ->
  (forall i, get (vent lb) i = if i <? vdim lb1 then get (vent lb1) i else get (vent lb2) (i - vdim lb1)) ->
  (forall i, get (vent ub) i = if i <? vdim ub1 then get (vent ub1) i else get (vent ub2) (i - vdim ub1)) ->
  (no_cross lb ub <-> no_cross lb1 ub1 /\ no_cross lb2 ub2).
Proof.
  intros D1 D2 P1 P2 D Gl Gu. unfold no_cross, dense. split.
  - intros H. split; intros i Hi.
    + specialize (H i ltac:(lia)). rewrite Gl, Gu, <- D1 in H. destruct (Z.ltb_spec i (vdim lb1)); [exact H|lia].
    + specialize (H (i + vdim lb1) ltac:(lia)). rewrite Gl, Gu, <- D1 in H. destruct (Z.ltb_spec (i + vdim lb1) (vdim lb1)); [lia|].
      replace (i + vdim lb1 - vdim lb1) with i in H by lia. exact H.
  - intros [H1 H2] i Hi. rewrite Gl, Gu, <- D1. destruct (Z.ltb_spec i (vdim lb1)); [apply H1; lia|apply H2; lia].
Qed.
End Generic.

(** ** Doubles *)
Section Doubles.
Notation dvec := (@vec F64).
Notation B := (f64val (@sleqp_infinity F64)).

Lemma inf_lit : ffin (@sleqp_infinity F64 : f64) = true /\ (0 < B < big)%R.
Proof.
  assert (F : ffin (@sleqp_infinity F64 : f64) = true) by (vm_compute; reflexivity). split; [exact F|].
  pose proof (fval_lt _ F) as H. split; [|lra].
  assert (L : @nltb F64 n0 sleqp_infinity = true) by (vm_compute; reflexivity).
  apply (ltb_nn (N := F64)) in L as Hn. apply (ltb_iff (N := F64)) in L; tauto.
Qed.

Local Opaque sleqp_infinity.

Definition pinf (x : f64) : bool := match x with B754_infinity false => true | _ => false end.
Definition ninf (x : f64) : bool := match x with B754_infinity true => true | _ => false end.
(** A bound as documented: not NaN, infinite or at most 1e100 in absolute value. *)
Definition usual (x : f64) : Prop := fnn x /\ (pinf x = true \/ ninf x = true \/ (Rabs (f64val x) <= B)%R).

Lemma map_lower_ninf (x : f64) : ninf x = true -> map_lower x = @nopp F64 sleqp_infinity.
Proof. destruct x as [|[]| |]; try discriminate; reflexivity. Qed.
Lemma map_upper_pinf (x : f64) : pinf x = true -> map_upper x = @sleqp_infinity F64.
Proof. destruct x as [|[]| |]; try discriminate; reflexivity. Qed.
Lemma map_lower_other (x : f64) : ninf x = false -> map_lower x = x.
Proof. destruct x as [|[]| |]; try discriminate; reflexivity. Qed.
Lemma map_upper_other (x : f64) : pinf x = false -> map_upper x = x.
Proof. destruct x as [|[]| |]; try discriminate; reflexivity. Qed.
Lemma pinf_val (x : f64) : pinf x = true -> f64val x = big.
Proof. destruct x as [|[]| |]; try discriminate; reflexivity. Qed.
Lemma ninf_val (x : f64) : ninf x = true -> f64val x = (- big)%R.
Proof. destruct x as [|[]| |]; try discriminate; reflexivity. Qed.
Lemma usual_other (x : f64) : usual x -> pinf x = false -> ninf x = false -> (- B <= f64val x <= B)%R.
Proof. intros [_ [H|[H|H]]] H1 H2; try congruence. apply Rabs_le_inv. exact H. Qed.

(** Lower bound at most the upper bound, and not infinite of the wrong sign. *)
Definition consistent_at (l u : f64) : Prop := (f64val l <= f64val u)%R /\ pinf l = false /\ ninf u = false.

Lemma low_val (I x : f64) : ffin I = true -> fnn x -> let y := if ninf x then @nopp F64 I else x in
  fnn y /\ f64val y = if ninf x then (- f64val I)%R else f64val x.
Proof.
  intros F Hx. destruct (ninf x); cbn [id]; [|auto]. split; [exact (nn_opp (N := F64) I (nn_fin I F))|exact (val_opp (N := F64) I)].
Qed.
Lemma map_lower_if (x : f64) : map_lower x = if ninf x then @nopp F64 sleqp_infinity else x.
Proof. destruct (ninf x) eqn:E; [now apply map_lower_ninf|now apply map_lower_other]. Qed.
Lemma map_upper_if (x : f64) : map_upper x = if pinf x then @sleqp_infinity F64 else x.
Proof. destruct (pinf x) eqn:E; [now apply map_upper_pinf|now apply map_upper_other]. Qed.

Lemma cross_aux (I l u : f64) : ffin I = true -> (0 < f64val I < big)%R ->
  (pinf l = false -> ninf l = false -> - f64val I <= f64val l <= f64val I)%R ->
  (pinf u = false -> ninf u = false -> - f64val I <= f64val u <= f64val I)%R -> fnn l -> fnn u ->
  @nltb F64 (if pinf u then I else u) (if ninf l then @nopp F64 I else l) = false <-> consistent_at l u.
Proof.
  intros F [B0 B1] Ol Ou Hl Hu. unfold consistent_at. destruct (low_val I l F Hl) as [Nl Vl].
  assert (Nu : fnn (if pinf u then I else u)) by (destruct (pinf u); [now apply nn_fin|auto]).
  assert (Vu : f64val (if pinf u then I else u) = if pinf u then f64val I else f64val u) by (destruct (pinf u); auto).
  rewrite (ltb_false_iff (N:=F64)) by assumption. change (@val F64 F64_Ord) with f64val.
  match goal with |- (?a <= ?b)%R <-> _ => 
    replace a with (if ninf l then (- f64val I)%R else f64val l) by (symmetry; exact Vl);
    replace b with (if pinf u then f64val I else f64val u) by (symmetry; exact Vu) end.
  clear Vl Vu Nl Nu. revert Ol Ou.
  destruct (ninf l) eqn:El, (pinf l) eqn:El', (pinf u) eqn:Eu, (ninf u) eqn:Eu';
    try (destruct l as [|[]| |]; discriminate); try (destruct u as [|[]| |]; discriminate);
    repeat match goal with
      | H : pinf ?x = true |- _ => apply pinf_val in H
      | H : ninf ?x = true |- _ => apply ninf_val in H
      | |- _ -> _ => intro | H : _ -> _ |- _ => specialize (H eq_refl) end;
    split; (intros H; try (destruct H as (H1 & H2 & H3)); try discriminate; try (repeat split; auto); try lra).
Qed.

Lemma cross_iff (l u : f64) : usual l -> usual u ->
  @nltb F64 (map_upper u) (map_lower l) = false <-> consistent_at l u.
Proof.
  intros Hl Hu. rewrite map_lower_if, map_upper_if. destruct inf_lit as [F HB].
  pose proof (usual_other l Hl) as Ol. pose proof (usual_other u Hu) as Ou.
  exact (cross_aux (@sleqp_infinity F64) l u F HB Ol Ou (proj1 Hl) (proj1 Hu)).
Qed.

Lemma finite_lower (v : dvec) cap : (forall i x, get (vent v) i = Some x -> fnn x /\ pinf x = false) -> wf v ->
  vec_is_finite (vmapped map_lower v cap) = true.
Proof.
  intros H (Hd & Hs & Hc). apply vec_is_finite_iff. unfold vmapped. cbn [vent]. intros k e He _.
  rewrite nth_error_map in He. destruct (nth_error (vent v) k) as [[i x]|] eqn:E; [|discriminate]. cbn [option_map] in He. inversion He; subst. cbn [fst snd].
  assert (Hg : get (vent v) i = Some x) by (apply (In_get 0 (vdim v)); auto; eapply nth_error_In; eauto).
  destruct (H i x Hg) as [Hn Hp]. destruct (ninf x) eqn:En.
  - rewrite map_lower_ninf by auto. split; vm_compute; reflexivity.
  - rewrite map_lower_other by auto. destruct x as [|[]| |]; try discriminate; split; reflexivity.
Qed.
Lemma finite_upper (v : dvec) cap : (forall i x, get (vent v) i = Some x -> fnn x /\ ninf x = false) -> wf v ->
  vec_is_finite (vmapped map_upper v cap) = true.
Proof.
  intros H (Hd & Hs & Hc). apply vec_is_finite_iff. unfold vmapped. cbn [vent]. intros k e He _.
  rewrite nth_error_map in He. destruct (nth_error (vent v) k) as [[i x]|] eqn:E; [|discriminate]. cbn [option_map] in He. inversion He; subst. cbn [fst snd].
  assert (Hg : get (vent v) i = Some x) by (apply (In_get 0 (vdim v)); auto; eapply nth_error_In; eauto).
  destruct (H i x Hg) as [Hn Hp]. destruct (pinf x) eqn:En.
  - rewrite map_upper_pinf by auto. split; vm_compute; reflexivity.
  - rewrite map_upper_other by auto. destruct x as [|[]| |]; try discriminate; split; reflexivity.
Qed.
End Doubles.

Section Create.
Context {N : Num} {O : Ord N}.

Lemma slice_all m cs : stores m cs -> slice (ment m) 0 (mnnz m) = Ok (concat cs).
Proof.
  intros Hs. pose proof (layout_facts m cs Hs) as (_ & _ & Hn & Hl & _). destruct Hs as [(_ & _ & _ & _ & (rest & Hr) & _) _].
  unfold slice. destruct (Z.leb_spec (mnnz m) 0) as [H|H].
  - f_equal. symmetry. apply length_zero_iff_nil. lia.
  - destruct (Z.leb_spec (mnnz m) (len (ment m))) as [H'|H'].
    + cbn [Z.leb andb]. change (0 <=? 0) with true. cbn [andb]. rewrite Z.sub_0_r. change (Z.to_nat 0) with 0%nat. cbn [skipn].
      rewrite Hr. rewrite firstn_app. rewrite (proj2 (Nat.sub_0_le _ _)) by lia. rewrite firstn_O, app_nil_r.
      rewrite firstn_all2 by lia. reflexivity.
    + rewrite Hr, app_length in H'. lia.
Qed.

Lemma stores_repeat_nil r c cap : 0 <= r -> 0 <= c -> 0 <= cap ->
  stores (mkmat r c 0 cap (repeat 0 (S (Z.to_nat c))) []) (repeat [] (Z.to_nat c)).
Proof.
  intros Hr Hc Hcap.
  assert (Hcat : forall k, concat (repeat (@nil (Z * num)) k) = []) by (induction k; auto).
  split; [|cbn [mnc]; rewrite repeat_length; lia]. unfold layout. cbn [mnr mnc mcols mnnz ment mcap].
  split; [auto|]. split; [rewrite !repeat_length; lia|]. split; [|split; [|split; [|split]]].
  - intros j Hj. rewrite repeat_length in Hj.
    assert (Hfr : forall j k, (j <= k)%nat -> firstn j (repeat (@nil (Z * num)) k) = repeat [] j).
    { clear. induction j as [|j IH]; intros [|k] H; cbn; auto; try lia. f_equal. apply IH. lia. }
    rewrite Hfr by auto. rewrite Hcat. cbn [length]. apply nth_error_repeat. lia.
  - rewrite Hcat. reflexivity.
  - exists []. now rewrite Hcat.
  - lia.
  - apply Forall_forall. intros x Hx. apply repeat_spec in Hx. subst. exact I.
Qed.

Lemma mat_is_finite_stores m cs : stores m cs -> mat_is_finite m = Ok (forallb (fun e => is_finite (snd e)) (concat cs)).
Proof. intros H. unfold mat_is_finite. rewrite (slice_all m cs H). reflexivity. Qed.

(** Outcome of the construction, once the six bound vectors are converted. *)
Lemma problem_create_spec f vlb vub glb gub coeffs cs llb lub eps :
  0 <= uf_nv f -> 0 <= uf_nc f -> wf vlb -> wf vub -> wf glb -> wf gub -> wf llb -> wf lub ->
  vdim vlb = uf_nv f -> vdim vub = uf_nv f -> vdim glb = uf_nc f -> vdim gub = uf_nc f ->
  vdim llb = mnr coeffs -> vdim lub = mnr coeffs ->
  stores coeffs cs -> mnc coeffs = uf_nv f -> mat_is_finite coeffs = Ok true ->
  map_lower n0 = n0 -> map_upper n0 = n0 ->
  exists c1 c2 c3 c4 c5 c6,
    let vl := vmapped map_lower vlb c1 in let vu := vmapped map_upper vub c2 in
    let gl := vmapped map_lower glb c3 in let gu := vmapped map_upper gub c4 in
    let ll := vmapped map_lower llb c5 in let lu := vmapped map_upper lub c6 in
    wf vl /\ wf vu /\ wf gl /\ wf gu /\ wf ll /\ wf lu /\
    (((vec_is_finite vl = false \/ vec_is_finite vu = false \/ vec_is_finite gl = false \/ vec_is_finite gu = false
       \/ vec_is_finite ll = false \/ vec_is_finite lu = false)
       /\ (problem_create f vlb vub glb gub coeffs llb lub eps = Trap \/ problem_create f vlb vub glb gub coeffs llb lub eps = Err EIllegalArg))
    \/ (vec_is_finite vl = true /\ vec_is_finite vu = true /\ vec_is_finite gl = true /\ vec_is_finite gu = true
        /\ vec_is_finite ll = true /\ vec_is_finite lu = true /\
       ((problem_create f vlb vub glb gub coeffs llb lub eps = Err EIllegalArg
          /\ ~ (no_cross vl vu /\ no_cross gl gu /\ no_cross ll lu))
       \/ (no_cross vl vu /\ no_cross gl gu /\ no_cross ll lu /\ exists clb cub lin gjac,
          problem_create f vlb vub glb gub coeffs llb lub eps =
            Ok (mkproblem f eps (evec (uf_nv f)) vl vu clb cub gl gu lin ll lu (mnr coeffs) (Some (mkvec (uf_nv f) (uf_nv f) []))
                  (evec (uf_nc f)) (evec (mnr coeffs)) (evec (uf_nc f)) gjac)
          /\ wf clb /\ wf cub /\ vdim clb = uf_nc f + mnr coeffs /\ vdim cub = uf_nc f + mnr coeffs
          /\ (forall i, dense clb i = if i <? uf_nc f then map_lower (dense glb i) else map_lower (dense llb (i - uf_nc f)))
          /\ (forall i, dense cub i = if i <? uf_nc f then map_upper (dense gub i) else map_upper (dense lub (i - uf_nc f)))
          /\ stores lin cs /\ mnr lin = mnr coeffs /\ mnc lin = uf_nv f
          /\ mwf gjac /\ mnnz gjac = 0 /\ mnr gjac = uf_nc f /\ mnc gjac = uf_nv f)))).
Proof.
  intros Hnv Hnc W1 W2 W3 W4 W5 W6 D1 D2 D3 D4 D5 D6 Hs Hc Hf Z1 Z2.
  destruct (convert_spec map_lower vlb (uf_nv f) None) as (c1 & C1 & E1); auto; [discriminate|].
  destruct (convert_spec map_upper vub (uf_nv f) None) as (c2 & C2 & E2); auto; [discriminate|].
  destruct (convert_spec map_lower glb (uf_nc f) None) as (c3 & C3 & E3); auto; [discriminate|].
  destruct (convert_spec map_upper gub (uf_nc f) None) as (c4 & C4 & E4); auto; [discriminate|].
  assert (We : forall t : vec, Some (evec 0) = Some t -> wf t). { intros t H. inversion H; subst. unfold wf. cbn. auto with zarith. }
  destruct (convert_spec map_lower llb (mnr coeffs) (Some (evec 0))) as (c5 & C5 & E5); auto.
  destruct (convert_spec map_upper lub (mnr coeffs) (Some (evec 0))) as (c6 & C6 & E6); auto.
  exists c1, c2, c3, c4, c5, c6. intros vl vu gl gu ll lu.
  assert (Wvl : wf vl) by now apply wf_mapped. assert (Wvu : wf vu) by now apply wf_mapped.
  assert (Wgl : wf gl) by now apply wf_mapped. assert (Wgu : wf gu) by now apply wf_mapped.
  assert (Wll : wf ll) by now apply wf_mapped. assert (Wlu : wf lu) by now apply wf_mapped.
  repeat (split; [assumption|]).
  fold vl in E1. fold vu in E2. fold gl in E3. fold gu in E4. fold ll in E5. fold lu in E6.
  unfold problem_create, create_bounds. rewrite E1.
  destruct (vec_is_finite vl) eqn:F1; cbn [check rbind]; [|left; split; [tauto|left; reflexivity]]. rewrite E2.
  destruct (vec_is_finite vu) eqn:F2; cbn [check rbind]; [|left; split; [tauto|left; reflexivity]]. rewrite E3.
  destruct (vec_is_finite gl) eqn:F3; cbn [check rbind]; [|left; split; [tauto|left; reflexivity]]. rewrite E4.
  destruct (vec_is_finite gu) eqn:F4; cbn [check rbind]; [|left; split; [tauto|left; reflexivity]].
  assert (Dv : vdim vl = vdim vu) by (cbn [vl vu vmapped vdim]; congruence).
  assert (Dg : vdim gl = vdim gu) by (cbn [gl gu vmapped vdim]; congruence).
  assert (Dl : vdim ll = vdim lu) by (cbn [ll lu vmapped vdim]; congruence).
  destruct (check_bounds_spec vl vu Wvl Wvu Dv) as [[-> Nv]|[-> Nv]]; cbn [rbind].
  2:{ destruct (vec_is_finite ll) eqn:F5; [destruct (vec_is_finite lu) eqn:F6|].
      - right. repeat (split; [reflexivity|]). left. split; [reflexivity|tauto].
      - left. split; [tauto|right; reflexivity].
      - left. split; [tauto|right; reflexivity]. }
  pose proof (layout_facts coeffs cs Hs) as (R0 & _).
  destruct (mat_create_spec 0 (uf_nv f) 0) as (m0 & Em & Lm & Rm & Cm & Capm); try lia. rewrite Em. cbn [rbind].
  assert (exists m1, mat_resize m0 (mnr coeffs) (uf_nv f) = Ok m1 /\ mwf m1 /\ mnr m1 = mnr coeffs /\ mnc m1 = uf_nv f) as (m1 & Er & Wm1 & Rm1 & Cm1).
  { unfold mat_create in Em. change (0 <=? 0) with true in Em. destruct (Z.leb_spec 0 (uf_nv f)); [|lia]. cbn [andb check rbind] in Em.
    injection Em as <-. unfold mat_resize. cbn [mnc mcols mnr mnnz mcap ment]. destruct (Z.leb_spec 0 (mnr coeffs)), (Z.leb_spec 0 (uf_nv f)); try lia.
    cbn [andb check rbind]. rewrite Z.ltb_irrefl. eexists. split; [reflexivity|]. split; [|auto].
    exists (repeat [] (Z.to_nat (uf_nv f))). apply stores_repeat_nil; auto; lia. }
  rewrite Er. cbn [rbind].
  destruct (mat_copy_spec coeffs cs m1) as (m2 & Ec & S2 & R2 & C2'); auto; try congruence. rewrite Ec. cbn [rbind].
  rewrite (valid_of_wf m2 cs S2). cbn [check rbind].
  rewrite (mat_is_finite_stores m2 cs S2). rewrite (mat_is_finite_stores coeffs cs Hs) in Hf. rewrite Hf. cbn [check rbind].
  rewrite C2', Hc, Z.eqb_refl. cbn [check rbind]. rewrite E5.
  destruct (vec_is_finite ll) eqn:F5; cbn [check rbind]; [|left; split; [tauto|left; reflexivity]]. rewrite E6.
  destruct (vec_is_finite lu) eqn:F6; cbn [check rbind]; [|left; split; [tauto|left; reflexivity]].
  right. repeat (split; [reflexivity|]).
  assert (exists gj, mat_create (uf_nc f) (uf_nv f) 0 = Ok gj /\ mwf gj /\ mnnz gj = 0 /\ mnr gj = uf_nc f /\ mnc gj = uf_nv f) as (gj & -> & Wgj & Ngj & Rgj & Cgj).
  { unfold mat_create. destruct (Z.leb_spec 0 (uf_nc f)), (Z.leb_spec 0 (uf_nv f)); try lia. change (0 <=? 0) with true. cbn [andb check rbind].
    eexists. split; [reflexivity|]. split; [|auto]. exists (repeat [] (Z.to_nat (uf_nv f))). apply stores_repeat_nil; auto; lia. }
  cbn [rbind]. unfold stack_bounds.
  destruct (vec_concat_spec gl ll (evec 0)) as (clb & -> & Wcl & Dcl & Gcl); auto; [cbn; lia|]. cbn [rbind].
  destruct (vec_concat_spec gu lu (evec 0)) as (cub & -> & Wcu & Dcu & Gcu); auto; [cbn; lia|]. cbn [rbind].
  assert (Hcat : no_cross clb cub <-> no_cross gl gu /\ no_cross ll lu).
  { apply no_cross_concat; auto. - destruct Wgl; auto. - destruct Wll; auto. }
  destruct (check_bounds_spec clb cub Wcl Wcu) as [[-> Nc]|[-> Nc]]; [congruence| |]; cbn [rbind].
  - right. apply Hcat in Nc. split; [exact Nv|]. split; [tauto|]. split; [tauto|].
    exists clb, cub, m2, gj. split; [reflexivity|]. split; [exact Wcl|]. split; [exact Wcu|].
    split; [rewrite Dcl; cbn [gl ll vmapped vdim]; congruence|]. split; [rewrite Dcu; cbn [gu lu vmapped vdim]; congruence|].
    split; [|split].
    + intros i. unfold dense at 1. rewrite Gcl. replace (vdim gl) with (uf_nc f) by (cbn [gl vmapped vdim]; congruence).
      destruct (i <? uf_nc f); [exact (dense_mapped map_lower glb c3 i Z1)|exact (dense_mapped map_lower llb c5 _ Z1)].
    + intros i. unfold dense at 1. rewrite Gcu. replace (vdim gu) with (uf_nc f) by (cbn [gu vmapped vdim]; congruence).
      destruct (i <? uf_nc f); [exact (dense_mapped map_upper gub c4 i Z2)|exact (dense_mapped map_upper lub c6 _ Z2)].
    + repeat (split; [auto; congruence|]). auto.
  - left. split; [reflexivity|]. tauto.
Qed.
End Create.

Section Eval.
Context {N : Num} {O : Ord N}.
Hypotheses (Z1 : map_lower n0 = n0) (Z2 : map_upper n0 = n0).

(** Problems obtained from the constructor and any number of [set_value] calls; [cs] are the columns of the linear coefficients. *)
Inductive reach (cs : list (list (Z * num))) : problem -> Prop :=
| reach_create f vlb vub glb gub coeffs llb lub eps p :
    0 <= uf_nv f -> 0 <= uf_nc f -> wf vlb -> wf vub -> wf glb -> wf gub -> wf llb -> wf lub ->
    vdim vlb = uf_nv f -> vdim vub = uf_nv f -> vdim glb = uf_nc f -> vdim gub = uf_nc f ->
    vdim llb = mnr coeffs -> vdim lub = mnr coeffs ->
    stores coeffs cs -> mnc coeffs = uf_nv f -> mat_is_finite coeffs = Ok true ->
    problem_create f vlb vub glb gub coeffs llb lub eps = Ok p -> reach cs p
| reach_set p x p' : reach cs p -> wf x -> vdim x = uf_nv (p_func p) -> problem_set_value p x = Ok p' -> reach cs p'.

Definition pinv cs (p : problem) : Prop :=
  0 <= uf_nv (p_func p) /\ 0 <= uf_nc (p_func p) /\ stores (p_lin p) cs /\ mnr (p_lin p) = p_nl p /\ mnc (p_lin p) = uf_nv (p_func p)
  /\ (exists v, p_primal p = Some v /\ wf v /\ vdim v = uf_nv (p_func p))
  /\ wf (p_gval p) /\ vdim (p_gval p) = uf_nc (p_func p) /\ wf (p_lval p) /\ wf (p_gdual p) /\ vdim (p_gdual p) = uf_nc (p_func p)
  /\ mwf (p_gjac p) /\ mnr (p_gjac p) = uf_nc (p_func p) /\ mnc (p_gjac p) = uf_nv (p_func p).

Lemma set_value_spec cs p x : pinv cs p -> wf x -> vdim x = uf_nv (p_func p) ->
  exists p' v, problem_set_value p x = Ok p' /\ pinv cs p' /\ p_point p' = x /\ p_primal p' = Some v /\ wf v /\ vdim v = vdim x /\ vent v = vent x
    /\ p_func p' = p_func p /\ p_nl p' = p_nl p /\ p_eps p' = p_eps p.
Proof.
  intros (H1 & H2 & H3 & H4 & H5 & (v & Ev & Wv & Dv) & H6) Wx Dx. unfold problem_set_value. rewrite Ev.
  destruct (vec_copy_spec x v) as (v' & E & W & D & En); auto; [congruence|]. rewrite E. cbn [rbind].
  eexists _, v'. split; [reflexivity|]. unfold pinv. cbn [p_func p_lin p_nl p_primal p_gval p_lval p_gdual p_gjac p_point p_eps].
  split; [|auto 10]. split; [auto|]. split; [auto|]. split; [auto|]. split; [auto|]. split; [auto|]. split; [|exact H6].
  exists v'. split; [reflexivity|]. split; [auto|congruence].
Qed.

Lemma reach_inv cs p : reach cs p -> pinv cs p.
Proof.
  induction 1 as [f vlb vub glb gub coeffs llb lub eps p Hnv Hnc W1 W2 W3 W4 W5 W6 D1 D2 D3 D4 D5 D6 Hs Hc Hf E|p x p' H IH Wx Dx E].
  - destruct (problem_create_spec f vlb vub glb gub coeffs cs llb lub eps)
      as (c1 & c2 & c3 & c4 & c5 & c6 & _ & _ & _ & _ & _ & _ & H); auto.
    destruct H as [[Hb He]|(_ & _ & _ & _ & _ & _ & [[He Hn]|(N1 & N2 & N3 & clb & cub & lin & gj & He & Wc & Wc' & Dc & Dc' & Gl & Gu & Sl & Rl & Cl & Wg & Ng & Rg & Cg)])].
    + destruct He as [He|He]; rewrite He in E; discriminate.
    + rewrite He in E; discriminate.
    + rewrite He in E. apply (f_equal (fun r => match r with Ok q => q | _ => p end)) in E. cbv iota beta in E. subst p.
      assert (Hm : 0 <= mnr coeffs) by apply (layout_facts _ _ Hs).
      assert (We : forall d, 0 <= d -> wf (evec d)). { intros d Hd. unfold wf, evec. cbn [vdim vent vcap keys map length sorted_in]. auto with zarith. }
      unfold pinv. cbn [p_func p_lin p_nl p_primal p_gval p_lval p_gdual p_gjac].
      repeat (split; [solve [auto]|]). split; [|repeat (split; [solve [auto]|]); auto].
      eexists. split; [reflexivity|]. unfold wf. cbn [vdim vent vcap keys map length sorted_in]. auto.
  - destruct (set_value_spec cs p x IH Wx Dx) as (q & v & E' & Hq & _). congruence.
Qed.

Lemma clear_wf (v : vec) : wf v -> wf (vec_clear v).
Proof. intros (H & _ & H'). unfold wf, vec_clear. cbn [vdim vent vcap keys map length sorted_in]. split; [auto|]. split; [exact I|]. lia. Qed.

(** The user's constraint function computes [g] at [x]. *)
Definition cons_oracle (f : ufunc) (x : vec) (g : Z -> num) : Prop :=
  forall v, wf v -> vdim v = uf_nc f -> vent v = [] ->
  exists w, uf_cons f x v = Ok w /\ wf w /\ vdim w = uf_nc f /\ vec_is_finite w = true /\ forall i, 0 <= i < uf_nc f -> dense w i = g i.

Lemma func_cons_val_spec f x g v : 0 <= uf_nc f -> cons_oracle f x g -> wf v -> vdim v = uf_nc f ->
  exists w, func_cons_val f x v = Ok w /\ wf w /\ vdim w = uf_nc f /\ forall i, 0 <= i < uf_nc f -> dense w i = g i.
Proof.
  intros H0 Ho Wv Dv. unfold func_cons_val. destruct (Z.eqb_spec (uf_nc f) 0) as [E|E].
  - cbn [rbind]. rewrite (wf_valid _ (clear_wf _ Wv)). cbn [check rbind]. exists (vec_clear v). split; [reflexivity|]. split; [now apply clear_wf|].
    split; [exact Dv|]. intros i Hi. lia.
  - destruct (Ho (vec_clear v)) as (w & -> & Ww & Dw & Fw & Gw); auto; [now apply clear_wf|]. cbn [rbind].
    rewrite (wf_valid _ Ww), Fw. cbn [check rbind]. eauto.
Qed.

(** Small values are dropped. *)
Definition flush (eps x : num) : num := if is_zero x eps then n0 else x.

Lemma cons_val_spec cs p x p' g v : reach cs p -> wf x -> vdim x = uf_nv (p_func p) -> problem_set_value p x = Ok p' ->
  cons_oracle (p_func p) x g -> wf v -> vdim v = uf_nc (p_func p) + p_nl p ->
  exists z, problem_cons_val p' v = Ok z /\ wf z /\ vdim z = uf_nc (p_func p) + p_nl p
    /\ (forall i, 0 <= i < uf_nc (p_func p) -> dense z i = g i)
    /\ (forall i, 0 <= i < p_nl p -> dense z (uf_nc (p_func p) + i) = flush (p_eps p) (fold_left (row_acc cs i) (vent x) n0)).
Proof.
  intros Hr Wx Dx E Ho Wv Dv. apply reach_inv in Hr.
  destruct (set_value_spec cs p x Hr Wx Dx) as (q & u & E' & Hq & Px & Pu & Wu & Du & Vu & Fq & Lq & Eq). rewrite E' in E. injection E as <-.
  unfold problem_cons_val. rewrite Fq, Lq, Px, Eq. destruct Hr as (H1 & H2 & H3 & H4 & H5 & _ & _).
  destruct Hq as (_ & _ & S1 & R1 & C1 & _ & Wg & Dg & Wl & _). rewrite Fq in Dg, C1. rewrite Lq in R1.
  assert (Hnl : 0 <= p_nl p) by (rewrite <- R1; apply (layout_facts _ _ S1)).
  destruct (Z.eqb_spec (p_nl p) 0) as [El|El].
  - destruct (func_cons_val_spec (p_func p) x g v) as (w & Ew & Ww & Dw & Gw); auto; [lia|].
    exists w. split; [exact Ew|]. split; [auto|]. split; [lia|]. split; [auto|]. intros; lia.
  - unfold get_primal. rewrite Pu. cbn [rbind].
    destruct (mat_mult_vec_spec (p_lin q) cs u) as (a & Ea & La & Ha); auto; [congruence|]. rewrite Ea. cbn [rbind].
    assert (Hrow : forall (r : vec) i, (forall i, 0 <= i -> get (vent r) i = match nth_error a (Z.to_nat i) with Some x => if is_zero x (p_eps p) then None else Some x | None => None end) ->
       0 <= i < p_nl p -> dense r i = flush (p_eps p) (fold_left (row_acc cs i) (vent x) n0)).
    { intros r i Hg Hi. unfold dense. rewrite Hg by lia. rewrite (nth_error_nth' a n0) by lia. rewrite Ha, Vu by lia. unfold flush.
      destruct (is_zero _ _); reflexivity. }
    destruct (Z.eqb_spec (uf_nc (p_func p)) 0) as [Eg|Eg].
    + destruct (vec_set_from_raw_spec v a (p_eps p) Wv) as (z & Ez & Wz & Dz & Gz). exists z. split; [exact Ez|]. split; [auto|]. split; [lia|].
      split; [intros; lia|]. intros i Hi. rewrite Eg. cbn [Z.add]. apply Hrow; auto.
    + destruct (vec_set_from_raw_spec (p_lval q) a (p_eps p) Wl) as (l & El' & Wl' & Dl & Gl). rewrite El'. cbn [rbind].
      destruct (func_cons_val_spec (p_func p) x g (p_gval q)) as (w & Ew & Ww & Dw & Gw); auto. rewrite Ew. cbn [rbind].
      destruct (vec_concat_spec w l v) as (z & Ez & Wz & Dz & Gz); auto. { destruct Wv as (_ & _ & Wv). lia. }
      exists z. split; [exact Ez|]. split; [auto|]. split; [lia|]. split.
      * intros i Hi. unfold dense. rewrite Gz. destruct (Z.ltb_spec i (vdim w)); [|lia]. now apply Gw.
      * intros i Hi. unfold dense. rewrite Gz. destruct (Z.ltb_spec (uf_nc (p_func p) + i) (vdim w)); [lia|].
        rewrite Dw. replace (uf_nc (p_func p) + i - uf_nc (p_func p)) with i by lia. now apply Hrow.
Qed.

(** The user's Jacobian callback stores the columns [gs] at [x]. *)
Definition jac_oracle (f : ufunc) (x : vec) (gs : list (list (Z * num))) : Prop :=
  forall m, mwf m -> mnnz m = 0 -> mnr m = uf_nc f -> mnc m = uf_nv f ->
  exists w, uf_jac f x m = Ok w /\ stores w gs /\ mnr w = uf_nc f /\ mnc w = uf_nv f /\ mat_is_finite w = Ok true.

Lemma mat_clear_mwf m : mwf m -> stores (mat_clear m) (repeat [] (Z.to_nat (mnc m))).
Proof.
  intros (cs & Hs). pose proof (layout_facts m cs Hs) as (R & C & Hn & _).
  assert (E : stores (mkmat (mnr m) (mnc m) 0 (mcap m) (repeat 0 (S (Z.to_nat (mnc m)))) []) (repeat [] (Z.to_nat (mnc m)))) by (apply stores_repeat_nil; lia).
  destruct E as [(L1 & L2 & L3 & L4 & _ & L6 & L7) L8]. split; [|exact L8]. unfold layout, mat_clear in *. cbn [mnr mnc mcols mnnz ment mcap] in *.
  split; [auto|]. split; [auto|]. split; [auto|]. split; [auto|]. split; [|auto]. exists (ment m).
  assert (Hcat : forall k, concat (repeat (@nil (Z * num)) k) = []) by (induction k; auto). now rewrite Hcat.
Qed.

Lemma func_cons_jac_spec f x gs m : 0 <= uf_nc f -> jac_oracle f x gs -> mwf m -> mnr m = uf_nc f -> mnc m = uf_nv f ->
  exists w ws, func_cons_jac f x m = Ok w /\ stores w ws /\ mnr w = uf_nc f /\ mnc w = uf_nv f
    /\ forall i j, 0 <= i < uf_nc f -> 0 <= j < uf_nv f -> mget ws i j = mget gs i j.
Proof.
  intros H0 Ho Wm Rm Cm. pose proof (mat_clear_mwf m Wm) as Hc. unfold func_cons_jac. destruct (Z.eqb_spec (uf_nc f) 0) as [E|E].
  - cbn [rbind]. rewrite (valid_of_wf _ _ Hc). cbn [check rbind]. rewrite (mat_is_finite_stores _ _ Hc).
    assert (Hcat : forall k, concat (repeat (@nil (Z * num)) k) = []) by (induction k; auto). rewrite Hcat. cbn [forallb check rbind].
    eexists _, _. split; [reflexivity|]. split; [exact Hc|]. split; [exact Rm|]. split; [exact Cm|]. intros; lia.
  - destruct (Ho (mat_clear m)) as (w & -> & Sw & Rw & Cw & Fw); auto; [now eexists; eauto|]. cbn [rbind].
    rewrite (valid_of_wf _ _ Sw). cbn [check rbind]. rewrite Fw. cbn [check rbind]. eexists _, _. split; [reflexivity|]. eauto.
Qed.

Lemma cons_jac_spec cs p x p' gs m : reach cs p -> wf x -> vdim x = uf_nv (p_func p) -> problem_set_value p x = Ok p' ->
  jac_oracle (p_func p) x gs -> mwf m -> mnr m = uf_nc (p_func p) + p_nl p -> mnc m = uf_nv (p_func p) ->
  exists z zs, problem_cons_jac p' m = Ok z /\ stores z zs /\ mnr z = uf_nc (p_func p) + p_nl p /\ mnc z = uf_nv (p_func p)
    /\ (forall i j, 0 <= i < uf_nc (p_func p) -> 0 <= j < uf_nv (p_func p) -> mget zs i j = mget gs i j)
    /\ (forall i j, 0 <= i < p_nl p -> 0 <= j < uf_nv (p_func p) -> mget zs (uf_nc (p_func p) + i) j = mget cs i j).
Proof.
  intros Hr Wx Dx E Ho Wm Rm Cm. apply reach_inv in Hr.
  destruct (set_value_spec cs p x Hr Wx Dx) as (q & u & E' & Hq & Px & Pu & Wu & Du & Vu & Fq & Lq & Eq). rewrite E' in E. injection E as <-.
  unfold problem_cons_jac. rewrite Fq, Lq, Px. destruct Hr as (H1 & H2 & _).
  destruct Hq as (_ & _ & S1 & R1 & C1 & _ & _ & _ & _ & _ & _ & Wj & Rj & Cj). rewrite Fq in Rj, Cj, C1. rewrite Lq in R1.
  assert (Hnl : 0 <= p_nl p) by (rewrite <- R1; apply (layout_facts _ _ S1)).
  destruct (Z.eqb_spec (p_nl p) 0) as [El|El].
  - destruct (func_cons_jac_spec (p_func p) x gs m) as (w & ws & Ew & Sw & Rw & Cw & Gw); auto; [lia|].
    exists w, ws. split; [exact Ew|]. split; [auto|]. split; [lia|]. split; [auto|]. split; [auto|]. intros; lia.
  - destruct (Z.eqb_spec (uf_nc (p_func p)) 0) as [Eg|Eg].
    + destruct (mat_copy_spec (p_lin q) cs m) as (z & Ez & Sz & Rz & Cz); auto; try lia.
      exists z, cs. split; [exact Ez|]. split; [auto|]. split; [lia|]. split; [lia|]. split; [intros; lia|]. intros i j Hi Hj. rewrite Eg. reflexivity.
    + destruct (func_cons_jac_spec (p_func p) x gs (p_gjac q)) as (w & ws & Ew & Sw & Rw & Cw & Gw); auto. rewrite Ew. cbn [rbind].
      assert (exists z zs, mat_vstack w (p_lin q) m = Ok z /\ stores z zs /\ mnr z = mnr w + mnr (p_lin q) /\ mnc z = mnc w
        /\ forall i j, 0 <= i < mnr w + mnr (p_lin q) -> 0 <= j < mnc w -> mget zs i j = if i <? mnr w then mget ws i j else mget cs (i - mnr w) j)
        as (z & zs & Ez & Sz & Rz & Cz & Hent).
      { destruct (mat_vstack_layout w (p_lin q) m ws cs Sw S1 Wm) as (z & Ez & Sz & Rz & Cz); [lia|lia|].
        eexists z, _. split; [exact Ez|]. split; [exact Sz|]. split; [exact Rz|]. split; [exact Cz|]. intros i j Hi Hj.
        apply (stack_entry ws cs (mnr w) (mnr (p_lin q))); auto; try apply (layout_facts _ _ Sw); try apply (layout_facts _ _ S1); try apply Sw.
        replace (mnc w) with (mnc (p_lin q)) by lia. apply S1. }
      exists z, zs. split; [exact Ez|]. split; [exact Sz|]. split; [lia|]. split; [lia|]. split.
      * intros i j Hi Hj. rewrite Hent by lia. destruct (Z.ltb_spec i (mnr w)); [|lia]. now apply Gw.
      * intros i j Hi Hj. rewrite Hent by lia. destruct (Z.ltb_spec (uf_nc (p_func p) + i) (mnr w)); [lia|]. f_equal. lia.
Qed.

Lemma take_below_spec n lo hi (l : list (Z * num)) : sorted_in lo hi (keys l) ->
  sorted_in lo n (keys (take_below n l)) /\ (length (take_below n l) <= length l)%nat
  /\ forall i, get (take_below n l) i = if i <? n then get l i else None.
Proof.
  revert lo; induction l as [|[k x] l IH]; intros lo Hs; cbn [take_below].
  - split; [exact I|]. split; [auto|]. intros i. cbn [get]. now destruct (i <? n).
  - cbn [keys map fst sorted_in] in Hs. destruct Hs as [Hk Hs]. cbn [fst]. destruct (Z.leb_spec n k) as [H|H].
    + split; [exact I|]. split; [cbn; lia|]. intros i. cbn [get]. destruct (Z.ltb_spec i n); [|reflexivity].
      destruct (Z.eqb_spec k i); [lia|]. symmetry. apply (get_below (k + 1) hi); auto. lia.
    + destruct (IH _ Hs) as (H1 & H2 & H3). split; [cbn [keys map fst sorted_in]; split; [lia|exact H1]|]. split; [cbn [length]; lia|].
      intros i. cbn [get]. destruct (Z.eqb_spec k i) as [->|]; [|apply H3]. destruct (Z.ltb_spec i n); [reflexivity|lia].
Qed.

Lemma hess_prod_spec cs p x p' d y r : reach cs p -> wf x -> vdim x = uf_nv (p_func p) -> problem_set_value p x = Ok p' ->
  wf y -> vdim y = uf_nc (p_func p) + p_nl p ->
  exists y', wf y' /\ vdim y' = uf_nc (p_func p) /\ (forall i, 0 <= i < uf_nc (p_func p) -> dense y' i = dense y i)
    /\ problem_hess_prod p' d y r = func_hess_prod (p_func p) x d y' r.
Proof.
  intros Hr Wx Dx E Wy Dy. apply reach_inv in Hr.
  destruct (set_value_spec cs p x Hr Wx Dx) as (q & u & E' & Hq & Px & Pu & Wu & Du & Vu & Fq & Lq & Eq). rewrite E' in E. injection E as <-.
  unfold problem_hess_prod. rewrite Fq, Lq, Px. destruct Hr as (H1 & H2 & _).
  destruct Hq as (_ & _ & _ & _ & _ & _ & _ & _ & _ & Wd & Dd & _). rewrite Fq in Dd.
  destruct (Z.eqb_spec (p_nl p) 0) as [El|El].
  - exists y. split; [auto|]. split; [lia|]. auto.
  - unfold prepare_cons_duals. rewrite Fq. destruct (vec_reserve_spec (p_gdual q) (vnnz y)) as (d1 & E1 & W1 & D1 & V1 & C1); auto. { unfold vnnz; lia. }
    rewrite E1. cbn [rbind]. destruct (take_below_spec (uf_nc (p_func p)) 0 (vdim y) (vent y)) as (T1 & T2 & T3); [apply Wy|].
    rewrite push_all_ok; cbn [vec_clear vent vdim vcap app vnnz length].
    + cbn [rbind]. eexists. split; [|split; [|split; [|reflexivity]]].
      * unfold wf. cbn [vdim vent vcap]. rewrite D1, Dd. split; [auto|]. split; [exact T1|]. unfold vnnz in C1. lia.
      * cbn [vdim]. congruence.
      * intros i Hi. unfold dense. cbn [vent]. rewrite T3. destruct (Z.ltb_spec i (uf_nc (p_func p))); [reflexivity|lia].
    + rewrite D1, Dd. exact T1.
    + unfold vnnz in *. cbn [vec_clear vent length]. lia.
Qed.
End Eval.
