(** Theorems added after mutation testing of the model: behaviour which the other property files
    leave open. *)
From Coq Require Import Reals Lra Ascii.
From Flocq Require Import Core BinarySingleNaN.
From Coquelicot Require Import Coquelicot.
From Verif Require Import Base Num Cmp Sparse Vec VecFacts VecFacts2 Order F64Facts Mat MatFacts MatFacts2 MatFacts4 RSum VecReal
  Problem Settings Scale ScaleFacts ScaleReal PropsScale.
From Coq Require Import List FinFun.
Import ListNotations.
Local Open Scope list_scope.
Local Open Scope Z_scope.

(** ** C10 *)

(** Infinite: a number of at least half of 1e100, itself included; finite: of absolute value
    below that, or NaN. *)
Definition half_inf : f64 := @ndiv F64 (@nlit F64 (10 ^ 100) 1) (@nlit F64 2 1).
Theorem C10_infinite : forall x : f64,
  (@is_infinite F64 x = true <-> fnn x /\ (f64val half_inf <= f64val x)%R) /\
  (@is_finite F64 x = true <-> (fnn x -> (Rabs (f64val x) < f64val half_inf)%R)).
Proof.
  assert (Hh : @nn F64 F64_Ord half_inf) by (vm_compute; reflexivity).
  assert (G : forall x : f64, @is_infinite F64 x = true <-> fnn x /\ (f64val half_inf <= f64val x)%R).
  { intros x. unfold is_infinite. fold half_inf. destruct (@nisnan F64 x) eqn:E.
    - split; [discriminate|]. intros [Hn _]. exfalso. destruct x; discriminate.
    - assert (Hn : @nn F64 F64_Ord x) by (destruct x; auto). change (@nleb F64 half_inf x = true <-> fnn x /\ (f64val half_inf <= f64val x)%R).
      rewrite (leb_val half_inf x Hh Hn). change (@val F64 F64_Ord) with f64val.
      destruct (Rle_bool_spec (f64val half_inf) (f64val x)); split; intros H1; auto; [discriminate|destruct H1; lra]. }
  intros x. split; [apply G|]. unfold is_finite. rewrite negb_true_iff.
  destruct (@nisnan F64 x) eqn:E.
  - destruct x as [b|b| |b m e H]; try (cbn in E; congruence). split; [intros _ H; cbn in H; congruence|intros _; vm_compute; reflexivity].
  - assert (Hn : @nn F64 F64_Ord x) by (destruct x; auto).
    pose proof (nn_abs x Hn) as Ha. pose proof (val_abs x Hn) as Ev. change (@val F64 F64_Ord) with f64val in Ev.
    specialize (G (@nabs F64 x)). rewrite Ev in G. split.
    + intros H _. destruct (Rlt_le_dec (Rabs (f64val x)) (f64val half_inf)) as [L|L]; [exact L|]. rewrite (proj2 G) in H; [discriminate|]. split; auto.
    + intros H. destruct (@is_infinite F64 (@nabs F64 x)) eqn:E2; [|reflexivity]. destruct (proj1 G eq_refl) as [_ E3]. specialize (H Hn). lra.
Qed.
Print Assumptions C10_infinite.
Example C10_infinite_example : @is_infinite F64 half_inf = true /\ @is_infinite F64 (Bpred half_inf) = false /\
  @is_finite F64 (Bpred half_inf) = true /\ @is_finite F64 (@nopp F64 half_inf) = false.
Proof. vm_compute. repeat split. Qed.

(** ** C47 *)

Lemma index_dec {A} (l : list (Z * A)) d : sorted_in 0 d (map fst l) -> 0 <= d ->
  (Z.of_nat (length l) = d -> forall i, 0 <= i < d -> In i (map fst l)) /\
  (Z.of_nat (length l) <> d -> exists i, 0 <= i < d /\ ~ In i (map fst l)).
Proof.
  intros Hs Hd. pose proof (sorted_in_NoDup _ _ _ Hs) as Hn. pose proof (sorted_in_length _ _ _ Hs) as Hl. rewrite map_length in Hl.
  assert (Hz : forall i, In i (zrange d) <-> 0 <= i < d).
  { intros i. unfold zrange. rewrite in_map_iff. split.
    - intros (k & <- & Hk). apply in_seq in Hk. lia.
    - intros Hi. exists (Z.to_nat i). split; [lia|]. apply in_seq. lia. }
  assert (Hzl : length (zrange d) = Z.to_nat d) by (unfold zrange; now rewrite map_length, seq_length).
  assert (Hincl : incl (map fst l) (zrange d)) by (intros i Hi; apply Hz; eapply sorted_in_In; eauto).
  split.
  - intros E i Hi. assert (H : incl (zrange d) (map fst l)) by (apply (NoDup_length_incl Hn); [rewrite map_length; lia|exact Hincl]).
    apply H, Hz, Hi.
  - intros E. destruct (Forall_Exists_dec (fun i => In i (map fst l)) (fun i => in_dec Z.eq_dec i (map fst l)) (zrange d)) as [F|X].
    + exfalso. assert (Hnz : NoDup (zrange d)).
      { unfold zrange. apply FinFun.Injective_map_NoDup; [intros a b; lia|apply seq_NoDup]. }
      assert (H : incl (zrange d) (map fst l)) by (intros i Hi; rewrite Forall_forall in F; now apply F).
      pose proof (NoDup_incl_length Hnz H). rewrite map_length in *. lia.
    + apply Exists_exists in X as (i & Hi & Hni). exists i. split; [now apply Hz|exact Hni].
Qed.

(** A problem counts as unconstrained exactly if no bound on a variable or constraint is finite
    (absent entries are zero bounds). *)
Lemma has_finite_spec (v : @vec F64) b : wf v -> vec_has_finite v = Ok b ->
  (b = true <-> exists i, 0 <= i < vdim v /\ @is_finite F64 (dense v i) = true).
Proof.
  intros Hw E. unfold vec_has_finite in E. apply rbind_ok in E as (u1 & _ & E). apply rbind_ok in E as (u2 & _ & E).
  assert (Hab : forall x : f64, @is_finite F64 (@nabs F64 x) = @is_finite F64 x).
  { intros x. apply eq_true_iff_eq. rewrite (proj2 (C10_infinite x)), (proj2 (C10_infinite (@nabs F64 x))).
    destruct (@nisnan F64 x) eqn:En.
    - destruct x as [c|c| |c m e H]; try (cbn in En; congruence). split; intros _ H; vm_compute in H; congruence.
    - assert (Hn : @nn F64 F64_Ord x) by (destruct x; auto). pose proof (nn_abs x Hn) as Ha.
      pose proof (val_abs x Hn) as Ev. change (@val F64 F64_Ord) with f64val in Ev. rewrite Ev, Rabs_Rabsolu.
      split; intros H _; now apply H. }
  destruct Hw as (Hd & Hs & Hc). destruct (index_dec (vent v) (vdim v) Hs Hd) as [Hall Hmiss].
  destruct (Z.eqb_spec (vnnz v) (vdim v)) as [En|En]; cbn [negb] in E; inv E.
  - rewrite existsb_exists. split.
    + intros ([i x] & Hin & Hf). exists i. cbn [snd] in Hf. rewrite Hab in Hf. split.
      * eapply sorted_in_In; [exact Hs|]. change i with (fst (i, x)). now apply in_map.
      * unfold dense. rewrite (In_get _ _ _ _ _ Hs Hin). exact Hf.
    + intros (i & Hi & Hf). pose proof (Hall En i Hi) as Hin. apply in_map_iff in Hin as ([j x] & Ej & Hin). cbn [fst] in Ej. subst j.
      exists (i, x). split; [exact Hin|]. cbn [snd]. rewrite Hab.
      unfold dense in Hf. rewrite (In_get _ _ _ _ _ Hs Hin) in Hf. exact Hf.
  - split; [|reflexivity]. intros _. destruct (Hmiss En) as (i & Hi & Hg).
    exists i. split; [exact Hi|]. unfold dense. apply get_None in Hg. rewrite Hg. vm_compute. reflexivity.
Qed.

Theorem C47_unconstrained : forall (p : @problem F64) b, wf (p_vlb p) -> wf (p_vub p) -> wf (p_clb p) -> wf (p_cub p) ->
  is_unconstrained p = Ok b ->
  (b = true <-> forall v i, In v [p_vlb p; p_vub p; p_clb p; p_cub p] -> 0 <= i < vdim v -> @is_finite F64 (dense v i) = false).
Proof.
  intros p b W1 W2 W3 W4 E.
  assert (G : forall l, Forall wf l -> forall f : list bool, map (fun v => vec_has_finite v) l = map Ok f ->
     forallb negb f = true <-> forall v i, In v l -> 0 <= i < vdim v -> @is_finite F64 (dense v i) = false).
  { intros l Hw. induction Hw as [|v l Hv Hw IH]; intros [|c f] Ef; try discriminate.
    - split; [intros _ v i []|reflexivity].
    - cbn [map] in Ef. injection Ef as Ec Ef. cbn [forallb]. rewrite andb_true_iff, (IH f Ef). pose proof (has_finite_spec v c Hv Ec) as Hc. split.
      + intros [Hn Ha] u i [<-|Hin] Hi; [|now apply Ha]. destruct (is_finite (dense v i)) eqn:Ei; [|reflexivity].
        rewrite (proj2 Hc) in Hn; [discriminate|eauto].
      + intros Ha. split; [|intros u i Hin; apply Ha; now right]. destruct c; [|reflexivity]. destruct (proj1 Hc eq_refl) as (i & Hi & Hf).
        rewrite Ha in Hf; [discriminate|now left|exact Hi]. }
  assert (G1 : forall v c, wf v -> vec_has_finite v = Ok c -> c = true -> exists i, 0 <= i < vdim v /\ @is_finite F64 (dense v i) = true)
    by (intros v c Hv Ec; now apply (has_finite_spec v c Hv Ec)).
  unfold is_unconstrained in E. apply rbind_ok in E as (c1 & E1 & E). destruct c1.
  { inv E. split; [discriminate|]. intros H. destruct (G1 _ _ W1 E1 eq_refl) as (i & Hi & Hf). rewrite H in Hf; [discriminate|cbn; auto|auto]. }
  apply rbind_ok in E as (c2 & E2 & E). destruct c2.
  { inv E. split; [discriminate|]. intros H. destruct (G1 _ _ W2 E2 eq_refl) as (i & Hi & Hf). rewrite H in Hf; [discriminate|cbn; auto|auto]. }
  apply rbind_ok in E as (c3 & E3 & E). destruct c3.
  { inv E. split; [discriminate|]. intros H. destruct (G1 _ _ W3 E3 eq_refl) as (i & Hi & Hf). rewrite H in Hf; [discriminate|cbn; auto|auto]. }
  apply rbind_ok in E as (c4 & E4 & E). inv E.
  rewrite <- (G [p_vlb p; p_vub p; p_clb p; p_cub p] ltac:(auto) [false; false; false; c4]); [|cbn [map]; congruence].
  cbn. now rewrite andb_true_r.
Qed.
Print Assumptions C47_unconstrained.
Example C47_unconstrained_example : exists p, wf (p_vlb p) /\ wf (p_vub p) /\ wf (p_clb p) /\ wf (p_cub p) /\
  is_unconstrained p = Ok true /\
  is_unconstrained (mkproblem (p_func p) (p_eps p) (p_point p) (p_vlb p) (p_vub p) (mkvec 1 1 [(0, @n1 F64)]) (p_cub p)
    (p_glb p) (p_gub p) (p_lin p) (p_llb p) (p_lub p) (p_nl p) (p_primal p) (p_gval p) (p_lval p) (p_gdual p) (p_gjac p)) = Ok false.
Proof.
  pose (m := @mkvec F64 1 1 [(0, B754_infinity true)]). pose (q := @mkvec F64 1 1 [(0, B754_infinity false)]). pose (e := @mkvec F64 0 0 []).
  exists (mkproblem (mkufunc 1 1 (fun _ v => Ok v) (fun _ m => Ok m) (fun _ _ _ v => Ok v)) n0 e m q m q m q (mkmat 0 0 0 0 [] []) e e 0 None e e e (mkmat 0 0 0 0 [] [])).
  unfold wf; cbn [p_vlb p_vub p_clb p_cub vdim vent vcap m q]. repeat split; try (cbn; lia); vm_compute; reflexivity.
Qed.

(** ** C31 *)

(** A file which cannot be opened is reported and leaves the settings unchanged. *)
Theorem C31_missing_file {A} (strtod : list ascii -> A * list ascii) (s : settings A) :
  read_file strtod s None = (s, Err EIllegalArg).
Proof. reflexivity. Qed.
Print Assumptions C31_missing_file.

(** ** C22: the callbacks of the scaled function *)

(** Successful calls of the user's callbacks return the values [C] and their derivatives. *)
Definition cons_oracle (f : @ufunc RN) (x : @vec RN) (C : Z -> (Z -> R) -> R) : Prop :=
  forall buf r, wf buf -> vdim buf = uf_nc f -> uf_cons f x buf = Ok r ->
    wf r /\ vdim r = uf_nc f /\ forall i, 0 <= i < uf_nc f -> dense r i = C i (dense x).
Definition jac_oracle (f : @ufunc RN) (x : @vec RN) (C : Z -> (Z -> R) -> R) : Prop :=
  forall buf m, uf_jac f x buf = Ok m ->
    exists cs, stores m cs /\ mnr m = uf_nc f /\ mnc m = uf_nv f /\
    forall i j, 0 <= i < uf_nc f -> 0 <= j < uf_nv f -> partial_at (C i) (dense x) j (mR cs i j).

Theorem C22_scaled_callbacks : forall (s : scaling) (f : @ufunc RN) (C : Z -> (Z -> R) -> R) (y : @vec RN), swf s ->
  uf_nv f = sc_nv s -> uf_nc f = sc_nc s -> 0 < sc_nc s -> wf y -> vdim y = sc_nv s -> (forall i, extensional (C i)) ->
  (forall u, wf u -> vdim u = sc_nv s -> cons_oracle f u C /\ jac_oracle f u C) ->
  (forall buf r, wf buf -> vdim buf = sc_nc s -> uf_cons (scaled_func s f (sc_nc s)) y buf = Ok r ->
     wf r /\ vdim r = sc_nc s /\
     forall i, 0 <= i < sc_nc s -> dense r i = (C i (fun j => dense y j * p2 (vw s j)) * p2 (- cw s i))%R) /\
  (forall buf m, uf_jac (scaled_func s f (sc_nc s)) y buf = Ok m ->
     exists cs, stores m cs /\ mnr m = sc_nc s /\ mnc m = sc_nv s /\
     forall i j, 0 <= i < sc_nc s -> 0 <= j < sc_nv s ->
       partial_at (fun z => (C i (fun j => z j * p2 (vw s j)) * p2 (- cw s i))%R) (dense y) j (mR cs i j)).
Proof.
  intros s f C y Hs Hnv Hnc Hpos Wy Dy He Ho. pose proof Hs as (S1 & S2 & S3 & S4).
  assert (Wev : forall n, 0 <= n -> wf (@evec RN n)) by (intros n Hn; unfold wf, evec; cbn; repeat split; lia).
  destruct (vec_copy_spec y (evec (uf_nv f)) Wy) as (y1 & C1 & Wy1 & Dy1 & Ey1); [apply Wev; lia|cbn; lia|].
  assert (Ey1' : forall j, dense y1 j = dense y j) by (intros j; unfold dense; now rewrite Ey1).
  destruct (unscaled_dense s y1 Hs Wy1 ltac:(lia)) as (x & Ex & Wx & Dx & Hx).
  assert (Ep : scaled_point s y (evec (uf_nv f)) = Ok x) by (unfold scaled_point; rewrite C1; exact Ex).
  destruct (Ho x Wx Dx) as [Hc Hj]. split.
  - intros buf r Wb Db E. cbn [scaled_func uf_cons] in E. rewrite Ep in E. cbn [rbind] in E. apply rbind_ok in E as (v & E1 & E).
    unfold func_cons_val in E1. destruct (Z.eqb_spec (uf_nc f) 0); [lia|]. apply rbind_ok in E1 as (v1 & E2 & E1).
    apply rbind_ok in E1 as (? & _ & E1). apply rbind_ok in E1 as (? & _ & E1). inv E1.
    destruct (Hc _ _ (wf_clear _ Wb) ltac:(cbn; lia) E2) as (Wv & Dv & Hv).
    unfold scale_cons_val in E. rewrite apply_scaling_spec in E by (auto; lia).
    match type of E with Ok ?a = _ => assert (Er : r = a) by congruence end. clear E. subst r.
    split; [now apply vldexp_wf|]. split; [cbn [vldexp vdim]; lia|]. intros i Hi. rewrite dense_vldexp, Hv by lia.
    f_equal; [|f_equal; unfold cw; lia]. apply He. intros j. rewrite Hx, Ey1'. reflexivity.
  - intros buf m E. cbn [scaled_func uf_jac] in E. rewrite Ep in E. cbn [rbind] in E. apply rbind_ok in E as (m1 & E1 & E).
    unfold func_cons_jac in E1. destruct (Z.eqb_spec (uf_nc f) 0); [lia|]. apply rbind_ok in E1 as (m2 & E2 & E1).
    do 2 (apply rbind_ok in E1 as (? & _ & E1)). do 2 (apply rbind_ok in E1 as (? & _ & E1)). inv E1.
    destruct (Hj _ _ E2) as (cs & Sm & Rm & Cm & Hp).
    destruct (C22_jacobian s C y1 x m1 cs Hs Wy1 ltac:(lia) Sm ltac:(lia) ltac:(lia) He Ex) as (m' & cs' & E3 & S3' & R3 & C3 & Hp3).
    { intros i j Hi Hj'. apply Hp; lia. }
    rewrite E in E3. inv E3. exists cs'. split; [exact S3'|]. split; [exact R3|]. split; [exact C3|]. intros i j Hi Hj'.
    eapply partial_ext; [|exact Ey1'|apply Hp3; auto]. intros z z' Hz. f_equal. apply He. intros k. now rewrite Hz.
Qed.
Print Assumptions C22_scaled_callbacks.

(** One variable, one constraint c(x) = x, weights 1 and 2. *)
Definition ex_func : @ufunc RN := mkufunc 1 1 (fun x buf => vec_copy x buf)
  (fun _ _ => Ok (mkmat 1 1 1 1 [0; 1] [(0, 1%R)])) (fun _ _ _ p => Ok p).
Example C22_scaled_callbacks_example : let s := mkscaling 1 1 1 [1] [2] in
  swf s /\ (forall i : Z, extensional (fun f : Z -> R => f 0)) /\
  (forall u, wf u -> vdim u = 1 -> cons_oracle ex_func u (fun _ f => f 0) /\ jac_oracle ex_func u (fun _ f => f 0)) /\
  (exists r, uf_cons (scaled_func s ex_func 1) (mkvec 1 1 [(0, 3%R)]) (evec 1) = Ok r).
Proof.
  cbv zeta. split; [unfold swf; cbn; lia|]. split; [intros i f g H; apply H|]. split.
  - intros u Wu Du. split.
    + intros buf r Wb Db E. cbn [uf_cons ex_func] in E. destruct (vec_copy_spec u buf Wu Wb) as (r' & E' & Wr & Dr & Er); [cbn in Db; lia|].
      rewrite E in E'. inv E'. split; [exact Wr|]. cbn [uf_nc ex_func] in *. split; [lia|]. intros i Hi. assert (i = 0) as -> by lia.
      unfold dense. now rewrite Er.
    + intros buf m E. cbn [uf_jac ex_func] in E. inv E. exists [[(0, 1%R)]].
      split; [|split; [reflexivity|split; [reflexivity|]]].
      * unfold stores, layout; cbn. repeat split; try lia.
        -- intros [|[|j]] Hj; cbn; try reflexivity. lia.
        -- now exists [].
        -- repeat constructor; cbn; lia.
      * intros i j Hi Hj. cbn in Hi, Hj. assert (i = 0) as -> by lia. assert (j = 0) as -> by lia.
        unfold partial_at. replace (mR [[(0, 1%R)]] 0 0) with 1%R by reflexivity.
        apply (is_derive_ext (fun t : R => t)); [intros t; reflexivity|]. apply (is_derive_id (dense u 0)).
  - eexists; reflexivity.
Qed.

(** ** C11 *)

(** Popping the column pushed last leaves the earlier columns alone and that column empty. *)
Theorem C11_pop_col {N : Num} : forall m cs c, layout m (cs ++ [c]) ->
  exists m', mat_pop_col m (Z.of_nat (length cs)) = Ok m' /\ layout m' (cs ++ [[]]) /\ shape m' m.
Proof.
  intros m cs c HL. pose proof HL as (H1 & H2 & H3 & H4 & (rest & H5) & H6 & H7).
  assert (Hl : Z.of_nat (length (cs ++ [c])) = Z.of_nat (length cs) + 1) by (rewrite app_length; cbn [length]; lia).
  assert (Hc : Z.of_nat (length (concat (cs ++ [c]))) = Z.of_nat (length (concat cs)) + Z.of_nat (length c))
    by (rewrite concat_app, app_length; cbn [concat]; rewrite app_nil_r; lia).
  unfold mat_pop_col. destruct (Z.ltb_spec (Z.of_nat (length cs)) (mnc m)); [|lia]. cbn [check rbind].
  rewrite (layout_get m _ _ HL) by lia. cbn [rbind].
  rewrite (layout_get m _ (Z.of_nat (length cs) + 1) HL) by lia. cbn [rbind].
  rewrite arr_set_ok by lia. cbn [rbind]. eexists. split; [reflexivity|]. split; [|repeat split].
  replace (Z.to_nat (Z.of_nat (length cs) + 1)) with (length (cs ++ [c])) by lia.
  rewrite Nat2Z.id, (firstn_all (cs ++ [c])), firstn_app, Nat.sub_diag, firstn_all. cbn [firstn]. rewrite app_nil_r.
  unfold layout; cbn [mnr mnc mnnz mcap mcols ment].
  assert (Hl' : length (cs ++ [[]] : list (list (Z * num))) = length (cs ++ [c])) by (rewrite !app_length; reflexivity).
  assert (Hc' : concat (cs ++ [[]] : list (list (Z * num))) = concat cs) by (rewrite concat_app; cbn; now rewrite app_nil_r).
  rewrite Hl', Hc', set_nth_length. split; [auto|]. split; [lia|]. split; [|split; [lia|split; [|split; [lia|]]]].
  - intros j Hj. rewrite set_nth_spec by lia. destruct (Nat.eqb_spec j (length (cs ++ [c]))) as [->|Hne].
    + rewrite <- Hl', firstn_all, Hc'. reflexivity.
    + rewrite (H3 j) by lia. rewrite !firstn_app. rewrite app_length in Hj, Hne. cbn [length] in Hj, Hne.
      replace (j - length cs)%nat with 0%nat by lia. reflexivity.
  - rewrite H5, concat_app. cbn [concat]. rewrite app_nil_r, <- app_assoc. eauto.
  - apply Forall_app in H7. apply Forall_app. split; [apply H7|]. constructor; auto. exact I.
Qed.
Print Assumptions C11_pop_col.

Lemma forallb_get {N : Num} nr (c : list (Z * num)) j : sorted_in 0 nr (keys c) ->
  (forallb (fun e => j <=? fst e) c = true <-> forall i, Sparse.get c i <> None -> j <= i).
Proof.
  intros Hs. rewrite forallb_forall. split.
  - intros H i Hi. destruct (Sparse.get c i) as [x|] eqn:E; [|congruence]. apply get_Some_In in E. apply H in E. cbn [fst] in E. lia.
  - intros H [i x] Hi. cbn [fst]. apply Z.leb_le. apply H. rewrite (In_get _ _ _ _ _ Hs Hi). discriminate.
Qed.

(** A matrix is recognised as lower triangular iff no entry is stored above the diagonal. *)
Theorem C11_is_lower {N : Num} : forall m cs, stores m cs ->
  exists b, mat_is_lower m = Ok b /\ (b = true <-> forall i j, 0 <= j < mnc m -> mget cs i j <> None -> j <= i).
Proof.
  intros m cs Hs. assert (Hn : 0 <= mnc m) by (destruct Hs as [_ Hn]; lia).
  destruct (zrange_loop (fun k (b : bool) => b = true <-> forall i j, 0 <= j < k -> mget cs i j <> None -> j <= i)
    (fun (b : bool) col => es <- col_entries m col ;; Ok (b && forallb (fun e => col <=? fst e) es)) (mnc m) true Hn) as (b & E & H).
  - split; [|reflexivity]. intros _ i j Hj. lia.
  - intros j b Hj HI. destruct (stores_col m cs j Hs Hj) as (c & E1 & E2 & E3). rewrite E2. cbn [rbind].
    eexists. split; [reflexivity|]. rewrite andb_true_iff, HI, (forallb_get _ c j E3).
    assert (Hg : forall i, mget cs i j = Sparse.get c i) by (intros i; unfold mget; now rewrite (nth_error_nth cs _ [] E1)).
    split.
    + intros [A B] i k Hk. destruct (Z.eq_dec k j) as [->|Hne]; [rewrite Hg; apply B|apply A; lia].
    + intros A. split; [intros i k Hk; apply A; lia|]. intros i. rewrite <- Hg. apply A. lia.
  - exists b. split; [exact E|exact H].
Qed.
Print Assumptions C11_is_lower.
Example C11_is_lower_example : let one := @nlit F64 1 1 in
  mat_is_lower (mkmat 2 2 2 2 [0; 1; 2] [(0, one); (1, one)]) = Ok true /\
  mat_is_lower (mkmat 2 2 2 2 [0; 1; 2] [(0, one); (0, one)]) = Ok false /\
  exists m, mat_pop_col (mkmat 2 2 2 2 [0; 1; 2] [(0, one); (1, one)]) 1 = Ok m /\ mnnz m = 1.
Proof. repeat split. eexists. split; reflexivity. Qed.
