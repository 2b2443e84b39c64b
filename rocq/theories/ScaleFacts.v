(** Lemmas about scaling. *)
From Coq Require Import Reals Lra.
From Flocq Require Import Core BinarySingleNaN Mult_error.
From Verif Require Import Base Num Cmp Sparse Vec VecFacts VecFacts2 VecFacts3 Order F64Facts RSum VecReal Mat MatFacts MatFacts2 MatFacts3 MatFacts4 Arr Problem Scale.
Local Open Scope Z_scope.
Notation len l := (Z.of_nat (length l)).

(** ** One double *)

(** [x * 2^e] is representable: [x] is no number, zero, or its product with [2^e] is a normal number. *)
Definition keeps (x : f64) (e : Z) : Prop :=
  ffin x = false \/ B2R x = 0%R \/
  (bpow radix2 (-1022) <= Rabs (B2R x * bpow radix2 e) < bpow radix2 1024)%R.

Lemma fexp_FLT : SpecFloat.fexp 53 1024 = FLT_exp (-1074) 53.
Proof. reflexivity. Qed.

Lemma ldexp_exact (x : f64) e : ffin x = true -> keeps x e ->
  B2R (f64_ldexp x e) = (B2R x * bpow radix2 e)%R /\ ffin (f64_ldexp x e) = true /\ Bsign (f64_ldexp x e) = Bsign x.
Proof.
  intros Hf Hk. unfold f64_ldexp.
  pose proof (Bldexp_correct 53 1024 prec53 prec_lt_emax_53_1024 mode_NE x e) as H.
  assert (Hb : (Rabs (B2R x * bpow radix2 e) < bpow radix2 1024)%R).
  { destruct Hk as [Hk|[Hk|Hk]]; [congruence| |tauto]. rewrite Hk, Rmult_0_l, Rabs_R0. apply bpow_gt_0. }
  assert (Hg : generic_format radix2 (SpecFloat.fexp 53 1024) (B2R x * bpow radix2 e)%R).
  { destruct Hk as [Hk|[Hk|Hk]]; [congruence|rewrite Hk, Rmult_0_l; apply generic_format_0|].
    rewrite fexp_FLT. 
    assert (Hx : (B2R x <> 0)%R).
    { intros E. rewrite E, Rmult_0_l, Rabs_R0 in Hk. pose proof (bpow_gt_0 radix2 (-1022)). lra. }
    destruct (Z_le_gt_dec (-1074 + 53 - mag radix2 (B2R x)) e) as [Hle|Hgt].
    - apply mult_bpow_exact_FLT; [rewrite <- fexp_FLT; apply generic_format_B2R|exact Hle].
    - exfalso. destruct Hk as [Hk _].
      assert (Hm : (Rabs (B2R x * bpow radix2 e) < bpow radix2 (-1022))%R); [|lra].
      rewrite Rabs_mult, (Rabs_pos_eq (bpow radix2 e)) by apply bpow_ge_0.
      apply Rlt_le_trans with (bpow radix2 (mag radix2 (B2R x)) * bpow radix2 e)%R.
      + apply Rmult_lt_compat_r; [apply bpow_gt_0|]. apply bpow_mag_gt.
      + rewrite <- bpow_plus. apply bpow_le. lia. }
  rewrite round_generic in H; [|apply valid_rnd_N|exact Hg].
  rewrite Rlt_bool_true in H by exact Hb. cbv iota in H. destruct H as (E1 & E2 & E3). split; [exact E1|]. split; [|exact E3]. etransitivity; [exact E2|exact Hf].
Qed.

Lemma ldexp_undo (x : f64) e : keeps x e -> f64_ldexp (f64_ldexp x e) (-e) = x.
Proof.
  intros Hk. destruct (ffin x) eqn:Hf.
  - destruct (ldexp_exact x e Hf Hk) as (E1 & E2 & E3).
    assert (Eb : (B2R (f64_ldexp x e) * bpow radix2 (- e) = B2R x)%R).
    { rewrite E1, Rmult_assoc, <- bpow_plus. replace (e + - e) with 0 by lia. simpl. lra. }
    unfold f64_ldexp in *.
    pose proof (Bldexp_correct 53 1024 prec53 prec_lt_emax_53_1024 mode_NE (Bldexp mode_NE x e) (-e)) as H.
    rewrite Eb, round_generic in H; [|apply valid_rnd_N|apply generic_format_B2R].
    rewrite Rlt_bool_true in H by apply abs_B2R_lt_emax. destruct H as (F1 & F2 & F3).
    apply B2R_Bsign_inj; congruence.
  - destruct x; try discriminate; reflexivity.
Qed.

Lemma ldexp_undo' (x : f64) e e' : keeps x e -> e' = - e -> f64_ldexp (f64_ldexp x e) e' = x.
Proof. intros H ->. now apply ldexp_undo. Qed.

Lemma keeps_zero_weight (x : f64) : (ffin x = true -> B2R x <> 0 -> bpow radix2 (-1022) <= Rabs (B2R x))%R -> keeps x 0.
Proof.
  intros H. destruct (ffin x) eqn:E; [|now left]. right. destruct (Req_dec (B2R x) 0); [now left|].
  right. change (bpow radix2 0) with 1%R. rewrite Rmult_1_r. split; [auto|]. apply abs_B2R_lt_emax.
Qed.

(** ** Vectors *)

Section Vec.
Context {N : Num} {L : Ldexp N}.

Definition wt (l : list Z) (i : Z) : Z := nth (Z.to_nat i) l 0.

(** Every entry multiplied by [2^(k i)]. *)
Definition vldexp (k : Z -> Z) (v : vec) : vec :=
  mkvec (vdim v) (vcap v) (map (fun e => (fst e, nldexp (snd e) (k (fst e)))) (vent v)).

Lemma arr_get_wt (l : list Z) i : 0 <= i < len l -> arr_get l i = Ok (wt l i).
Proof.
  intros Hi. apply arr_get_nth; [lia|]. unfold wt. apply nth_error_nth'. lia.
Qed.

Lemma rmapM_ok {A B} (f : A -> res B) (g : A -> B) l : Forall (fun a => f a = Ok (g a)) l -> rmapM f l = Ok (map g l).
Proof. induction 1 as [|a l Ha Hl IH]; [reflexivity|]. cbn [rmapM map]. now rewrite Ha, IH. Qed.

Lemma sorted_in_bounds lo hi ks : sorted_in lo hi ks -> Forall (fun i => lo <= i < hi) ks.
Proof.
  intros H. apply Forall_forall. intros i Hi. eapply sorted_in_In; eauto.
Qed.

Lemma wf_bounds v : wf v -> Forall (fun e => 0 <= fst e < vdim v) (vent v).
Proof.
  intros (_ & Hs & _). apply sorted_in_bounds in Hs. unfold keys in Hs. now rewrite Forall_map in Hs.
Qed.

Lemma apply_unscaling_spec v l o : wf v -> vdim v <= len l ->
  apply_unscaling v l o = Ok (vldexp (fun i => wt l i + o) v).
Proof.
  intros Hw Hl. unfold apply_unscaling. erewrite rmapM_ok; [reflexivity|].
  eapply Forall_impl; [|exact (wf_bounds v Hw)]. cbn beta. intros e He. rewrite arr_get_wt by lia. reflexivity.
Qed.

Lemma apply_scaling_spec v l o : wf v -> vdim v <= len l ->
  apply_scaling v l o = Ok (vldexp (fun i => -1 * wt l i + o) v).
Proof.
  intros Hw Hl. unfold apply_scaling. erewrite rmapM_ok; [reflexivity|].
  eapply Forall_impl; [|exact (wf_bounds v Hw)]. cbn beta. intros e He. rewrite arr_get_wt by lia. reflexivity.
Qed.

Lemma vldexp_keys k v : keys (vent (vldexp k v)) = keys (vent v).
Proof. unfold keys, vldexp; cbn [vent]. now rewrite map_map. Qed.

Lemma vldexp_wf k v : wf v -> wf (vldexp k v).
Proof.
  intros (H1 & H2 & H3). unfold wf. rewrite vldexp_keys. unfold vldexp; cbn [vdim vcap vent]. rewrite map_length. auto.
Qed.

Lemma vldexp_dim k v : vdim (vldexp k v) = vdim v.
Proof. reflexivity. Qed.

Lemma vldexp_undo k k' v :
  Forall (fun e => nldexp (nldexp (snd e) (k (fst e))) (k' (fst e)) = snd e) (vent v) -> vldexp k' (vldexp k v) = v.
Proof.
  intros H. unfold vldexp; cbn [vdim vcap vent]. destruct v as [d c es]; cbn [vdim vcap vent] in *. f_equal.
  rewrite map_map. cbn [fst snd]. erewrite map_ext_in; [apply map_id|]. intros [i x] Hin. cbn.
  rewrite Forall_forall in H. specialize (H _ Hin). cbn in H. now rewrite H.
Qed.

Lemma vldexp_get k v i : get (vent (vldexp k v)) i = option_map (fun x => nldexp x (k i)) (get (vent v) i).
Proof.
  unfold vldexp; cbn [vent]. induction (vent v) as [|[j x] es IH]; [reflexivity|]. cbn [map get fst snd].
  destruct (Z.eqb_spec j i) as [->|]; [reflexivity|exact IH].
Qed.

(** ** Matrices *)

Fixpoint cols_ldexp (k : Z -> Z -> Z) (j : Z) (cs : list (list (Z * num))) : list (list (Z * num)) :=
  match cs with
  | [] => []
  | c :: cs' => map (fun e => (fst e, nldexp (snd e) (k (fst e) j))) c :: cols_ldexp k (j + 1) cs'
  end.

Definition mldexp (k : Z -> Z -> Z) (cs : list (list (Z * num))) (m : mat) : mat :=
  mkmat (mnr m) (mnc m) (mnnz m) (mcap m) (mcols m)
    (concat (cols_ldexp k 0 cs) ++ skipn (length (concat cs)) (ment m)).

Lemma cols_ldexp_length k j cs : length (cols_ldexp k j cs) = length cs.
Proof. revert j; induction cs; intros; cbn [cols_ldexp length]; auto. Qed.

Lemma cols_ldexp_nth k j cs n c : nth_error cs n = Some c ->
  nth_error (cols_ldexp k j cs) n = Some (map (fun e => (fst e, nldexp (snd e) (k (fst e) (j + Z.of_nat n)))) c).
Proof.
  revert j n; induction cs as [|d cs IH]; intros j [|n] H; cbn [nth_error cols_ldexp] in *; try discriminate.
  - injection H as ->. now rewrite Z.add_0_r.
  - rewrite (IH _ _ H). replace (j + 1 + Z.of_nat n) with (j + Z.of_nat (S n)) by lia. reflexivity.
Qed.

Lemma cols_ldexp_firstn k j cs n : firstn n (cols_ldexp k j cs) = cols_ldexp k j (firstn n cs).
Proof. revert j n; induction cs as [|d cs IH]; intros j [|n]; cbn [firstn cols_ldexp]; auto. now rewrite IH. Qed.

Lemma concat_cols_ldexp_length k j cs : length (concat (cols_ldexp k j cs)) = length (concat cs).
Proof.
  revert j; induction cs as [|d cs IH]; intros j; cbn [cols_ldexp concat]; [reflexivity|].
  now rewrite !app_length, map_length, IH.
Qed.

(** The position of an entry. *)
Lemma flat_pos {A} (cs : list (list A)) k : (k < length (concat cs))%nat ->
  exists j c p e q, nth_error cs j = Some c /\ c = p ++ e :: q /\ k = (length (concat (firstn j cs)) + length p)%nat.
Proof.
  revert k; induction cs as [|c cs IH]; intros k Hk; cbn [concat length] in Hk; [lia|].
  rewrite app_length in Hk. destruct (Nat.lt_ge_cases k (length c)) as [Hlt|Hge].
  - destruct (nth_error c k) as [e|] eqn:E; [|apply nth_error_None in E; lia].
    destruct (nth_error_split c k E) as (p & q & -> & Hp). exists 0%nat, (p ++ e :: q), p, e, q. cbn. auto.
  - destruct (IH (k - length c)%nat) as (j & c' & p & e & q & H1 & H2 & H3); [lia|].
    exists (S j), c', p, e, q. cbn [nth_error firstn concat]. rewrite app_length. repeat split; auto. lia.
Qed.

Lemma concat_firstn_mono {A} (cs : list (list A)) i j : (i <= j)%nat ->
  (length (concat (firstn i cs)) <= length (concat (firstn j cs)))%nat.
Proof.
  revert i j; induction cs as [|c cs IH]; intros [|i] [|j] H; cbn [firstn concat length]; try lia.
  rewrite !app_length. specialize (IH i j ltac:(lia)). lia.
Qed.

(** The column loop stops at the column of the index. *)
Lemma advance_spec m cs j idx : layout m cs -> 0 <= j < len cs ->
  len (concat (firstn (Z.to_nat j) cs)) <= idx < len (concat (firstn (Z.to_nat (j + 1)) cs)) ->
  forall fuel col, 0 <= col <= j -> j - col < Z.of_nat fuel -> advance fuel (mcols m) idx col = Ok j.
Proof.
  intros HL Hj Hi. induction fuel as [|fuel IH]; intros col Hc Hf; [lia|]. cbn [advance].
  rewrite (layout_get m cs _ HL) by lia. cbn [rbind].
  destruct (Z.eq_dec col j) as [->|Hne].
  - destruct (Z.leb_spec (len (concat (firstn (Z.to_nat (j + 1)) cs))) idx); [lia|reflexivity].
  - pose proof (concat_firstn_mono cs (Z.to_nat (col + 1)) (Z.to_nat j) ltac:(lia)).
    destruct (Z.leb_spec (len (concat (firstn (Z.to_nat (col + 1)) cs))) idx); [|lia]. apply IH; lia.
Qed.

Lemma firstn_snoc_nth {A} (l : list A) k a : nth_error l k = Some a -> firstn (S k) l = firstn k l ++ [a].
Proof.
  revert k; induction l as [|b l IH]; intros [|k] H; cbn [nth_error] in H; try discriminate.
  - now injection H as ->.
  - cbn [firstn app]. now rewrite <- IH.
Qed.

Lemma skipn_nth {A} (l : list A) k a : nth_error l k = Some a -> skipn k l = a :: skipn (S k) l.
Proof.
  revert k; induction l as [|b l IH]; intros [|k] H; cbn [nth_error] in H; try discriminate.
  - now injection H as ->.
  - cbn [skipn]. rewrite (IH k H). reflexivity.
Qed.

Lemma mat_ldexp_spec m cs w k : stores m cs ->
  (forall j c e, nth_error cs j = Some c -> In e c -> w (fst e) (Z.of_nat j) = Ok (k (fst e) (Z.of_nat j))) ->
  mat_ldexp m w = Ok (mldexp k cs m).
Proof.
  intros Hs Hw. pose proof (layout_facts m cs Hs) as (H1 & H2 & H3 & H4 & H5).
  destruct Hs as [HL Hn]. unfold mat_ldexp.
  set (cs' := cols_ldexp k 0 cs).
  assert (Hlen : length (concat cs') = length (concat cs)) by apply concat_cols_ldexp_length.
  pose proof HL as (_ & Hcl & _ & _ & (rest & Hent) & _ & _).
  destruct (zrange_loop (fun idx st => 0 <= fst st <= len cs /\ len (concat (firstn (Z.to_nat (fst st)) cs)) <= idx
      /\ snd st = firstn (Z.to_nat idx) (concat cs') ++ skipn (Z.to_nat idx) (ment m))
    (fun (st : Z * list (Z * num)) index =>
      let '(col, ent) := st in
      col <- advance (S (length (mcols m))) (mcols m) index col ;;
      e <- arr_get ent index ;; x <- w (fst e) col ;;
      ent <- arr_set ent index (fst e, nldexp (snd e) x) ;; Ok (col, ent)) (mnnz m) (0, ment m))
    as ((col & ent) & E & _ & _ & Hres).
  - lia.
  - cbn. repeat split; lia.
  - intros idx [col ent] Hidx (Hc1 & Hc2 & Hent1). cbn [fst snd] in *.
    destruct (flat_pos cs (Z.to_nat idx)) as (j & c & p & e & q & Hj & Hc & Hk); [lia|].
    assert (Hjl : (j < length cs)%nat) by (apply nth_error_Some; congruence).
    assert (Hcs : concat (firstn (S j) cs) = concat (firstn j cs) ++ c) by now apply concat_firstn_S.
    assert (Hcj : col <= Z.of_nat j).
    { destruct (Z_le_gt_dec col (Z.of_nat j)); auto. exfalso.
      pose proof (concat_firstn_mono cs (S j) (Z.to_nat col) ltac:(lia)) as Hm. rewrite Hcs, app_length, Hc, app_length in Hm. cbn [length] in Hm. lia. }
    rewrite (advance_spec m cs (Z.of_nat j) idx HL); try lia.
    2:{ replace (Z.to_nat (Z.of_nat j + 1)) with (S j) by lia. rewrite Nat2Z.id, Hcs, app_length, Hc, app_length. cbn [length]. lia. }
    cbn [rbind].
    assert (Hne : nth_error (concat cs) (Z.to_nat idx) = Some e).
    { rewrite <- (firstn_skipn j cs), concat_app. rewrite Hk. rewrite nth_error_app2 by lia.
      replace (_ + length p - _)%nat with (length p) by lia. rewrite (skipn_nth cs j c Hj). cbn [concat]. rewrite Hc.
      rewrite <- app_assoc, nth_error_app2, Nat.sub_diag by lia. reflexivity. }
    assert (Hme : nth_error (ment m) (Z.to_nat idx) = Some e).
    { rewrite Hent. rewrite nth_error_app1 by lia. exact Hne. }
    set (e' := (fst e, nldexp (snd e) (k (fst e) (Z.of_nat j)))).
    assert (Hne' : nth_error (concat cs') (Z.to_nat idx) = Some e').
    { unfold cs'. rewrite <- (firstn_skipn j (cols_ldexp k 0 cs)), concat_app. rewrite Hk.
      rewrite cols_ldexp_firstn. rewrite nth_error_app2 by (rewrite concat_cols_ldexp_length; lia).
      rewrite concat_cols_ldexp_length. replace (_ + length p - _)%nat with (length p) by lia.
      rewrite (skipn_nth _ j _ (cols_ldexp_nth k 0 cs j c Hj)). cbn [concat]. rewrite Hc, map_app. cbn [map].
      rewrite <- app_assoc, nth_error_app2 by (rewrite map_length; lia). rewrite map_length, Nat.sub_diag. cbn [app nth_error].
      unfold e'. do 4 f_equal; lia. }
    assert (Hfl : length (firstn (Z.to_nat idx) (concat cs')) = Z.to_nat idx) by (rewrite firstn_length; lia).
    assert (Hget : arr_get ent idx = Ok e).
    { apply arr_get_nth; [lia|]. rewrite Hent1, nth_error_app2 by lia. rewrite Hfl, Nat.sub_diag, (skipn_nth _ _ _ Hme). reflexivity. }
    rewrite Hget. cbn [rbind].
    rewrite (Hw j c e Hj) by (rewrite Hc; apply in_or_app; right; now left). cbn [rbind]. fold e'.
    assert (Hent2 : ent = firstn (Z.to_nat idx) (concat cs') ++ e :: skipn (S (Z.to_nat idx)) (ment m)).
    { rewrite Hent1. f_equal. now apply skipn_nth. }
    rewrite arr_set_ok by (rewrite Hent2, app_length, Hfl; cbn [length]; lia).
    cbn [rbind]. eexists. split; [reflexivity|]. cbn [fst snd]. split; [lia|]. split; [rewrite Nat2Z.id; lia|].
    replace (Z.to_nat (idx + 1)) with (S (Z.to_nat idx)) by lia. rewrite (firstn_snoc_nth _ _ _ Hne'), <- app_assoc.
    pose proof (set_nth_app (firstn (Z.to_nat idx) (concat cs')) (skipn (S (Z.to_nat idx)) (ment m)) e e') as Hset.
    rewrite Hfl in Hset. rewrite Hent2, Hset. reflexivity.
  - rewrite E. cbn [rbind snd fst]. cbn [snd] in Hres. unfold mldexp. rewrite Hres. fold cs'.
    rewrite H4, Nat2Z.id. pose proof (firstn_all (concat cs')) as Ha. rewrite Hlen in Ha. now rewrite Ha.
Qed.

Lemma cols_ldexp_keys k j cs lo hi : Forall (fun c => sorted_in lo hi (keys c)) cs ->
  Forall (fun c => sorted_in lo hi (keys c)) (cols_ldexp k j cs).
Proof.
  intros H; revert j; induction H as [|c cs Hc H IH]; intros j; cbn [cols_ldexp]; constructor; auto.
  unfold keys in *. now rewrite map_map.
Qed.

Lemma mldexp_stores k cs m : stores m cs -> stores (mldexp k cs m) (cols_ldexp k 0 cs).
Proof.
  intros [(H1 & H2 & H3 & H4 & (rest & H5) & H6 & H7) Hn]. unfold mldexp. split; cbn [mnc]; [|now rewrite cols_ldexp_length].
  unfold layout; cbn [mnr mnc mnnz mcap mcols ment]. rewrite cols_ldexp_length, concat_cols_ldexp_length.
  repeat split; auto; try lia.
  - intros j Hj. rewrite cols_ldexp_firstn, concat_cols_ldexp_length. auto.
  - eexists; reflexivity.
  - now apply cols_ldexp_keys.
Qed.

Lemma cols_ldexp_undo k k' j cs :
  (forall n c e, nth_error cs n = Some c -> In e c ->
     nldexp (nldexp (snd e) (k (fst e) (j + Z.of_nat n))) (k' (fst e) (j + Z.of_nat n)) = snd e) ->
  cols_ldexp k' j (cols_ldexp k j cs) = cs.
Proof.
  revert j; induction cs as [|c cs IH]; intros j H; cbn [cols_ldexp]; [reflexivity|]. f_equal.
  - rewrite map_map. cbn [fst snd]. erewrite map_ext_in; [apply map_id|]. intros [i x] Hin. cbn.
    specialize (H 0%nat c (i, x) eq_refl Hin). cbn [fst snd] in H. rewrite Z.add_0_r in H. now rewrite H.
  - apply IH. intros n d e Hn He. specialize (H (S n) d e Hn He).
    replace (j + 1 + Z.of_nat n) with (j + Z.of_nat (S n)) by lia. exact H.
Qed.

Lemma mldexp_undo k k' cs m : stores m cs ->
  (forall n c e, nth_error cs n = Some c -> In e c ->
     nldexp (nldexp (snd e) (k (fst e) (Z.of_nat n))) (k' (fst e) (Z.of_nat n)) = snd e) ->
  mldexp k' (cols_ldexp k 0 cs) (mldexp k cs m) = m.
Proof.
  intros [(H1 & H2 & H3 & H4 & (rest & H5) & H6 & H7) Hn] H. unfold mldexp; cbn [mnr mnc mnnz mcap mcols ment].
  rewrite cols_ldexp_undo by exact H. rewrite concat_cols_ldexp_length.
  destruct m as [a b c d e f]; cbn [mnr mnc mnnz mcap mcols ment] in *. f_equal.
  rewrite H5 at 2. f_equal. rewrite <- (concat_cols_ldexp_length k 0 cs), skipn_len_app. rewrite H5.
  rewrite concat_cols_ldexp_length. now rewrite skipn_len_app.
Qed.

Lemma cols_ldexp_get k cs i j : 0 <= j < len cs ->
  mget (cols_ldexp k 0 cs) i j = option_map (fun x => nldexp x (k i j)) (mget cs i j).
Proof.
  intros Hj. unfold mget. destruct (nth_error cs (Z.to_nat j)) as [c|] eqn:E; [|apply nth_error_None in E; lia].
  rewrite (nth_error_nth _ _ _ (cols_ldexp_nth k 0 cs _ c E)), (nth_error_nth _ _ _ E).
  rewrite Z2Nat.id by lia. change (0 + j) with j. clear E.
  induction c as [|[r x] c IH]; [reflexivity|]. cbn [map get fst snd].
  destruct (Z.eqb_spec r i) as [->|]; [reflexivity|exact IH].
Qed.

(** ** Scalings *)

(** scale.c:19-32 after scale.c:93-134: the weight arrays have the sizes given at creation. *)
Definition swf (s : scaling) : Prop :=
  0 <= sc_nv s /\ 0 <= sc_nc s /\ len (sc_vw s) = sc_nv s /\ len (sc_cw s) = sc_nc s.

Definition vw (s : scaling) (j : Z) : Z := wt (sc_vw s) j.
Definition cw (s : scaling) (i : Z) : Z := wt (sc_cw s) i.

Definition it_wf (s : scaling) (it : iter) (cs : list (list (Z * num))) : Prop :=
  wf (it_primal it) /\ vdim (it_primal it) = sc_nv s /\ wf (it_grad it) /\ vdim (it_grad it) = sc_nv s
  /\ wf (it_cons it) /\ vdim (it_cons it) = sc_nc s /\ stores (it_jac it) cs /\ mnr (it_jac it) = sc_nc s
  /\ mnc (it_jac it) = sc_nv s /\ wf (it_cdual it) /\ vdim (it_cdual it) = sc_nc s
  /\ wf (it_vdual it) /\ vdim (it_vdual it) = sc_nv s.

Lemma stores_index m cs j c e : stores m cs -> nth_error cs j = Some c -> In e c ->
  0 <= fst e < mnr m /\ 0 <= Z.of_nat j < mnc m.
Proof.
  intros Hs Hc He. pose proof (layout_facts m cs Hs) as (_ & _ & _ & _ & HF). destruct Hs as [_ Hn].
  split.
  - rewrite Forall_forall in HF. specialize (HF c (nth_error_In _ _ Hc)). apply sorted_in_bounds in HF.
    unfold keys in HF. rewrite Forall_map, Forall_forall in HF. auto.
  - assert (j < length cs)%nat by (apply nth_error_Some; congruence). lia.
Qed.

Lemma scale_cons_jac_spec s m cs : swf s -> stores m cs -> mnr m = sc_nc s -> mnc m = sc_nv s ->
  scale_cons_jac s m = Ok (mldexp (fun i j => (-1) * cw s i + vw s j) cs m).
Proof.
  intros (H1 & H2 & H3 & H4) Hs Hr Hc. apply mat_ldexp_spec; auto. intros j c e Hj He.
  destruct (stores_index m cs j c e Hs Hj He). rewrite !arr_get_wt by lia. reflexivity.
Qed.

Lemma unscale_cons_jac_spec s m cs : swf s -> stores m cs -> mnr m = sc_nc s -> mnc m = sc_nv s ->
  unscale_cons_jac s m = Ok (mldexp (fun i j => (-1) * vw s j + cw s i) cs m).
Proof.
  intros (H1 & H2 & H3 & H4) Hs Hr Hc. apply mat_ldexp_spec; auto. intros j c e Hj He.
  destruct (stores_index m cs j c e Hs Hj He). rewrite !arr_get_wt by lia. reflexivity.
Qed.

Lemma scale_iterate_spec s it lsq cs : swf s -> it_wf s it cs ->
  scale_iterate s it lsq = Ok (mkiter
    (vldexp (fun j => -1 * vw s j + 0) (it_primal it))
    (if lsq then scale_lsq_obj_val s (it_obj it) else scale_obj_val s (it_obj it))
    (vldexp (fun j => vw s j + (-1) * sc_ow s) (it_grad it))
    (vldexp (fun i => -1 * cw s i + 0) (it_cons it))
    (mldexp (fun i j => (-1) * cw s i + vw s j) cs (it_jac it))
    (vldexp (fun i => cw s i + (-1) * sc_ow s) (it_cdual it))
    (vldexp (fun j => vw s j + (-1) * sc_ow s) (it_vdual it))).
Proof.
  intros Hs (P1 & P2 & G1 & G2 & C1 & C2 & J1 & J2 & J3 & D1 & D2 & E1 & E2).
  unfold scale_iterate, scale_point, scale_obj_grad, scale_cons_val, scale_cons_duals, scale_var_duals.
  pose proof Hs as (S1 & S2 & S3 & S4).
  rewrite !apply_scaling_spec, !apply_unscaling_spec by (auto; lia). cbn [rbind].
  rewrite (scale_cons_jac_spec s _ cs) by auto. reflexivity.
Qed.

Lemma unscale_iterate_spec s it lsq cs : swf s -> it_wf s it cs ->
  unscale_iterate s it lsq = Ok (mkiter
    (vldexp (fun j => vw s j + 0) (it_primal it))
    (if lsq then unscale_lsq_obj_val s (it_obj it) else unscale_obj_val s (it_obj it))
    (vldexp (fun j => -1 * vw s j + sc_ow s) (it_grad it))
    (vldexp (fun i => cw s i + 0) (it_cons it))
    (mldexp (fun i j => (-1) * vw s j + cw s i) cs (it_jac it))
    (vldexp (fun i => -1 * cw s i + sc_ow s) (it_cdual it))
    (vldexp (fun j => -1 * vw s j + sc_ow s) (it_vdual it))).
Proof.
  intros Hs (P1 & P2 & G1 & G2 & C1 & C2 & J1 & J2 & J3 & D1 & D2 & E1 & E2).
  unfold unscale_iterate, unscale_point, unscale_obj_grad, unscale_cons_val, unscale_cons_duals, unscale_var_duals.
  pose proof Hs as (S1 & S2 & S3 & S4).
  rewrite !apply_scaling_spec, !apply_unscaling_spec by (auto; lia). cbn [rbind].
  rewrite (unscale_cons_jac_spec s _ cs) by auto. reflexivity.
Qed.

(** scale.c:93-248: every scaling built by the interface is well-formed. *)
Lemma create_wf nv nc s : scaling_create nv nc = Ok s -> swf s /\ sc_nv s = nv /\ sc_nc s = nc.
Proof.
  unfold scaling_create. destruct (Z.ltb_spec nv 0), (Z.ltb_spec nc 0); try discriminate. intros E; injection E as <-.
  unfold swf; cbn. rewrite !repeat_length. lia.
Qed.

End Vec.
