(** Automatic scaling (scale.c:630-870). *)
From Coq Require Import Reals Lra.
From Flocq Require Import Core BinarySingleNaN.
From Verif Require Import Base Num Cmp Sparse Vec VecFacts VecFacts2 VecFacts3 Order Mat MatFacts MatFacts2 MatFacts3 MatFacts4 Arr Scale ScaleFacts.
Local Open Scope Z_scope.

(** The first [n] entries exist and satisfy [P]. *)
Definition pre {A} (n : Z) (P : A -> Prop) (l : list A) : Prop :=
  forall i, 0 <= i < n -> exists a, arr_get l i = Ok a /\ P a.

Lemma pre_set {A} n (P : A -> Prop) l i a : pre n P l -> 0 <= i < len l -> P a ->
  exists l', arr_set l i a = Ok l' /\ len l' = len l /\ pre n P l' /\ (n <= i -> i = n -> pre (n + 1) P l').
Proof.
  intros H Hi Ha. rewrite arr_set_ok by exact Hi. eexists. split; [reflexivity|]. rewrite set_nth_length. split; [reflexivity|].
  assert (G : forall k, 0 <= k < len l -> arr_get (set_nth l (Z.to_nat i) a) k = if k =? i then Ok a else arr_get l k).
  { intros k Hk. unfold arr_get. destruct (Z.leb_spec 0 k); [|lia]. rewrite set_nth_spec by lia.
    destruct (Z.eqb_spec k i), (Nat.eqb_spec (Z.to_nat k) (Z.to_nat i)); try lia; reflexivity. }
  assert (Hlen : forall k, 0 <= k < n -> 0 <= k < len l).
  { intros k Hk. destruct (H k Hk) as (b & E & _). unfold arr_get in E. destruct (0 <=? k) eqn:E0; [|discriminate].
    destruct (nth_error l (Z.to_nat k)) eqn:E1; [|discriminate]. assert (Z.to_nat k < length l)%nat by (apply nth_error_Some; congruence). lia. }
  split.
  - intros k Hk. rewrite G by auto. destruct (k =? i); eauto.
  - intros _ ->. intros k Hk. destruct (Z.eq_dec k n) as [->|]; rewrite G by (auto; apply Hlen; lia).
    + rewrite Z.eqb_refl. eauto.
    + destruct (Z.eqb_spec k n); [lia|]. apply H. lia.
Qed.

Section Auto.
Context {N : Num} {L : Ldexp N} {O : Ord N}.
Hypothesis ldexp_nn : forall x e, nn x -> nn (nldexp x e).
Hypothesis inf_pos : nn sleqp_infinity /\ (0 < val sleqp_infinity)%R.

(** The loop over the non-zeros with the column counter. *)
Lemma mat_loop {S} (m : mat) cs (g : Z -> Z * num -> S -> res S) (I : S -> Prop) F s0 : stores m cs -> I s0 ->
  (forall col s idx, F (col, s) idx = (col <- advance (Datatypes.S (length (mcols m))) (mcols m) idx col ;;
      e <- arr_get (ment m) idx ;; s' <- g col e s ;; Ok (col, s'))) ->
  (forall j c e s, nth_error cs j = Some c -> In e c -> I s -> exists s', g (Z.of_nat j) e s = Ok s' /\ I s') ->
  exists col s', rfold F (0, s0) (zrange (mnnz m)) = Ok (col, s') /\ I s'.
Proof.
  intros Hs H0 HF Hg. pose proof (layout_facts m cs Hs) as (H1 & H2 & H3 & H4 & H5). destruct Hs as [HL Hn].
  pose proof HL as (_ & Hcl & _ & _ & (rest & Hent) & _ & _).
  destruct (zrange_loop (fun idx st => 0 <= fst st <= len cs /\ len (concat (firstn (Z.to_nat (fst st)) cs)) <= idx /\ I (snd st))
    F (mnnz m) (0, s0)) as ((col & s') & E & _ & _ & Hres); [lia|cbn; repeat split; auto; lia| |].
  - intros idx [col s] Hidx (Hc1 & Hc2 & HI). cbn [fst snd] in *. rewrite HF.
    destruct (flat_pos cs (Z.to_nat idx)) as (j & c & p & e & q & Hj & Hc & Hk); [lia|].
    assert (Hjl : (j < length cs)%nat) by (apply nth_error_Some; congruence).
    assert (Hcs : concat (firstn (Datatypes.S j) cs) = concat (firstn j cs) ++ c) by now apply concat_firstn_S.
    assert (Hcj : col <= Z.of_nat j).
    { destruct (Z_le_gt_dec col (Z.of_nat j)); auto. exfalso.
      pose proof (concat_firstn_mono cs (Datatypes.S j) (Z.to_nat col) ltac:(lia)) as Hm. rewrite Hcs, app_length, Hc, app_length in Hm. cbn [length] in Hm. lia. }
    rewrite (advance_spec m cs (Z.of_nat j) idx HL); try lia.
    2:{ replace (Z.to_nat (Z.of_nat j + 1)) with (Datatypes.S j) by lia. rewrite Nat2Z.id, Hcs, app_length, Hc, app_length. cbn [length]. lia. }
    cbn [rbind].
    assert (Hme : arr_get (ment m) idx = Ok e).
    { apply arr_get_nth; [lia|]. rewrite Hent. rewrite nth_error_app1 by lia.
      rewrite <- (firstn_skipn j cs), concat_app. rewrite Hk. rewrite nth_error_app2 by lia.
      replace (_ + length p - _)%nat with (length p) by lia. rewrite (skipn_nth cs j c Hj). cbn [concat]. rewrite Hc.
      rewrite <- app_assoc, nth_error_app2, Nat.sub_diag by lia. reflexivity. }
    rewrite Hme. cbn [rbind]. destruct (Hg j c e s Hj) as (s' & -> & HI'); auto; [rewrite Hc; apply in_or_app; right; now left|].
    cbn [rbind]. eexists. split; [reflexivity|]. cbn [fst snd]. rewrite Nat2Z.id. repeat split; auto; lia.
  - exists col, s'. auto.
Qed.

Definition nonneg (x : num) : Prop := nn x /\ (0 <= val x)%R.
Definition pos (x : num) : Prop := nn x /\ (0 < val x)%R.

Lemma nonneg_check x : nonneg x -> neqb x n0 || nltb n0 x = true.
Proof.
  intros [H1 H2]. destruct (neqb x n0) eqn:E; [reflexivity|]. cbn [orb]. rewrite eqb_val in E by auto using nn_0.
  rewrite ltb_val by auto using nn_0. rewrite val_0 in *. destruct (Req_bool_spec (val x) 0); [discriminate|].
  apply Rlt_bool_true. lra.
Qed.

Lemma nonneg_max x y : nonneg x -> nn y -> nonneg (nmax x y).
Proof.
  intros [H1 H2] H3. split; [now apply nn_max|]. rewrite val_max by auto. pose proof (Rmax_l (val x) (val y)). lra.
Qed.

Lemma nonzero_pos x eps : nn x -> nonneg eps -> is_zero (nabs x) eps = false -> pos (nabs x).
Proof.
  intros Hx [He He'] Hz. split; [now apply nn_abs|]. unfold is_zero in Hz. rewrite leb_val in Hz by auto using nn_abs.
  rewrite val_abs in Hz by now apply nn_abs. rewrite val_abs in * by auto. rewrite Rabs_Rabsolu in Hz.
  destruct (Rle_bool_spec (Rabs (val x)) (val eps)); [discriminate|]. lra.
Qed.

Lemma pos_min x y : pos x -> pos y -> pos (nmin x y).
Proof.
  intros [H1 H2] [H3 H4]. split; [now apply nn_min|]. rewrite val_min by auto. apply Rmin_case; auto.
Qed.

(** Entries that are numbers. *)
Definition nn_entries (cs : list (list (Z * num))) : Prop := forall c e, In c cs -> In e c -> nn (snd e).

Lemma clip_range w : -30 <= clip_weight w <= 30.
Proof. unfold clip_weight, max_weight. lia. Qed.
Lemma weight_range x : -30 <= weight_of_max x <= 30.
Proof. unfold weight_of_max. destruct (neqb x n0); [lia|apply clip_range]. Qed.

Lemma arr_get_pre {A} (l : list A) n P i : pre n P l -> 0 <= i < n -> 0 <= i < len l.
Proof.
  intros H Hi. destruct (H i Hi) as (b & E & _). unfold arr_get in E. destruct (0 <=? i) eqn:E0; [|discriminate].
  destruct (nth_error l (Z.to_nat i)) eqn:E1; [|discriminate]. assert (Z.to_nat i < length l)%nat by (apply nth_error_Some; congruence). lia.
Qed.

Lemma compute_spec m cs (column : bool) factors prescaling cache eps :
  stores m cs -> nn_entries cs -> nonneg eps ->
  len factors = (if column then mnc m else mnr m) -> len prescaling = (if column then mnr m else mnc m) ->
  (if column then mnc m else mnr m) <= len cache ->
  exists f', compute_scale_factors m column factors prescaling cache eps = Ok f' /\ len f' = len factors
    /\ Forall (fun w => -30 <= w <= 30) f'.
Proof.
  intros Hs Hnn He Hf Hp Hc. pose proof (layout_facts m cs Hs) as (H1 & H2 & H3 & H4 & H5).
  unfold compute_scale_factors. set (size := if column then mnc m else mnr m) in *.
  assert (Hsz : 0 <= size) by (unfold size; destruct column; lia).
  destruct (zrange_loop (fun j (st : list num * list Z) => len (fst st) = len cache /\ len (snd st) = len factors
      /\ pre j nonneg (fst st)) (fun st i => let '(c, f) := st in
            c <- arr_set c i n0 ;; f <- arr_set f i 0 ;; Ok (c, f)) size (cache, factors)) as ((c0 & f0) & E & Hl1 & Hl2 & Hpre); auto.
  { cbn. repeat split; auto. intros i Hi. lia. }
  { intros j [c f] Hj (Hl1 & Hl2 & Hpre). cbn [fst snd] in *.
    destruct (pre_set j nonneg c j n0 Hpre) as (c' & -> & Hl & _ & Hpre'); [lia|split; [apply nn_0|rewrite val_0; lra]|]. cbn [rbind].
    rewrite arr_set_ok by lia. cbn [rbind]. eexists. split; [reflexivity|]. cbn [fst snd]. rewrite set_nth_length.
    split; [lia|]. split; [lia|]. apply Hpre'; lia. }
  rewrite E. cbn [rbind fst snd] in *.
  destruct (mat_loop m cs (fun col e c =>
      let cur_entry := if column then col else fst e in
      let other_entry := if column then fst e else col in
      p <- arr_get prescaling other_entry ;;
      let cur := nabs (nldexp (snd e) p) in
      if is_zero cur eps then Ok c
      else old <- arr_get c cur_entry ;; arr_set c cur_entry (nmax old cur))
    (fun c => pre size nonneg c)
    (fun st index =>
    let '(col, c) := st in
    col <- advance (S (length (mcols m))) (mcols m) index col ;;
    e <- arr_get (ment m) index ;;
    let cur_entry := if column then col else fst e in
    let other_entry := if column then fst e else col in
    p <- arr_get prescaling other_entry ;;
    let cur := nabs (nldexp (snd e) p) in
    if is_zero cur eps then Ok (col, c)
    else old <- arr_get c cur_entry ;; c <- arr_set c cur_entry (nmax old cur) ;; Ok (col, c)) c0 Hs Hpre) as (col & c1 & E1 & Hpre1).
  { intros col s idx. destruct (advance _ _ _ _) as [col'| |]; cbn [rbind]; auto. destruct (arr_get (ment m) idx) as [e| |]; cbn [rbind]; auto.
    destruct (arr_get prescaling _) as [p| |]; cbn [rbind]; auto. destruct (is_zero _ _); cbn [rbind]; auto.
    destruct (arr_get s _) as [o| |]; cbn [rbind]; auto. }
  { intros j c e s Hj He' HI. destruct (stores_index m cs j c e Hs Hj He') as [Hi Hj'].
    cbv zeta. rewrite arr_get_wt by (destruct column; lia). cbn [rbind].
    destruct (is_zero _ _); [eauto|].
    assert (Hin : 0 <= (if column then Z.of_nat j else fst e) < size) by (unfold size; destruct column; lia).
    destruct (HI _ Hin) as (old & -> & Hold). cbn [rbind].
    destruct (pre_set size nonneg s (if column then Z.of_nat j else fst e)
       (nmax old (nabs (nldexp (snd e) (wt prescaling (if column then fst e else Z.of_nat j)))))) as (c' & -> & _ & Hp' & _); auto.
    - eapply arr_get_pre; eauto.
    - apply nonneg_max; auto. apply nn_abs, ldexp_nn. eapply Hnn; [|exact He']. eapply nth_error_In; eauto.
    - eauto. }
  cbv zeta in E1 |- *. rewrite E1. cbn [rbind snd].
  destruct (zrange_loop (fun j (f : list Z) => len f = len factors /\ pre j (fun w => -30 <= w <= 30) f)
    (fun f i => mv <- arr_get c1 i ;; check (neqb mv n0 || nltb n0 mv) ;;; arr_set f i (weight_of_max mv)) size f0)
    as (f' & E2 & Hlf & Hpf); auto.
  { split; auto. intros i Hi. lia. }
  { intros j f Hj (Hl & Hpf). destruct (Hpre1 j Hj) as (mv & -> & Hmv). cbn [rbind]. rewrite (nonneg_check mv Hmv). cbn [check rbind].
    destruct (pre_set j _ f j (weight_of_max mv) Hpf) as (f' & -> & Hl' & _ & Hp'); [lia|apply weight_range|].
    eexists. split; [reflexivity|]. split; [lia|]. apply Hp'; lia. }
  exists f'. split; [exact E2|]. split; [exact Hlf|]. apply Forall_forall. intros w Hw. apply In_nth_error in Hw. destruct Hw as (k & Hk).
  assert (Hlk : (k < length f')%nat) by (apply nth_error_Some; congruence).
  destruct (Hpf (Z.of_nat k)) as (a & Ea & Ha); [lia|]. apply arr_get_nth in Ea; [|lia]. rewrite Nat2Z.id in Ea. congruence.
Qed.

Lemma ratio_spec m cs (column : bool) mins maxs eps : stores m cs -> nn_entries cs -> nonneg eps ->
  (if column then mnc m else mnr m) <= len mins -> (if column then mnc m else mnr m) <= len maxs ->
  exists r, max_matrix_ratio m column mins maxs eps = Ok r.
Proof.
  intros Hs Hnn He Hc1 Hc2. pose proof (layout_facts m cs Hs) as (H1 & H2 & H3 & H4 & H5).
  unfold max_matrix_ratio. set (size := if column then mnc m else mnr m) in *.
  assert (Hsz : 0 <= size) by (unfold size; destruct column; lia).
  destruct (zrange_loop (fun j (st : list num * list num) => len (fst st) = len mins /\ len (snd st) = len maxs
      /\ pre j pos (fst st) /\ pre j nonneg (snd st)) (fun st i => let '(a, b) := st in
            a <- arr_set a i sleqp_infinity ;; b <- arr_set b i n0 ;; Ok (a, b)) size (mins, maxs)) as ((a0 & b0) & E & Hl1 & Hl2 & Hpa & Hpb); auto.
  { cbn. repeat split; auto; intros i Hi; lia. }
  { intros j [a b] Hj (Hl1 & Hl2 & Hpa & Hpb). cbn [fst snd] in *.
    destruct (pre_set j pos a j sleqp_infinity Hpa) as (a' & -> & Hl & _ & Hpa'); [lia|exact inf_pos|]. cbn [rbind].
    destruct (pre_set j nonneg b j n0 Hpb) as (b' & -> & Hl' & _ & Hpb'); [lia|split; [apply nn_0|rewrite val_0; lra]|]. cbn [rbind].
    eexists. split; [reflexivity|]. cbn [fst snd]. split; [lia|]. split; [lia|]. split; [apply Hpa'; lia|apply Hpb'; lia]. }
  rewrite E. cbn [rbind fst snd] in *.
  destruct (mat_loop m cs (fun col e ab =>
      let cur := nabs (snd e) in
      if is_zero cur eps then Ok ab
      else
        let entry := if column then col else fst e in
        a0 <- arr_get (fst ab) entry ;; a <- arr_set (fst ab) entry (nmin a0 cur) ;;
        b0 <- arr_get (snd ab) entry ;; b <- arr_set (snd ab) entry (nmax b0 cur) ;;
        Ok (a, b))
    (fun ab => pre size pos (fst ab) /\ pre size nonneg (snd ab))
    (fun st index =>
    let '(col, ab) := st in
    col <- advance (S (length (mcols m))) (mcols m) index col ;;
    e <- arr_get (ment m) index ;;
    let cur := nabs (snd e) in
    if is_zero cur eps then Ok (col, ab)
    else
      let entry := if column then col else fst e in
      a0 <- arr_get (fst ab) entry ;; a <- arr_set (fst ab) entry (nmin a0 cur) ;;
      b0 <- arr_get (snd ab) entry ;; b <- arr_set (snd ab) entry (nmax b0 cur) ;;
      Ok (col, (a, b))) (a0, b0) Hs (conj Hpa Hpb)) as (col & (a1 & b1) & E1 & Hpa1 & Hpb1).
  { intros col s idx. destruct (advance _ _ _ _) as [col'| |]; cbn [rbind]; auto. destruct (arr_get (ment m) idx) as [e| |]; cbn [rbind]; auto.
    cbv zeta. destruct (is_zero _ _); cbn [rbind]; auto.
    destruct (arr_get (fst s) _) as [o| |]; cbn [rbind]; auto. destruct (arr_set (fst s) _ _) as [o'| |]; cbn [rbind]; auto.
    destruct (arr_get (snd s) _) as [p| |]; cbn [rbind]; auto. destruct (arr_set (snd s) _ _) as [p'| |]; cbn [rbind]; auto. }
  { intros j c e [a b] Hj He' [HIa HIb]. cbn [fst snd] in *. destruct (stores_index m cs j c e Hs Hj He') as [Hi Hj'].
    assert (Hx : nn (snd e)) by (eapply Hnn; [eapply nth_error_In; eauto|exact He']).
    cbv zeta. destruct (is_zero _ _) eqn:Ez; [eexists; split; [reflexivity|]; auto|].
    assert (Hin : 0 <= (if column then Z.of_nat j else fst e) < size) by (unfold size; destruct column; lia).
    destruct (HIa _ Hin) as (oa & -> & Hoa). cbn [rbind].
    destruct (pre_set size pos a (if column then Z.of_nat j else fst e) (nmin oa (nabs (snd e))) HIa) as (a' & -> & _ & Hpa' & _).
    { eapply arr_get_pre; eauto. } { apply pos_min; auto. eapply nonzero_pos; eauto. }
    cbn [rbind]. destruct (HIb _ Hin) as (ob & -> & Hob). cbn [rbind].
    destruct (pre_set size nonneg b (if column then Z.of_nat j else fst e) (nmax ob (nabs (snd e))) HIb) as (b' & -> & _ & Hpb' & _).
    { eapply arr_get_pre; eauto. } { apply nonneg_max; auto. now apply nn_abs. }
    cbn [rbind]. eexists. split; [reflexivity|]. auto. }
  cbv zeta in E1 |- *. rewrite E1. cbn [rbind snd].
  destruct (zrange_loop (fun _ (_ : num) => True) (fun r i => mx <- arr_get b1 i ;;
    if neqb mx n0 then Ok r
    else mn <- arr_get a1 i ;; check (nltb n0 mn) ;;; check (nltb n0 mx) ;;; Ok (nmax r (ndiv mx mn))) size n0) as (r & E2 & _); auto.
  { intros j r Hj _. cbn [fst snd] in *. destruct (Hpb1 j Hj) as (mx & -> & Hmx). cbn [rbind].
    destruct (neqb mx n0) eqn:Eq; [eauto|]. destruct (Hpa1 j Hj) as (mn & -> & Hmn1 & Hmn2). cbn [rbind].
    pose proof (nonneg_check mx Hmx) as Hm. rewrite Eq in Hm. cbn [orb] in Hm. rewrite Hm.
    rewrite (ltb_val n0 mn) by auto using nn_0. rewrite val_0, Rlt_bool_true by exact Hmn2. cbn [check rbind]. eauto. }
  eauto.
Qed.

Lemma from_jac_spec s m cs mins maxs eps : swf s -> stores m cs -> mnr m = sc_nc s -> mnc m = sc_nv s -> nn_entries cs -> nonneg eps ->
  sc_nv s <= len mins -> sc_nc s <= len mins -> sc_nv s <= len maxs -> sc_nc s <= len maxs ->
  exists s', scaling_from_cons_jac s m mins maxs eps = Ok s' /\ swf s' /\ sc_nv s' = sc_nv s /\ sc_nc s' = sc_nc s /\ sc_ow s' = 0
    /\ Forall (fun w => -30 <= w <= 30) (sc_vw s') /\ Forall (fun w => -30 <= w <= 30) (sc_cw s').
Proof.
  intros (S1 & S2 & S3 & S4) Hm Hr Hc Hnn He L1 L2 L3 L4. unfold scaling_from_cons_jac.
  destruct (ratio_spec m cs true mins maxs eps Hm Hnn He) as (r1 & ->); [lia..|]. cbn [rbind].
  destruct (ratio_spec m cs false mins maxs eps Hm Hnn He) as (r2 & ->); [lia..|]. cbn [rbind].
  cbn [scaling_reset sc_vw sc_cw sc_nv sc_nc sc_ow].
  assert (Rv : len (repeat 0 (Z.to_nat (sc_nv s))) = sc_nv s) by (rewrite repeat_length; lia).
  assert (Rc : len (repeat 0 (Z.to_nat (sc_nc s))) = sc_nc s) by (rewrite repeat_length; lia).
  destruct (nltb r1 r2).
  - destruct (compute_spec m cs true (repeat 0 (Z.to_nat (sc_nv s))) (repeat 0 (Z.to_nat (sc_nc s))) maxs eps Hm Hnn He) as (v & -> & Lv & Fv); [lia..|].
    cbn [rbind]. destruct (compute_spec m cs false (repeat 0 (Z.to_nat (sc_nc s))) v maxs eps Hm Hnn He) as (c & -> & Lc & Fc); [lia..|].
    cbn [rbind]. eexists. split; [reflexivity|]. unfold swf; cbn [sc_vw sc_cw sc_nv sc_nc sc_ow]. repeat split; auto; lia.
  - destruct (compute_spec m cs false (repeat 0 (Z.to_nat (sc_nc s))) (repeat 0 (Z.to_nat (sc_nv s))) maxs eps Hm Hnn He) as (v & -> & Lv & Fv); [lia..|].
    cbn [rbind]. destruct (compute_spec m cs true (repeat 0 (Z.to_nat (sc_nv s))) v maxs eps Hm Hnn He) as (c & -> & Lc & Fc); [lia..|].
    cbn [rbind]. eexists. split; [reflexivity|]. unfold swf; cbn [sc_vw sc_cw sc_nv sc_nc sc_ow]. repeat split; auto; lia.
Qed.

Lemma from_grad_spec s g eps : Forall (fun e => nn (snd e)) (vent g) -> 
  exists s', obj_scaling_from_grad s g eps = Ok s' /\ -30 <= sc_ow s' <= 30 /\ sc_vw s' = sc_vw s /\ sc_cw s' = sc_cw s.
Proof.
  intros Hg. unfold obj_scaling_from_grad. set (F := fun mv e => _).
  assert (Hn : forall a, nonneg a -> nonneg (fold_left F (vent g) a)).
  { induction Hg as [|e es He Hes IH]; intros a Ha; [exact Ha|]. cbn [fold_left]. apply IH. unfold F.
    destruct (is_zero _ _); auto. apply nonneg_max; auto. now apply nn_abs. }
  specialize (Hn n0 ltac:(split; [apply nn_0|rewrite val_0; lra])). rewrite (nonneg_check _ Hn). cbn [check rbind].
  eexists. split; [reflexivity|]. cbn [set_obj_weight sc_ow sc_vw sc_cw]. split; [apply weight_range|]. auto.
Qed.

End Auto.
