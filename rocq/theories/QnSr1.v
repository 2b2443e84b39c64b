(** The SR1 blocks compute the textbook recurrence in exact arithmetic (C38). *)
From Coq Require Import Reals Lra FunctionalExtensionality.
From Flocq Require Import Core.
From Verif Require Import Base Num Cmp Sparse Vec VecFacts VecFacts2 Mat MatFacts Ring RSum VecReal
  QuasiNewton QnMath QnFacts QnReal.
Local Open Scope Z_scope.

Section SR1.
Variable d : Z.
Local Notation dot := (dotd d).

Definition sscale (s y : Z -> R) : R := if Rlt_bool 0 (dot y s) then (dot y y / dot y s)%R else (1 / 10000)%R.

Definition swindow (b : @sblock RN) (h : list (list (Z * R) * list (Z * R))) :=
  map pf (firstn (Z.to_nat (sb_len b)) h).

Record swf (b : @sblock RN) (h : list (list (Z * R) * list (Z * R))) : Prop := {
  v_dim : sb_dim b = d /\ 0 < d;
  v_ring : sring b h;
  v_s : Forall (vok d) (sb_s b); v_y : Forall (vok d) (sb_y b);
  v_p : Forall (vok d) (sb_p b) /\ len (sb_p b) = sb_num b;
  v_len : len (sb_dot b) = sb_num b }.

Definition sdone (b : @sblock RN) (H : list ((Z -> R) * (Z -> R))) (k : Z) : Prop :=
  forall s y, nth_error H (Z.to_nat k) = Some (s, y) ->
  let B := sspec d (sb_scale b) (skipn (S (Z.to_nat k)) H) in
  let p := fun i => (y i - B s i)%R in
  let j := Z.to_nat ((sb_curr b - k) mod sb_num b) in
  (exists v, nth_error (sb_p b) j = Some v /\ dense v = p) /\
  nth_error (sb_dot b) j = Some (if sr1_skip d B s y then 0%R else dot s p).

Lemma swindow_nth b h k : swf b h -> 0 <= k < sb_len b ->
  exists p, nth_error h (Z.to_nat k) = Some p /\ nth_error (swindow b h) (Z.to_nat k) = Some (pf p).
Proof.
  intros Hw Hk. destruct (v_ring _ _ Hw) as [(_ & _ & Hl & _) _]. rewrite map_length in Hl. rnum.
  destruct (nth_in h k) as [p E]; [lia|]. exists p. split; [exact E|]. unfold swindow.
  rewrite nth_error_map. rewrite nth_firstn by lia. rnum. rewrite E. reflexivity.
Qed.
Lemma swf_ring_facts b h : swf b h -> 0 < sb_num b /\ 0 <= sb_len b <= sb_num b /\ (0 < sb_len b -> 0 <= sb_curr b < sb_num b).
Proof. intros Hw. destruct (v_ring _ _ Hw) as [(H1 & _ & H2 & H3 & _) _]. lia. Qed.
Lemma swindow_length b h : swf b h -> len (swindow b h) = sb_len b.
Proof.
  intros Hw. destruct (v_ring _ _ Hw) as [(H1 & _ & H2 & H3 & _) _]. unfold swindow.
  rewrite map_length, firstn_length. rewrite map_length in H2. rnum. lia.
Qed.
Lemma sstored_pair b h k : swf b h -> 0 <= k < sb_len b ->
  exists vs vy, arr_get (sb_s b) (sb_idx b (sb_curr b - k)) = Ok vs /\ arr_get (sb_y b) (sb_idx b (sb_curr b - k)) = Ok vy
    /\ vok d vs /\ vok d vy /\ nth_error (swindow b h) (Z.to_nat k) = Some (dense vs, dense vy).
Proof.
  intros Hw Hk. destruct (v_ring _ _ Hw) as [R1 R2].
  destruct (ringm_get _ _ _ _ _ k R1 Hk) as (es & N1 & G1). destruct (ringm_get _ _ _ _ _ k R2 Hk) as (ey & N2 & G2).
  rewrite arr_get_map in G1, G2. apply rmap_ok in G1 as (vs & G1 & ->). apply rmap_ok in G2 as (vy & G2 & ->).
  destruct (swindow_nth b h k Hw Hk) as (p & Np & Nw).
  apply nth_error_map_inv in N1 as (p1 & N1 & E1). apply nth_error_map_inv in N2 as (p2 & N2 & E2).
  rnum. assert (p1 = p) by congruence. assert (p2 = p) by congruence. subst p1 p2.
  exists vs, vy. unfold sb_idx. split; [exact G1|]. split; [exact G2|].
  destruct (ringm_index _ _ _ _ _ _ R1 Hk) as [Ei Hi]. rewrite Ei in G1, G2.
  apply arr_get_nth in G1; [|lia]. apply arr_get_nth in G2; [|lia].
  split; [eapply Forall_nth; [apply (v_s _ _ Hw)|exact G1]|].
  split; [eapply Forall_nth; [apply (v_y _ _ Hw)|exact G2]|].
  rewrite Nw. unfold pf. rewrite E1, E2. reflexivity.
Qed.

Lemma terms_fun b h final (dotf : rvec -> res (@num RN)) (v p0 : rvec) : swf b h ->
  sb_curr b - sb_len b <= final <= sb_curr b ->
  (forall k, sb_curr b - final <= k < sb_len b -> sdone b (swindow b h) k) ->
  (forall p, vok d p -> dotf p = Ok (dot (dense p) (dense v))) ->
  vok d v -> vok d p0 -> dense p0 = (fun i => sb_scale b * dense v i)%R ->
  exists z, sr1_terms (0%R : @num RN) b dotf p0 (zseq (sb_begin b) final) = Ok z /\ vok d z /\
    dense z = sspec d (sb_scale b) (skipn (Z.to_nat (sb_curr b - final)) (swindow b h)) (dense v).
Proof.
  intros Hw Hf Hdone Hdot Hv Hp D1. unfold sr1_terms.
  pose proof (swf_ring_facts b h Hw) as (Hn & Hl & Hc). pose proof (swindow_length b h Hw) as HW.
  set (I := fun (pv : Z) (t : rvec) => vok d t /\
    dense t = sspec d (sb_scale b) (skipn (Z.to_nat (sb_curr b - pv + 1)) (swindow b h)) (dense v)).
  edestruct (zseq_loop I) as (z & Ez & HI); [| | |exists z; split; [exact Ez|]].
  - unfold sb_begin. lia.
  - split; [exact Hp|]. rewrite D1. unfold sb_begin.
    replace (sb_curr b - (sb_curr b - sb_len b + 1) + 1) with (sb_len b) by lia.
    rewrite skipn_all2 by lia. reflexivity.
  - intros pv t Hpv [Ht Dt]. unfold sb_begin in Hpv. cbv zeta.
    set (k := sb_curr b - pv). assert (Hk : 0 <= k < sb_len b) by (unfold k; lia).
    replace (Z.to_nat (sb_curr b - pv + 1)) with (S (Z.to_nat k)) in Dt by (unfold k; lia).
    replace pv with (sb_curr b - k) by (unfold k; lia).
    destruct (swindow_nth b h k Hw Hk) as ([s y] & _ & Nw). unfold pf in Nw. cbn [fst snd] in Nw.
    destruct (Hdone k) with (s := dn s) (y := dn y) as ((pj & Np & Dp) & Nd); [unfold k; lia|exact Nw|].
    destruct (v_ring _ _ Hw) as [R1 _]. destruct (ringm_index _ _ _ _ _ _ R1 Hk) as [Ei Hi].
    unfold sb_idx. rewrite Ei. rewrite (arr_nth _ _ _ (proj1 Hi) Nd). cbn [rbind].
    unfold I. replace (Z.to_nat (sb_curr b - (sb_curr b - k + 1) + 1)) with (Z.to_nat k) by lia.
    rewrite (skipn_nth _ _ _ Nw). cbn [sspec]. cbv zeta.
    set (B := sspec d (sb_scale b) (skipn (S (Z.to_nat k)) (swindow b h))) in *.
    destruct (sr1_skip d B (dn s) (dn y)) eqn:Hskip.
    + assert (@neqb RN 0%R n0 = true) as -> by (rewrite rn_n0; apply Req_bool_true; reflexivity).
      exists t. auto.
    + assert (Hne : dot (dn s) (fun i => (dn y i - B (dn s) i)%R) <> 0%R).
      { intros E0. assert (sr1_skip d B (dn s) (dn y) = true) by (apply sr1_skip_iff; right; exact E0). congruence. }
      assert (@neqb RN (dot (dn s) (fun i => (dn y i - B (dn s) i)%R)) n0 = false) as ->
        by (rewrite rn_n0; now apply Req_bool_false).
      rewrite (arr_nth _ _ _ (proj1 Hi) Np). cbn [rbind].
      assert (Hpj : vok d pj) by (eapply Forall_nth; [apply (v_p _ _ Hw)|exact Np]).
      rewrite (Hdot pj Hpj). cbn [rbind]. destruct (v_dim _ _ Hw) as [Hd Hd0]. rewrite Hd, rn_n1. cbn [ndiv RN].
      match goal with |- context [vec_add_scaled t pj ?a ?b _ ?r] =>
        destruct (add_scaled_fun d t pj r a b Ht Hpj) as (u & -> & Hu & Du) end; [cbn [vcap]; lia|].
      cbn [rbind]. destruct (copy_fun d u t Hu Ht) as (w & -> & Hww & _ & Dw).
      exists w. split; [reflexivity|]. split; [exact Hww|]. rewrite Dw, Du, Dt, Dp.
      apply functional_extensionality. intros i. unfold Rdiv. req. ring.
  - destruct HI as [Hz Dz]. split; [exact Hz|]. rewrite Dz.
    replace (sb_curr b - (final + 1) + 1) with (sb_curr b - final) by lia. reflexivity.
Qed.

Lemma sdone_same b b' H k : sdone b H k -> sb_scale b' = sb_scale b ->
  sb_curr b' = sb_curr b -> sb_num b' = sb_num b ->
  let j := Z.to_nat ((sb_curr b - k) mod sb_num b) in
  nth_error (sb_p b') j = nth_error (sb_p b) j -> nth_error (sb_dot b') j = nth_error (sb_dot b) j -> sdone b' H k.
Proof.
  intros HD E1 E2 E3 j N1 N2 s y Hs. unfold j in *. specialize (HD s y Hs).
  rewrite E1, E2, E3, N1, N2. exact HD.
Qed.

Lemma sframe_window b b' h : sframe b b' -> swindow b' h = swindow b h.
Proof. intros (F1 & F2 & F3 & F4 & F5 & F6). unfold swindow. now rewrite F5. Qed.

Lemma sr1_scale_fun (s y : rvec) : vok d s -> vok d y -> sr1_initial_scale s y = Ok (sscale (dense s) (dense y)).
Proof.
  intros Hs Hy. unfold sr1_initial_scale. rewrite (dot_fun d y s Hy Hs). cbn [rbind].
  destruct Hy as [Wy Dy]. rewrite vec_norm_sq_real, Dy by auto.
  assert (@nleb RN n0 (dot (dense y) (dense y)) = true) as ->.
  { apply rn_leb. rewrite rn_n0. apply dotd_nonneg. }
  cbn [check rbind]. unfold sscale.
  assert (@nltb RN n0 (dot (dense y) (dense s)) = Rlt_bool 0 (dot (dense y) (dense s))) as -> by (rewrite rn_n0; reflexivity).
  destruct (Rlt_bool _ _); [reflexivity|]. now rewrite rn_lit_eq.
Qed.

Lemma inner_step_fun b h k : swf b h -> 0 <= k < sb_len b ->
  (forall k', k < k' < sb_len b -> sdone b (swindow b h) k') ->
  exists b', sr1_inner_step (0%R : @num RN) b (sb_curr b - k) = Ok b' /\ sframe b b' /\ sb_scale b' = sb_scale b /\
    swf b' h /\ (forall k', k <= k' < sb_len b -> sdone b' (swindow b h) k').
Proof.
  intros Hw Hk Hdone. pose proof (swf_ring_facts b h Hw) as (Hn & Hl & Hc).
  destruct (sstored_pair b h k Hw Hk) as (vs & vy & Gs & Gy & Hvs & Hvy & Nw).
  unfold sr1_inner_step. rewrite Gs, Gy. cbn [rbind]. destruct (v_dim _ _ Hw) as [Hd Hd0]. rewrite Hd.
  destruct (copy_fun d vs (mkvec d 0 []) Hvs) as (o & -> & Ho & _ & Do); [apply vok_empty; lia|]. cbn [rbind].
  destruct (scale_fun d o (sb_scale b) Ho) as [Ho' Do'].
  set (B := sspec d (sb_scale b) (skipn (S (Z.to_nat k)) (swindow b h))).
  destruct (terms_fun b h (sb_curr b - k - 1) (fun p => vec_dot vs p) vs (vec_scale o (sb_scale b)) Hw) as (q & Eq & Hq & Dq); auto; try lia.
  { intros k' Hk'. apply Hdone. lia. }
  { intros p Hp. rewrite (dot_fun d vs p Hvs Hp). now rewrite dotd_sym. }
  { now rewrite Do', Do. }
  cbv zeta. rnum. rewrite Eq. cbn [rbind]. clear Eq.
  replace (Z.to_nat (sb_curr b - (sb_curr b - k - 1))) with (S (Z.to_nat k)) in Dq by lia. fold B in Dq.
  destruct (v_ring _ _ Hw) as [R1 _]. destruct (ringm_index _ _ _ _ _ _ R1 Hk) as [Ei Hi].
  unfold sb_idx in *. rewrite Ei in *. set (j := (sb_curr b - k) mod sb_num b) in *.
  destruct (v_p _ _ Hw) as [Wp Lp]. pose proof (v_len _ _ Hw) as Ld.
  destruct (nth_in (sb_p b) j) as [pi Np]; [lia|]. rewrite (arr_nth _ _ _ (proj1 Hi) Np). cbn [rbind].
  pose proof (Forall_nth _ _ _ _ Wp Np) as Hpi.
  rewrite rn_n1, rn_lit1.
  destruct (add_scaled_fun d q vy pi (-1) 1 Hq Hvy) as (p & Ep & Hp & Dp); [apply wf_cap, Hpi|].
  match goal with |- context [rbind (vec_add_scaled q vy ?a ?b _ pi)] =>
    change (vec_add_scaled q vy a b (0%R : @num RN) pi) with (vec_add_scaled q vy ((-1)%R : @num RN) (1%R : @num RN) (0%R : @num RN) pi) end.
  rewrite Ep. cbn [rbind]. rewrite (arr_set_ok (sb_p b)) by lia. cbn [rbind].
  rewrite (dot_fun d vs p Hvs Hp). cbn [rbind]. rewrite !vec_norm_real by (apply Hp || apply Hvs).
  destruct Hp as [Wfp Dimp]. destruct Hvs as [Wfs Dims]. rewrite Dimp, Dims.
  assert (forall f, @nleb RN n0 (norm2 d f) = true) as Hnn.
  { intros f. apply rn_leb. rewrite rn_n0. apply sqrt_pos. }
  fold (norm2 d (dense p)) (norm2 d (dense vs)). rewrite !Hnn. cbn [check rbind]. rewrite (arr_set_ok (sb_dot b)) by lia. cbn [rbind].
  assert (Dp' : dense p = (fun i => dense vy i - B (dense vs) i)%R).
  { rewrite Dp, Dq. apply functional_extensionality. intros i. req. ring. }
  match goal with |- context [set_nth (sb_dot b) _ ?x] => assert (Ed : x = (if sr1_skip d B (dense vs) (dense vy) then 0%R else dot (dense vs) (dense p))) end.
  { unfold sr1_skip. cbv zeta. rewrite <- Dp'. rewrite rn_abs. unfold safeguard_factor. rewrite rn_lit_eq, rn_n0.
    change (@nltb RN) with Rlt_bool. cbn [nmul RN].
    destruct (Rlt_bool _ _); cbn [orb]; [reflexivity|].
    destruct (Req_bool_spec (dot (dense vs) (dense p)) 0) as [E0|E0]; [exact E0|reflexivity]. }
  rewrite Ed. set (b1 := mksb _ _ _ _ _ _ _ _ _). exists b1. split; [reflexivity|].
  split; [repeat split; auto|]. split; [reflexivity|]. split.
  - destruct Hw as [A1 A2 A3 A4 A5 A6]. constructor; unfold b1; cbn [sb_dim sb_s sb_y sb_p sb_dot sb_num]; auto.
    + rewrite set_nth_length. split; [apply Forall_set; auto; split; auto|auto].
    + now rewrite set_nth_length.
  - intros k' Hk'. destruct (Z.eq_dec k' k) as [->|Hne].
    + intros s y Hsy. rewrite Nw in Hsy. injection Hsy as <- <-.
      unfold b1; cbn [sb_p sb_dot sb_scale sb_curr sb_num]. fold j B. rewrite !nth_set by lia. rewrite Z.eqb_refl.
      split; [exists p; split; [reflexivity|exact Dp']|]. now rewrite Dp'.
    + pose proof (mod_neq (sb_num b) (sb_curr b) k' k) as Hmn. fold j in Hmn.
      assert (Hj : 0 <= (sb_curr b - k') mod sb_num b < sb_num b) by (apply Z.mod_pos_bound; lia).
      apply (sdone_same b); [apply Hdone; lia|..]; try reflexivity; unfold b1; cbn [sb_p sb_dot]; rewrite nth_set by lia;
        (destruct (Z.eqb_spec ((sb_curr b - k') mod sb_num b) j); [exfalso; apply Hmn; auto; lia|reflexivity]).
Qed.

Definition sset_scale (b : @sblock RN) (x : R) : sblock :=
  mksb (sb_dim b) (sb_s b) (sb_y b) (sb_p b) (sb_dot b) x (sb_num b) (sb_len b) (sb_curr b).

Lemma inner_products_fun b h s0 y0 h' : swf b h -> 0 < sb_len b -> map pf h = (s0, y0) :: h' ->
  exists b', sr1_compute_inner_products (0%R : @num RN) b = Ok b' /\ sframe b b' /\
    sb_scale b' = sscale s0 y0 /\
    swf b' h /\ (forall k, 0 <= k < sb_len b -> sdone b' (swindow b h) k).
Proof.
  intros Hw Hl0 Hh. pose proof (swf_ring_facts b h Hw) as (Hn & Hl & Hc). specialize (Hc Hl0).
  unfold sr1_compute_inner_products. assert (0 <? sb_len b = true) as -> by (apply Z.ltb_lt; lia). cbn [check rbind].
  destruct (sstored_pair b h 0 Hw) as (vs & vy & Gs & Gy & Hvs & Hvy & Nw); [lia|].
  rewrite Z.sub_0_r in Gs, Gy. cbv zeta.
  rewrite Gs, Gy. cbn [rbind]. rewrite (sr1_scale_fun _ _ Hvs Hvy). cbn [rbind].
  assert (E : s0 = dense vs /\ y0 = dense vy).
  { unfold swindow in Nw. rewrite <- firstn_map, Hh in Nw. rewrite nth_firstn in Nw by lia. cbn in Nw. injection Nw as -> ->. auto. }
  destruct E as [-> ->]. set (sc := sscale _ _). fold (sset_scale b sc).
  assert (W0 : swf (sset_scale b sc) h).
  { destruct Hw as [A1 A2 A3 A4 A5 A6]. constructor; auto. }
  destruct (zseq_loop (fun v t => sframe (sset_scale b sc) t /\ sb_scale t = sc /\ swf t h /\
              (forall k', sb_curr b - v < k' < sb_len b -> sdone t (swindow b h) k'))
              (sr1_inner_step (0%R : @num RN)) (sb_begin (sset_scale b sc)) (sb_curr b) (sset_scale b sc)) as (b' & E & HI).
  - unfold sb_begin, sset_scale; cbn [sb_curr sb_len]. lia.
  - split; [apply sframe_refl|]. split; [reflexivity|]. split; [exact W0|].
    unfold sb_begin, sset_scale; cbn [sb_curr sb_len]. intros k' Hk'. lia.
  - intros v t Hv (F & Es & Wt & Hd). unfold sb_begin, sset_scale in Hv; cbn [sb_curr sb_len] in Hv.
    pose proof F as (F1 & F2 & F3 & F4 & F5 & F6).
    unfold sset_scale in F5, F6; cbn [sb_curr sb_len] in F5, F6.
    assert (EW : swindow t h = swindow b h) by (rewrite (sframe_window _ _ h F); reflexivity).
    destruct (inner_step_fun t h (sb_curr b - v) Wt) as (t' & E' & F' & Es' & Wt' & Hd').
    + lia.
    + intros k' Hk'. rewrite EW. apply Hd. lia.
    + exists t'. replace (sb_curr t - (sb_curr b - v)) with v in E' by lia. split; [exact E'|].
      split; [eapply sframe_trans; eauto|]. split; [congruence|]. split; [exact Wt'|].
      intros k' Hk'. rewrite <- EW. apply Hd'. lia.
  - destruct HI as (F & Es & Wt & Hd). exists b'. split; [exact E|]. split; [exact F|]. split; [exact Es|]. split; [exact Wt|].
    intros k Hk. apply Hd. lia.
Qed.

Definition sready (b : @sblock RN) (h : list (list (Z * R) * list (Z * R))) : Prop :=
  swf b h /\ (forall k, 0 <= k < sb_len b -> sdone b (swindow b h) k) /\
  match map pf h with [] => True | (s, y) :: _ => sb_scale b = sscale s y end.

Lemma sr1_push_fun b h (s y : rvec) : swf b h -> vok d s -> vok d y ->
  exists b', sr1_block_push (0%R : @num RN) b s y = Ok b' /\ sready b' ((vent s, vent y) :: h) /\ sb_num b' = sb_num b.
Proof.
  intros Hw Hs Hy. pose proof (swf_ring_facts b h Hw) as (Hn & Hl & Hc).
  destruct (v_ring _ _ Hw) as [R1 R2]. unfold sr1_block_push, sb_idx. set (next := data_index _ _ _).
  pose proof (ringm_next _ _ _ _ _ R1) as [Hnx _]. fold next in Hnx.
  pose proof (ringm_len _ _ _ _ _ R1) as L1. pose proof (ringm_len _ _ _ _ _ R2) as L2. rewrite map_length in L1, L2.
  destruct (nth_in (sb_s b) next) as [si Ns]; [lia|]. rewrite (arr_nth _ _ _ (proj1 Hnx) Ns). cbn [rbind].
  destruct (copy_fun d s si Hs (Forall_nth _ _ _ _ (v_s _ _ Hw) Ns)) as (s' & -> & Hs' & Vs & Ds). cbn [rbind].
  rewrite (arr_set_ok (sb_s b)) by lia. cbn [rbind].
  destruct (nth_in (sb_y b) next) as [yi Ny]; [lia|]. rewrite (arr_nth _ _ _ (proj1 Hnx) Ny). cbn [rbind].
  destruct (copy_fun d y yi Hy (Forall_nth _ _ _ _ (v_y _ _ Hw) Ny)) as (y' & -> & Hy' & Vy & Dy). cbn [rbind].
  rewrite (arr_set_ok (sb_y b)) by lia. cbn [rbind].
  fold (next_len (sb_len b) (sb_num b)).
  set (b1 := mksb _ _ _ _ _ _ _ _ _).
  destruct (ringm_push _ _ _ _ _ (vent s) R1) as (d1 & _ & Ed1 & R1').
  destruct (ringm_push _ _ _ _ _ (vent y) R2) as (d2 & _ & Ed2 & R2').
  assert (W1 : swf b1 ((vent s, vent y) :: h)).
  { constructor; unfold b1; cbn [sb_dim sb_s sb_y sb_p sb_dot sb_num].
    - apply (v_dim _ _ Hw).
    - unfold sring; cbn [sb_s sb_y sb_num sb_len sb_curr map fst snd]. rewrite !map_set_nth, Vs, Vy. subst d1 d2. auto.
    - apply Forall_set; [apply (v_s _ _ Hw)|auto].
    - apply Forall_set; [apply (v_y _ _ Hw)|auto].
    - apply (v_p _ _ Hw).
    - apply (v_len _ _ Hw). }
  assert (0 < sb_len b1).
  { unfold b1; cbn [sb_len]. unfold next_len. destruct (Z.ltb_spec (sb_len b) (sb_num b)); lia. }
  destruct (inner_products_fun b1 _ (dense s) (dense y) (map pf h) W1) as (b' & E & F & Es & W' & Hd); auto.
  exists b'. split; [exact E|]. pose proof F as (F1 & F2 & F3 & F4 & F5 & F6). split.
  - split; [exact W'|]. split.
    + intros k Hk. rewrite (sframe_window _ _ _ F). apply Hd. lia.
    + cbn [map pf fst snd]. exact Es.
  - exact F4.
Qed.

Lemma sr1_reset_fun b h : swf b h -> sready (sr1_block_reset b) [].
Proof.
  intros Hw. pose proof (swf_ring_facts b h Hw) as (Hn & Hl & Hc). destruct (v_ring _ _ Hw) as [R1 R2].
  split; [|split; [intros k Hk; cbn [sr1_block_reset sb_len] in Hk; lia|exact I]].
  destruct Hw as [A1 A2 A3 A4 A5 A6].
  constructor; unfold sr1_block_reset; cbn [sb_dim sb_s sb_y sb_p sb_dot sb_num]; auto.
  split; cbn [map sb_s sb_y sb_num sb_len sb_curr]; eapply ringm_reset; eauto.
Qed.

Lemma sr1_create_fun nu junk b : 0 < d -> len junk = nu -> sblock_create d nu (junk : list (@num RN)) = Ok b ->
  sready b [] /\ sb_num b = nu /\ 0 < nu.
Proof.
  intros Hd Hj E. pose proof (sring_create _ _ _ _ E) as HR. unfold sblock_create in E.
  apply rbind_ok in E as (u0 & E0 & E). apply rbind_ok in E as (u1 & E1 & E).
  apply check_ok in E1. apply Z.ltb_lt in E1.
  inv E. cbn [sb_num]. split; [|auto].
  split; [|split; [intros k Hk; cbn [sb_len] in Hk; lia|exact I]].
  assert (Hv : Forall (vok d) (repeat (mkvec d 0 [] : rvec) (Z.to_nat (len junk)))).
  { apply Forall_forall. intros v Hin. apply repeat_spec in Hin. subst v. apply vok_empty; lia. }
  constructor; cbn [sb_dim sb_s sb_y sb_p sb_dot sb_num]; rewrite ?repeat_length; auto; try lia.
  split; [auto|lia].
Qed.

Definition sop_ok (o : @qop RN) : Prop :=
  match o with QPush s y => vok d s /\ vok d y | QReset => True end.

Lemma sr1_run_fun ops : forall b h, sready b h -> Forall sop_ok ops ->
  exists b', rfold (sr1_op (0%R : @num RN)) b ops = Ok b' /\ sready b' (fold_left hist_op ops h) /\ sb_num b' = sb_num b.
Proof.
  induction ops as [|o ops IH]; intros b h Hb Hops; cbn [rfold fold_left].
  - exists b. auto.
  - apply Forall_cons_iff in Hops as [Ho Hops]. destruct o as [s y|]; cbn [sr1_op hist_op sop_ok] in *.
    + destruct Ho as (Hs & Hy). destruct (sr1_push_fun b h s y (proj1 Hb) Hs Hy) as (b1 & -> & Hb1 & E1).
      cbn [rbind]. destruct (IH b1 _ Hb1 Hops) as (b' & E & Hb' & E4).
      exists b'. split; [exact E|]. split; [exact Hb'|]. congruence.
    + cbn [rbind]. destruct (IH (sr1_block_reset b) _ (sr1_reset_fun b h (proj1 Hb)) Hops) as (b' & E & Hb' & E4).
      exists b'. auto.
Qed.

Definition sr1_ref (l : list ((Z -> R) * (Z -> R))) : op :=
  match l with [] => fun v => v | (s, y) :: _ => sspec d (sscale s y) l end.

Lemma sready_prod b h (v p : rvec) : sready b h -> vok d v -> vok d p ->
  exists z, sr1_block_hess_prod (0%R : @num RN) b v p = Ok z /\ vok d z /\
    dense z = sr1_ref (map pf (firstn (Z.to_nat (sb_num b)) h)) (dense v).
Proof.
  intros (Hw & Hd & Hsc) Hv Hp. pose proof (swf_ring_facts b h Hw) as (Hn & Hl & Hc).
  pose proof (v_ring _ _ Hw) as [(_ & _ & El & _) _]. rewrite map_length in El.
  assert (El' : sb_len b = Z.min (sb_num b) (len h)) by exact El. clear El. rename El' into El.
  unfold sr1_block_hess_prod. destruct (copy_fun d v p Hv Hp) as (z0 & -> & Hz0 & _ & Dz0). cbn [rbind].
  destruct (Z.eqb_spec (sb_len b) 0) as [E0|E0].
  - assert (h = []) as -> by (destruct h; [auto|cbn [length] in El; lia]). rewrite firstn_nil. cbn [map sr1_ref]. eauto.
  - destruct (scale_fun d z0 (sb_scale b) Hz0) as [Hz1 Dz1].
    destruct (terms_fun b h (sb_curr b) (fun p => vec_dot p v) v (vec_scale z0 (sb_scale b)) Hw) as (z & E & Hz & Dz); auto; try lia.
    { intros k Hk. apply Hd. lia. }
    { intros q Hq. now apply dot_fun. }
    { now rewrite Dz1, Dz0. }
    exists z. split; [exact E|]. split; [exact Hz|]. rewrite Dz. rewrite Z.sub_diag. cbn [Z.to_nat skipn].
    assert (EW : swindow b h = map pf (firstn (Z.to_nat (sb_num b)) h)).
    { unfold swindow. f_equal. rewrite El. destruct (Z_le_gt_dec (sb_num b) (len h)).
      - now rewrite Z.min_l by lia.
      - rewrite Z.min_r by lia. rewrite (firstn_all2 h) by lia. symmetry. apply firstn_all2. lia. }
    rewrite EW. destruct h as [|q h]; [cbn [length] in El; lia|].
    replace (Z.to_nat (sb_num b)) with (S (Z.to_nat (sb_num b - 1))) by lia. cbn [firstn map] in *.
    cbn [sr1_ref]. destruct (pf q) as [s y]. now rewrite Hsc.
Qed.

Lemma sr1_ref_sym l : linear_op (sr1_ref l) /\ symmetric_op d (sr1_ref l).
Proof.
  destruct l as [|[s y] l]; cbn [sr1_ref]; [|apply sspec_sym].
  split; [intros a b f g i; reflexivity|intros f g; reflexivity].
Qed.
End SR1.
