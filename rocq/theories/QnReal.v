(** The quasi-Newton blocks compute the textbook recurrences in exact arithmetic (C37, C38). *)
From Coq Require Import Reals Lra FunctionalExtensionality.
From Flocq Require Import Core.
From Verif Require Import Base Num Cmp Sparse Vec VecFacts VecFacts2 Mat MatFacts Ring RSum VecReal
  QuasiNewton QnMath QnFacts.
Local Open Scope Z_scope.

Definition dn (es : list (Z * R)) : Z -> R := fun i => @oval RN (get es i).
Definition pf (p : list (Z * R) * list (Z * R)) : (Z -> R) * (Z -> R) := (dn (fst p), dn (snd p)).
Definition vok (d : Z) (v : rvec) : Prop := wf v /\ vdim v = d.
Ltac req := match goal with |- @eq _ ?a ?b => change (@eq R a b) end.
Lemma dense_dn (v : rvec) : dense v = dn (vent v). Proof. reflexivity. Qed.

Lemma wf_cap (v : rvec) : wf v -> 0 <= vcap v.
Proof. intros (_ & _ & H). lia. Qed.
Lemma vok_empty d c : 0 <= d -> 0 <= c -> vok d (mkvec d c []).
Proof. intros Hd Hc. split; [|reflexivity]. split; [exact Hd|]. cbn. auto. Qed.

(** Vector operations on functions. *)
Lemma add_scaled_fun d (x y r : rvec) (a b : R) : vok d x -> vok d y -> 0 <= vcap r ->
  exists z, vec_add_scaled x y (a : @num RN) (b : @num RN) (0%R : @num RN) r = Ok z /\ vok d z
    /\ dense z = (fun i => a * dense x i + b * dense y i)%R.
Proof.
  intros [Hx Dx] [Hy Dy] Hr. destruct (add_scaled_real x y r a b Hx Hy) as (z & E & Hz & Dz & Hg); [congruence|auto|].
  exists z. split; [exact E|]. split; [split; congruence|]. apply functional_extensionality, Hg.
Qed.
Lemma dot_fun d (x y : rvec) : vok d x -> vok d y -> vec_dot x y = Ok (dotd d (dense x) (dense y)).
Proof. intros [Hx Dx] [Hy Dy]. rewrite vec_dot_real by (auto; congruence). now rewrite Dx. Qed.
Lemma copy_fun d (x t : rvec) : vok d x -> vok d t ->
  exists z, vec_copy x t = Ok z /\ vok d z /\ vent z = vent x /\ dense z = dense x.
Proof.
  intros [Hx Dx] [Ht Dt]. destruct (vec_copy_spec x t Hx Ht) as (z & E & Hz & Dz & Ez); [congruence|].
  exists z. split; [exact E|]. split; [split; congruence|]. split; [exact Ez|]. now rewrite !dense_dn, Ez.
Qed.
Lemma scale_fun d (x : rvec) (a : R) : vok d x -> vok d (vec_scale x (a : @num RN)) /\ dense (vec_scale x (a : @num RN)) = (fun i => a * dense x i)%R.
Proof.
  intros [Hx Dx]. destruct (vec_scale_real x a Hx) as (H1 & H2 & H3). split; [split; congruence|].
  apply functional_extensionality, H3.
Qed.

Lemma skipn_nth {A} (l : list A) k a : nth_error l k = Some a -> skipn k l = a :: skipn (S k) l.
Proof. revert l; induction k as [|k IH]; intros [|x l] E; cbn in *; try discriminate; [now inv E|auto]. Qed.

Lemma nth_set {A} (l : list A) i a j : 0 <= i < len l -> 0 <= j ->
  nth_error (set_nth l (Z.to_nat i) a) (Z.to_nat j) = if j =? i then Some a else nth_error l (Z.to_nat j).
Proof.
  intros Hi Hj. rewrite set_nth_spec by lia.
  destruct (Z.eqb_spec j i), (Nat.eqb_spec (Z.to_nat j) (Z.to_nat i)); try reflexivity; lia.
Qed.
Lemma nth_in {A} (l : list A) i : 0 <= i < len l -> exists a, nth_error l (Z.to_nat i) = Some a.
Proof. intros H. destruct (nth_error l (Z.to_nat i)) eqn:E; eauto. apply nth_error_None in E. lia. Qed.
Lemma Forall_set {A} (P : A -> Prop) l i a : Forall P l -> P a -> Forall P (set_nth l i a).
Proof.
  intros H Ha. revert i; induction H as [|x l Hx Hl IH]; intros [|i]; cbn [set_nth]; constructor; auto.
Qed.
Lemma Forall_nth {A} (P : A -> Prop) l k a : Forall P l -> nth_error l k = Some a -> P a.
Proof. intros H E. rewrite Forall_forall in H. apply H. eapply nth_error_In, E. Qed.

Lemma nth_firstn {A} (l : list A) k m : (k < m)%nat -> nth_error (firstn m l) k = nth_error l k.
Proof.
  revert l m; induction k as [|k IH]; intros [|x l] [|m] H; cbn [firstn nth_error]; try reflexivity; try lia.
  apply IH. lia.
Qed.

(** ** BFGS *)
Section BFGS.
Variable d : Z.
Local Notation dot := (dotd d).

Definition bsig (damped sized : bool) (scale : R) (l' : list ((Z -> R) * (Z -> R))) (s y : Z -> R) : R :=
  match l' with
  | [] => 1%R
  | (s', y') :: l'' =>
    if sized then
      let r' := damp d damped (bspec d damped sized scale l'') s' y' in
      clip_sizing (((1 - 1 / 2) * dot s' y' / dot s' s' + 1 / 2 * dot s y / dot s s)
                   / ((1 - 1 / 2) * dot r' s' / dot s' s' + 1 / 2 * dot (bspec d damped sized scale l' s) s))%R
    else 1%R
  end.
Lemma bspec_cons damped sized scale s y l : bspec d damped sized scale ((s, y) :: l) =
  upd d (bsig damped sized scale l s y) (bspec d damped sized scale l) s (damp d damped (bspec d damped sized scale l) s y).
Proof. destruct l as [|[s' y'] l]; reflexivity. Qed.

Definition bscale (damped : bool) (s y : Z -> R) : R :=
  if Req_bool (dot y s) 0 then 1%R else
  let x := Rmax (dot s s / dot y s) (1 / 1000000) in if damped then Rmin x 1 else x.
Lemma bscale_pos damped s y : (0 < bscale damped s y)%R.
Proof.
  unfold bscale. destruct (Req_bool _ _); [lra|]. cbv zeta. set (x := Rmax _ _).
  assert (1 / 1000000 <= x)%R by apply Rmax_r. destruct damped; [|lra]. apply Rmin_glb_lt; lra.
Qed.

Definition window (b : @bblock RN) (h : list (list (Z * R) * list (Z * R))) :=
  map pf (firstn (Z.to_nat (bb_len b)) h).

(** Structural invariant: sizes, well-formed vectors, ring contents. *)
Record bwf (b : @bblock RN) (h : list (list (Z * R) * list (Z * R))) : Prop := {
  w_dim : bb_dim b = d /\ 0 < d;
  w_ring : bring b h;
  w_s : Forall (vok d) (bb_s b); w_y : Forall (vok d) (bb_y b);
  w_Bs : Forall (vok d) (bb_Bs b) /\ len (bb_Bs b) = bb_num b;
  w_r : Forall (vok d) (bb_r b) /\ len (bb_r b) = bb_num b;
  w_lens : len (bb_rs b) = bb_num b /\ len (bb_sBs b) = bb_num b /\ len (bb_sig b) = bb_num b /\
           len (bb_ys b) = bb_num b /\ len (bb_ss b) = bb_num b;
  w_sized : bb_sized b = true ->
    ringm (bb_ys b) (bb_num b) (bb_len b) (bb_curr b) (map (fun p => dot (fst (pf p)) (snd (pf p))) h) /\
    ringm (bb_ss b) (bb_num b) (bb_len b) (bb_curr b) (map (fun p => dot (fst (pf p)) (fst (pf p))) h);
  w_unsized : bb_sized b = false -> Forall (eq 1%R) (bb_sig b);
  w_good : Forall (good_pair d (bb_damped b)) (map pf h) }.

(** Entry k (counted from the newest) of the derived arrays is correct. *)
Definition done (b : @bblock RN) (H : list ((Z -> R) * (Z -> R))) (k : Z) : Prop :=
  forall s y, nth_error H (Z.to_nat k) = Some (s, y) ->
  let B := bspec d (bb_damped b) (bb_sized b) (bb_scale b) (skipn (S (Z.to_nat k)) H) in
  let r := damp d (bb_damped b) B s y in
  let j := Z.to_nat ((bb_curr b - k) mod bb_num b) in
  (exists v, nth_error (bb_Bs b) j = Some v /\ dense v = B s) /\
  (exists v, nth_error (bb_r b) j = Some v /\ dense v = r) /\
  nth_error (bb_rs b) j = Some (dot r s) /\
  nth_error (bb_sBs b) j = Some (dot (B s) s) /\
  nth_error (bb_sig b) j = Some (bsig (bb_damped b) (bb_sized b) (bb_scale b) (skipn (S (Z.to_nat k)) H) s y).

Lemma window_nth b h k : bwf b h -> 0 <= k < bb_len b ->
  exists p, nth_error h (Z.to_nat k) = Some p /\ nth_error (window b h) (Z.to_nat k) = Some (pf p).
Proof.
  intros Hw Hk. destruct (w_ring _ _ Hw) as [(_ & _ & Hl & _) _]. rewrite map_length in Hl. rnum.
  destruct (nth_in h k) as [p E]; [lia|]. exists p. split; [exact E|]. unfold window.
  rewrite nth_error_map. rewrite nth_firstn by lia. rnum. rewrite E. reflexivity.
Qed.

Lemma bwf_ring_facts b h : bwf b h -> 0 < bb_num b /\ 0 <= bb_len b <= bb_num b /\ (0 < bb_len b -> 0 <= bb_curr b < bb_num b).
Proof. intros Hw. destruct (w_ring _ _ Hw) as [(H1 & _ & H2 & H3 & _) _]. lia. Qed.
Lemma window_length b h : bwf b h -> len (window b h) = bb_len b.
Proof.
  intros Hw. destruct (w_ring _ _ Hw) as [(H1 & _ & H2 & H3 & _) _]. unfold window.
  rewrite map_length, firstn_length. rewrite map_length in H2. rnum. lia.
Qed.

(** Stored pair k. *)
Lemma stored_pair b h k : bwf b h -> 0 <= k < bb_len b ->
  exists vs vy, arr_get (bb_s b) (bb_idx b (bb_curr b - k)) = Ok vs /\ arr_get (bb_y b) (bb_idx b (bb_curr b - k)) = Ok vy
    /\ vok d vs /\ vok d vy /\ nth_error (window b h) (Z.to_nat k) = Some (dense vs, dense vy).
Proof.
  intros Hw Hk. destruct (w_ring _ _ Hw) as [R1 R2].
  destruct (ringm_get _ _ _ _ _ k R1 Hk) as (es & N1 & G1). destruct (ringm_get _ _ _ _ _ k R2 Hk) as (ey & N2 & G2).
  rewrite arr_get_map in G1, G2. apply rmap_ok in G1 as (vs & G1 & ->). apply rmap_ok in G2 as (vy & G2 & ->).
  destruct (window_nth b h k Hw Hk) as (p & Np & Nw).
  apply nth_error_map_inv in N1 as (p1 & N1 & E1). apply nth_error_map_inv in N2 as (p2 & N2 & E2).
  rnum. assert (p1 = p) by congruence. assert (p2 = p) by congruence. subst p1 p2.
  exists vs, vy. unfold bb_idx. split; [exact G1|]. split; [exact G2|].
  destruct (ringm_index _ _ _ _ _ _ R1 Hk) as [Ei Hi]. rewrite Ei in G1, G2.
  apply arr_get_nth in G1; [|lia]. apply arr_get_nth in G2; [|lia].
  split; [eapply Forall_nth; [apply (w_s _ _ Hw)|exact G1]|].
  split; [eapply Forall_nth; [apply (w_y _ _ Hw)|exact G2]|].
  rewrite Nw. unfold pf. rewrite E1, E2. reflexivity.
Qed.

Lemma window_good b h k s y : bwf b h -> nth_error (window b h) k = Some (s, y) ->
  good_pair d (bb_damped b) (s, y) /\ Forall (good_pair d (bb_damped b)) (skipn (S k) (window b h)).
Proof.
  intros Hw E. assert (F : Forall (good_pair d (bb_damped b)) (window b h)).
  { pose proof (w_good _ _ Hw) as G. unfold window. rewrite <- firstn_map.
    rewrite <- (firstn_skipn (Z.to_nat (bb_len b)) (map pf h)) in G. apply Forall_app in G. tauto. }
  split; [eapply Forall_nth; eauto|].
  rewrite <- (firstn_skipn (S k) (window b h)) in F. apply Forall_app in F. tauto.
Qed.

Lemma arr_nth {A} (l : list A) i a : 0 <= i -> nth_error l (Z.to_nat i) = Some a -> arr_get l i = Ok a.
Proof. intros Hi. now apply arr_get_nth. Qed.

Lemma hess_prod_fun b h final (v p : rvec) : bwf b h ->
  bb_curr b - bb_len b <= final <= bb_curr b ->
  (forall k, bb_curr b - final <= k < bb_len b -> done b (window b h) k) ->
  vok d v -> vok d p ->
  exists z, hess_prod_range (0%R : @num RN) b v p final = Ok z /\ vok d z /\
    dense z = bspec d (bb_damped b) (bb_sized b) (bb_scale b) (skipn (Z.to_nat (bb_curr b - final)) (window b h)) (dense v).
Proof.
  intros Hw Hf Hdone Hv Hp. unfold hess_prod_range.
  destruct (copy_fun d v p Hv Hp) as (p0 & -> & Hp0 & _ & D0). cbn [rbind].
  destruct (scale_fun d p0 (bb_scale b) Hp0) as [Hp1 D1].
  pose proof (bwf_ring_facts b h Hw) as (Hn & Hl & Hc). pose proof (window_length b h Hw) as HW.
  set (I := fun (pv : Z) (t : rvec) => vok d t /\
    dense t = bspec d (bb_damped b) (bb_sized b) (bb_scale b) (skipn (Z.to_nat (bb_curr b - pv + 1)) (window b h)) (dense v)).
  edestruct (zseq_loop I) as (z & Ez & HI); [| | |exists z; split; [exact Ez|]].
  - unfold bb_begin. lia.
  - split; [exact Hp1|]. rewrite D1, D0. unfold bb_begin.
    replace (bb_curr b - (bb_curr b - bb_len b + 1) + 1) with (bb_len b) by lia.
    rewrite skipn_all2 by lia. reflexivity.
  - intros pv t Hpv [Ht Dt]. unfold bb_begin in Hpv. cbv zeta.
    set (k := bb_curr b - pv). assert (Hk : 0 <= k < bb_len b) by (unfold k; lia).
    replace (Z.to_nat (bb_curr b - pv + 1)) with (S (Z.to_nat k)) in Dt by (unfold k; lia).
    replace pv with (bb_curr b - k) by (unfold k; lia).
    destruct (window_nth b h k Hw Hk) as ([s y] & _ & Nw). unfold pf in Nw. cbn [fst snd] in Nw.
    destruct (Hdone k) with (s := dn s) (y := dn y) as ((bs & Nb & Db) & (r & Nr & Dr) & Nrs & NsBs & Nsig); [unfold k; lia|exact Nw|].
    destruct (w_ring _ _ Hw) as [R1 _]. destruct (ringm_index _ _ _ _ _ _ R1 Hk) as [Ei Hi].
    unfold bb_idx. rewrite Ei.
    rewrite (arr_nth _ _ _ (proj1 Hi) Nb), (arr_nth _ _ _ (proj1 Hi) Nr), (arr_nth _ _ _ (proj1 Hi) Nsig), (arr_nth _ _ _ (proj1 Hi) NsBs).
    cbn [rbind].
    assert (Hbs : vok d bs) by (eapply Forall_nth; [apply (w_Bs _ _ Hw)|exact Nb]).
    assert (Hr : vok d r) by (eapply Forall_nth; [apply (w_r _ _ Hw)|exact Nr]).
    rewrite (dot_fun d bs v Hbs Hv), (dot_fun d r v Hr Hv). cbn [rbind].
    destruct (w_dim _ _ Hw) as [Hd Hd0]. rewrite Hd. rewrite rn_n1, rn_lit1. cbn [nmul ndiv RN].
    destruct (add_scaled_fun d t bs (mkvec d 0 []) 1 (-1 * dot (dense bs) (dense v) / dot (bspec d (bb_damped b) (bb_sized b) (bb_scale b) (skipn (S (Z.to_nat k)) (window b h)) (dn s)) (dn s))) as (u & -> & Hu & Du); auto; [cbn [vcap]; lia|].
    cbn [rbind]. rewrite (arr_nth _ _ _ (proj1 Hi) Nrs). cbn [rbind].
    match goal with |- exists t', vec_add_scaled u r ?a ?b _ t = _ /\ _ => destruct (add_scaled_fun d u r t a b) as (w & -> & Hww & Dw); auto end.
    { apply wf_cap, Ht. }
    exists w. split; [reflexivity|]. split; [exact Hww|]. rewrite Dw, Du, Dt, Db, Dr.
    replace (Z.to_nat (bb_curr b - (bb_curr b - k + 1) + 1)) with (Z.to_nat k) by lia.
    rewrite (skipn_nth _ _ _ Nw), bspec_cons. apply functional_extensionality. intros i. unfold upd. unfold Rdiv. cbv beta zeta. req. ring.
  - destruct HI as [Hz Dz]. split; [exact Hz|]. rewrite Dz.
    replace (bb_curr b - (final + 1) + 1) with (bb_curr b - final) by lia. reflexivity.
Qed.

(** [done] only looks at the derived arrays at the index of entry k. *)
Lemma done_same b b' H k : done b H k ->
  bb_damped b' = bb_damped b -> bb_sized b' = bb_sized b -> bb_scale b' = bb_scale b ->
  bb_curr b' = bb_curr b -> bb_num b' = bb_num b ->
  let j := Z.to_nat ((bb_curr b - k) mod bb_num b) in
  nth_error (bb_Bs b') j = nth_error (bb_Bs b) j -> nth_error (bb_r b') j = nth_error (bb_r b) j ->
  nth_error (bb_rs b') j = nth_error (bb_rs b) j -> nth_error (bb_sBs b') j = nth_error (bb_sBs b) j ->
  nth_error (bb_sig b') j = nth_error (bb_sig b) j -> done b' H k.
Proof.
  intros HD E1 E2 E3 E4 E5 j N1 N2 N3 N4 N5 s y Hs. unfold j in *. specialize (HD s y Hs).
  rewrite E1, E2, E3, E4, E5, N1, N2, N3, N4, N5. exact HD.
Qed.

Lemma rn_ge x y : @nleb RN y x = true -> (y <= x)%R. Proof. apply rn_leb. Qed.

(** The initial scaling. *)
Lemma initial_scale_fun damped (s y : rvec) : vok d s -> vok d y ->
  bfgs_initial_scale damped s y = Ok (bscale damped (dense s) (dense y)).
Proof.
  intros Hs Hy. unfold bfgs_initial_scale. rewrite (dot_fun d y s Hy Hs). cbn [rbind].
  destruct Hs as [Ws Ds]. rewrite vec_norm_sq_real, Ds by auto.
  assert (@nleb RN n0 (dot (dense s) (dense s)) = true) as ->.
  { apply rn_leb. rewrite rn_n0. apply dotd_nonneg. }
  cbn [check rbind]. unfold bscale.
  assert (@neqb RN (dot (dense y) (dense s)) n0 = Req_bool (dot (dense y) (dense s)) 0) as ->
    by (rewrite rn_n0; reflexivity).
  destruct (Req_bool _ _); [now rewrite rn_n1|]. cbv zeta. f_equal.
  rewrite rn_min, rn_max. unfold initial_scale_min, damped_initial_scale_max. rewrite rn_n1, rn_lit_eq. reflexivity.
Qed.

(** Setting the derived data of entry k; [bset] abbreviates the new block. *)
Lemma frame_bwf b b' h : bwf b h -> bframe b b' ->
  Forall (vok d) (bb_Bs b') -> len (bb_Bs b') = bb_num b -> Forall (vok d) (bb_r b') -> len (bb_r b') = bb_num b ->
  len (bb_rs b') = bb_num b -> len (bb_sBs b') = bb_num b -> len (bb_sig b') = bb_num b ->
  (bb_sized b = false -> Forall (eq 1%R) (bb_sig b')) -> bwf b' h.
Proof.
  intros Hw (F1 & F2 & F3 & F4 & F5 & F6 & F7 & F8 & F9 & F10) H1 H2 H3 H4 H5 H6 H7 H8.
  destruct Hw as [A1 A2 A3 A4 A5 A6 A7 A8 A9 A10].
  constructor; unfold bring; rewrite ?F1, ?F2, ?F3, ?F4, ?F5, ?F6, ?F7, ?F8, ?F9, ?F10; auto. intuition.
Qed.
Lemma frame_window b b' h : bframe b b' -> window b' h = window b h.
Proof. intros (F1 & F2 & F3 & F4 & F5 & F6 & F7 & F8 & F9 & F10). unfold window. now rewrite F7. Qed.

Lemma sizing_fun b h k s y : bwf b h -> bb_sized b = true -> 0 <= k < bb_len b ->
  nth_error (window b h) (Z.to_nat k) = Some (s, y) ->
  let B := bspec d (bb_damped b) (bb_sized b) (bb_scale b) (skipn (S (Z.to_nat k)) (window b h)) in
  nth_error (bb_sBs b) (Z.to_nat ((bb_curr b - k) mod bb_num b)) = Some (dot (B s) s) ->
  (k + 1 < bb_len b -> done b (window b h) (k + 1)) ->
  exists b', bfgs_compute_sizing b (bb_curr b - k) = Ok b' /\
    b' = mkbb (bb_dim b) (bb_s b) (bb_y b) (bb_Bs b) (bb_r b) (bb_rs b) (bb_ys b) (bb_ss b) (bb_sBs b)
           (set_nth (bb_sig b) (Z.to_nat ((bb_curr b - k) mod bb_num b))
              (bsig (bb_damped b) (bb_sized b) (bb_scale b) (skipn (S (Z.to_nat k)) (window b h)) s y))
           (bb_scale b) (bb_num b) (bb_len b) (bb_curr b) (bb_damped b) (bb_sized b).
Proof.
  intros Hw Hsz Hk Hs B HsBs Hd. unfold B in HsBs. clear B. pose proof (bwf_ring_facts b h Hw) as (Hn & Hl & Hc).
  pose proof (window_length b h Hw) as HW. destruct (w_lens _ _ Hw) as (_ & _ & L3 & _).
  destruct (w_ring _ _ Hw) as [R1 _]. destruct (ringm_index _ _ _ _ _ _ R1 Hk) as [Ei Hi].
  unfold bfgs_compute_sizing, bb_idx, bb_begin. rewrite Ei. cbv zeta.
  assert (Hset : forall x, arr_set (bb_sig b) ((bb_curr b - k) mod bb_num b) x
                           = Ok (set_nth (bb_sig b) (Z.to_nat ((bb_curr b - k) mod bb_num b)) x))
    by (intros x; apply arr_set_ok; lia).
  destruct (Z.eqb_spec (bb_curr b - bb_len b + 1) (bb_curr b - k)) as [E|E].
  - rewrite Hset. cbn [rmap]. eexists. split; [reflexivity|]. rewrite skipn_all2 by lia. cbn [bsig].
    rewrite rn_n1. reflexivity.
  - destruct (Z.ltb_spec (bb_curr b - bb_len b + 1) (bb_curr b - k)) as [H|H]; [cbn [check rbind]|lia].
    assert (Hk1 : 0 <= k + 1 < bb_len b) by lia.
    replace (bb_curr b - k - 1) with (bb_curr b - (k + 1)) by lia.
    destruct (ringm_index _ _ _ _ _ _ R1 Hk1) as [Ei1 Hi1]. rewrite Ei1.
    destruct (Z.eqb_spec ((bb_curr b - (k + 1)) mod bb_num b) ((bb_curr b - k) mod bb_num b)) as [E0|E0].
    { exfalso. apply (mod_neq (bb_num b) (bb_curr b) (k + 1) k); auto; lia. }
    cbn [negb check rbind]. rewrite Hsz.
    destruct (window_nth b h (k + 1) Hw Hk1) as (p' & Np' & Nw'). destruct (window_nth b h k Hw Hk) as (p & Np & Nw).
    destruct (w_sized _ _ Hw Hsz) as [RY RS].
    destruct (ringm_get _ _ _ _ _ _ RY Hk) as (ysj & Ny & Gy). destruct (ringm_get _ _ _ _ _ _ RS Hk) as (ssj & Ns & Gs).
    destruct (ringm_get _ _ _ _ _ _ RY Hk1) as (ysi & Ny1 & Gy1). destruct (ringm_get _ _ _ _ _ _ RS Hk1) as (ssi & Ns1 & Gs1).
    rewrite Ei in Gy, Gs. rewrite Ei1 in Gy1, Gs1. rewrite nth_error_map in Ny, Ns, Ny1, Ns1. rnum.
    rewrite Np in Ny, Ns. rewrite Np' in Ny1, Ns1. cbn [option_map] in Ny, Ns, Ny1, Ns1.
    injection Ny as <-. injection Ns as <-. injection Ny1 as <-. injection Ns1 as <-.
    rewrite Nw in Hs. injection Hs as <- <-.
    destruct (Hd (proj2 Hk1) _ _ Nw') as (_ & _ & Nrs & _).
    pose proof (arr_nth (A := @num RN) _ _ _ (proj1 Hi1) Nrs) as Gr. pose proof (arr_nth (A := @num RN) _ _ _ (proj1 Hi) HsBs) as Gb.
    rnum. rewrite Gy, Gs, Gy1, Gs1. rewrite Gr, Gb. cbn [rbind].
    rewrite rn_min, rn_max, rn_n1. unfold sizing_cutoff. rewrite !rn_lit_eq. cbn [nadd nmul ndiv nsub RN].
    replace (S (Z.to_nat k)) with (Z.to_nat (k + 1)) in * by lia.
    match goal with |- exists b', (check (@nleb RN n0 ?x) ;;; _) = _ /\ _ => 
      assert (Hx : x = bsig (bb_damped b) true (bb_scale b) (skipn (Z.to_nat (k + 1)) (window b h)) (dn (fst p)) (dn (snd p))) end.
    { rewrite (skipn_nth _ _ _ Nw'). unfold pf at 1. cbn [bsig]. unfold clip_sizing. cbv zeta.
      rewrite Hsz. unfold pf. cbn [fst snd]. reflexivity. }
    rewrite Hx.
    match goal with |- context [@nleb RN n0 ?x] => assert (@nleb RN n0 x = true) as -> end.
    { apply rn_leb. rewrite rn_n0. unfold bsig. destruct (skipn _ _) as [|[s' y'] l'']; [lra|].
      match goal with |- context [clip_sizing ?x] => pose proof (clip_sizing_pos x) end. lra. }
    cbn [check rbind]. rewrite Hset. cbn [rmap]. eexists. split; [reflexivity|]. reflexivity.
Qed.

Lemma damp_fun b (B : op) (vs vy product ri : rvec) : vok d vs -> vok d vy -> vok d product -> vok d ri ->
  dense product = B (dense vs) ->
  exists r, (if bb_damped b && @nltb RN (dot (dense vy) (dense vs)) (@nmul RN damping_factor (dot (B (dense vs)) (dense vs))) then
           r <- vec_add_scaled vy product
                  (@ndiv RN (@nmul RN (@nsub RN n1 damping_factor) (dot (B (dense vs)) (dense vs)))
                     (@nsub RN (dot (B (dense vs)) (dense vs)) (dot (dense vy) (dense vs))))
                  (@nsub RN n1 (@ndiv RN (@nmul RN (@nsub RN n1 damping_factor) (dot (B (dense vs)) (dense vs)))
                     (@nsub RN (dot (B (dense vs)) (dense vs)) (dot (dense vy) (dense vs))))) (0%R : @num RN) ri ;;
           dot <- vec_dot r vs ;; Ok (r, dot)
         else r <- vec_copy vy ri ;; Ok (r, dot (dense vy) (dense vs) : @num RN))
    = Ok (r, dot (damp d (bb_damped b) B (dense vs) (dense vy)) (dense vs)) /\
    vok d r /\ dense r = damp d (bb_damped b) B (dense vs) (dense vy).
Proof.
  intros Hs Hy Hp Hr Dp. unfold damp.
  assert (Ed : @damping_factor RN = (2 / 10)%R) by (unfold damping_factor; now rewrite rn_lit_eq). rewrite Ed.
  change (@nltb RN (dot (dense vy) (dense vs)) (@nmul RN (2 / 10)%R (dot (B (dense vs)) (dense vs))))
    with (Rlt_bool (dot (dense vy) (dense vs)) (2 / 10 * dot (B (dense vs)) (dense vs))).
  destruct (bb_damped b && Rlt_bool _ _).
  - rewrite rn_n1. cbn [nmul ndiv nsub RN].
    match goal with |- context [vec_add_scaled vy product ?a ?b _ ri] =>
      destruct (add_scaled_fun d vy product ri a b Hy Hp) as (r & -> & Hr' & Dr) end; [apply wf_cap, Hr|].
    cbn [rbind]. rewrite (dot_fun d r vs Hr' Hs). cbn [rbind]. exists r. rewrite Dr, Dp. cbv zeta. auto.
  - destruct (copy_fun d vy ri Hy Hr) as (r & -> & Hr' & _ & Dr). cbn [rbind]. exists r. auto.
Qed.

Lemma product_step_fun b h k : bwf b h -> (0 < bb_scale b)%R -> 0 <= k < bb_len b ->
  (forall k', k < k' < bb_len b -> done b (window b h) k') ->
  exists b', bfgs_product_step (0%R : @num RN) b (bb_curr b - k) = Ok b' /\ bframe b b' /\ bb_scale b' = bb_scale b /\
    bwf b' h /\ (forall k', k <= k' < bb_len b -> done b' (window b h) k').
Proof.
  intros Hw Hsc Hk Hdone. pose proof (bwf_ring_facts b h Hw) as (Hn & Hl & Hc).
  destruct (stored_pair b h k Hw Hk) as (vs & vy & Gs & Gy & Hvs & Hvy & Nw).
  destruct (window_good b h _ _ _ Hw Nw) as [[Hnz Hcurv] Hgood]. cbn [fst snd] in *.
  set (B := bspec d (bb_damped b) (bb_sized b) (bb_scale b) (skipn (S (Z.to_nat k)) (window b h))).
  destruct (bspec_spd d (bb_damped b) (bb_sized b) (bb_scale b) _ Hsc Hgood) as (_ & _ & HPD). fold B in HPD.
  destruct (hess_prod_fun b h (bb_curr b - k - 1) vs (mkvec d 0 []) Hw) as (product & Ep & Hp & Dp); auto; try lia.
  { intros k' Hk'. apply Hdone. lia. }
  { apply vok_empty; destruct (w_dim _ _ Hw); lia. }
  replace (Z.to_nat (bb_curr b - (bb_curr b - k - 1))) with (S (Z.to_nat k)) in Dp by lia. fold B in Dp.
  unfold bfgs_product_step. rewrite Gs, Gy. cbn [rbind]. destruct (w_dim _ _ Hw) as [Hdim Hd0]. rewrite Hdim, Ep. cbn [rbind].
  rewrite (dot_fun d product vs Hp Hvs). cbn [rbind]. rewrite Dp.
  assert (@nltb RN n0 (dot (B (dense vs)) (dense vs)) = true) as ->.
  { apply rn_ltb. rewrite rn_n0. now apply HPD. }
  cbn [check rbind]. rewrite (dot_fun d vy vs Hvy Hvs). cbn [rbind].
  destruct (w_ring _ _ Hw) as [R1 _]. destruct (ringm_index _ _ _ _ _ _ R1 Hk) as [Ei Hi].
  unfold bb_idx in *. rewrite Ei in *. set (j := (bb_curr b - k) mod bb_num b) in *.
  destruct (w_r _ _ Hw) as [Wr Lr]. destruct (w_Bs _ _ Hw) as [WB LB]. destruct (w_lens _ _ Hw) as (L1 & L2 & L3 & L4 & L5).
  destruct (nth_in (bb_r b) j) as [ri Nr]; [lia|]. rewrite (arr_nth _ _ _ (proj1 Hi) Nr). cbn [rbind].
  assert (Hri : vok d ri) by exact (Forall_nth _ _ _ _ Wr Nr).
  destruct (damp_fun b B vs vy product ri Hvs Hvy Hp Hri Dp) as (r & Er & Hr & Dr).
  cbv zeta. rewrite Er. cbn [rbind]. clear Er.
  set (rr := damp d (bb_damped b) B (dense vs) (dense vy)) in *.
  assert (@nltb RN n0 (dot rr (dense vs)) = true) as ->.
  { apply rn_ltb. rewrite rn_n0. unfold rr. now apply damp_dot. }
  cbn [check rbind]. rewrite (arr_set_ok (bb_rs b)) by lia. cbn [rbind]. rewrite (arr_set_ok (bb_r b)) by lia. cbn [rbind].
  destruct (nth_in (bb_Bs b) j) as [bi Nb]; [lia|]. rewrite (arr_nth _ _ _ (proj1 Hi) Nb). cbn [rbind].
  assert (Hbi : vok d bi) by exact (Forall_nth _ _ _ _ WB Nb).
  destruct (copy_fun d product bi Hp Hbi) as (bp & -> & Hbp & _ & Dbp). cbn [rbind].
  rewrite (arr_set_ok (bb_Bs b)) by lia. cbn [rbind]. rewrite (arr_set_ok (bb_sBs b)) by lia. cbn [rbind bb_sized].
  set (b1 := mkbb _ _ _ _ _ _ _ _ _ _ _ _ _ _ _ _).
  assert (F1 : bframe b b1) by (repeat split; cbn [bb_dim b1]; auto).
  assert (W1 : bwf b1 h).
  { apply (frame_bwf b); auto; unfold b1; cbn [bb_Bs bb_r bb_rs bb_sBs bb_sig]; rewrite ?set_nth_length; auto using Forall_set.
    apply (w_unsized _ _ Hw). }
  assert (EW : window b1 h = window b h) by (now apply frame_window).
  assert (Hdone1 : forall k', k < k' < bb_len b -> done b1 (window b h) k').
  { intros k' Hk'. pose proof (mod_neq (bb_num b) (bb_curr b) k' k) as Hne. fold j in Hne.
    assert (Hj : 0 <= (bb_curr b - k') mod bb_num b < bb_num b) by (apply Z.mod_pos_bound; lia).
    apply (done_same b); auto; unfold b1; cbn [bb_Bs bb_r bb_rs bb_sBs bb_sig]; rewrite ?nth_set by lia;
      try (destruct (Z.eqb_spec ((bb_curr b - k') mod bb_num b) j); [exfalso; apply Hne; auto; lia|reflexivity]). }
  assert (Hj1 : nth_error (bb_sBs b1) (Z.to_nat j) = Some (dot (B (dense vs)) (dense vs))).
  { unfold b1; cbn [bb_sBs]. rewrite nth_set by lia. now rewrite Z.eqb_refl. }
  destruct (Bool.bool_dec (bb_sized b) true) as [Hsz|Hsz]; [|apply Bool.not_true_is_false in Hsz]; rewrite Hsz.
  - destruct (sizing_fun b1 h k (dense vs) (dense vy) W1) as (b2 & E2 & Eb2); auto.
    + intros Hk1. rewrite EW. apply Hdone1. cbn [b1 bb_len] in Hk1. lia.
    + exists b2. split; [exact E2|]. assert (F2 : bframe b1 b2) by (rewrite Eb2; repeat split; auto).
      assert (W2 : bwf b2 h).
      { apply (frame_bwf b1); auto; rewrite Eb2; cbn [bb_Bs bb_r bb_rs bb_sBs bb_sig]; rewrite ?set_nth_length;
          try (destruct W1 as [A1 A2 A3 A4 A5 A6 A7 A8 A9 A10]; tauto). intros HH. cbn [b1 bb_sized] in HH. congruence. }
      split; [eapply bframe_trans; eauto|]. split; [rewrite Eb2; reflexivity|]. split; [exact W2|].
      intros k' Hk'. destruct (Z.eq_dec k' k) as [->|Hne].
      * intros s y Hsy. rewrite Nw in Hsy. injection Hsy as <- <-.
        rewrite Eb2. cbn [bb_damped bb_sized bb_scale bb_curr bb_num bb_Bs bb_r bb_rs bb_sBs bb_sig b1]. fold j.
        rewrite EW. cbn [b1 bb_sig bb_damped bb_sized bb_scale]. fold j. rewrite !nth_set by lia. rewrite Z.eqb_refl. fold B.
        split; [exists bp; split; [reflexivity|congruence]|]. split; [exists r; split; [reflexivity|exact Dr]|]. auto.
      * assert (Hk2 : k < k' < bb_len b) by lia.
        pose proof (mod_neq (bb_num b) (bb_curr b) k' k) as Hmn. fold j in Hmn.
        assert (Hj : 0 <= (bb_curr b - k') mod bb_num b < bb_num b) by (apply Z.mod_pos_bound; lia).
        apply (done_same b1); [apply Hdone1, Hk2|..]; rewrite Eb2;
          cbn [bb_damped bb_sized bb_scale bb_curr bb_num bb_Bs bb_r bb_rs bb_sBs bb_sig b1]; auto. fold j. rewrite nth_set by lia.
        destruct (Z.eqb_spec ((bb_curr b - k') mod bb_num b) j); [exfalso; apply Hmn; auto; lia|reflexivity].
  - exists b1. split; [reflexivity|]. split; [exact F1|]. split; [reflexivity|]. split; [exact W1|].
    intros k' Hk'. destruct (Z.eq_dec k' k) as [->|Hne]; [|apply Hdone1; lia].
    intros s y Hsy. rewrite Nw in Hsy. injection Hsy as <- <-.
    cbn [bb_damped bb_sized bb_scale bb_curr bb_num bb_Bs bb_r bb_rs bb_sBs bb_sig b1]. fold j.
    rewrite !nth_set by lia. rewrite Z.eqb_refl. fold B.
    split; [exists bp; split; [reflexivity|congruence]|]. split; [exists r; split; [reflexivity|exact Dr]|].
    split; [reflexivity|]. split; [reflexivity|].
    destruct (nth_in (bb_sig b) j) as [x Nx]; [lia|]. rewrite Nx. f_equal.
    rewrite <- (Forall_nth _ _ _ _ (w_unsized _ _ Hw Hsz) Nx). unfold bsig. rewrite ?Hsz. destruct (skipn _ _) as [|[? ?] ?]; reflexivity.
Qed.

Definition set_scale (b : @bblock RN) (x : R) : bblock :=
  mkbb (bb_dim b) (bb_s b) (bb_y b) (bb_Bs b) (bb_r b) (bb_rs b) (bb_ys b) (bb_ss b) (bb_sBs b)
       (bb_sig b) x (bb_num b) (bb_len b) (bb_curr b) (bb_damped b) (bb_sized b).

Lemma compute_products_fun b h s0 y0 h' : bwf b h -> 0 < bb_len b -> map pf h = (s0, y0) :: h' ->
  exists b', bfgs_compute_products (0%R : @num RN) b = Ok b' /\ bframe b b' /\
    bb_scale b' = bscale (bb_damped b) s0 y0 /\
    bwf b' h /\ (forall k, 0 <= k < bb_len b -> done b' (window b h) k).
Proof.
  intros Hw Hl0 Hh. pose proof (bwf_ring_facts b h Hw) as (Hn & Hl & Hc). specialize (Hc Hl0).
  unfold bfgs_compute_products. assert (0 <? bb_len b = true) as -> by (apply Z.ltb_lt; lia). cbn [check rbind].
  destruct (stored_pair b h 0 Hw) as (vs & vy & Gs & Gy & Hvs & Hvy & Nw); [lia|].
  unfold bb_idx in Gs, Gy. rewrite data_index_any in Gs, Gy by lia. rewrite Z.sub_0_r, Z.mod_small in Gs, Gy by lia.
  rewrite Gs, Gy. cbn [rbind]. rewrite (initial_scale_fun _ _ _ Hvs Hvy). cbn [rbind].
  assert (E : s0 = dense vs /\ y0 = dense vy).
  { unfold window in Nw. rewrite <- firstn_map, Hh in Nw. rewrite nth_firstn in Nw by lia. cbn in Nw. injection Nw as -> ->. auto. }
  destruct E as [-> ->]. set (sc := bscale _ _ _). fold (set_scale b sc).
  assert (W0 : bwf (set_scale b sc) h).
  { destruct Hw as [A1 A2 A3 A4 A5 A6 A7 A8 A9 A10]. constructor; auto. }
  destruct (zseq_loop (fun v t => bframe (set_scale b sc) t /\ bb_scale t = sc /\ bwf t h /\
              (forall k', bb_curr b - v < k' < bb_len b -> done t (window b h) k'))
              (bfgs_product_step (0%R : @num RN)) (bb_begin (set_scale b sc)) (bb_curr b) (set_scale b sc)) as (b' & E & HI).
  - unfold bb_begin, set_scale; cbn [bb_curr bb_len]. lia.
  - split; [apply bframe_refl|]. split; [reflexivity|]. split; [exact W0|].
    unfold bb_begin, set_scale; cbn [bb_curr bb_len]. intros k' Hk'. lia.
  - intros v t Hv (F & Es & Wt & Hd). unfold bb_begin, set_scale in Hv; cbn [bb_curr bb_len] in Hv.
    pose proof F as (F1 & F2 & F3 & F4 & F5 & F6 & F7 & F8 & F9 & F10).
    unfold set_scale in F7, F8; cbn [bb_curr bb_len] in F7, F8.
    assert (EW : window t h = window b h) by (rewrite (frame_window _ _ h F); reflexivity).
    destruct (product_step_fun t h (bb_curr b - v) Wt) as (t' & E' & F' & Es' & Wt' & Hd').
    + rewrite Es. apply bscale_pos.
    + lia.
    + intros k' Hk'. rewrite EW. apply Hd. lia.
    + exists t'. replace (bb_curr t - (bb_curr b - v)) with v in E' by lia. split; [exact E'|].
      split; [eapply bframe_trans; eauto|]. split; [congruence|]. split; [exact Wt'|].
      intros k' Hk'. rewrite <- EW. apply Hd'. lia.
  - destruct HI as (F & Es & Wt & Hd). exists b'. split; [exact E|]. split; [exact F|]. split; [exact Es|]. split; [exact Wt|].
    intros k Hk. apply Hd. lia.
Qed.

(** What the block holds between two calls. *)
Definition bready (b : @bblock RN) (h : list (list (Z * R) * list (Z * R))) : Prop :=
  bwf b h /\ (forall k, 0 <= k < bb_len b -> done b (window b h) k) /\
  match map pf h with [] => True | (s, y) :: _ => bb_scale b = bscale (bb_damped b) s y end.

Lemma ringm_len {A} (data : list A) n l c h : ringm data n l c h -> len data = n.
Proof. now intros (_ & H & _). Qed.

Lemma block_push_fun b h (s y : rvec) : bwf b h -> vok d s -> vok d y ->
  good_pair d (bb_damped b) (dense s, dense y) ->
  exists b', bfgs_block_push (0%R : @num RN) b s y = Ok b' /\ bready b' ((vent s, vent y) :: h) /\
    bb_num b' = bb_num b /\ bb_damped b' = bb_damped b /\ bb_sized b' = bb_sized b.
Proof.
  intros Hw Hs Hy Hg. pose proof (bwf_ring_facts b h Hw) as (Hn & Hl & Hc).
  destruct (w_ring _ _ Hw) as [R1 R2]. unfold bfgs_block_push, bb_idx. set (next := data_index _ _ _).
  pose proof (ringm_next _ _ _ _ _ R1) as [Hnx _]. fold next in Hnx.
  pose proof (ringm_len _ _ _ _ _ R1) as L1. pose proof (ringm_len _ _ _ _ _ R2) as L2. rewrite map_length in L1, L2.
  destruct (nth_in (bb_s b) next) as [si Ns]; [lia|]. rewrite (arr_nth _ _ _ (proj1 Hnx) Ns). cbn [rbind].
  destruct (copy_fun d s si Hs (Forall_nth _ _ _ _ (w_s _ _ Hw) Ns)) as (s' & -> & Hs' & Vs & Ds). cbn [rbind].
  rewrite (arr_set_ok (bb_s b)) by lia. cbn [rbind].
  destruct (nth_in (bb_y b) next) as [yi Ny]; [lia|]. rewrite (arr_nth _ _ _ (proj1 Hnx) Ny). cbn [rbind].
  destruct (copy_fun d y yi Hy (Forall_nth _ _ _ _ (w_y _ _ Hw) Ny)) as (y' & -> & Hy' & Vy & Dy). cbn [rbind].
  rewrite (arr_set_ok (bb_y b)) by lia. cbn [rbind].
  destruct (w_lens _ _ Hw) as (M1 & M2 & M3 & M4 & M5).
  match goal with |- context [rbind (if bb_sized b then ?X else ?Y) ?K] =>
    assert (Hd : exists a c, (if bb_sized b then X else Y) = Ok (a, c) /\ len a = bb_num b /\ len c = bb_num b /\
       (bb_sized b = true -> a = set_nth (bb_ss b) (Z.to_nat next) (dot (dense s) (dense s)) /\
                             c = set_nth (bb_ys b) (Z.to_nat next) (dot (dense s) (dense y)))) end.
  { destruct (bb_sized b) eqn:Hz.
    - rewrite (arr_set_ok (bb_ss b)) by lia. cbn [rbind]. rewrite (dot_fun d s y Hs Hy). cbn [rbind].
      rewrite (arr_set_ok (bb_ys b)) by lia. cbn [rbind]. eexists _, _. split; [reflexivity|].
      rewrite !set_nth_length. split; [lia|]. split; [lia|]. intros _. destruct Hs as [Ws Dims]. rewrite vec_norm_sq_real, Dims by auto. auto.
    - eexists _, _. split; [reflexivity|]. split; [lia|]. split; [lia|]. congruence. }
  destruct Hd as (a & c & -> & La & Lc & Hsz). cbn [rbind fst snd].
  fold (next_len (bb_len b) (bb_num b)).
  set (b1 := mkbb _ _ _ _ _ _ _ _ _ _ _ _ _ _ _ _).
  destruct (ringm_push _ _ _ _ _ (vent s) R1) as (d1 & _ & Ed1 & R1').
  destruct (ringm_push _ _ _ _ _ (vent y) R2) as (d2 & _ & Ed2 & R2').
  assert (W1 : bwf b1 ((vent s, vent y) :: h)).
  { constructor; unfold b1; cbn [bb_dim bb_s bb_y bb_Bs bb_r bb_rs bb_ys bb_ss bb_sBs bb_sig bb_scale bb_num bb_len bb_curr bb_damped bb_sized].
    - apply (w_dim _ _ Hw).
    - unfold bring; cbn [bb_s bb_y bb_num bb_len bb_curr map fst snd]. rewrite !map_set_nth, Vs, Vy. subst d1 d2. auto.
    - apply Forall_set; [apply (w_s _ _ Hw)|auto].
    - apply Forall_set; [apply (w_y _ _ Hw)|auto].
    - apply (w_Bs _ _ Hw).
    - apply (w_r _ _ Hw).
    - auto.
    - intros Hz. destruct (Hsz Hz) as [-> ->]. destruct (w_sized _ _ Hw Hz) as [S1 S2].
      destruct (ringm_push _ _ _ _ _ (dot (dense s) (dense y)) S1) as (e1 & _ & Ee1 & S1').
      destruct (ringm_push _ _ _ _ _ (dot (dense s) (dense s)) S2) as (e2 & _ & Ee2 & S2').
      subst e1 e2. cbn [map pf fst snd]. split; [exact S1'|exact S2'].
    - apply (w_unsized _ _ Hw).
    - cbn [map]. constructor; [exact Hg|apply (w_good _ _ Hw)]. }
  assert (0 < bb_len b1).
  { unfold b1; cbn [bb_len]. unfold next_len. destruct (Z.ltb_spec (bb_len b) (bb_num b)); lia. }
  destruct (compute_products_fun b1 _ (dense s) (dense y) (map pf h) W1) as (b' & E & F & Es & W' & Hd); auto.
  exists b'. split; [exact E|]. pose proof F as (F1 & F2 & F3 & F4 & F5 & F6 & F7 & F8 & F9 & F10). split.
  - split; [exact W'|]. split.
    + intros k Hk. rewrite (frame_window _ _ _ F). apply Hd. lia.
    + cbn [map pf fst snd]. rewrite F9. exact Es.
  - unfold b1 in F6, F9, F10; cbn [bb_num bb_damped bb_sized] in F6, F9, F10. auto.
Qed.

Lemma block_reset_fun b h : bwf b h -> bready (bfgs_block_reset b) [].
Proof.
  intros Hw. pose proof (bwf_ring_facts b h Hw) as (Hn & Hl & Hc). destruct (w_ring _ _ Hw) as [R1 R2].
  split; [|split; [intros k Hk; cbn [bfgs_block_reset bb_len] in Hk; lia|exact I]].
  destruct Hw as [A1 A2 A3 A4 A5 A6 A7 A8 A9 A10].
  constructor; unfold bfgs_block_reset; cbn [bb_dim bb_s bb_y bb_Bs bb_r bb_rs bb_ys bb_ss bb_sBs bb_sig bb_scale bb_num bb_len bb_curr bb_damped bb_sized]; auto.
  - split; cbn [map bb_s bb_y bb_num bb_len bb_curr]; eapply ringm_reset; eauto.
  - intros Hz. destruct (A8 Hz) as [S1 S2]. split; eapply ringm_reset; eauto.
  - constructor.
Qed.

Lemma block_create_fun nu damped sized junk b : 0 < d -> len junk = nu -> bblock_create d nu damped sized (junk : list (@num RN)) = Ok b ->
  bready b [] /\ bb_num b = nu /\ bb_damped b = damped /\ bb_sized b = sized /\ 0 < nu.
Proof.
  intros Hd Hj E. pose proof (bring_create _ _ _ _ _ _ E) as HR. unfold bblock_create in E. apply rbind_ok in E as (u0 & E0 & E). apply rbind_ok in E as (u1 & E1 & E).
  apply check_ok in E1. apply Z.ltb_lt in E1.
  inv E. cbn [bb_num bb_damped bb_sized]. split; [|auto].
  split; [|split; [intros k Hk; cbn [bb_len] in Hk; lia|exact I]].
  assert (Hv : Forall (vok d) (repeat (mkvec d 0 [] : rvec) (Z.to_nat (len junk)))).
  { apply Forall_forall. intros v Hin. apply repeat_spec in Hin. subst v. apply vok_empty; lia. }
  constructor; cbn [bb_dim bb_s bb_y bb_Bs bb_r bb_rs bb_ys bb_ss bb_sBs bb_sig bb_scale bb_num bb_len bb_curr bb_damped bb_sized map];
    rewrite ?repeat_length; auto; try lia.
  - split; [auto|lia].
  - split; [auto|lia].
  - intros _. split; apply ringm_empty; auto.
  - intros _. apply Forall_forall. intros x Hin. apply repeat_spec in Hin. rewrite Hin. symmetry. exact rn_n1.
Qed.

(** The operations a client may perform in exact arithmetic. *)
Definition op_ok (damped : bool) (o : @qop RN) : Prop :=
  match o with
  | QPush s y => vok d s /\ vok d y /\ good_pair d damped (dense s, dense y)
  | QReset => True
  end.

Lemma bfgs_run_fun ops : forall b h, bready b h -> Forall (op_ok (bb_damped b)) ops ->
  exists b', rfold (bfgs_op (0%R : @num RN)) b ops = Ok b' /\ bready b' (fold_left hist_op ops h) /\
    bb_num b' = bb_num b /\ bb_damped b' = bb_damped b /\ bb_sized b' = bb_sized b.
Proof.
  induction ops as [|o ops IH]; intros b h Hb Hops; cbn [rfold fold_left].
  - exists b. auto.
  - apply Forall_cons_iff in Hops as [Ho Hops]. destruct o as [s y|]; cbn [bfgs_op hist_op op_ok] in *.
    + destruct Ho as (Hs & Hy & Hg). destruct (block_push_fun b h s y (proj1 Hb) Hs Hy Hg) as (b1 & -> & Hb1 & E1 & E2 & E3).
      cbn [rbind]. destruct (IH b1 _ Hb1) as (b' & E & Hb' & E4 & E5 & E6); [now rewrite E2|].
      exists b'. split; [exact E|]. split; [exact Hb'|]. repeat split; congruence.
    + cbn [rbind]. destruct (IH (bfgs_block_reset b) _ (block_reset_fun b h (proj1 Hb))) as (b' & E & Hb' & E4 & E5 & E6); [exact Hops|].
      exists b'. auto.
Qed.

(** The operator the block applies: see prod_blocks. *)
Definition bfgs_block_prod (zeps : num) (b : @bblock RN) (v p : rvec) : res rvec :=
  if bb_len b =? 0 then vec_copy v p else hess_prod_range zeps b v p (bb_curr b).

(** Reference: textbook BFGS on the most recent pairs. *)
Definition bfgs_ref (damped sized : bool) (l : list ((Z -> R) * (Z -> R))) : op :=
  match l with [] => fun v => v | (s, y) :: _ => bspec d damped sized (bscale damped s y) l end.

Lemma bready_prod b h (v p : rvec) : bready b h -> vok d v -> vok d p ->
  exists z, bfgs_block_prod (0%R : @num RN) b v p = Ok z /\ vok d z /\
    dense z = bfgs_ref (bb_damped b) (bb_sized b) (map pf (firstn (Z.to_nat (bb_num b)) h)) (dense v).
Proof.
  intros (Hw & Hd & Hsc) Hv Hp. pose proof (bwf_ring_facts b h Hw) as (Hn & Hl & Hc).
  pose proof (w_ring _ _ Hw) as [(_ & _ & El & _) _]. rewrite map_length in El.
  assert (El' : bb_len b = Z.min (bb_num b) (len h)) by exact El. clear El. rename El' into El.
  unfold bfgs_block_prod. destruct (Z.eqb_spec (bb_len b) 0) as [E0|E0].
  - assert (h = []) as -> by (destruct h; [auto|cbn [length] in El; lia]). rewrite firstn_nil. cbn [map bfgs_ref].
    destruct (copy_fun d v p Hv Hp) as (z & -> & Hz & _ & Dz). eauto.
  - destruct (hess_prod_fun b h (bb_curr b) v p Hw) as (z & E & Hz & Dz); auto; try lia.
    { intros k Hk. apply Hd. lia. }
    exists z. split; [exact E|]. split; [exact Hz|]. rewrite Dz. rewrite Z.sub_diag. cbn [Z.to_nat skipn].
    assert (EW : window b h = map pf (firstn (Z.to_nat (bb_num b)) h)).
    { unfold window. f_equal. rewrite El. destruct (Z_le_gt_dec (bb_num b) (len h)).
      - now rewrite Z.min_l by lia.
      - rewrite Z.min_r by lia. rewrite (firstn_all2 h) by lia. symmetry. apply firstn_all2. lia. }
    rewrite EW. destruct h as [|q h]; [cbn [length] in El; lia|].
    replace (Z.to_nat (bb_num b)) with (S (Z.to_nat (bb_num b - 1))) by lia. cbn [firstn map] in *.
    cbn [bfgs_ref]. destruct (pf q) as [s y]. now rewrite Hsc.
Qed.

Lemma bfgs_ref_spd damped sized l : Forall (good_pair d damped) l ->
  linear_op (bfgs_ref damped sized l) /\ symmetric_op d (bfgs_ref damped sized l) /\ posdef_op d (bfgs_ref damped sized l).
Proof.
  intros Hl. destruct l as [|[s y] l]; cbn [bfgs_ref].
  - split; [|split].
    + intros a b f g. reflexivity.
    + intros f g. reflexivity.
    + intros f Hf. now apply nonzero_dot.
  - apply bspec_spd; [apply bscale_pos|exact Hl].
Qed.
End BFGS.
