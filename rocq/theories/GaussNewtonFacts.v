(** The Gauss-Newton direction: the products of the code are those of one matrix. *)
From Coq Require Import Reals Lra FunctionalExtensionality.
From Verif Require Import Base Num Cmp Sparse Vec VecFacts VecFacts2 RSum VecReal Mat MatFacts MatFacts2 MatFacts3 MatFacts4 Arr
  WorkingSet WorkingSetFacts Feas FeasFacts MeritFacts OrdArith PreprocReal Restore RestoreLoops RestoreReal RestoreMain QnReal QnBlocks Cauchy
  SteihaugFacts Steihaug LineSearch LineSearchFacts WorkingStep WorkingStepFacts WorkingStepReal NewtonReal PropsMat Lsqr LsqrFacts PropsLsqr GaussNewton.
Local Open Scope R_scope.

(** ** The rows that are removed *)
Definition stored {N : Num} (v : vec) (i : Z) : bool := match get (vent v) i with Some _ => true | None => false end.

Lemma removed_loop {N : Num} k : forall a es acc, sorted_in (Z.of_nat a) (Z.of_nat (a + k)) (keys es) ->
  fold_left removed_step (map Z.of_nat (seq a k)) (es, acc)
  = ([], acc ++ filter (fun i => negb (match get es i with Some _ => true | None => false end)) (map Z.of_nat (seq a k))).
Proof.
  induction k as [|k IH]; intros a es acc Hs.
  - destruct es as [|[i x] es]; [cbn; now rewrite app_nil_r|]. cbn in Hs. lia.
  - cbn [seq map fold_left]. destruct es as [|[i x] es].
    + unfold removed_step at 2. cbn [fst snd]. rewrite IH by exact I. cbn [filter get negb]. rewrite <- app_assoc. reflexivity.
    + unfold removed_step at 2. cbn [fst snd]. cbn [keys map fst sorted_in] in Hs. destruct Hs as [Hi Hs].
      cbn [filter get]. destruct (Z.eqb_spec (Z.of_nat a) i) as [E|E].
      * rewrite <- E, Z.eqb_refl. cbn [negb]. rewrite IH.
        { f_equal. f_equal. apply filter_ext_in. intros j Hj. apply in_map_iff in Hj as (b & <- & Hb). apply in_seq in Hb.
          destruct (Z.eqb_spec (Z.of_nat a) (Z.of_nat b)); [lia|reflexivity]. }
        replace (Z.of_nat (S a)) with (i + 1)%Z by lia. replace (S a + k)%nat with (a + S k)%nat by lia. exact Hs.
      * destruct (Z.eqb_spec i (Z.of_nat a)) as [E'|_]; [congruence|].
        assert (G : get es (Z.of_nat a) = None).
        { apply get_None. intros Hin. pose proof (sorted_in_In _ _ _ _ Hs Hin). lia. }
        rewrite G. cbn [negb]. rewrite IH.
        { cbn [filter get]. rewrite <- app_assoc. reflexivity. }
        cbn [keys map fst sorted_in]. split; [lia|]. replace (S a + k)%nat with (a + S k)%nat by lia. exact Hs.
Qed.

Lemma removed_spec {N : Num} nc mult : wf mult -> vdim mult = nc -> removed_cons nc mult = Ok (dropped (stored mult) nc).
Proof.
  intros (Hd & Hs & _) <-. unfold removed_cons, zrange. rewrite (removed_loop (Z.to_nat (vdim mult)) 0).
  - reflexivity.
  - cbn [Nat.add]. change (Z.of_nat 0) with 0%Z. rewrite Z2Nat.id by exact Hd. exact Hs.
Qed.

(** ** Splitting a vector *)
Lemma split_loop {N : Num} m es : forall l c lo, (0 <= m)%Z -> sorted_in lo (m + vdim c) (keys es) ->
  vdim l = m -> sorted_in 0 m (keys (vent l ++ filter (fun e => fst e <? m)%Z es)) ->
  sorted_in 0 (vdim c) (keys (vent c ++ map (fun e => (fst e - m, snd e))%Z (filter (fun e => negb (fst e <? m)%Z) es))) ->
  (vnnz l + Z.of_nat (length (filter (fun e => fst e <? m)%Z es)) <= vcap l)%Z ->
  (vnnz c + Z.of_nat (length (filter (fun e => negb (fst e <? m)%Z) es)) <= vcap c)%Z ->
  rfold (fun s e =>
    if (fst e <? m)%Z then l <- vec_push (fst s) (fst e) (snd e) ;; Ok (l, snd s)
    else c <- vec_push (snd s) (fst e - m) (snd e) ;; Ok (fst s, c)) (l, c) es
  = Ok (mkvec (vdim l) (vcap l) (vent l ++ filter (fun e => fst e <? m)%Z es),
        mkvec (vdim c) (vcap c) (vent c ++ map (fun e => (fst e - m, snd e))%Z (filter (fun e => negb (fst e <? m)%Z) es))).
Proof.
  induction es as [|[i x] es IH]; intros l c lo Hm Hs Dl Sl Sc Cl Cc.
  - cbn [rfold filter map]. rewrite !app_nil_r. destruct l, c. reflexivity.
  - cbn [rfold fst snd filter] in *. cbn [keys map fst sorted_in] in Hs. destruct Hs as [Hi Hs]. destruct (Z.ltb_spec i m) as [L|L]; cbn [negb length] in *.
    + assert (Sl1 : sorted_in 0 (vdim l) (keys (vent l) ++ [i])).
      { rewrite Dl. unfold keys in *. rewrite map_app in Sl. cbn [map fst] in Sl.
        change (i :: map fst (filter (fun e => (fst e <? m)%Z) es)) with ([i] ++ map fst (filter (fun e => (fst e <? m)%Z) es)) in Sl.
        rewrite app_assoc in Sl. apply sorted_in_app in Sl. tauto. }
      rewrite vec_push_ok; [|lia|exact Sl1]. cbn [rbind]. rewrite (IH _ _ (i + 1)%Z Hm Hs); cbn [vdim vcap vent]; auto.
      * now rewrite <- app_assoc.
      * now rewrite <- app_assoc.
      * unfold vnnz in *. cbn [vent]. rewrite app_length. cbn [length]. lia.
    + cbn [map fst snd] in Sc.
      assert (Sc1 : sorted_in 0 (vdim c) (keys (vent c) ++ [(i - m)%Z])).
      { unfold keys in *. rewrite map_app in Sc. cbn [map fst] in Sc.
        match type of Sc with sorted_in _ _ (_ ++ ?h :: ?t) => change (h :: t) with ([h] ++ t) in Sc end.
        rewrite app_assoc in Sc. apply sorted_in_app in Sc. tauto. }
      rewrite vec_push_ok; [|lia|exact Sc1]. cbn [rbind]. rewrite (IH _ _ (i + 1)%Z Hm); cbn [vdim vcap vent]; auto.
      * cbn [map fst snd]. now rewrite <- app_assoc.
      * now rewrite <- app_assoc.
      * unfold vnnz in *. cbn [vent]. rewrite app_length. cbn [length]. lia.
Qed.

Lemma get_filter {N : Num} (P : Z -> bool) (es : list (Z * num)) i : get (filter (fun e => P (fst e)) es) i = if P i then get es i else None.
Proof.
  induction es as [|[k x] es IH]; [cbn; now destruct (P i)|]. cbn [filter fst get]. destruct (P k) eqn:E; cbn [get].
  - destruct (Z.eqb_spec k i) as [->|_]; [now rewrite E|exact IH].
  - rewrite IH. destruct (Z.eqb_spec k i) as [->|_]; [now rewrite E|reflexivity].
Qed.
Lemma get_minus {N : Num} m (es : list (Z * num)) i : get (map (fun e => (fst e - m, snd e)%Z) es) i = get es (i + m).
Proof.
  induction es as [|[k x] es IH]; [reflexivity|]. cbn [map get fst snd]. rewrite IH.
  destruct (Z.eqb_spec (k - m) i), (Z.eqb_spec k (i + m)); auto; lia.
Qed.

Lemma split_spec {N : Num} m direction ldir cdir : (0 <= m)%Z -> wf direction -> wf ldir -> wf cdir -> vdim ldir = m -> vdim direction = (m + vdim cdir)%Z ->
  exists l c, gn_split m direction ldir cdir = Ok (l, c) /\ wf l /\ vdim l = m /\ wf c /\ vdim c = vdim cdir
    /\ (forall i, (0 <= i < m)%Z -> dense l i = dense direction i) /\ (forall i, (0 <= i)%Z -> dense c i = dense direction (m + i)).
Proof.
  intros Hm (Hd & Hs & Hc) Wl Wc Dl Dd. unfold gn_split.
  assert (C0 : (0 <= vdim cdir)%Z) by apply Wc. assert (D0 : (0 <= vnnz direction)%Z) by (unfold vnnz; lia).
  destruct (vec_reserve_spec (vec_clear ldir) (Z.min m (vnnz direction))) as (l0 & E1 & W1 & D1 & V1 & C1); [now apply wf_clear|lia|].
  destruct (vec_reserve_spec (vec_clear cdir) (Z.min (vdim cdir) (vnnz direction))) as (c0 & E2 & W2 & D2 & V2 & C2); [now apply wf_clear|lia|].
  rewrite E1. cbn [rbind]. rewrite E2. cbn [rbind]. cbn [vec_clear vdim vent] in D1, V1, D2, V2.
  pose proof (filter_sorted (fun i => (i <? m)%Z) 0 _ _ Hs) as F1.
  pose proof (filter_sorted (fun i => negb (i <? m)%Z) 0 _ _ Hs) as F2.
  set (el := filter (fun e : Z * num => (fst e <? m)%Z) (vent direction)) in *.
  set (ec := filter (fun e : Z * num => negb (fst e <? m)%Z) (vent direction)) in *.
  assert (S1 : sorted_in 0 m (keys el)).
  { apply (sorted_bounds 0 _ 0 m _ F1). intros i Hi. pose proof (sorted_in_In _ _ _ _ F1 Hi).
    apply (filter_keys (fun i => (i <? m)%Z)) in Hi. lia. }
  assert (S2 : sorted_in 0 (vdim cdir) (keys (map (fun e => (fst e - m, snd e)%Z) ec))).
  { assert (S2 : sorted_in m (vdim direction) (keys ec)).
    { apply (sorted_bounds 0 _ m _ _ F2). intros i Hi. pose proof (sorted_in_In _ _ _ _ F2 Hi).
      apply (filter_keys (fun i => negb (i <? m)%Z)) in Hi. lia. }
    pose proof (shift_sorted (- m) _ _ _ S2) as S3. replace (m + - m)%Z with 0%Z in S3 by lia.
    replace (vdim direction + - m)%Z with (vdim cdir) in S3 by lia. exact S3. }
  pose proof (sorted_in_length _ _ _ S1) as L1. pose proof (sorted_in_length _ _ _ S2) as L2.
  unfold keys in L1, L2. rewrite !map_length in L1, L2.
  assert (B1 : (Z.of_nat (length el) <= vnnz direction)%Z).
  { unfold el, vnnz. pose proof (filter_length_le (fun e : Z * num => (fst e <? m)%Z) (vent direction)). lia. }
  assert (B2 : (Z.of_nat (length ec) <= vnnz direction)%Z).
  { unfold ec, vnnz. pose proof (filter_length_le (fun e : Z * num => negb (fst e <? m)%Z) (vent direction)). lia. }
  rewrite (split_loop m _ l0 c0 0 Hm); fold el ec; rewrite ?V1, ?V2, ?D1, ?D2; cbn [app]; auto.
  - eexists _, _. split; [reflexivity|]. split; [|split; [|split; [|split; [|split]]]].
    + split; cbn [vdim vent vcap]; [lia|]. split; [rewrite Dl; exact S1|]. lia.
    + cbn. lia.
    + split; cbn [vdim vent vcap]; [lia|]. split; [exact S2|]. rewrite map_length. rewrite map_length in L2. lia.
    + reflexivity.
    + intros i Hi. unfold dense. cbn [vent]. unfold el. rewrite (get_filter (fun i => (i <? m)%Z)). replace (i <? m)%Z with true by lia. reflexivity.
    + intros i Hi. unfold dense. cbn [vent]. unfold ec. rewrite get_minus. rewrite (get_filter (fun i => negb (i <? m)%Z)).
      replace (negb (i + m <? m)%Z) with true by lia. now rewrite Z.add_comm.
  - now rewrite <- Dd.
  - unfold vnnz. rewrite V1. cbn [length]. lia.
  - unfold vnnz. rewrite V2. cbn [length]. rewrite map_length in L2. lia.
Qed.

(** ** The two products belong to one matrix *)
Lemma mprod_in n m M x i : (0 <= i < m)%Z -> mprod n m M x i = sumd n (fun j => M i j * x j).
Proof. intros Hi. unfold mprod. now replace ((0 <=? i) && (i <? m))%Z%bool with true by lia. Qed.

Section Products.
Variables (n m nv : Z) (Mr P : Z -> Z -> R) (cs : list (list (Z * R))) (proj fwd adj : rvec -> rvec -> res rvec) (G : @gnewton RN).
Hypothesis Hn : (0 <= n)%Z.
Hypothesis Hm : (0 <= m)%Z.
Hypothesis Hv : (0 <= nv)%Z.
Hypothesis Hf : applies n m (mprod n m Mr) fwd.
Hypothesis Ha : applies m n (mprod m n (fun i j => Mr j i)) adj.
Hypothesis HP : applies n n (mprod n n P) proj.
Hypothesis Psym : forall i j, (0 <= i < n)%Z -> (0 <= j < n)%Z -> P i j = P j i.
Hypothesis HJ : stores (gn_jac G) cs.
Hypothesis HJr : mnr (gn_jac G) = nv.
Hypothesis HJc : mnc (gn_jac G) = n.
Hypothesis V1 : vok n (gp_proj G).
Hypothesis V2 : vok nv (gp_cons G).
Hypothesis V3 : vok m (gp_lsq G).
Hypothesis V4 : vok m (ga_ldir G).
Hypothesis V5 : vok nv (ga_cdir G).
Hypothesis V6 : vok n (ga_lprod G).
Hypothesis V7 : vok n (ga_cprod G).
Hypothesis V8 : vok n (ga_prod G).

(** The rows of the residuals and those of the constraints, times the projection *)
Definition row (k l : Z) : R := if (k <? m)%Z then Mr k l else mR cs (k - m) l.
Definition stack (k j : Z) : R := sumd n (fun l => row k l * P l j).

Lemma stack_prod x k : (0 <= k < m + nv)%Z -> mprod n (m + nv) stack x k = sumd n (fun l => row k l * mprod n n P x l).
Proof.
  intros Hk. rewrite mprod_in by exact Hk. unfold stack.
  rewrite (sumd_ext n _ (fun j => sumd n (fun l => row k l * P l j * x j))).
  2: { intros j Hj. rewrite Rmult_comm, <- sumd_scal. apply sumd_ext. intros. ring. }
  rewrite sumd_swap. apply sumd_ext. intros l Hl. rewrite mprod_in by exact Hl. rewrite <- sumd_scal. apply sumd_ext. intros. ring.
Qed.

Lemma forward_ok : applies n (m + nv) (mprod n (m + nv) stack) (gn_forward (0 : @num RN) n m proj fwd G).
Proof.
  intros v t Vv Vt. unfold gn_forward. destruct V2 as [W2 D2]. rewrite D2. destruct Vv as [Wv Dv]. destruct Vt as [Wt Dt].
  rewrite Dv, Dt, !Z.eqb_refl. cbn [check rbind].
  destruct (applies_fun n n P proj v (gp_proj G) HP (conj Wv Dv) V1) as (d & Ed & [Wd Dd] & Hd). rewrite Ed. cbn [rbind].
  destruct (applies_fun n m Mr fwd d (gp_lsq G) Hf (conj Wd Dd) V3) as (l & El & [Wl Dl] & Hl). rewrite El. cbn [rbind].
  destruct (mult_vec_real (gn_jac G) cs d HJ Wd ltac:(congruence)) as (a & Ea & La & Hcs). rewrite Ea. cbn [rbind].
  rewrite firstn_all2 by (rewrite La, HJr; lia).
  destruct (set_from_raw_ok (gp_cons G) a nv (fun i => sumd n (fun j => mR cs i j * dense d j)) W2) as (c & Ec & Wc & Dc & Hc); [|exact Hv|].
  { split; [etransitivity; [exact La|now rewrite HJr]|]. intros j Hj. rewrite (nth_error_nth' a 0) by lia. f_equal. rewrite <- HJc. apply Hcs. rewrite HJr. exact Hj. }
  rewrite Ec. cbn [rbind].
  destruct (vec_concat_spec l c t Wl Wc (wf_cap t Wt)) as (z & Ez & Wz & Dz & Gz). exists z. split; [exact Ez|]. split; [split; [exact Wz|lia]|].
  intros k Hk. rewrite stack_prod by exact Hk. rewrite <- Hd. unfold dense at 1. rewrite Gz, Dl. unfold row.
  destruct (Z.ltb_spec k m) as [L|L].
  - change (oval (get (vent l) k)) with (dense l k). rewrite Hl. apply mprod_in. lia.
  - change (oval (get (vent c) (k - m))) with (dense c (k - m)). apply Hc. lia.
Qed.

Lemma adjoint_ok : applies (m + nv) n (mprod (m + nv) n (fun i j => stack j i)) (gn_adjoint (0 : @num RN) n m proj adj G).
Proof.
  intros v t [Wv Dv] Vt. unfold gn_adjoint. destruct Vt as [Wt Dt]. destruct V5 as [W5 D5]. rewrite Dt, Dv, D5, !Z.eqb_refl. cbn [check rbind].
  destruct V4 as [W4 D4].
  destruct (split_spec m v (ga_ldir G) (ga_cdir G) Hm Wv W4 W5 D4 ltac:(lia)) as (l & c & E & Wl & Dl & Wc & Dc & Hl & Hc). rewrite E. cbn [rbind fst snd].
  destruct (applies_fun m n (fun i j => Mr j i) adj l (ga_lprod G) Ha (conj Wl Dl) V6) as (p & Ep & Vp & Hp). rewrite Ep. cbn [rbind].
  destruct V7 as [W7 D7].
  destruct (mult_vec_trans_real (gn_jac G) cs c (ga_cprod G) HJ Wc ltac:(congruence) W7 ltac:(congruence)) as (q & Eq & Wq & Dq & Hq). rewrite Eq. cbn [rbind].
  unfold vec_add. rewrite rn_n1.
  destruct (dense_lc n p q (ga_prod G) 1 1 Vp (conj Wq (eq_trans Dq HJc)) (vok_cap _ _ V8)) as (s & Es & Vs & Hs). rewrite Es. cbn [rbind].
  destruct (applies_fun n n P proj s t HP Vs (conj Wt Dt)) as (z & Ez & Vz & Hz). exists z. split; [exact Ez|]. split; [exact Vz|].
  intros j Hj. rewrite Hz, mprod_in, mprod_in by exact Hj. unfold stack.
  assert (S : forall i, (0 <= i < n)%Z -> dense s i = sumd (m + nv) (fun k => row k i * dense v k)).
  { intros i Hi. rewrite Hs. unfold lc. rewrite Hp, mprod_in by exact Hi. rewrite Hq by (rewrite HJc; exact Hi). rewrite HJr.
    rewrite RestoreReal.sumd_split by lia. rewrite !Rmult_1_l. f_equal.
    - apply sumd_ext. intros k Hk. unfold row. replace (k <? m)%Z with true by lia. rewrite Hl by exact Hk. reflexivity.
    - apply sumd_ext. intros k Hk. unfold row. replace (m + k <? m)%Z with false by lia. replace (m + k - m)%Z with k by lia. rewrite Hc by lia. reflexivity. }
  rewrite (sumd_ext n _ (fun l0 => sumd (m + nv) (fun k => P l0 j * (row k l0 * dense v k)))).
  2: { intros i Hi. rewrite S by exact Hi. rewrite <- sumd_scal. apply sumd_ext. intros. rewrite (Psym j i) by assumption. reflexivity. }
  rewrite sumd_swap. apply sumd_ext. intros k Hk. rewrite Rmult_comm, <- sumd_scal. apply sumd_ext. intros. ring.
Qed.
End Products.

(** ** The solution lies in every subspace that contains the images of the adjoint *)
Section Subspace.
Variables (n m : Z) (M : Z -> Z -> R) (fwd ad : rvec -> rvec -> res rvec) (hyp : R -> R -> R) (W : (Z -> R) -> Prop).
Hypothesis Hfwd : applies n m (mprod n m M) fwd.
Hypothesis Hadj : applies m n (mprod m n (fun i j => M j i)) ad.
Hypothesis W0 : W (fun _ => 0).
Hypothesis Wlc : forall a x b y, W x -> W y -> W (lc a x b y).
Hypothesis WT : forall u, W (mprod m n (fun i j => M j i) u).

Lemma sub_normalize (v v' : rvec) b : vok n v -> W (dense v) -> normalize v = (v', b) -> vok n v' /\ W (dense v').
Proof.
  intros Hv Wv E. destruct (normalize_fun n v Hv) as (v1 & b1 & E1 & V1 & _ & D & _ & Z0). rewrite E in E1. injection E1 as -> ->.
  split; [exact V1|]. destruct (Req_dec b1 0) as [E0|N0]; [rewrite (Z0 E0); exact W0|].
  assert (E' : dense v1 = lc (1 / b1) (dense v) 0 (dense v)).
  { rewrite D. apply functional_extensionality; intros i. unfold lc, scal. assert (G : forall y : R, y = 1 / b1 * (b1 * y) + 0 * (b1 * y)) by (intros; field; exact N0). apply G. }
  rewrite E'. now apply Wlc.
Qed.

Definition sub_state (i : @iter RN) : Prop :=
  vecs_ok n m (it_s i) /\ vok n (it_x i) /\ W (dense (ls_v (it_s i))) /\ W (dense (ls_w (it_s i))) /\ W (dense (it_x i)).

Lemma sub_lc (x y r z : rvec) a b : vok n x -> vok n y -> (0 <= vcap r)%Z -> W (dense x) -> W (dense y) ->
  vec_add_scaled x y (a : @num RN) (b : @num RN) (0 : @num RN) r = Ok z -> vok n z /\ W (dense z).
Proof.
  intros Hx Hy Hr Wx Wy E. destruct (dense_lc n x y r a b Hx Hy Hr) as (z1 & E1 & V1 & D1). rewrite E in E1. injection E1 as ->.
  split; [exact V1|]. rewrite D1. now apply Wlc.
Qed.
Lemma sub_copy d (x t z : rvec) : vok d x -> vok d t -> vec_copy x t = Ok z -> vok d z /\ dense z = dense x.
Proof. intros Hx Ht E. destruct (copy_fun d x t Hx Ht) as (z1 & E1 & V1 & _ & D1). rewrite E in E1. injection E1 as ->. auto. Qed.
Lemma any_lc d (x y r z : rvec) a b : vok d x -> vok d y -> (0 <= vcap r)%Z ->
  vec_add_scaled x y (a : @num RN) (b : @num RN) (0 : @num RN) r = Ok z -> vok d z.
Proof. intros Hx Hy Hr E. destruct (dense_lc d x y r a b Hx Hy Hr) as (z1 & E1 & V1 & D1). rewrite E in E1. injection E1 as ->. exact V1. Qed.

Lemma sub_body i (eps radius : R) o : sub_state i ->
  lsqr_body (hyp : @num RN -> @num RN -> @num RN) fwd ad n m (eps : @num RN) (0 : @num RN) (radius : @num RN) i = Ok o ->
  match o with LBdry x _ => vok n x /\ W (dense x) | LNext i' _ => sub_state i' end.
Proof.
  intros (V & Vx & Wv & Ww & Wx) E. unfold lsqr_body in E. set (s := it_s i) in *.
  rewrite (product_ok fwd n m _ _ (vo_v n m s V) (vo_p n m s V)) in E.
  destruct (applies_fun n m M fwd _ _ Hfwd (vo_v n m s V) (vo_p n m s V)) as (p & Ep & Vp & Dp). rewrite Ep in E. cbn [rbind] in E.
  apply rbind_ok in E as (t1 & E1 & E). apply (any_lc m) in E1; [|exact Vp|apply (vo_u n m s V)|apply (vo_t n m s V)].
  apply rbind_ok in E as (u1 & E2 & E). apply (sub_copy m) in E2 as [Vu1 _]; [|exact E1|apply (vo_u n m s V)].
  destruct (normalize_fun m u1 Vu1) as (u' & beta & E3 & Vu' & _). rewrite E3 in E.
  rewrite (product_ok ad m n _ _ Vu' (vo_q n m s V)) in E.
  destruct (applies_fun m n (fun i j => M j i) ad _ _ Hadj Vu' (vo_q n m s V)) as (q & Eq & Vq & Dq). rewrite Eq in E. cbn [rbind] in E.
  assert (Wq : W (dense q)) by (rewrite Dq; apply WT).
  apply rbind_ok in E as (t2 & E4 & E). apply sub_lc in E4 as [Vt2 Wt2]; [|exact Vq|apply (vo_v n m s V)|exact (vok_cap _ _ E1)|exact Wq|exact Wv].
  apply rbind_ok in E as (v1 & E5 & E). apply (sub_copy n) in E5 as [Vv1 Dv1]; [|exact Vt2|apply (vo_v n m s V)].
  destruct (normalize v1) as [v' alpha'] eqn:E6. apply sub_normalize in E6 as [Vv' Wv']; [|exact Vv1|rewrite Dv1; exact Wt2].
  apply rbind_ok in E as (t3 & E7 & E). apply sub_lc in E7 as [Vt3 Wt3]; [|exact Vx|apply (vo_w n m s V)|exact (vok_cap _ _ Vt2)|exact Wx|exact Ww].
  destruct (negb _ && is_gt _ _ _)%bool.
  - apply rbind_ok in E as (d & E8 & E). apply sub_lc in E8 as [Vd Wd]; [|exact Vx|exact Vt3|exact (vok_cap _ _ (vo_d n m s V))|exact Wx|exact Wt3].
    apply rbind_ok in E as (t4 & E9 & E). unfold bdry_sol in E9. apply rbind_ok in E9 as (? & _ & E9). apply rbind_ok in E9 as (? & _ & E9).
    apply rbind_ok in E9 as (? & _ & E9). apply sub_lc in E9 as [Vt4 Wt4]; [|exact Vx|exact Vd|exact (vok_cap _ _ Vt3)|exact Wx|exact Wd].
    apply rbind_ok in E as (xn & E10 & E). apply (sub_copy n) in E10 as [Vx' Dx']; [|exact Vt4|exact Vx].
    injection E as <-. split; [exact Vx'|]. rewrite Dx'. exact Wt4.
  - apply rbind_ok in E as (x & E10 & E). apply (sub_copy n) in E10 as [Vx' Dx']; [|exact Vt3|exact Vx].
    apply rbind_ok in E as (t4 & E9 & E). apply sub_lc in E9 as [Vt4 Wt4]; [|exact Vv'|apply (vo_w n m s V)|exact (vok_cap _ _ Vt3)|exact Wv'|exact Ww].
    apply rbind_ok in E as (w & E11 & E). apply (sub_copy n) in E11 as [Vw Dw]; [|exact Vt4|apply (vo_w n m s V)].
    injection E as <-. unfold sub_state. cbn [it_s it_x ls_u ls_v ls_w ls_p ls_q ls_d ls_t].
    split; [|split; [exact Vx'|]].
    + constructor; cbn [ls_u ls_v ls_w ls_p ls_q ls_d ls_t]; auto; try apply V. exact (vok_cap _ _ Vt4).
    + split; [exact Wv'|]. split; [rewrite Dw; exact Wt4|rewrite Dx'; exact Wt3].
Qed.

Lemma sub_loop k : forall (eps tol radius time_limit : R) clock j i inner x s, sub_state i ->
  lsqr_loop (hyp : @num RN -> @num RN -> @num RN) k fwd ad n m (eps : @num RN) (0 : @num RN) (tol : @num RN) (radius : @num RN) (time_limit : @num RN) clock j i = Ok (inner, x, s) ->
  vok n x /\ W (dense x).
Proof.
  induction k as [|k IH]; intros eps tol radius tl clock j i inner x s HS E; cbn [lsqr_loop] in E.
  - injection E as <- <- <-. split; apply HS.
  - apply rbind_ok in E as (o & Eo & E). pose proof (sub_body i eps radius o HS Eo) as B. destruct o as [x1 s1|i1 o1].
    + injection E as <- <- <-. exact B.
    + destruct (nleb _ _); [injection E as <- <- <-; split; apply B|]. destruct (time_hit _ _ _); [discriminate|].
      exact (IH _ _ _ _ _ _ _ _ _ _ B E).
Qed.

Lemma sub_solve (eps tol radius time_limit : R) clock s bv sol inner x s' : vecs_ok n m s -> vok m bv -> vok n sol ->
  lsqr_solve (hyp : @num RN -> @num RN -> @num RN) fwd ad n m (eps : @num RN) (0 : @num RN) (tol : @num RN) (radius : @num RN) (time_limit : @num RN) clock s bv sol = Ok (inner, x, s') ->
  vok n x /\ W (dense x).
Proof.
  intros V Vb Vs E. unfold lsqr_solve in E. apply rbind_ok in E as (? & _ & E). apply rbind_ok in E as (? & _ & E).
  apply rbind_ok in E as (i & Ei & E). apply sub_loop in E; [exact E|]. unfold lsqr_start in Ei.
  apply rbind_ok in Ei as (u1 & E2 & Ei). apply (sub_copy m) in E2 as [Vu1 _]; [|exact Vb|apply (vo_u n m s V)].
  destruct (normalize_fun m u1 Vu1) as (u & beta & E3 & Vu & _). rewrite E3 in Ei.
  rewrite (product_ok ad m n _ _ Vu (vo_v n m s V)) in Ei.
  destruct (applies_fun m n (fun i j => M j i) ad _ _ Hadj Vu (vo_v n m s V)) as (q & Eq & Vq & Dq). rewrite Eq in Ei. cbn [rbind] in Ei.
  destruct (normalize q) as [v alpha] eqn:E6. apply sub_normalize in E6 as [Vv Wv]; [|exact Vq|rewrite Dq; apply WT].
  apply rbind_ok in Ei as (w & E7 & Ei). apply (sub_copy n) in E7 as [Vw Dw]; [|exact Vv|apply (vo_w n m s V)]. injection Ei as <-.
  unfold sub_state. cbn [it_s it_x ls_u ls_v ls_w ls_p ls_q ls_d ls_t]. split; [|split].
  - constructor; cbn [ls_u ls_v ls_w ls_p ls_q ls_d ls_t]; auto; apply V.
  - destruct Vs as [Ws Ds]. split; [apply wf_clear, Ws|exact Ds].
  - split; [exact Wv|]. split; [rewrite Dw; exact Wv|].
    assert (X0 : dense (vec_clear sol) = fun _ => 0) by (apply functional_extensionality; intros; apply rn_n0). rewrite X0. exact W0.
Qed.
End Subspace.
