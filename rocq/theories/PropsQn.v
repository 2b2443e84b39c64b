(** Quasi-Newton approximations: C37-C39. *)
From Coq Require Import Reals Lra FunctionalExtensionality.
From Flocq Require Import Core BinarySingleNaN.
From Verif Require Import Base Num Cmp Sparse Vec VecFacts VecFacts2 Order F64Facts Mat MatFacts MatFacts2 MatFacts4 Ring RSum VecReal Registry
  QuasiNewton QnMath QnFacts QnReal QnSr1 QnBlocks QnWhole QnWholeReal.
Local Open Scope Z_scope.

(** ** Specification of the history of one block *)

(** Blocks as (first index, size), from the ends of the blocks. *)
Fixpoint ranges (lo : Z) (ends : list Z) : list (Z * Z) :=
  match ends with [] => [] | e :: l => (lo, e - lo) :: ranges e l end.

(** The part of [f] in block r, renumbered from 0. *)
Definition part (r : Z * Z) (f : Z -> R) : Z -> R := restr (snd r) (fun k => f (fst r + k)).

(** The pairs kept for block r, newest first: those pushed since the last reset with
    squared step length in the block above [eps]. *)
Definition pairs_op (eps : R) (r : Z * Z) (h : list ((Z -> R) * (Z -> R))) (o : @wop RN) :=
  match o with
  | WPush s y => if Rle_bool (dotd (snd r) (part r (dense s)) (part r (dense s))) eps then h
                 else (part r (dense s), part r (dense y)) :: h
  | WReset => []
  end.
Definition pairs (eps : R) (r : Z * Z) (ops : list (@wop RN)) := fold_left (pairs_op eps r) ops [].
Definition recent (nu : Z) (eps : R) (r : Z * Z) (ops : list (@wop RN)) := firstn (Z.to_nat nu) (pairs eps r ops).

(** The Lagrangian has positive curvature along the step in every block. *)
Definition curved (eps : R) (rs : list (Z * Z)) (o : @wop RN) : Prop :=
  match o with
  | WPush s y => forall r, In r rs -> (eps < dotd (snd r) (part r (dense s)) (part r (dense s)))%R ->
                 (0 < dotd (snd r) (part r (dense y)) (part r (dense s)))%R
  | WReset => True
  end.

(** ** Connection with the blocks of the model *)
Lemma slicev_vok nv (v : rvec) off n : 0 <= n <= nv -> wf v -> vdim v = nv -> vok n (slicev nv (vent v) off n).
Proof. intros Hn (_ & Hs & _) Hd. split; [eapply slicev_wf; [exact Hn|exact Hs]|reflexivity]. Qed.

Lemma norm_slicev nv (v : rvec) off n : 0 <= n <= nv -> wf v -> vdim v = nv ->
  vec_norm_sq (slicev nv (vent v) off n) = dotd n (part (off, n) (dense v)) (part (off, n) (dense v)).
Proof.
  intros Hn Hw Hd. destruct (slicev_vok nv v off n Hn Hw Hd) as [Hs Ds].
  rewrite vec_norm_sq_real by exact Hs. cbn [slicev vdim]. rewrite dense_slicev. reflexivity.
Qed.

Lemma rn_is_zero x eps : (0 <= x)%R -> @is_zero RN x eps = Rle_bool x eps.
Proof. intros H. unfold is_zero. rewrite rn_abs. change (@nleb RN (Rabs x) eps) with (Rle_bool (Rabs x) eps). now rewrite Rabs_pos_eq. Qed.

Lemma hist_pairs nv eps off n ops : 0 <= n <= nv -> Forall (wop_wf nv) ops -> forall h,
  map pf (fold_left hist_op (block_ops (eps : @num RN) nv off n ops) h) = fold_left (pairs_op eps (off, n)) ops (map pf h).
Proof.
  intros Hn. induction 1 as [|o ops Ho Hops IH]; intros h; [reflexivity|]. unfold block_ops in *. cbn [flat_map fold_left].
  rewrite fold_left_app. rewrite IH. f_equal. destruct o as [s y|]; cbn [pairs_op]; [|reflexivity].
  destruct Ho as (Ws & Ds & Wy & Dy). cbv zeta. rewrite norm_slicev, rn_is_zero by (auto; apply dotd_nonneg). cbn [snd].
  destruct (Rle_bool _ eps); [reflexivity|]. cbn [fold_left hist_op map]. unfold pf at 1. cbn [fst snd].
  change (dn (vent (slicev nv (vent s) off n))) with (dense (slicev nv (vent s) off n)).
  change (dn (vent (slicev nv (vent y) off n))) with (dense (slicev nv (vent y) off n)).
  rewrite !dense_slicev. reflexivity.
Qed.

Lemma recent_pairs nu nv eps off n ops : 0 <= n <= nv -> Forall (wop_wf nv) ops ->
  map pf (firstn (Z.to_nat nu) (history (block_ops (eps : @num RN) nv off n ops))) = recent nu eps (off, n) ops.
Proof. intros Hn Ho. rewrite <- firstn_map. unfold history, recent, pairs. now rewrite (hist_pairs nv). Qed.

Lemma block_ops_ok nv eps off n damped ops rs : 0 <= n <= nv -> (0 <= eps)%R -> Forall (wop_wf nv) ops -> In (off, n) rs ->
  (damped = true \/ Forall (curved eps rs) ops) -> Forall (op_ok n damped) (block_ops (eps : @num RN) nv off n ops).
Proof.
  intros Hn He Hops Hin Hc. induction Hops as [|o ops Ho Hops IH]; [constructor|]. unfold block_ops. cbn [flat_map]. apply Forall_app. split.
  - destruct o as [s y|]; [|constructor; [exact I|constructor]]. destruct Ho as (Ws & Ds & Wy & Dy). cbv zeta.
    rewrite norm_slicev, rn_is_zero by (auto; apply dotd_nonneg).
    destruct (Rle_bool_spec (dotd n (part (off, n) (dense s)) (part (off, n) (dense s))) eps) as [_|Hlt]; [constructor|].
    constructor; [|constructor]. cbn [op_ok]. split; [now apply slicev_vok|]. split; [now apply slicev_vok|].
    rewrite !dense_slicev. split; cbn [fst snd].
    + apply nonzero_dot. unfold part in Hlt. cbn [fst snd] in Hlt. lra.
    + destruct Hc as [Hc|Hc]; [now left|right]. apply Forall_cons_iff in Hc as [Hc _]. exact (Hc (off, n) Hin Hlt).
  - apply IH. destruct Hc as [Hc|Hc]; [now left|right]. now apply Forall_cons_iff in Hc as [_ Hc].
Qed.

Lemma sop_block_ops nv eps off n ops : 0 <= n <= nv -> Forall (wop_wf nv) ops -> Forall (sop_ok n) (block_ops (eps : @num RN) nv off n ops).
Proof.
  intros Hn Hops. induction Hops as [|o ops Ho Hops IH]; [constructor|]. unfold block_ops. cbn [flat_map]. apply Forall_app. split; [|exact IH].
  destruct o as [s y|]; [|constructor; [exact I|constructor]]. destruct Ho as (Ws & Ds & Wy & Dy). cbv zeta.
  destruct (is_zero _ _); constructor; [|constructor]. split; now apply slicev_vok.
Qed.

Lemma rn_vec_finite (v : rvec) : vec_is_finite v = true.
Proof. unfold vec_is_finite. apply forallb_forall. intros e _. reflexivity. Qed.

Lemma offsets_ranges {B} (bdim : B -> Z) (bs : list B) : forall lo ends, map bdim bs = sizes lo ends ->
  map (fun ob => (fst ob, bdim (snd ob))) (offsets bdim lo bs) = ranges lo ends.
Proof.
  induction bs as [|b bs IH]; intros lo [|e ends] E; cbn [sizes map] in E; try discriminate; [reflexivity|].
  injection E as E1 E2. cbn [offsets map ranges fst snd]. rewrite E1. f_equal. replace (lo + (e - lo)) with e by lia. now apply IH.
Qed.

Lemma last_ends dim ends : ends_ok dim ends -> ends <> [] -> last ends 0 <= dim.
Proof.
  intros [_ H] Hne. rewrite Forall_forall in H. apply H. destruct (exists_last Hne) as (l & a & ->).
  rewrite last_last. apply in_or_app. right. now left.
Qed.

(** Common part: a run of a whole approximation built for a Hessian structure. *)
Section Whole.
Context {B : Type} (bdim blen : B -> Z) (bpush : B -> rvec -> rvec -> res B) (breset : B -> B)
        (bprod : B -> rvec -> rvec -> res rvec) (create : Z -> res B).
Context (Hpd : forall b s y b', bpush b s y = Ok b' -> bdim b' = bdim b) (Hrd : forall b, bdim (breset b) = bdim b)
        (Hcd : forall n b, create n = Ok b -> bdim b = n /\ 0 < n).

Lemma whole_blocks dim ends h bs : 0 <= dim -> rfold push_block (mkhs dim dim []) ends = Ok h -> create_blocks h create = Ok bs ->
  map bdim bs = sizes 0 ends /\ Forall (fun b => 0 < bdim b <= dim) bs /\ total bdim bs <= dim /\
  Forall2 (fun n b => create n = Ok b) (sizes 0 ends) bs.
Proof.
  intros Hdim Hh Hb. destruct (push_all_blocks ends _ _ Hh) as (Hd & He & Hok); [split; [exact I|constructor]|].
  cbn [hs_dim hs_ends app] in *.
  destruct (create_blocks_sizes bdim h create bs (fun n b E => proj1 (Hcd n b E)) Hb) as [Hs Hf]. rewrite He in *.
  assert (Hpos : Forall (fun b => 0 < bdim b) bs).
  { clear -Hf Hcd. induction Hf as [|n b l bs E _ IH]; constructor; [|exact IH]. destruct (Hcd _ _ E). lia. }
  pose proof (total_sizes bdim bs 0 ends Hs) as Ht.
  assert (Hle : Forall (fun b => bdim b <= total bdim bs) bs).
  { clear -Hpos. assert (G : 0 <= total bdim bs /\ Forall (fun b => bdim b <= total bdim bs) bs); [|tauto].
    induction Hpos as [|b bs Hb Hpos [I1 I2]]; [split; [cbn; lia|constructor]|]. cbn [total fold_right]. fold (total bdim bs).
    split; [lia|]. constructor; [lia|]. eapply Forall_impl; [|exact I2]. cbn. intros. lia. }
  assert (Hlast : ends <> [] -> last ends 0 <= dim) by (now apply last_ends).
  destruct ends as [|e ends].
  - cbn [sizes] in Hs. destruct bs; [|discriminate]. split; [reflexivity|]. split; [constructor|].
    cbn [total fold_right]. split; [exact Hdim|constructor].
  - specialize (Hlast ltac:(discriminate)). split; [exact Hs|]. rewrite Z.sub_0_r in Ht.
    split; [|split; [lia|exact Hf]].
    apply Forall_forall. intros b Hin. rewrite Forall_forall in Hpos, Hle. specialize (Hpos b Hin). specialize (Hle b Hin). lia.
Qed.

Lemma Forall2_map_r {A C D} (P : A -> C -> Prop) (Q : C -> D -> Prop) (g : A -> D) l r :
  (forall a c, In a l -> P a c -> Q c (g a)) -> Forall2 P l r -> Forall2 Q r (map g l).
Proof. intros H F. induction F as [|a c l r Hac F IH]; cbn [map]; constructor; [apply H; [now left|exact Hac]|]. apply IH. intros; apply H; auto; now right. Qed.

Lemma whole_main dim ends h bs0 (eps : R) ops (Op : Z * Z -> op) :
  0 <= dim -> rfold push_block (mkhs dim dim []) ends = Ok h -> create_blocks h create = Ok bs0 ->
  Forall (wop_wf dim) ops ->
  (forall off n b0, create n = Ok b0 -> 0 <= n <= dim -> In (off, n) (ranges 0 ends) ->
     exists b, rfold (bop bpush breset) b0 (block_ops (eps : @num RN) dim off n ops) = Ok b /\
       forall v, vok n v -> vcap v = dim ->
       exists p, (if blen b =? 0 then Ok v else bprod b v (mkvec n dim [])) = Ok p /\ vok n p /\ dense p = Op (off, n) (dense v)) ->
  Forall (fun r => 0 < snd r) (ranges 0 ends) /\ fold_right (fun r t => snd r + t) 0 (ranges 0 ends) = last ends 0 /\ last ends 0 <= dim /\
  exists bs, rfold (whole_op bdim bpush breset (eps : @num RN) dim) bs0 ops = Ok bs /\
  forall v product : rvec, vok dim v -> vdim product = dim -> vent product = [] -> 0 <= vcap product ->
  exists out, qn_hess_prod bdim blen bprod dim bs v product = Ok out /\ vok dim out /\
    forall i, 0 <= i < dim -> dense out i = bdiag (map (fun r => (snd r, Op r)) (ranges 0 ends)) (dense v) i.
Proof.
  intros Hdim Hh Hb0 Hops Hblock. destruct (whole_blocks dim ends h bs0 Hdim Hh Hb0) as (Hs & Hd & Ht & Hf).
  pose proof (offsets_ranges bdim bs0 0 ends Hs) as Hr. pose proof (total_sizes bdim bs0 0 ends Hs) as Htot. rewrite Z.sub_0_r in Htot.
  assert (Hd' : Forall (fun b => 0 < bdim b) bs0) by (eapply Forall_impl; [|exact Hd]; cbn; intros; lia).
  assert (Hcr : Forall (fun b => create (bdim b) = Ok b) bs0).
  { clear -Hf Hcd. induction Hf as [|n b l bs E _ IH]; constructor; [|exact IH]. destruct (Hcd _ _ E) as [-> _]. exact E. }
  assert (Hob : forall ob, In ob (offsets bdim 0 bs0) -> create (bdim (snd ob)) = Ok (snd ob) /\ 0 < bdim (snd ob) <= dim /\
                 In (fst ob, bdim (snd ob)) (ranges 0 ends)).
  { intros [off b] Hin. destruct (offsets_ge bdim 0 bs0 off b Hd' Hin) as (_ & _ & Hb). cbn [fst snd].
    rewrite Forall_forall in Hcr, Hd. split; [now apply Hcr|]. split; [now apply Hd|].
    rewrite <- Hr. change (off, bdim b) with ((fun ob : Z * B => (fst ob, bdim (snd ob))) (off, b)). now apply in_map. }
  split.
  { rewrite <- Hr. apply Forall_forall. intros r Hin. apply in_map_iff in Hin as (ob & <- & Hin). cbn [snd]. destruct (Hob ob Hin). lia. }
  split.
  { rewrite <- Htot, <- Hr. clear. generalize 0 at 2. induction bs0 as [|b bs IH]; intros z; [reflexivity|].
    cbn [offsets map fold_right total snd]. fold (total bdim bs). now rewrite IH. }
  split; [lia|].
  destruct (whole_run_total bdim bpush breset Hpd Hrd rn_vec_finite (eps : @num RN) dim ops bs0 Hd Hops) as (bs & Ebs).
  { apply Forall_forall. intros ob Hin. destruct (Hob ob Hin) as (Hc & Hn & Hrg).
    destruct (Hblock (fst ob) (bdim (snd ob)) (snd ob) Hc ltac:(lia) Hrg) as (b & Eb & _). eauto. }
  exists bs. split; [exact Ebs|].
  pose proof (whole_run bdim bpush breset Hpd Hrd (eps : @num RN) dim ops bs0 bs Hd Hops Ebs) as Hrun.
  assert (Hbop : forall l (b b' : B), rfold (bop bpush breset) b l = Ok b' -> bdim b' = bdim b).
  { induction l as [|q l IHl]; intros c c' Ec; cbn [rfold] in Ec; [now inv Ec|]. apply rbind_ok in Ec as (c1 & E1 & Ec).
    rewrite (IHl _ _ Ec). destruct q; cbn [bop] in E1; [eapply Hpd, E1|inv E1; apply Hrd]. }
  destruct (Forall2_offsets bdim _ 0 bs0 bs Hrun) as [_ Hdims]. { intros o b b' E. exact (Hbop _ _ _ E). }
  apply prod_whole.
  - clear -Hd Hdims. revert bs Hdims. induction Hd as [|b0 bs0 Hb Hd IH]; intros [|b bs] E; try discriminate; [constructor|].
    cbn [map] in E. injection E as E1 E2. constructor; [cbv beta; rewrite E1; exact Hb|auto].
  - replace (total bdim bs) with (total bdim bs0); [exact Ht|]. clear -Hdims. revert bs Hdims.
    induction bs0 as [|b0 bs0 IH]; intros [|b bs] E; try discriminate; [reflexivity|]. cbn [map] in E. injection E as E1 E2.
    cbn [total fold_right]. fold (total bdim bs0) (total bdim bs). now rewrite E1, (IH _ E2).
  - rewrite <- Hr, map_map. cbn [fst snd]. eapply Forall2_map_r; [|exact Hrun]. intros ob b Hin E. cbn [fst snd].
    destruct (Hob ob Hin) as (Hc & Hn & Hrg). pose proof (Hbop _ _ _ E) as Db.
    destruct (Hblock (fst ob) (bdim (snd ob)) (snd ob) Hc ltac:(lia) Hrg) as (b' & Eb & Hp).
    assert (b' = b) by congruence. subst b'. rewrite Db. split; [reflexivity|exact Hp].
Qed.
End Whole.

Lemma bfgs_create_dim (nu : Z) damped sized junk n (b : @bblock RN) : bblock_create n nu damped sized junk = Ok b -> bb_dim b = n /\ 0 < n.
Proof.
  unfold bblock_create. intros E. apply rbind_ok in E as (u & E1 & E). apply rbind_ok in E as (u2 & E2 & E).
  apply check_ok in E1. apply Z.ltb_lt in E1. inv E. auto.
Qed.
Lemma bfgs_push_dim {N : Num} z b s y b' : bfgs_block_push z b s y = Ok b' -> bb_dim b' = bb_dim b.
Proof.
  unfold bfgs_block_push. intros E. do 7 (apply rbind_ok in E as (? & _ & E)).
  apply compute_products_frame in E as (E & _). exact E.
Qed.
Lemma bop_bfgs {N : Num} z : bop (bfgs_block_push z) bfgs_block_reset = bfgs_op z.
Proof. apply functional_extensionality. intros b. apply functional_extensionality. intros o. now destruct o. Qed.

Definition bfgs_operator (nu : Z) (damped sized : bool) (eps : R) (ends : list Z) (ops : list wop) : op :=
  bdiag (map (fun r => (snd r, bfgs_ref (snd r) damped sized (recent nu eps r ops))) (ranges 0 ends)).
Definition sr1_operator (nu : Z) (eps : R) (ends : list Z) (ops : list wop) : op :=
  bdiag (map (fun r => (snd r, sr1_ref (snd r) (recent nu eps r ops))) (ranges 0 ends)).

Lemma good_pairs eps r damped (rs : list (Z * Z)) ops : (0 <= eps)%R -> In r rs -> damped = true \/ Forall (curved eps rs) ops ->
  Forall (good_pair (snd r) damped) (pairs eps r ops).
Proof.
  intros He Hin Hc. unfold pairs. assert (G : Forall (good_pair (snd r) damped) []) by constructor. revert G.
  generalize (@nil ((Z -> R) * (Z -> R))). induction ops as [|o ops IH]; intros h G; [exact G|]. cbn [fold_left].
  assert (Hc' : damped = true \/ Forall (curved eps rs) ops) by (destruct Hc as [Hc|Hc]; [now left|right; now apply Forall_cons_iff in Hc as [_ Hc]]).
  apply (IH Hc'). destruct o as [s y|]; cbn [pairs_op]; [|constructor].
  destruct (Rle_bool_spec (dotd (snd r) (part r (dense s)) (part r (dense s))) eps) as [_|Hlt]; [exact G|].
  constructor; [|exact G]. split; cbn [fst snd].
  - apply nonzero_dot. lra.
  - destruct Hc as [Hc|Hc]; [now left|right]. apply Forall_cons_iff in Hc as [Hc _]. exact (Hc r Hin Hlt).
Qed.

(** ** C37 *)

(** The approximation of a Hessian structure with block ends [ends], after any sequence of pairs
    and resets: no operation fails, the product is that of a fixed linear, symmetric, positive
    semidefinite operator, positive definite on the nonlinear variables and zero on the others.
    With damping there is no condition on the pairs; otherwise the curvature must be positive. *)
Theorem C37_bfgs_operator : forall dim ends h nu damped sized junk eps ops bs0,
  0 <= dim -> rfold push_block (mkhs dim dim []) ends = Ok h ->
  create_blocks h (fun n => bblock_create n nu damped sized (junk : list (@num RN))) = Ok bs0 -> len junk = nu ->
  (0 <= eps)%R -> Forall (wop_wf dim) ops -> damped = true \/ Forall (curved eps (ranges 0 ends)) ops ->
  let H := bfgs_operator nu damped sized eps ends ops in
  (exists bs, rfold (whole_op bb_dim (bfgs_block_push (0%R : @num RN)) bfgs_block_reset (eps : @num RN) dim) bs0 ops = Ok bs /\
     forall v product : rvec, vok dim v -> vdim product = dim -> vent product = [] -> 0 <= vcap product ->
     exists out, bfgs_hess_prod (0%R : @num RN) dim bs v product = Ok out /\ vok dim out /\
       forall i, 0 <= i < dim -> dense out i = H (dense v) i) /\
  linear_op H /\ symmetric_op dim H /\
  (forall f, (0 <= dotd dim (H f) f)%R) /\
  (forall f, (exists i, 0 <= i < last ends 0 /\ f i <> 0%R) -> (0 < dotd dim (H f) f)%R) /\
  (forall f i, last ends 0 <= i -> H f i = 0%R).
Proof.
  intros dim ends h nu damped sized junk eps ops bs0 Hdim Hh Hb0 Hj He Hops Hc H.
  destruct (whole_main bb_dim bb_len (bfgs_block_push (0%R : @num RN)) bfgs_block_reset
    (fun b d p => hess_prod_range (0%R : @num RN) b d p (bb_curr b)) _ (bfgs_push_dim _) (fun b => eq_refl)
    (bfgs_create_dim nu damped sized junk) dim ends h bs0 eps ops
    (fun r => bfgs_ref (snd r) damped sized (recent nu eps r ops)) Hdim Hh Hb0 Hops) as (Hpos & Htot & Hlast & Hrun).
  { intros off n b0 Hc0 Hn Hin. destruct (bfgs_create_dim _ _ _ _ _ _ Hc0) as [_ Hn0].
    destruct (block_create_fun n nu damped sized junk b0 Hn0 Hj Hc0) as (Hr0 & Hnum & Hdamp & Hsz & Hnu).
    destruct (bfgs_run_fun n (block_ops (eps : @num RN) dim off n ops) b0 [] Hr0) as (b & Eb & Hrb & E1 & E2 & E3).
    { rewrite Hdamp. eapply block_ops_ok; eauto. }
    exists b. rewrite bop_bfgs. split; [exact Eb|]. intros v Hv Hcap.
    destruct (bready_prod n b _ v (mkvec n dim []) Hrb Hv) as (p & Ep & Hp & Dp); [apply vok_empty; lia|].
    unfold bfgs_block_prod in Ep. rewrite E1, E2, E3, Hnum, Hdamp, Hsz in Dp. cbn [snd].
    assert (Dp' : dense p = bfgs_ref n damped sized (recent nu eps (off, n) ops) (dense v)).
    { rewrite <- (recent_pairs nu dim eps off n ops) by auto. exact Dp. }
    clear Dp. rename Dp' into Dp.
    destruct (Z.eqb_spec (bb_len b) 0) as [E0|E0]; [|eauto].
    exists v. split; [reflexivity|]. split; [exact Hv|]. rewrite <- Dp. apply vec_copy_inv in Ep as (Ep & _). rewrite !dense_dn. now rewrite Ep. }
  assert (Hspd : Forall (fun p => linear_op (snd p) /\ symmetric_op (fst p) (snd p) /\ posdef_op (fst p) (snd p))
     (map (fun r => (snd r, bfgs_ref (snd r) damped sized (recent nu eps r ops))) (ranges 0 ends))).
  { apply Forall_forall. intros p Hin. apply in_map_iff in Hin as (r & <- & Hin). cbn [fst snd]. apply bfgs_ref_spd.
    pose proof (good_pairs eps r damped (ranges 0 ends) ops He Hin Hc) as G. unfold recent.
    rewrite <- (firstn_skipn (Z.to_nat nu) (pairs eps r ops)) in G. apply Forall_app in G. tauto. }
  assert (Hp : Forall (fun p => 0 < fst p) (map (fun r => (snd r, bfgs_ref (snd r) damped sized (recent nu eps r ops))) (ranges 0 ends))).
  { apply Forall_forall. intros p Hin. apply in_map_iff in Hin as (r & <- & Hin). cbn [fst]. rewrite Forall_forall in Hpos. now apply Hpos. }
  assert (Ht : tot (map (fun r => (snd r, bfgs_ref (snd r) damped sized (recent nu eps r ops))) (ranges 0 ends)) = last ends 0).
  { rewrite <- Htot. unfold tot. clear. induction (ranges 0 ends) as [|r l IH]; [reflexivity|]. cbn [map fold_right fst]. now rewrite IH. }
  assert (HD : forall f, (0 <= dotd dim (H f) f)%R /\ ((exists i, 0 <= i < last ends 0 /\ f i <> 0%R) -> (0 < dotd dim (H f) f)%R)).
  { intros f. rewrite <- Ht. apply bdiag_posdef; auto; [|rewrite Ht; exact Hlast]. eapply Forall_impl; [|exact Hspd]. cbn. tauto. }
  split; [exact Hrun|]. split; [apply bdiag_linear; eapply Forall_impl; [|exact Hspd]; cbn; tauto|].
  split; [apply bdiag_symmetric; auto; [eapply Forall_impl; [|exact Hspd]; cbn; tauto|rewrite Ht; exact Hlast]|].
  split; [apply HD|]. split; [apply HD|]. intros f i Hi. apply bdiag_behind; [exact Hp|]. rewrite Ht. exact Hi.
Qed.
Print Assumptions C37_bfgs_operator.

(** The operator of the block of r, at the indices of r. *)
Lemma bdiag_at (F : Z * Z -> op) f ends : forall lo r k, Forall (fun r => 0 < snd r) (ranges lo ends) -> In r (ranges lo ends) ->
  0 <= k < snd r ->
  bdiag (map (fun r => (snd r, F r)) (ranges lo ends)) (fun i => f (lo + i)) (fst r - lo + k) = F r (part r f) k.
Proof.
  induction ends as [|e ends IH]; intros lo r k Hp Hin Hk; [destruct Hin|]. cbn [ranges map bdiag In snd] in *.
  apply Forall_cons_iff in Hp as [Hp0 Hp]. cbn [snd] in Hp0. destruct Hin as [<-|Hin]; cbn [fst snd] in *.
  - replace (lo - lo + k) with k by lia. destruct (Z.ltb_spec k (e - lo)); [|lia]. reflexivity.
  - assert (Hge : e <= fst r).
    { clear -Hin Hp. revert e Hin Hp. induction ends as [|e' ends IH]; intros e Hin Hp; [destruct Hin|]. cbn [ranges In] in Hin.
      cbn [ranges] in Hp. apply Forall_cons_iff in Hp as [Hp0 Hp]. cbn [snd] in Hp0. destruct Hin as [<-|Hin]; [cbn; lia|].
      pose proof (IH _ Hin Hp). lia. }
    destruct (Z.ltb_spec (fst r - lo + k) (e - lo)); [lia|].
    replace (fst r - lo + k - (e - lo)) with (fst r - e + k) by lia.
    rewrite <- (IH e r k Hp Hin Hk). f_equal. apply functional_extensionality. intros i. f_equal. lia.
Qed.

(** All blocks nonempty: what sleqp_hess_struct_push_block should guarantee (see C18). *)
Definition nonempty (ends : list Z) : Prop := Forall (fun r => 0 < snd r) (ranges 0 ends).

(** Secant equation of the block of r for the newest step: the operator maps the step to a convex
    combination of the gradient difference and the image of the step under the operator without
    the newest pair, to the gradient difference itself if the curvature is sufficient. *)
Theorem C37_secant : forall ends nu damped sized eps ops s y r, nonempty ends -> In r (ranges 0 ends) -> 0 < nu -> (0 <= eps)%R ->
  damped = true \/ Forall (curved eps (ranges 0 ends)) (ops ++ [WPush s y]) ->
  (eps < dotd (snd r) (part r (dense s)) (part r (dense s)))%R ->
  let H := bfgs_operator nu damped sized eps ends (ops ++ [WPush s y]) in
  let B := bspec (snd r) damped sized (bscale (snd r) damped (part r (dense s)) (part r (dense y))) (recent (nu - 1) eps r ops) in
  let sBs := dotd (snd r) (B (part r (dense s))) (part r (dense s)) in
  (0 < sBs)%R /\
  exists theta, (0 < theta <= 1)%R /\
    (forall i, fst r <= i < fst r + snd r ->
       H (dense s) i = (theta * dense y i + (1 - theta) * B (part r (dense s)) (i - fst r)%Z)%R) /\
    (damped = false \/ (2 / 10 * sBs <= dotd (snd r) (part r (dense y)) (part r (dense s)))%R -> theta = 1%R).
Proof.
  intros ends nu damped sized eps ops s y r Hne Hin Hnu He Hc Hlt H B sBs.
  pose proof (good_pairs eps r damped (ranges 0 ends) _ He Hin Hc) as Hg.
  unfold pairs in Hg. rewrite fold_left_app in Hg. cbn [fold_left pairs_op] in Hg. fold (pairs eps r ops) in Hg.
  destruct (Rle_bool_spec (dotd (snd r) (part r (dense s)) (part r (dense s))) eps) as [Hle|_]; [lra|].
  assert (Erec : recent nu eps r (ops ++ [WPush s y]) = (part r (dense s), part r (dense y)) :: recent (nu - 1) eps r ops).
  { unfold recent at 1, pairs. rewrite fold_left_app. cbn [fold_left pairs_op]. fold (pairs eps r ops).
    destruct (Rle_bool_spec (dotd (snd r) (part r (dense s)) (part r (dense s))) eps) as [Hle|_]; [lra|].
    replace (Z.to_nat nu) with (S (Z.to_nat (nu - 1))) by lia. reflexivity. }
  assert (Hg' : Forall (good_pair (snd r) damped) ((part r (dense s), part r (dense y)) :: recent (nu - 1) eps r ops)).
  { apply Forall_cons_iff in Hg as [G1 G2]. constructor; [exact G1|]. unfold recent.
    rewrite <- (firstn_skipn (Z.to_nat (nu - 1)) (pairs eps r ops)) in G2. apply Forall_app in G2. tauto. }
  pose proof (bscale_pos (snd r) damped (part r (dense s)) (part r (dense y))) as Hsc.
  apply Forall_cons_iff in Hg' as [[Hn Hd] Hg2]. cbn [fst snd] in Hn, Hd.
  destruct (bspec_spd (snd r) damped sized _ _ Hsc Hg2) as (B1 & B2 & B3).
  split; [apply B3, Hn|].
  destruct (damp_spec (snd r) damped B (part r (dense s)) (part r (dense y)) B3 Hn) as (theta & Ht & Hth & Hone & Hund).
  exists theta. split; [exact Ht|]. split; [|tauto]. intros i Hi.
  assert (EH : H (dense s) i = bfgs_ref (snd r) damped sized (recent nu eps r (ops ++ [WPush s y])) (part r (dense s)) (i - fst r)).
  { rewrite <- (bdiag_at (fun r => bfgs_ref (snd r) damped sized (recent nu eps r (ops ++ [WPush s y]))) (dense s) ends 0 r (i - fst r) Hne Hin) by lia.
    unfold H, bfgs_operator. replace (fst r - 0 + (i - fst r)) with i by lia. reflexivity. }
  rewrite EH, Erec. cbn [bfgs_ref]. rewrite bspec_secant by (first [exact Hsc|constructor; [split; assumption|exact Hg2]]).
  fold B. rewrite Hth. f_equal. f_equal. unfold part, restr. replace (fst r + (i - fst r)) with i by lia.
  destruct (Z.leb_spec 0 (i - fst r)), (Z.ltb_spec (i - fst r) (snd r)); try lia. reflexivity.
Qed.
Print Assumptions C37_secant.

(** What a push after an accepted step passes on: the change of the Lagrangian gradient (fixed
    multipliers) and the change of the primal point. *)
Theorem C37_push_pair : forall {B} (bdim : B -> Z) bpush breset (eps : R) nv nc (bs : list B) (x0 g0 x1 g1 mult : rvec) j0 j1 cs0 cs1,
  0 <= nv -> vok nv x0 -> vok nv g0 -> vok nv x1 -> vok nv g1 -> vok nc mult ->
  stores j0 cs0 -> mnr j0 = nc -> mnc j0 = nv -> stores j1 cs1 -> mnr j1 = nc -> mnc j1 = nv ->
  exists s y, wop_wf nv (WPush s y) /\
    qn_push bdim bpush (eps : @num RN) (0%R : @num RN) nv bs x0 g0 j0 x1 g1 j1 mult
      = whole_op bdim bpush breset (eps : @num RN) nv bs (WPush s y) /\
    (forall i, 0 <= i < nv -> dense s i = (dense x1 i - dense x0 i)%R) /\
    (forall i, 0 <= i < nv -> dense y i =
       ((dense g1 i + sumd nc (fun k => mR cs1 k i * dense mult k)) - (dense g0 i + sumd nc (fun k => mR cs0 k i * dense mult k)))%R).
Proof.
  intros B bdim bpush breset eps nv nc bs x0 g0 x1 g1 mult j0 j1 cs0 cs1 Hnv [X0 D0] [G0 DG0] [X1 D1] [G1 DG1] [M DM] S0 R0 C0 S1 R1 C1.
  assert (Hc : wf (mkvec nv nv [] : rvec)) by (apply (vok_empty nv nv); lia).
  destruct (mult_vec_trans_real j0 cs0 mult (mkvec nv nv []) S0 M ltac:(lia) Hc) as (p0 & E0 & P0 & DP0 & F0); [cbn [vdim]; lia|].
  destruct (mult_vec_trans_real j1 cs1 mult (mkvec nv nv []) S1 M ltac:(lia) Hc) as (p1 & E1 & P1 & DP1 & F1); [cbn [vdim]; lia|].
  destruct (add_scaled_real p0 g0 (mkvec nv nv []) 1 1 P0 G0 ltac:(lia) Hnv) as (l0 & E2 & L0 & DL0 & F2).
  destruct (add_scaled_real p1 g1 (mkvec nv nv []) 1 1 P1 G1 ltac:(lia) Hnv) as (l1 & E3 & L1 & DL1 & F3).
  destruct (add_scaled_real l0 l1 (mkvec nv nv []) (-1) 1 L0 L1 ltac:(lia) Hnv) as (y & E4 & Y & DY & F4).
  destruct (add_scaled_real x0 x1 (mkvec nv nv []) (-1) 1 X0 X1 ltac:(lia) Hnv) as (s & E5 & S & DS & F5).
  exists s, y. split; [repeat split; auto; try apply S; try apply Y; lia|]. split.
  - unfold qn_push, vec_add. rewrite !rn_n1, rn_lit1. rewrite E0. cbn [rbind].
    rewrite E2. cbn [rbind]. rewrite E1. cbn [rbind]. rewrite E3. cbn [rbind]. rewrite E4. cbn [rbind]. rewrite E5. reflexivity.
  - split; intros i Hi.
    + rewrite F5. lra.
    + rewrite F4, F3, F2, F1, F0 by lia. rewrite R0, R1. lra.
Qed.
Print Assumptions C37_push_pair.

(** ** C38 *)
Lemma sr1_create_dim {N : Num} (nu : Z) junk n (b : sblock) : sblock_create n nu junk = Ok b -> sb_dim b = n /\ 0 < n.
Proof.
  unfold sblock_create. intros E. apply rbind_ok in E as (u & E1 & E). apply rbind_ok in E as (u2 & E2 & E).
  apply check_ok in E1. apply Z.ltb_lt in E1. inv E. auto.
Qed.
Lemma sr1_push_dim {N : Num} z b s y b' : sr1_block_push z b s y = Ok b' -> sb_dim b' = sb_dim b.
Proof.
  unfold sr1_block_push. intros E. do 6 (apply rbind_ok in E as (? & _ & E)).
  apply inner_products_frame in E as (E & _). exact E.
Qed.
Lemma bop_sr1 {N : Num} z : bop (sr1_block_push z) sr1_block_reset = sr1_op z.
Proof. apply functional_extensionality. intros b. apply functional_extensionality. intros o. now destruct o. Qed.

(** As C37, without positive definiteness and without any condition on the pairs. *)
Theorem C38_sr1_operator : forall dim ends h nu junk eps ops bs0,
  0 <= dim -> rfold push_block (mkhs dim dim []) ends = Ok h ->
  create_blocks h (fun n => sblock_create n nu (junk : list (@num RN))) = Ok bs0 -> len junk = nu ->
  Forall (wop_wf dim) ops ->
  let H := sr1_operator nu eps ends ops in
  (exists bs, rfold (whole_op sb_dim (sr1_block_push (0%R : @num RN)) sr1_block_reset (eps : @num RN) dim) bs0 ops = Ok bs /\
     forall v product : rvec, vok dim v -> vdim product = dim -> vent product = [] -> 0 <= vcap product ->
     exists out, sr1_hess_prod (0%R : @num RN) dim bs v product = Ok out /\ vok dim out /\
       forall i, 0 <= i < dim -> dense out i = H (dense v) i) /\
  linear_op H /\ symmetric_op dim H /\ (forall f i, last ends 0 <= i -> H f i = 0%R).
Proof.
  intros dim ends h nu junk eps ops bs0 Hdim Hh Hb0 Hj Hops H.
  destruct (whole_main sb_dim sb_len (sr1_block_push (0%R : @num RN)) sr1_block_reset
    (fun b d p => sr1_block_hess_prod (0%R : @num RN) b d p) _ (sr1_push_dim _) (fun b => eq_refl)
    (sr1_create_dim nu junk) dim ends h bs0 eps ops
    (fun r => sr1_ref (snd r) (recent nu eps r ops)) Hdim Hh Hb0 Hops) as (Hpos & Htot & Hlast & Hrun).
  { intros off n b0 Hc0 Hn Hin. destruct (sr1_create_dim _ _ _ _ Hc0) as [_ Hn0].
    destruct (sr1_create_fun n nu junk b0 Hn0 Hj Hc0) as (Hr0 & Hnum & Hnu).
    destruct (sr1_run_fun n (block_ops (eps : @num RN) dim off n ops) b0 [] Hr0) as (b & Eb & Hrb & E1).
    { now apply sop_block_ops. }
    exists b. rewrite bop_sr1. split; [exact Eb|]. intros v Hv Hcap.
    destruct (sready_prod n b _ v (mkvec n dim []) Hrb Hv) as (p & Ep & Hp & Dp); [apply vok_empty; lia|].
    rewrite E1, Hnum in Dp. cbn [snd].
    assert (Dp' : dense p = sr1_ref n (recent nu eps (off, n) ops) (dense v)).
    { rewrite <- (recent_pairs nu dim eps off n ops) by auto. exact Dp. }
    clear Dp. rename Dp' into Dp.
    destruct (Z.eqb_spec (sb_len b) 0) as [E0|E0]; [|eauto].
    exists v. split; [reflexivity|]. split; [exact Hv|]. rewrite <- Dp. unfold sr1_block_hess_prod in Ep.
    apply rbind_ok in Ep as (p0 & Ep0 & Ep). rewrite (proj2 (Z.eqb_eq _ _) E0) in Ep. inv Ep.
    apply vec_copy_inv in Ep0 as (Ep0 & _). rewrite !dense_dn. now rewrite Ep0. }
  assert (Hs : Forall (fun p => linear_op (snd p) /\ symmetric_op (fst p) (snd p))
     (map (fun r => (snd r, sr1_ref (snd r) (recent nu eps r ops))) (ranges 0 ends))).
  { apply Forall_forall. intros p Hin. apply in_map_iff in Hin as (r & <- & Hin). cbn [fst snd]. apply sr1_ref_sym. }
  assert (Hp : Forall (fun p => 0 < fst p) (map (fun r => (snd r, sr1_ref (snd r) (recent nu eps r ops))) (ranges 0 ends))).
  { apply Forall_forall. intros p Hin. apply in_map_iff in Hin as (r & <- & Hin). cbn [fst]. rewrite Forall_forall in Hpos. now apply Hpos. }
  assert (Ht : tot (map (fun r => (snd r, sr1_ref (snd r) (recent nu eps r ops))) (ranges 0 ends)) = last ends 0).
  { rewrite <- Htot. unfold tot. clear. induction (ranges 0 ends) as [|r l IH]; [reflexivity|]. cbn [map fold_right fst]. now rewrite IH. }
  split; [exact Hrun|]. split; [apply bdiag_linear; eapply Forall_impl; [|exact Hs]; cbn; tauto|].
  split; [apply bdiag_symmetric; auto; [eapply Forall_impl; [|exact Hs]; cbn; tauto|rewrite Ht; exact Hlast]|].
  intros f i Hi. apply bdiag_behind; [exact Hp|]. rewrite Ht. exact Hi.
Qed.
Print Assumptions C38_sr1_operator.

(** Secant equation: if the safeguard does not skip the newest pair of the block. *)
Theorem C38_secant : forall ends nu eps ops s y r, nonempty ends -> In r (ranges 0 ends) -> 0 < nu ->
  (eps < dotd (snd r) (part r (dense s)) (part r (dense s)))%R ->
  let H := sr1_operator nu eps ends (ops ++ [WPush s y]) in
  let B := sspec (snd r) (sscale (snd r) (part r (dense s)) (part r (dense y))) (recent (nu - 1) eps r ops) in
  (~ sr1_skipped (snd r) B (part r (dense s)) (part r (dense y)) ->
   forall i, fst r <= i < fst r + snd r -> H (dense s) i = dense y i) /\
  (sr1_skipped (snd r) B (part r (dense s)) (part r (dense y)) ->
   forall f i, fst r <= i < fst r + snd r -> H f i = B (part r f) (i - fst r)).
Proof.
  intros ends nu eps ops s y r Hne Hin Hnu Hlt H B.
  assert (Erec : recent nu eps r (ops ++ [WPush s y]) = (part r (dense s), part r (dense y)) :: recent (nu - 1) eps r ops).
  { unfold recent at 1, pairs. rewrite fold_left_app. cbn [fold_left pairs_op]. fold (pairs eps r ops).
    destruct (Rle_bool_spec (dotd (snd r) (part r (dense s)) (part r (dense s))) eps) as [Hle|_]; [lra|].
    replace (Z.to_nat nu) with (S (Z.to_nat (nu - 1))) by lia. reflexivity. }
  assert (EH : forall f i, fst r <= i < fst r + snd r ->
    H f i = sspec (snd r) (sscale (snd r) (part r (dense s)) (part r (dense y)))
              ((part r (dense s), part r (dense y)) :: recent (nu - 1) eps r ops) (part r f) (i - fst r)).
  { intros f i Hi. rewrite <- Erec.
    transitivity (sr1_ref (snd r) (recent nu eps r (ops ++ [WPush s y])) (part r f) (i - fst r)); [|now rewrite Erec].
    rewrite <- (bdiag_at (fun r => sr1_ref (snd r) (recent nu eps r (ops ++ [WPush s y]))) f ends 0 r (i - fst r) Hne Hin) by lia.
    unfold H, sr1_operator. replace (fst r - 0 + (i - fst r)) with i by lia. reflexivity. }
  split; intros Hskip.
  - intros i Hi. rewrite EH, sspec_secant by assumption. unfold part, restr.
    replace (fst r + (i - fst r)) with i by lia.
    destruct (Z.leb_spec 0 (i - fst r)), (Z.ltb_spec (i - fst r) (snd r)); try lia. reflexivity.
  - intros f i Hi. rewrite EH by assumption. cbn [sspec]. fold B. cbv zeta. apply sr1_skip_iff in Hskip. now rewrite Hskip.
Qed.
Print Assumptions C38_secant.

(** ** C39 *)

(** The pairs kept for block r, newest first, entry by entry (any arithmetic): the entries with
    index in r, renumbered; skipped if the squared norm of the step is not above eps. *)
Definition kept_op {N : Num} (eps : num) (nv : Z) (r : Z * Z) (h : list (list (Z * num) * list (Z * num))) (o : wop) :=
  match o with
  | WPush s y =>
    let p := slice (vent s) (fst r) (snd r) in
    if is_zero (vec_norm_sq (mkvec (snd r) nv p)) eps then h else (p, slice (vent y) (fst r) (snd r)) :: h
  | WReset => []
  end.
Definition kept {N : Num} (eps : num) (nv : Z) (r : Z * Z) (ops : list wop) := fold_left (kept_op eps nv r) ops [].

Lemma history_kept {N : Num} eps nv r ops : history (block_ops eps nv (fst r) (snd r) ops) = kept eps nv r ops.
Proof.
  unfold history, kept, block_ops. generalize (@nil (list (Z * num) * list (Z * num))).
  induction ops as [|o ops IH]; intros h; [reflexivity|]. cbn [flat_map fold_left]. rewrite fold_left_app, IH. f_equal.
  destruct o as [s y|]; [|reflexivity]. cbn [kept_op]. cbv zeta. unfold slicev. destruct (is_zero _ _); reflexivity.
Qed.

Section Pairs.
Context {N : Num} {B : Type} (bdim : B -> Z) (bpush : B -> vec -> vec -> res B) (breset : B -> B) (create : Z -> res B)
  (bpairs : B -> res (list (list (Z * num) * list (Z * num)))) (nu : Z).
Context (Hpd : forall b s y b', bpush b s y = Ok b' -> bdim b' = bdim b) (Hrd : forall b, bdim (breset b) = bdim b)
        (Hcd : forall n b, create n = Ok b -> bdim b = n /\ 0 < n)
        (Hrun : forall n b0 ops b, create n = Ok b0 -> rfold (bop bpush breset) b0 ops = Ok b ->
           bpairs b = Ok (rev (firstn (Z.to_nat nu) (history ops)))).

Lemma whole_pairs dim ends h eps ops bs0 bs : 0 <= dim -> rfold push_block (mkhs dim dim []) ends = Ok h ->
  create_blocks h create = Ok bs0 -> Forall (wop_wf dim) ops -> rfold (whole_op bdim bpush breset eps dim) bs0 ops = Ok bs ->
  map bpairs bs = map (fun r => Ok (rev (firstn (Z.to_nat nu) (kept eps dim r ops)))) (ranges 0 ends).
Proof.
  intros Hdim Hh Hb0 Hops Eb. destruct (whole_blocks bdim create Hcd dim ends h bs0 Hdim Hh Hb0) as (Hs & Hd & Ht & Hf).
  pose proof (whole_run bdim bpush breset Hpd Hrd eps dim ops bs0 bs Hd Hops Eb) as F.
  rewrite <- (offsets_ranges bdim bs0 0 ends Hs). rewrite map_map. cbn [fst snd].
  assert (Hcr : Forall (fun b => create (bdim b) = Ok b) bs0).
  { clear -Hf Hcd. induction Hf as [|n b l bs E _ IH]; constructor; [|exact IH]. destruct (Hcd _ _ E) as [-> _]. exact E. }
  clear -F Hcr Hrun. revert F Hcr. generalize 0. revert bs. induction bs0 as [|b0 bs0 IH]; intros bs off F Hcr; cbn [offsets] in F;
    inversion F as [|? b ? bs' F1 F2]; subst; [reflexivity|]. apply Forall_cons_iff in Hcr as [Hc0 Hcr].
  cbn [offsets map fst snd] in *. f_equal; [|now apply IH].
  rewrite (Hrun _ _ _ _ Hc0 F1). f_equal. f_equal. f_equal. apply (history_kept eps dim (off, bdim b0) ops).
Qed.
End Pairs.

(** Every block of a BFGS approximation holds exactly the last nu pairs pushed (and not skipped)
    since the last reset, oldest first; in any arithmetic. *)
Theorem C39_bfgs_pairs : forall {N : Num} dim ends h nu damped sized junk eps zeps ops bs0 bs,
  0 <= dim -> rfold push_block (mkhs dim dim []) ends = Ok h ->
  create_blocks h (fun n => bblock_create n nu damped sized junk) = Ok bs0 -> Forall (wop_wf dim) ops ->
  rfold (whole_op bb_dim (bfgs_block_push zeps) bfgs_block_reset eps dim) bs0 ops = Ok bs ->
  map bfgs_pairs bs = map (fun r => Ok (rev (firstn (Z.to_nat nu) (kept eps dim r ops)))) (ranges 0 ends).
Proof.
  intros. eapply whole_pairs; try eassumption.
  - apply bfgs_push_dim.
  - reflexivity.
  - intros n b E. cbv beta in E. unfold bblock_create in E. apply rbind_ok in E as (u & E1 & E). apply rbind_ok in E as (u2 & E2 & E).
    apply check_ok in E1. apply Z.ltb_lt in E1. inv E. auto.
  - intros n b0 l b E R. cbv beta in E. rewrite bop_bfgs in R. now apply (bfgs_run_pairs _ _ _ _ _ _ _ _ _ E R).
Qed.
Print Assumptions C39_bfgs_pairs.

Theorem C39_sr1_pairs : forall {N : Num} dim ends h nu junk eps zeps ops bs0 bs,
  0 <= dim -> rfold push_block (mkhs dim dim []) ends = Ok h ->
  create_blocks h (fun n => sblock_create n nu junk) = Ok bs0 -> Forall (wop_wf dim) ops ->
  rfold (whole_op sb_dim (sr1_block_push zeps) sr1_block_reset eps dim) bs0 ops = Ok bs ->
  map sr1_pairs bs = map (fun r => Ok (rev (firstn (Z.to_nat nu) (kept eps dim r ops)))) (ranges 0 ends).
Proof.
  intros. eapply whole_pairs; try eassumption.
  - apply sr1_push_dim.
  - reflexivity.
  - intros n b E. now apply (sr1_create_dim nu junk).
  - intros n b0 l b E R. cbv beta in E. rewrite bop_sr1 in R. now apply (sr1_run_pairs _ _ _ _ _ _ _ E R).
Qed.
Print Assumptions C39_sr1_pairs.

(** ** C18: the structure used here against the array of hess_struct.c (Registry.v) *)
Theorem C18_abstraction : forall dim ends h, 0 <= dim -> rfold push_block (mkhs dim dim []) ends = Ok h ->
  exists s0 s, Registry.hs_create dim true = Ok s0 /\ rfold Registry.hs_push s0 ends = Ok s /\
    Registry.snum s = len (hs_ends h) /\ Registry.sdim s = hs_dim h /\
    forall k, 0 <= k < len ends -> Registry.hs_range s k = block_range h k.
Proof.
  intros dim ends h Hdim. destruct (Registry.hs_create_spec dim Hdim) as (s0 & E0 & B0 & D0).
  assert (G : forall l (es : list Z) s h', Registry.blocks s es -> Registry.sdim s = dim ->
    rfold push_block (mkhs dim dim es) l = Ok h' ->
    exists s', rfold Registry.hs_push s l = Ok s' /\ Registry.blocks s' (es ++ l) /\ Registry.sdim s' = dim /\ hs_ends h' = es ++ l /\ hs_dim h' = dim).
  { induction l as [|e l IH]; intros es s h' B D E; cbn [rfold] in E |- *.
    - inv E. exists s. rewrite app_nil_r. auto.
    - apply rbind_ok in E as (h1 & E1 & E). unfold push_block in E1. cbn [hs_dim hs_ends hs_cap] in E1.
      destruct (Z.ltb_spec dim e); [discriminate|]. destruct (Z.leb_spec dim (len es)); [discriminate|].
      destruct (negb _ && (e <=? last es 0)) eqn:E2; [discriminate|]. apply rbind_ok in E1 as (u & _ & E1). inv E1.
      destruct (Registry.hs_push_spec s es e B) as [Hok _]. destruct Hok as (s1 & E3 & B1 & D1).
      { split; [lia|]. split; [lia|]. intros Hne. destruct es as [|a es]; [congruence|]. cbn [negb andb] in E2. now apply Z.leb_gt in E2. }
      rewrite E3. cbn [rbind]. destruct (IH (es ++ [e]) s1 h' B1 ltac:(congruence) E) as (s' & E4 & B4 & D4 & H4 & H5).
      rewrite <- app_assoc in *. exists s'. auto. }
  intros E. destruct (G ends [] s0 h B0 D0 E) as (s & Es & Bs & Ds & Hh & Hd). cbn [app] in *.
  exists s0, s. split; [exact E0|]. split; [exact Es|]. split; [rewrite Hh; apply Bs|]. split; [congruence|].
  intros k Hk. rewrite block_range_ok by (rewrite Hh; exact Hk). rewrite Hh.
  pose proof (Registry.hs_range_spec s ends (Z.to_nat k) (nth (Z.to_nat k) ends 0) Bs) as R. rewrite Z2Nat.id in R by lia.
  rewrite R by (apply nth_error_nth'; lia). destruct (Z.to_nat k); reflexivity.
Qed.
Print Assumptions C18_abstraction.
Example C18_abstraction_example : exists h, rfold push_block (mkhs 7 7 []) [2; 5] = Ok h /\ block_range h 1 = Ok (2, 5).
Proof. eexists. split; reflexivity. Qed.

(** ** Examples *)
Definition ex_s : rvec := mkvec 3 3 [(0, 1%R); (1, 2%R)].
Definition ex_y : rvec := mkvec 3 3 [(0, 3%R); (1, (-1)%R)].
Definition ex_y' : rvec := mkvec 3 3 [(0, (-3)%R); (1, (-1)%R)].

(** Curvature 1 along the step, so that the undamped variant may be used as well. *)
Example C37_example : exists h bs0, rfold push_block (mkhs 3 3 []) [2] = Ok h /\
  create_blocks h (fun n => bblock_create n 2 false true ([0%R; 0%R] : list (@num RN))) = Ok bs0 /\
  Forall (wop_wf 3) [WReset; WPush ex_s ex_y; WPush ex_y ex_s] /\
  Forall (curved 0 (ranges 0 [2])) [WReset; WPush ex_s ex_y; WPush ex_y ex_s] /\
  nonempty [2] /\ In (0, 2) (ranges 0 [2]) /\ (0 < dotd 2 (part (0%Z, 2%Z) (dense ex_s)) (part (0%Z, 2%Z) (dense ex_s)))%R.
Proof.
  assert (Hs : wf ex_s) by (unfold wf, ex_s; cbn; repeat split; lia).
  assert (Hy : wf ex_y) by (unfold wf, ex_y; cbn; repeat split; lia).
  assert (D : dotd 2 (part (0, 2) (dense ex_y)) (part (0, 2) (dense ex_s)) = 1%R).
  { unfold dotd, sumd. change (Z.to_nat 2) with 2%nat. unfold part, restr, dense, ex_s, ex_y. cbn. lra. }
  assert (D2 : dotd 2 (part (0, 2) (dense ex_s)) (part (0, 2) (dense ex_s)) = 5%R).
  { unfold dotd, sumd. change (Z.to_nat 2) with 2%nat. unfold part, restr, dense, ex_s, ex_y. cbn. lra. }
  eexists. eexists. split; [reflexivity|]. split; [reflexivity|]. split; [repeat constructor; auto; try apply Hs; try apply Hy|].
  split; [constructor; [exact I|constructor; [|constructor; [|constructor]]]|].
  - intros r [<-|[]] _. cbn [snd ranges]. change (2 - 0) with 2. rewrite D. lra.
  - intros r [<-|[]] _. cbn [snd ranges]. change (2 - 0) with 2. rewrite dotd_sym, D. lra.
  - split; [repeat constructor|]. split; [now left|]. rewrite D2. lra.
Qed.

(** SR1 with a step whose update is not skipped: curvature -1, initial scale 1/10000. *)
Definition ex_t : rvec := mkvec 3 3 [(0, 1%R)].
Definition ex_u : rvec := mkvec 3 3 [(0, (-1)%R)].
Example C38_example : exists h bs0, rfold push_block (mkhs 3 3 []) [1; 3] = Ok h /\
  create_blocks h (fun n => sblock_create n 2 ([0%R; 0%R] : list (@num RN))) = Ok bs0 /\
  Forall (wop_wf 3) [WPush ex_t ex_u] /\ nonempty [1; 3] /\ In (0, 1) (ranges 0 [1; 3]) /\
  (0 < dotd 1 (part (0%Z, 1%Z) (dense ex_t)) (part (0%Z, 1%Z) (dense ex_t)))%R /\
  ~ sr1_skipped 1 (sspec 1 (sscale 1 (part (0, 1) (dense ex_t)) (part (0, 1) (dense ex_u))) (recent 1 0 (0, 1) []))
      (part (0, 1) (dense ex_t)) (part (0, 1) (dense ex_u)).
Proof.
  assert (Hs : wf ex_t) by (unfold wf, ex_t; cbn; repeat split; lia).
  assert (Hy : wf ex_u) by (unfold wf, ex_u; cbn; repeat split; lia).
  eexists. eexists. split; [reflexivity|]. split; [reflexivity|]. split; [repeat constructor; auto; try apply Hs; try apply Hy|].
  split; [repeat constructor|]. split; [now left|]. split.
  { unfold dotd, sumd. change (Z.to_nat 1) with 1%nat. unfold part, restr, dense, ex_t. cbn. lra. }
  assert (Esc : sscale 1 (part (0, 1) (dense ex_t)) (part (0, 1) (dense ex_u)) = (1 / 10000)%R).
  { unfold sscale. destruct (Rlt_bool_spec 0 (dotd 1 (part (0, 1) (dense ex_u)) (part (0, 1) (dense ex_t)))) as [H|H]; [|reflexivity].
    exfalso. revert H. unfold dotd, sumd. change (Z.to_nat 1) with 1%nat. unfold part, restr, dense, ex_t, ex_u. cbn. lra. }
  unfold sr1_skipped. rewrite Esc. cbn [recent pairs fold_left firstn Z.to_nat sspec].
  change (firstn (Pos.to_nat 1) []) with (@nil ((Z -> R) * (Z -> R))). cbn [sspec].
  unfold norm2, dotd, sumd. change (Z.to_nat 1) with 1%nat. unfold part, restr, dense, ex_t, ex_u. cbn.
  set (q := (-1 - 1 / 10000 * 1)%R). replace (0 + q * q)%R with (- q * - q)%R by ring. replace (0 + 1 * 1)%R with (1 * 1)%R by ring.
  rewrite !sqrt_square by (unfold q; lra). rewrite Rabs_left by (unfold q; lra). unfold q. intros [H|H]; lra.
Qed.

(** ** Refutations, with doubles *)
Definition dq (p q : Z) : f64 := @nlit F64 p q.
Definition fv (n : Z) (l : list (Z * f64)) : @vec F64 := mkvec n n l.
(** A new approximation, one operation after the other, one product. *)
Definition bfgs_prod64 (damped : bool) (zeps : f64) (ends : list Z) (dim : Z) (ops : list (@wop F64)) (v : list (Z * f64)) : res (@vec F64) :=
  h <- rfold push_block (mkhs dim dim []) ends ;;
  bs <- create_blocks h (fun n => bblock_create n 2 damped false ([n0; n0] : list (@num F64))) ;;
  bs <- rfold (whole_op bb_dim (bfgs_block_push zeps) bfgs_block_reset (dq 1 10000000000) dim) bs ops ;;
  bfgs_hess_prod zeps dim bs (mkvec dim dim v) (mkvec dim dim []).
Definition is_trap {A} (r : res A) : bool := match r with Trap => true | _ => false end.
Definition entry_is (r : res (@vec F64)) (i : Z) (x : f64) : bool := match r with Ok v => @neqb F64 (dense v i) x | _ => false end.

(** SLEQP_HESS_EVAL_SIMPLE_BFGS: an accepted step along negative curvature violates the assertion
    at bfgs.c:511. *)
Theorem C37_undamped_refuted : exists s y v,
  is_trap (bfgs_prod64 false (dq 1 (10 ^ 20)) [1] 1 [WPush (fv 1 [(0, s)]) (fv 1 [(0, y)])] [(0, v)]) = true.
Proof. exists (dq 1 1), (dq (-1) 1), (dq 1 1). vm_compute. reflexivity. Qed.
Print Assumptions C37_undamped_refuted.

(** With the default SLEQP_SETTINGS_REAL_ZERO_EPS = 1e-20 the product of a nonzero direction can be
    zero, so that the operator is not positive definite in the strict sense. *)
Theorem C37_zero_eps_refuted : exists s y v, @neqb F64 v (dq 0 1) = false /\
  entry_is (bfgs_prod64 true (dq 1 (10 ^ 20)) [1] 1 [WPush (fv 1 [(0, s)]) (fv 1 [(0, y)])] [(0, v)]) 0 (dq 0 1) = true.
Proof. exists (dq 1 1), (dq 1 1), (dq 1 (10 ^ 25)). split; vm_compute; reflexivity. Qed.
Print Assumptions C37_zero_eps_refuted.

(** Quadratic objective with Hessian 4 I: orthogonally to the only step, the approximation is
    1/4 I: bfgs.c:348-380 computes s.s / y.s, the usual scale of the *inverse* Hessian. *)
Theorem C37_initial_scale_refuted : exists s y v,
  @neqb F64 y (@nmul F64 (dq 4 1) s) = true /\
  entry_is (bfgs_prod64 false (dq 1 (10 ^ 20)) [2] 2 [WPush (fv 2 [(0, s)]) (fv 2 [(0, y)])] [(1, v)]) 1 (@nmul F64 (dq 1 4) v) = true.
Proof. exists (dq 1 1), (dq 4 1), (dq 1 1). split; vm_compute; reflexivity. Qed.
Print Assumptions C37_initial_scale_refuted.

(** Three pushes into a memory of two, with doubles. *)
Example C39_example : exists bs, Forall (@wop_wf F64 2) [WPush (fv 2 [(0, dq 1 1)]) (fv 2 [(0, dq 3 1)]);
    WPush (fv 2 [(1, dq 1 1)]) (fv 2 [(1, dq 2 1)]); WPush (fv 2 [(0, dq 1 1); (1, dq 1 1)]) (fv 2 [(0, dq 3 1); (1, dq 2 1)])] /\
  (bs0 <- create_blocks (mkhs 2 2 [2]) (fun n => bblock_create n 2 true true ([n0; n0] : list (@num F64))) ;;
   rfold (whole_op bb_dim (bfgs_block_push (dq 1 (10 ^ 20))) bfgs_block_reset (dq 1 10000000000) 2) bs0
     [WPush (fv 2 [(0, dq 1 1)]) (fv 2 [(0, dq 3 1)]); WPush (fv 2 [(1, dq 1 1)]) (fv 2 [(1, dq 2 1)]);
      WPush (fv 2 [(0, dq 1 1); (1, dq 1 1)]) (fv 2 [(0, dq 3 1); (1, dq 2 1)])]) = Ok bs /\
  map bfgs_pairs bs = [Ok [([(1, dq 1 1)], [(1, dq 2 1)]); ([(0, dq 1 1); (1, dq 1 1)], [(0, dq 3 1); (1, dq 2 1)])]].
Proof.
  set (ops := [WPush _ _; _; _]).
  assert (Hw : Forall (@wop_wf F64 2) ops) by (unfold ops; repeat constructor; cbn; lia).
  destruct (create_blocks (mkhs 2 2 [2]) (fun n => bblock_create n 2 true true ([n0; n0] : list (@num F64)))) as [bs0| |] eqn:E0; [|discriminate E0..].
  cbn [rbind].
  destruct (rfold (whole_op bb_dim (bfgs_block_push (dq 1 (10 ^ 20))) bfgs_block_reset (dq 1 10000000000) 2) bs0 ops) as [bs|c|] eqn:E.
  - exists bs. split; [exact Hw|]. split; [reflexivity|].
    rewrite (@C39_bfgs_pairs F64 2 [2] (mkhs 2 2 [2]) 2 true true [n0; n0] (dq 1 10000000000) (dq 1 (10 ^ 20)) ops bs0 bs) by (auto; lia).
    cbn [ranges map]. do 2 f_equal.
  - exfalso. assert (B : match rfold (whole_op bb_dim (bfgs_block_push (dq 1 (10 ^ 20))) bfgs_block_reset (dq 1 10000000000) 2) bs0 ops with Ok _ => true | _ => false end = true)
      by (inv E0; vm_compute; reflexivity). rewrite E in B. discriminate.
  - exfalso. assert (B : match rfold (whole_op bb_dim (bfgs_block_push (dq 1 (10 ^ 20))) bfgs_block_reset (dq 1 10000000000) 2) bs0 ops with Ok _ => true | _ => false end = true)
      by (inv E0; vm_compute; reflexivity). rewrite E in B. discriminate.
Qed.
