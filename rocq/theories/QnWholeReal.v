(** Whole quasi-Newton approximations in exact arithmetic: block-diagonal operators. *)
From Coq Require Import Reals Lra FunctionalExtensionality.
From Flocq Require Import Core.
From Verif Require Import Base Num Cmp Sparse Vec VecFacts VecFacts2 Mat MatFacts Ring RSum VecReal
  QuasiNewton QnMath QnFacts QnReal QnSr1 QnBlocks QnWhole.
Local Open Scope Z_scope.

(** ** Totality of runs *)
Section Total.
Context {N : Num} {B : Type} (bdim : B -> Z) (bpush : B -> vec -> vec -> res B) (breset : B -> B).
Context (Hpd : forall b s y b', bpush b s y = Ok b' -> bdim b' = bdim b) (Hrd : forall b, bdim (breset b) = bdim b).
Context (Hfin : forall v, vec_is_finite v = true).

Lemma offsets_dims (bs bs' : list B) : forall off, map bdim bs = map bdim bs' ->
  map (fun ob => (fst ob, bdim (snd ob))) (offsets bdim off bs) = map (fun ob => (fst ob, bdim (snd ob))) (offsets bdim off bs').
Proof.
  revert bs'; induction bs as [|b bs IH]; intros [|b' bs'] off E; cbn [map] in E; try discriminate; [reflexivity|].
  injection E as E1 E2. cbn [offsets map fst snd]. rewrite E1. f_equal. now apply IH.
Qed.

Lemma rmapM_total {A C} (f : A -> res C) l : Forall (fun a => exists c, f a = Ok c) l -> exists r, rmapM f l = Ok r.
Proof.
  induction 1 as [|a l [c E] _ [r IH]]; [exists []; reflexivity|]. exists (c :: r). cbn [rmapM]. now rewrite E, IH.
Qed.

Lemma whole_run_total eps nv ops : forall bs,
  Forall (fun b => 0 < bdim b <= nv) bs -> Forall (wop_wf nv) ops ->
  Forall (fun ob => exists b', rfold (bop bpush breset) (snd ob) (block_ops eps nv (fst ob) (bdim (snd ob)) ops) = Ok b') (offsets bdim 0 bs) ->
  exists bs', rfold (whole_op bdim bpush breset eps nv) bs ops = Ok bs'.
Proof.
  induction ops as [|o ops IH]; intros bs Hd Ho H; cbn [rfold]; [eauto|].
  apply Forall_cons_iff in Ho as [Ho Hops].
  assert (G : exists bs1, whole_op bdim bpush breset eps nv bs o = Ok bs1 /\
            Forall2 (fun ob b1 => rfold (bop bpush breset) (snd ob) (block_ops eps nv (fst ob) (bdim (snd ob)) [o]) = Ok b1) (offsets bdim 0 bs) bs1).
  { assert (E : exists bs1, whole_op bdim bpush breset eps nv bs o = Ok bs1).
    { destruct o as [s y|]; cbn [whole_op wop_wf] in *; [|eauto].
      destruct Ho as ((_ & Ss & _) & Ds & (_ & Sy & _) & Dy). rewrite Ds in Ss. rewrite Dy in Sy.
      rewrite push_blocks_eq by auto. apply rmapM_total. eapply Forall_impl; [|exact H]. intros [off b] (b' & E).
      unfold push_one. cbn [fst snd] in *. rewrite !Hfin. cbn [check rbind].
      unfold block_ops in E. cbn [flat_map] in E. cbv zeta in E. destruct (is_zero _ eps); [eauto|].
      cbn [app rfold bop] in E. apply rbind_ok in E as (b1 & E & _). eauto. }
    destruct E as [bs1 E]. exists bs1. split; [exact E|].
    apply (whole_run bdim bpush breset Hpd Hrd eps nv [o] bs bs1); auto. cbn [rfold]. now rewrite E. }
  destruct G as (bs1 & E1 & F1). rewrite E1. cbn [rbind]. apply IH; auto.
  - clear -F1 Hd Hpd Hrd. revert F1. generalize 0 at 1. revert bs1. induction bs as [|b bs IH]; intros bs1 z F; cbn [offsets] in F;
      inversion F as [|? b1 ? bs1' A1 A2]; subst; [constructor|].
    apply Forall_cons_iff in Hd as [Hb Hd]. constructor; [|eauto]. cbn [fst snd] in A1.
    assert (Hbop : forall l (b b' : B), rfold (bop bpush breset) b l = Ok b' -> bdim b' = bdim b).
    { induction l as [|q l IHl]; intros c c' Ec; cbn [rfold] in Ec; [now inv Ec|]. apply rbind_ok in Ec as (c1 & E1 & Ec).
      rewrite (IHl _ _ Ec). destruct q; cbn [bop] in E1; [eapply Hpd, E1|inv E1; apply Hrd]. }
    cbv beta in *. rewrite (Hbop _ _ _ A1). exact Hb.
  - assert (Hbop : forall l (b b' : B), rfold (bop bpush breset) b l = Ok b' -> bdim b' = bdim b).
    { induction l as [|q l IHl]; intros c c' Ec; cbn [rfold] in Ec; [now inv Ec|]. apply rbind_ok in Ec as (c1 & E2 & Ec).
      rewrite (IHl _ _ Ec). destruct q; cbn [bop] in E2; [eapply Hpd, E2|inv E2; apply Hrd]. }
    clear -F1 H Hbop. revert F1 H. generalize 0. revert bs1.
    induction bs as [|b bs IH]; intros bs1 z F H; cbn [offsets] in F, H; inversion F as [|? b1 ? bs1' A1 A2]; subst; [constructor|].
    apply Forall_cons_iff in H as [(b' & Hb) H]. cbn [fst snd] in *. cbn [offsets]. rewrite (Hbop _ _ _ A1).
    constructor; [|now apply IH]. cbn [fst snd]. rewrite (Hbop _ _ _ A1). exists b'.
    unfold block_ops in *. cbn [flat_map] in *. rewrite app_nil_r in A1. rewrite rfold_app, A1 in Hb. exact Hb.
Qed.
End Total.

(** ** Block-diagonal operators *)
Local Open Scope R_scope.

Lemma rsum_split n m f : rsum (n + m) f = rsum n f + rsum m (fun i => f (Z.of_nat n + i)%Z).
Proof.
  induction m as [|m IH]; [rewrite Nat.add_0_r; cbn [rsum]; lra|].
  rewrite Nat.add_succ_r. cbn [rsum]. rewrite IH. rewrite Nat2Z.inj_add. lra.
Qed.
Lemma sumd_split a b f : (0 <= a)%Z -> (0 <= b)%Z -> sumd (a + b) f = sumd a f + sumd b (fun i => f (a + i)%Z).
Proof.
  intros Ha Hb. unfold sumd. rewrite Z2Nat.inj_add by auto. rewrite rsum_split, Z2Nat.id by auto. reflexivity.
Qed.

Definition restr (n : Z) (f : Z -> R) : Z -> R := fun i => if ((0 <=? i) && (i <? n))%Z then f i else 0.

(** One operator for each block, zero behind the last block. *)
Fixpoint bdiag (l : list (Z * op)) (f : Z -> R) : Z -> R :=
  match l with
  | [] => fun _ => 0
  | (n, B) :: l' => fun i => if (i <? n)%Z then B (restr n f) i else bdiag l' (fun k => f (n + k)%Z) (i - n)%Z
  end.
Definition tot (l : list (Z * op)) : Z := fold_right (fun p t => fst p + t)%Z 0%Z l.

Lemma tot_nonneg l : Forall (fun p => 0 < fst p)%Z l -> (0 <= tot l)%Z.
Proof. induction 1; cbn [tot fold_right]; [lia|]. fold (tot l) in *. lia. Qed.

Lemma bdiag_behind l f i : Forall (fun p => 0 < fst p)%Z l -> (tot l <= i)%Z -> bdiag l f i = 0.
Proof.
  intros Hl. revert f i; induction Hl as [|[n B] l Hn Hl IH]; intros f i Hi; [reflexivity|]. cbn [bdiag tot fold_right fst] in *.
  fold (tot l) in *. pose proof (tot_nonneg l Hl). destruct (Z.ltb_spec i n); [lia|]. apply IH. lia.
Qed.

Lemma restr_lin n a b f g : restr n (fun i => a * f i + b * g i) = (fun i => a * restr n f i + b * restr n g i).
Proof. apply functional_extensionality. intros i. unfold restr. destruct (_ && _); lra. Qed.
Lemma dotd_restr_l n f g : dotd n (restr n f) g = dotd n f g.
Proof. apply sumd_ext. intros i Hi. unfold restr. destruct (Z.leb_spec 0 i), (Z.ltb_spec i n); try lia. reflexivity. Qed.
Lemma dotd_restr_r n f g : dotd n f (restr n g) = dotd n f g.
Proof. rewrite dotd_sym, dotd_restr_l. apply dotd_sym. Qed.

Lemma bdiag_linear l : Forall (fun p => linear_op (snd p)) l -> linear_op (bdiag l).
Proof.
  induction 1 as [|[n B] l HB Hl IH]; intros a b f g i; cbn [bdiag]; [lra|]. destruct (Z.ltb_spec i n).
  - rewrite restr_lin. apply HB.
  - apply (IH a b (fun k => f (n + k)%Z) (fun k => g (n + k)%Z)).
Qed.

Lemma dot_bdiag_cons n B l d f g : (0 <= n)%Z -> (n <= d)%Z ->
  dotd d (bdiag ((n, B) :: l) f) g =
  dotd n (B (restr n f)) g + dotd (d - n) (bdiag l (fun k => f (n + k)%Z)) (fun k => g (n + k)%Z).
Proof.
  intros Hn Hd. unfold dotd. replace d with (n + (d - n))%Z at 1 by lia. rewrite sumd_split by lia. f_equal.
  - apply sumd_ext. intros i Hi. cbn [bdiag]. destruct (Z.ltb_spec i n); [reflexivity|lia].
  - apply sumd_ext. intros i Hi. cbn [bdiag]. destruct (Z.ltb_spec (n + i) n); [lia|]. now replace (n + i - n)%Z with i by lia.
Qed.

Lemma bdiag_symmetric l d : Forall (fun p => 0 < fst p)%Z l -> Forall (fun p => symmetric_op (fst p) (snd p)) l ->
  (tot l <= d)%Z -> symmetric_op d (bdiag l).
Proof.
  intros Hl Hs. revert d. induction Hl as [|[n B] l Hn Hl IH]; intros d Hd f g.
  - cbn [bdiag]. unfold dotd. transitivity 0; [|symmetry]; apply sumd_zero; intros; lra.
  - apply Forall_cons_iff in Hs as [HB Hs]. cbn [tot fold_right fst snd] in *. fold (tot l) in *.
    pose proof (tot_nonneg l Hl). rewrite (dotd_sym d f), !dot_bdiag_cons by lia. f_equal.
    + rewrite <- (dotd_restr_r n _ g), HB, (dotd_sym n (B (restr n g))). apply dotd_restr_l.
    + rewrite (IH Hs) by lia. apply dotd_sym.
Qed.

Lemma bdiag_posdef l d f : Forall (fun p => 0 < fst p)%Z l -> Forall (fun p => posdef_op (fst p) (snd p)) l ->
  (tot l <= d)%Z -> 0 <= dotd d (bdiag l f) f /\
  ((exists i, (0 <= i < tot l)%Z /\ f i <> 0) -> 0 < dotd d (bdiag l f) f).
Proof.
  intros Hl Hs. revert d f. induction Hl as [|[n B] l Hn Hl IH]; intros d f Hd.
  - cbn [bdiag tot fold_right]. split; [|intros (i & Hi & _); lia].
    assert (dotd d (fun _ => 0) f = 0) by (apply sumd_zero; intros; lra). lra.
  - apply Forall_cons_iff in Hs as [HB Hs]. cbn [tot fold_right fst snd] in *. fold (tot l) in *.
    pose proof (tot_nonneg l Hl). rewrite dot_bdiag_cons by lia.
    destruct (IH Hs (d - n)%Z (fun k => f (n + k)%Z)) as [I1 I2]; [lia|].
    assert (Hb : (exists i, (0 <= i < n)%Z /\ f i <> 0) -> 0 < dotd n (B (restr n f)) f).
    { intros (i & Hi & Hf). rewrite <- dotd_restr_r. apply HB. exists i. split; [exact Hi|]. unfold restr.
      destruct (Z.leb_spec 0 i), (Z.ltb_spec i n); try lia. exact Hf. }
    assert (Hb0 : 0 <= dotd n (B (restr n f)) f).
    { destruct (Req_dec (dotd n f f) 0) as [E|E].
      - assert (Ez : forall i, (0 <= i < n)%Z -> f i = 0).
        { intros i Hi. assert (G : f i * f i = 0) by (apply (sumd_nonneg_zero n (fun i => f i * f i)); auto; intros; nra). nra. }
        assert (E0 : dotd n (B (restr n f)) f = 0) by (apply sumd_zero; intros i Hi; rewrite (Ez i Hi); lra). lra.
      - left. apply Hb. apply nonzero_dot. pose proof (dotd_nonneg n f). lra. }
    split; [lra|]. intros (i & Hi & Hf). destruct (Z_lt_ge_dec i n) as [H1|H1].
    + assert (0 < dotd n (B (restr n f)) f) by (apply Hb; exists i; split; [lia|exact Hf]). lra.
    + assert (0 < dotd (d - n) (bdiag l (fun k => f (n + k)%Z)) (fun k => f (n + k)%Z)).
      { apply I2. exists (i - n)%Z. split; [lia|]. now replace (n + (i - n))%Z with i by lia. } lra.
Qed.

(** The assembled product is the block-diagonal operator. *)
Section Place.
Context {B : Type} (bdim : B -> Z).

Lemma get_app (l1 l2 : list (Z * R)) i : get (l1 ++ l2) i = match get l1 i with Some x => Some x | None => get l2 i end.
Proof. induction l1 as [|[j x] l1 IH]; [reflexivity|]. cbn [app get]. destruct (Z.eqb_spec j i); auto. Qed.

Lemma place_below off (bs : list B) (ps : list rvec) i : Forall2 (fun b p => wf p /\ vdim p = bdim b) bs ps ->
  Forall (fun b => 0 < bdim b)%Z bs -> (i < off)%Z -> get (place (List.combine (map fst (offsets bdim off bs)) ps)) i = None.
Proof.
  intros F. revert off; induction F as [|b p bs ps [Hp Dp] F IH]; intros off Hd Hi; [reflexivity|].
  apply Forall_cons_iff in Hd as [Hb Hd]. cbn [offsets map List.combine place concat fst snd].
  fold (place (List.combine (map fst (offsets bdim (off + bdim b) bs)) ps)).
  etransitivity; [apply get_app|]. rewrite (get_shift (N := RN)). destruct Hp as (_ & Hs & _).
  rewrite (get_below _ _ _ _ Hs) by lia. apply IH; [exact Hd|lia].
Qed.

Lemma place_bdiag f (bs : list B) : forall (qs : list ((Z * op) * rvec)) off i,
  Forall (fun b => 0 < bdim b)%Z bs -> (off <= i)%Z ->
  Forall2 (fun ob q => bdim (snd ob) = fst (fst q) /\ wf (snd q) /\ vdim (snd q) = bdim (snd ob) /\
     forall k, (0 <= k < bdim (snd ob))%Z ->
       dense (snd q) k = snd (fst q) (restr (bdim (snd ob)) (fun k => f (fst ob + k)%Z)) k) (offsets bdim off bs) qs ->
  @oval RN (get (place (List.combine (map fst (offsets bdim off bs)) (map snd qs))) i) =
  bdiag (map fst qs) (fun k => f (off + k)%Z) (i - off)%Z.
Proof.
  induction bs as [|b bs IH]; intros qs off i Hd Hi G; cbn [offsets] in G; inversion G as [|? [[n Bk] p] ? qs' (G1 & Hp & Dp & G2) G3]; subst.
  { exact rn_n0. }
  apply Forall_cons_iff in Hd as [Hb Hd]. cbn [fst snd] in *. subst n.
  cbn [offsets map List.combine place concat fst snd bdiag].
  fold (place (List.combine (map fst (offsets bdim (off + bdim b) bs)) (map snd qs'))).
  assert (Ea : forall l1 l2, @oval RN (get (l1 ++ l2) i) = @oval RN (match get l1 i with Some x => Some x | None => get l2 i end)) by (intros; f_equal; apply get_app).
  etransitivity; [apply Ea|]. rewrite (get_shift (N := RN)). pose proof Hp as (_ & Hs & _). rewrite Dp in Hs.
  destruct (Z.ltb_spec (i - off) (bdim b)) as [H1|H1].
  - rewrite <- G2 by lia. unfold dense. destruct (get (vent p) (i - off)) eqn:E; [reflexivity|].
    match goal with |- @oval RN ?o = _ => assert (Eo : o = None) end; [|rewrite Eo; reflexivity].
    apply place_below; auto; [|lia]. clear -G3. revert G3. generalize (off + bdim b)%Z. revert qs'. induction bs as [|c bs IH]; intros qs z F; cbn [offsets] in F;
      inversion F as [|? q ? qs1 A1 A2]; subst; cbn [map]; constructor; [cbn [snd] in A1; tauto|eauto].
  - assert (E : get (vent p) (i - off)%Z = None).
    { apply get_None. intros Hin. pose proof (sorted_in_In _ _ _ _ Hs Hin). lia. }
    rewrite E. etransitivity; [exact (IH qs' (off + bdim b)%Z i Hd ltac:(lia) G3)|].
    replace (i - (off + bdim b))%Z with (i - off - bdim b)%Z by lia.
    replace (fun k : Z => f (off + bdim b + k)%Z) with (fun k : Z => f (off + (bdim b + k))%Z); [reflexivity|].
    apply functional_extensionality. intros k. f_equal. lia.
Qed.

Lemma dense_slicev nv (v : rvec) off n : dense (slicev nv (vent v) off n) = restr n (fun k => dense v (off + k)%Z).
Proof.
  apply functional_extensionality. intros i. unfold dense, restr. cbn [slicev vent]. rewrite (get_slice (N := RN)).
  destruct (_ && _); [reflexivity|exact rn_n0].
Qed.

Context (blen : B -> Z) (bprod : B -> rvec -> rvec -> res rvec).

(** If every block applies its operator, the approximation applies the block-diagonal operator. *)
Lemma prod_whole nv bs (l : list (Z * op)) :
  Forall (fun b => 0 < bdim b <= nv)%Z bs -> (total bdim bs <= nv)%Z ->
  Forall2 (fun b nB => fst nB = bdim b /\
     forall v, vok (bdim b) v -> vcap v = nv -> exists p, (if (blen b =? 0)%Z then Ok v else bprod b v (mkvec (bdim b) nv [])) = Ok p /\
       vok (bdim b) p /\ dense p = snd nB (dense v)) bs l ->
  forall v product : rvec, vok nv v -> vdim product = nv -> vent product = [] -> (0 <= vcap product)%Z ->
  exists out, qn_hess_prod bdim blen bprod nv bs v product = Ok out /\ vok nv out /\
    forall i, (0 <= i < nv)%Z -> dense out i = bdiag l (dense v) i.
Proof.
  intros Hd Ht F v product [Hv Dv] Dp Ep Cp.
  assert (Hd' : Forall (fun b => 0 < bdim b)%Z bs) by (eapply Forall_impl; [|exact Hd]; cbn; intros; lia).
  assert (Htot : (0 <= total bdim bs)%Z).
  { clear -Hd'. induction Hd'; cbn [total fold_right]; [lia|]. fold (total bdim l) in *. lia. }
  assert (Hr : exists c, vec_reserve product nv = Ok (mkvec nv c []) /\ (nv <= c)%Z).
  { unfold vec_reserve. destruct (Z.leb_spec 0 nv); [|lia]. cbn [check rbind].
    destruct product as [dm cp en]; cbn [vdim vcap vent] in *; subst dm en.
    destruct (Z.leb_spec nv cp); [exists cp|exists nv]; split; auto; lia. }
  destruct Hr as (c & Er & Hc). unfold qn_hess_prod. rewrite Er. cbn [rbind].
  pose proof Hv as (_ & Sv & _). rewrite Dv in Sv.
  assert (Hpw : Forall (bprod_wf bdim blen bprod nv) bs).
  { clear -F. induction F as [|b nB bs l [_ H] F IH]; constructor; [|exact IH]. intros H0 w p Hw Dw Cw E.
    destruct (H w (conj Hw Dw) Cw) as (q & Eq & Hq & _). destruct (Z.eqb_spec (blen b) 0); [contradiction|].
    assert (p = q) by congruence. subst q. exact Hq. }
  (* products of the blocks *)
  assert (Q : exists qs, map fst qs = l /\ rmapM (prod_one bdim blen bprod nv (vent v)) (offsets bdim 0 bs) = Ok (map snd qs) /\
     Forall2 (fun ob q => bdim (snd ob) = fst (fst q) /\ wf (snd q) /\ vdim (snd q) = bdim (snd ob) /\
       forall k, (0 <= k < bdim (snd ob))%Z ->
       dense (snd q) k = snd (fst q) (restr (bdim (snd ob)) (fun k => dense v (fst ob + k)%Z)) k) (offsets bdim 0 bs) qs).
  { clear -F Hd Sv. generalize 0%Z at 1 3 as z. revert l F. induction bs as [|b bs IH]; intros l F z; inversion F as [|? [n Bk] ? l' [G1 G2] F']; subst.
    - exists []. cbn. auto.
    - apply Forall_cons_iff in Hd as [Hb Hd]. cbn [fst snd] in *. subst n.
      destruct (IH Hd l' F' (z + bdim b)%Z) as (qs & E1 & E2 & E3).
      assert (Hsl : vok (bdim b) (slicev nv (vent v) z (bdim b))) by (split; [eapply slicev_wf; [lia|exact Sv]|reflexivity]).
      destruct (G2 _ Hsl eq_refl) as (p & Ep & [Wp Dp] & Dn).
      exists ((bdim b, Bk, p) :: qs). cbn [map fst snd offsets rmapM]. split; [now rewrite E1|]. split.
      + unfold prod_one at 1. cbn [fst snd]. cbv zeta. rewrite Ep. cbn [rbind]. rewrite E2. reflexivity.
      + constructor; [|exact E3]. cbn [fst snd]. split; [reflexivity|]. split; [exact Wp|]. split; [exact Dp|].
        intros k Hk. rewrite Dn, dense_slicev. reflexivity. }
  destruct Q as (qs & El & Em & Fq).
  assert (F2 : Forall2 (fun b (p : rvec) => wf p /\ vdim p = bdim b) bs (map snd qs)).
  { clear -Fq. revert Fq. generalize 0%Z at 2. revert qs. induction bs as [|c bs IH]; intros qs z G; cbn [offsets] in G;
      inversion G as [|? q ? qs1 A1 A2]; subst; cbn [map]; constructor; [cbn [snd] in A1; tauto|eauto]. }
  rewrite prod_blocks_eq; cbn [vdim vcap vent app keys map sorted_in]; auto; try lia.
  rnum. rewrite Em. cbn [rbind].
  pose proof (place_sorted bdim bs (map snd qs) 0 Hd' F2) as Sp. rewrite Z.add_0_l in Sp.
  eexists. split; [reflexivity|]. split.
  - split; [|reflexivity]. split; [cbn [vdim]; lia|]. cbn [vdim vent vcap]. split; [eapply sorted_in_weaken; [| |exact Sp]; lia|].
    pose proof (sorted_in_length _ _ _ Sp) as L. unfold keys in L. rewrite map_length in L. rnum. lia.
  - intros i Hi. unfold dense at 1. cbn [vent]. rewrite (place_bdiag (dense v) bs qs 0 i Hd' ltac:(lia) Fq).
    rewrite El, Z.sub_0_r. reflexivity.
Qed.
End Place.
