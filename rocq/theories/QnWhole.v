(** Whole quasi-Newton approximations: Hessian structure, runs, block-diagonal operators. *)
From Coq Require Import Reals Lra FunctionalExtensionality.
From Flocq Require Import Core.
From Verif Require Import Base Num Cmp Sparse Vec VecFacts VecFacts2 Mat MatFacts Ring RSum VecReal
  QuasiNewton QnMath QnFacts QnReal QnSr1 QnBlocks.
Local Open Scope Z_scope.

(** ** Hessian structure (hess_struct.c) *)

(** Strictly increasing ends, all at most [dim]. *)
Fixpoint incr_from (lo : Z) (l : list Z) : Prop :=
  match l with [] => True | e :: l' => lo < e /\ incr_from e l' end.

Lemma incr_app lo l e : incr_from lo (l ++ [e]) <-> incr_from lo l /\ last l lo < e.
Proof.
  revert lo; induction l as [|a l IH]; intros lo; cbn [app incr_from].
  - cbn. tauto.
  - rewrite IH. replace (last (a :: l) lo) with (last l a); [tauto|].
    clear. revert a; induction l as [|b l IH]; intros a; [reflexivity|]. cbn [last] in *. destruct l; [reflexivity|]. apply IH.
Qed.
Lemma last_default {A} (l : list A) a b : l <> [] -> last l a = last l b.
Proof. induction l as [|x l IH]; [tauto|]. intros _. cbn. destruct l; [reflexivity|]. apply IH. discriminate. Qed.

Definition ends_ok (dim : Z) (l : list Z) : Prop :=
  match l with [] => True | e :: l' => incr_from e l' end /\ Forall (fun e => e <= dim) l.

Lemma push_block_inv h e h' : push_block h e = Ok h' -> ends_ok (hs_dim h) (hs_ends h) ->
  hs_dim h' = hs_dim h /\ hs_cap h' = hs_cap h /\ hs_ends h' = hs_ends h ++ [e] /\ ends_ok (hs_dim h) (hs_ends h').
Proof.
  unfold push_block. intros E [H1 H2]. destruct (Z.ltb_spec (hs_dim h) e) as [L|L]; [discriminate|].
  destruct (hs_dim h <=? _); [discriminate|].
  destruct (negb _ && (e <=? last (hs_ends h) 0)) eqn:E2; [discriminate|].
  apply rbind_ok in E as (u & E3 & E). inv E. cbn [hs_dim hs_cap hs_ends].
  split; [reflexivity|]. split; [reflexivity|]. split; [reflexivity|]. split.
  - destruct (hs_ends h) as [|a l]; [exact I|]. cbn [app]. apply incr_app. split; [exact H1|].
    cbn [negb andb] in E2. apply Z.leb_gt in E2.
    replace (last l a) with (last (a :: l) 0); [exact E2|].
    clear. revert a; induction l as [|b l IH]; intros a; [reflexivity|]. cbn [last] in *. destruct l; [reflexivity|]. apply IH.
  - apply Forall_app. split; [exact H2|]. constructor; [lia|constructor].
Qed.

Lemma push_all_blocks ends : forall h h', rfold push_block h ends = Ok h' -> ends_ok (hs_dim h) (hs_ends h) ->
  hs_dim h' = hs_dim h /\ hs_ends h' = hs_ends h ++ ends /\ ends_ok (hs_dim h) (hs_ends h').
Proof.
  induction ends as [|e ends IH]; intros h h' E H; cbn [rfold] in E.
  - inv E. rewrite app_nil_r. auto.
  - apply rbind_ok in E as (h1 & E1 & E). destruct (push_block_inv _ _ _ E1 H) as (D1 & _ & E2 & H1).
    rewrite <- D1 in H1. destruct (IH _ _ E H1) as (D2 & E3 & H2). 
    split; [congruence|]. split; [rewrite E3, E2, <- app_assoc; reflexivity|]. rewrite <- D1. exact H2.
Qed.

(** Differences of consecutive ends: the sizes of the blocks. *)
Fixpoint sizes (lo : Z) (l : list Z) : list Z :=
  match l with [] => [] | e :: l' => (e - lo) :: sizes e l' end.

Lemma block_range_ok h k : 0 <= k < len (hs_ends h) ->
  block_range h k = Ok (nth (Z.to_nat k) (0 :: hs_ends h) 0, nth (Z.to_nat k) (hs_ends h) 0).
Proof.
  intros Hk. unfold block_range. destruct (Z.ltb_spec (len (hs_ends h)) k); [lia|].
  assert (G : forall i, 0 <= i < len (hs_ends h) -> arr_get (hs_ends h) i = Ok (nth (Z.to_nat i) (hs_ends h) 0)).
  { intros i Hi. apply arr_get_nth; [lia|]. apply nth_error_nth'. lia. }
  rewrite (G k Hk). destruct (Z.ltb_spec 0 k).
  - rewrite G by lia. cbn [rbind]. replace (Z.to_nat k) with (S (Z.to_nat (k - 1))) at 2 by lia. reflexivity.
  - replace k with 0 by lia. reflexivity.
Qed.

Lemma sizes_nth ends : forall lo k, (k < length ends)%nat ->
  nth k (sizes lo ends) 0 = nth k ends 0 - nth k (lo :: ends) 0.
Proof.
  induction ends as [|e ends IH]; intros lo [|k] Hk; cbn [sizes nth length] in *; try lia.
  rewrite IH by lia. reflexivity.
Qed.
Lemma sizes_length lo ends : length (sizes lo ends) = length ends.
Proof. revert lo; induction ends; intros; cbn; auto. Qed.

Lemma rmapM_Forall2 {A C} (f : A -> res C) l r : rmapM f l = Ok r <-> Forall2 (fun a c => f a = Ok c) l r.
Proof.
  revert r; induction l as [|a l IH]; intros r; cbn [rmapM]; split; intros H.
  - inv H. constructor.
  - inversion H. reflexivity.
  - apply rbind_ok in H as (c & E1 & H). apply rbind_ok in H as (cs & E2 & H). inv H. constructor; [exact E1|]. now apply IH.
  - inversion H as [|? c ? cs E1 E2]; subst. rewrite E1. cbn [rbind]. apply IH in E2. now rewrite E2.
Qed.
Lemma rmapM_length {A C} (f : A -> res C) l r : rmapM f l = Ok r -> length r = length l.
Proof. intros H. apply rmapM_Forall2 in H. induction H; cbn [length]; auto. Qed.

Lemma Forall2_nth {A C} (P : A -> C -> Prop) l r : Forall2 P l r ->
  forall k a, nth_error l k = Some a -> exists c, nth_error r k = Some c /\ P a c.
Proof. induction 1 as [|a c l r Hac Hlr IH]; intros [|k] a0 E; cbn in *; try discriminate; [inv E; eauto|eauto]. Qed.

Lemma create_blocks_sizes {B} (bdim : B -> Z) (h : hstruct) (create : Z -> res B) bs :
  (forall n b, create n = Ok b -> bdim b = n) ->
  create_blocks h create = Ok bs ->
  map bdim bs = sizes 0 (hs_ends h) /\ Forall2 (fun n b => create n = Ok b) (sizes 0 (hs_ends h)) bs.
Proof.
  intros Hc E. unfold create_blocks in E. pose proof (rmapM_length _ _ _ E) as L. apply rmapM_Forall2 in E.
  assert (Hz : length (zrange (len (hs_ends h))) = length (hs_ends h)) by (unfold zrange; rewrite map_length, seq_length; lia).
  assert (G : Forall2 (fun n b => create n = Ok b) (sizes 0 (hs_ends h)) bs).
  { assert (Hn : forall k n b, nth_error (sizes 0 (hs_ends h)) k = Some n -> nth_error bs k = Some b -> create n = Ok b).
    { intros k n b Ek Eb. assert (Hk : (k < length (hs_ends h))%nat).
      { rewrite <- (sizes_length 0). apply nth_error_Some. congruence. }
      destruct (Forall2_nth _ _ _ E k (Z.of_nat k)) as (b' & Eb' & Hb').
      { unfold zrange. rewrite nth_error_map. rewrite (nth_error_nth' _ 0%nat); [|rewrite seq_length; lia].
        rewrite seq_nth by lia. reflexivity. }
      assert (b' = b) by congruence. subst b'. rewrite block_range_ok in Hb' by lia. cbn [rbind fst snd] in Hb'. rewrite Nat2Z.id in Hb'.
      replace n with (nth k (hs_ends h) 0 - nth k (0 :: hs_ends h) 0); [exact Hb'|].
      rewrite <- sizes_nth by exact Hk. apply nth_error_nth. exact Ek. }
    assert (Hl : length (sizes 0 (hs_ends h)) = length bs) by (rewrite sizes_length; lia).
    clear -Hn Hl. revert bs Hl Hn. induction (sizes 0 (hs_ends h)) as [|n l IH]; intros [|b bs] Hl Hn; try discriminate; [constructor|].
    constructor; [apply (Hn 0%nat); reflexivity|]. apply IH; [now inv Hl|]. intros k. apply (Hn (S k)). }
  split; [|exact G]. clear -G Hc. induction G as [|n b l bs E _ IH]; [reflexivity|]. cbn [map]. rewrite (Hc _ _ E). now f_equal.
Qed.

Lemma total_sizes {B} (bdim : B -> Z) bs lo ends : map bdim bs = sizes lo ends -> total bdim bs = last ends lo - lo.
Proof.
  revert lo bs; induction ends as [|e ends IH]; intros lo [|b bs] E; cbn [sizes map] in E; try discriminate; [cbn; lia|].
  injection E as E1 E2. cbn [total fold_right]. fold (total bdim bs). rewrite (IH e bs E2), E1.
  replace (last (e :: ends) lo) with (last ends e); [lia|].
  clear. revert e; induction ends as [|b l IH]; intros a; [reflexivity|]. cbn [last] in *. destruct l; [reflexivity|]. apply IH.
Qed.

(** ** Runs of whole approximations *)
Section Runs.
Context {N : Num} {B : Type} (bdim blen : B -> Z) (bpush : B -> vec -> vec -> res B) (breset : B -> B).

Inductive wop := WPush (s y : vec) | WReset.
Definition whole_op (eps : num) (nv : Z) (bs : list B) (o : wop) : res (list B) :=
  match o with
  | WPush s y => push_blocks bdim bpush eps nv 0 bs (vent s) (vent y)
  | WReset => Ok (map breset bs)
  end.
Definition bop (b : B) (o : qop) : res B := match o with QPush s y => bpush b s y | QReset => Ok (breset b) end.

(** What the block at [off, off + n) sees of the operations. *)
Definition block_ops (eps : num) (nv off n : Z) (ops : list wop) : list qop :=
  flat_map (fun o => match o with
    | WPush s y => let s' := slicev nv (vent s) off n in
                   if is_zero (vec_norm_sq s') eps then [] else [QPush s' (slicev nv (vent y) off n)]
    | WReset => [QReset] end) ops.

Context (Hpd : forall b s y b', bpush b s y = Ok b' -> bdim b' = bdim b) (Hrd : forall b, bdim (breset b) = bdim b).

Definition wop_wf (nv : Z) (o : wop) : Prop :=
  match o with WPush s y => wf s /\ vdim s = nv /\ wf y /\ vdim y = nv | WReset => True end.

Lemma Forall2_offsets (P : Z * B -> B -> Prop) off bs bs' : Forall2 P (offsets bdim off bs) bs' ->
  (forall o b b', P (o, b) b' -> bdim b' = bdim b) ->
  map fst (offsets bdim off bs') = map fst (offsets bdim off bs) /\ map bdim bs' = map bdim bs.
Proof.
  revert off bs'; induction bs as [|b bs IH]; intros off bs' H HP; cbn [offsets] in H; inversion H; subst; [auto|].
  cbn [offsets map fst]. rewrite (HP _ _ _ H2). destruct (IH _ _ H4 HP) as [-> ->]. auto.
Qed.

Lemma offsets_fst_dims off (bs bs' : list B) : map bdim bs' = map bdim bs -> map fst (offsets bdim off bs') = map fst (offsets bdim off bs).
Proof.
  revert off bs'; induction bs as [|b bs IH]; intros off [|b' bs'] E; cbn [map] in E; try discriminate; [reflexivity|].
  injection E as E1 E2. cbn [offsets map fst]. rewrite E1, (IH _ _ E2). reflexivity.
Qed.

Lemma Forall2_offsets_trans (P Q : Z -> B -> B -> Prop) (R : Z -> B -> B -> Prop) off bs : forall bs1 bs2,
  (forall o b b1, P o b b1 -> bdim b1 = bdim b) ->
  (forall o b b1 b2, P o b b1 -> Q o b1 b2 -> R o b b2) ->
  Forall2 (fun ob b1 => P (fst ob) (snd ob) b1) (offsets bdim off bs) bs1 ->
  Forall2 (fun ob b2 => Q (fst ob) (snd ob) b2) (offsets bdim off bs1) bs2 ->
  Forall2 (fun ob b2 => R (fst ob) (snd ob) b2) (offsets bdim off bs) bs2.
Proof.
  revert off; induction bs as [|b bs IH]; intros off bs1 bs2 HP HR H1 H2; cbn [offsets] in H1;
    inversion H1 as [|? b1 ? bs1' A1 A2]; subst.
  - cbn in H2. inversion H2. constructor.
  - cbn [offsets] in H2. inversion H2 as [|? b2 ? bs2' A3 A4]; subst. cbn [fst snd] in *. rewrite (HP _ _ _ A1) in A4.
    cbn [offsets]. constructor; [cbn [fst snd]; eauto|]. eapply IH; eauto.
Qed.

Lemma Forall2_imp {A C} (P Q : A -> C -> Prop) l r : (forall a c, P a c -> Q a c) -> Forall2 P l r -> Forall2 Q l r.
Proof. intros H F. induction F; constructor; auto. Qed.

(** Every block evolves as if it were fed its slices alone. *)
Theorem whole_run eps nv ops : forall bs bs',
  Forall (fun b => 0 < bdim b <= nv) bs -> Forall (wop_wf nv) ops ->
  rfold (whole_op eps nv) bs ops = Ok bs' ->
  Forall2 (fun ob b' => rfold bop (snd ob) (block_ops eps nv (fst ob) (bdim (snd ob)) ops) = Ok b') (offsets bdim 0 bs) bs'.
Proof.
  induction ops as [|o ops IH]; intros bs bs' Hd Ho E; cbn [rfold] in E.
  - inv E. cbn [block_ops flat_map rfold]. generalize 0. induction bs' as [|b bs IH]; intros z; constructor; [reflexivity|].
    apply IH. now apply Forall_cons_iff in Hd as [_ Hd].
  - apply Forall_cons_iff in Ho as [Ho Hops]. apply rbind_ok in E as (bs1 & E1 & E).
    assert (F1 : Forall2 (fun ob b1 => bdim b1 = bdim (snd ob) /\
               rfold bop (snd ob) (block_ops eps nv (fst ob) (bdim (snd ob)) [o]) = Ok b1) (offsets bdim 0 bs) bs1).
    { destruct o as [s y|]; cbn [whole_op wop_wf] in *.
      - destruct Ho as ((_ & Ss & _) & Ds & (_ & Sy & _) & Dy). rewrite Ds in Ss. rewrite Dy in Sy.
        rewrite push_blocks_eq in E1 by auto. apply rmapM_Forall2 in E1. eapply Forall2_imp; [|exact E1].
        intros [off b] b1 Hb. unfold push_one in Hb. cbn [fst snd] in *.
        apply rbind_ok in Hb as (u1 & _ & Hb). apply rbind_ok in Hb as (u2 & _ & Hb).
        unfold block_ops. cbn [flat_map]. cbv zeta. rewrite app_nil_r.
        destruct (is_zero _ eps); cbn [rfold bop].
        + inv Hb. auto.
        + rewrite Hb. cbn [rbind]. split; [eapply Hpd, Hb|reflexivity].
      - inv E1. generalize 0. clear -Hrd. induction bs as [|b bs IH]; intros z; constructor; [|apply IH].
        cbn [fst snd block_ops flat_map app rfold bop rbind]. auto. }
    assert (Hd1 : Forall (fun b => 0 < bdim b <= nv) bs1).
    { clear -F1 Hd. revert F1. generalize 0 at 1. revert bs1. induction bs as [|b bs IH]; intros bs1 z F; cbn [offsets] in F;
        inversion F as [|? b1 ? bs1' [A1 _] A2]; subst; [constructor|].
      apply Forall_cons_iff in Hd as [Hb Hd]. cbn [snd] in A1. constructor; [cbv beta in *; rewrite A1; exact Hb|eauto]. }
    specialize (IH _ _ Hd1 Hops E).
    apply (Forall2_offsets_trans
      (fun o0 b b1 => bdim b1 = bdim b /\ rfold bop b (block_ops eps nv o0 (bdim b) [o]) = Ok b1)
      (fun o0 b b2 => rfold bop b (block_ops eps nv o0 (bdim b) ops) = Ok b2)
      (fun o0 b b2 => rfold bop b (block_ops eps nv o0 (bdim b) (o :: ops)) = Ok b2) 0 bs bs1 bs'); auto.
    + intros o0 b b1 [H _]. exact H.
    + intros o0 b b1 b2 [D H1] H2. rewrite D in H2. unfold block_ops in *. cbn [flat_map] in *. rewrite app_nil_r in H1.
      rewrite rfold_app, H1. exact H2.
Qed.
End Runs.
