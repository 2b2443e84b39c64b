(** The whole approximation acts block by block (C37-C39, C57), for any number type. *)
From Verif Require Import Base Num Cmp Sparse Vec VecFacts VecFacts2 Mat MatFacts Ring QuasiNewton QnFacts.
Local Open Scope Z_scope.

Section Gen.
Context {N : Num}.

(** ** Specification: the part of a sparse vector in [a, a + n), renumbered from 0. *)
Definition slice (es : list (Z * num)) (a n : Z) : list (Z * num) :=
  map (fun e => (fst e - a, snd e)) (filter (fun e => (a <=? fst e) && (fst e <? a + n)) es).

Lemma span_filter n es lo hi : sorted_in lo hi (keys es) ->
  span_lt n es = (filter (fun e => fst e <? n) es, filter (fun e => n <=? fst e) es).
Proof.
  revert lo; induction es as [|[i x] es IH]; intros lo Hs; [reflexivity|].
  cbn [span_lt filter fst keys map sorted_in] in *. destruct Hs as [Hi Hs]. destruct (Z.ltb_spec i n) as [H|H].
  - rewrite (IH _ Hs). destruct (Z.leb_spec n i); [lia|]. reflexivity.
  - destruct (Z.leb_spec n i); [|lia]. f_equal.
    + symmetry. assert (G : forall e, In e es -> i < fst e).
      { intros [k v] Hin. pose proof (sorted_in_In _ _ _ _ Hs (In_keys _ _ _ Hin)). cbn [fst]. lia. }
      clear -G H. induction es as [|e es IH]; [reflexivity|]. cbn [filter].
      destruct (Z.ltb_spec (fst e) n) as [H1|H1]; [pose proof (G e (or_introl eq_refl)); lia|]. apply IH. intros; apply G; now right.
    + f_equal. assert (G : forall e, In e es -> i < fst e).
      { intros [k v] Hin. pose proof (sorted_in_In _ _ _ _ Hs (In_keys _ _ _ Hin)). cbn [fst]. lia. }
      clear -G H. induction es as [|e es IH]; [reflexivity|]. cbn [filter].
      destruct (Z.leb_spec n (fst e)) as [H1|H1]; [|pose proof (G e (or_introl eq_refl)); lia]. f_equal. apply IH. intros; apply G; now right.
Qed.

Lemma filter_sorted (P : Z -> bool) lo hi (es : list (Z * num)) : sorted_in lo hi (keys es) ->
  sorted_in lo hi (keys (filter (fun e => P (fst e)) es)).
Proof.
  revert lo; induction es as [|[i x] es IH]; intros lo Hs; [exact Hs|].
  cbn [filter fst keys map sorted_in] in *. destruct Hs as [Hi Hs]. destruct (P i).
  - cbn [keys map fst sorted_in]. split; [exact Hi|]. now apply IH.
  - apply (sorted_in_weaken (i + 1) lo hi hi); [lia|lia|]. now apply IH.
Qed.
Lemma sorted_bounds lo hi lo' hi' (l : list Z) : sorted_in lo hi l -> (forall i, In i l -> lo' <= i < hi') -> sorted_in lo' hi' l.
Proof.
  revert lo lo'; induction l as [|i l IH]; intros lo lo' Hs H; [exact I|]. cbn [sorted_in] in *. destruct Hs as [Hi Hs].
  split; [apply H; now left|]. apply (IH _ (i + 1) Hs). intros k Hk. pose proof (sorted_in_In _ _ _ _ Hs Hk).
  pose proof (H k (or_intror Hk)). lia.
Qed.
Lemma shift_sorted k lo hi (es : list (Z * num)) : sorted_in lo hi (keys es) -> sorted_in (lo + k) (hi + k) (keys (shift_by k es)).
Proof.
  revert lo; induction es as [|[i x] es IH]; intros lo Hs; [exact I|]. cbn [shift_by map keys fst snd sorted_in] in *.
  destruct Hs as [Hi Hs]. split; [lia|]. apply IH in Hs. replace (i + k + 1) with (i + 1 + k) by lia. exact Hs.
Qed.
Lemma filter_keys (P : Z -> bool) (es : list (Z * num)) i : In i (keys (filter (fun e => P (fst e)) es)) <-> In i (keys es) /\ P i = true.
Proof.
  unfold keys. rewrite !in_map_iff. split.
  - intros (e & <- & He). apply filter_In in He as [He HP]. split; [eauto|exact HP].
  - intros ((e & <- & He) & HP). exists e. split; [reflexivity|]. apply filter_In. auto.
Qed.

Lemma filter_filter {A} (P Q : A -> bool) l : filter P (filter Q l) = filter (fun x => Q x && P x) l.
Proof.
  induction l as [|x l IH]; [reflexivity|]. cbn [filter]. destruct (Q x); cbn [filter andb]; [|exact IH].
  destruct (P x); now rewrite IH.
Qed.

Lemma slice_span es off n : sorted_in off (off + n) (keys (filter (fun e => (off <=? fst e) && (fst e <? off + n)) es)) ->
  slice es off n = shift_by (- off) (filter (fun e => (off <=? fst e) && (fst e <? off + n)) es).
Proof. reflexivity. Qed.

Lemma slice_sorted es a n lo hi : sorted_in lo hi (keys es) -> sorted_in 0 n (keys (slice es a n)).
Proof.
  intros Hs. change (slice es a n) with (shift_by (- a) (filter (fun e => (fun i => (a <=? i) && (i <? a + n)) (fst e)) es)).
  pose proof (shift_sorted (- a) a (a + n) (filter (fun e => (fun i => (a <=? i) && (i <? a + n)) (fst e)) es)) as G.
  replace (a + - a) with 0 in G by lia. replace (a + n + - a) with n in G by lia. apply G.
  eapply sorted_bounds; [exact (filter_sorted (fun i => (a <=? i) && (i <? a + n)) lo hi es Hs)|].
  intros i Hi. apply (filter_keys (fun i => (a <=? i) && (i <? a + n))) in Hi as [_ Hi]. lia.
Qed.
Lemma slice_length es a n lo hi : 0 <= n -> sorted_in lo hi (keys es) -> Z.of_nat (length (slice es a n)) <= n.
Proof.
  intros Hn Hs. apply (slice_sorted es a n) in Hs. apply sorted_in_length in Hs. unfold keys in Hs. rewrite map_length in Hs. lia.
Qed.
Lemma get_shift k (es : list (Z * num)) i : get (shift_by k es) i = get es (i - k).
Proof.
  induction es as [|[j x] es IH]; [reflexivity|]. cbn [shift_by map get fst snd].
  destruct (Z.eqb_spec (j + k) i), (Z.eqb_spec j (i - k)); try lia; [reflexivity|exact IH].
Qed.
Lemma get_filter (P : Z -> bool) (es : list (Z * num)) i : get (filter (fun e => P (fst e)) es) i = if P i then get es i else None.
Proof.
  induction es as [|[j x] es IH]; [now destruct (P i)|]. cbn [filter fst get].
  destruct (P j) eqn:E; cbn [get]; rewrite IH; destruct (Z.eqb_spec j i) as [->|]; rewrite ?E; reflexivity.
Qed.
Lemma get_slice es a n i : get (slice es a n) i = if (0 <=? i) && (i <? n) then get es (a + i) else None.
Proof.
  change (slice es a n) with (shift_by (- a) (filter (fun e => (a <=? fst e) && (fst e <? a + n)) es)).
  rewrite get_shift, (get_filter (fun i => (a <=? i) && (i <? a + n))). replace (i - - a) with (a + i) by lia.
  destruct (Z.leb_spec a (a + i)), (Z.leb_spec 0 i), (Z.ltb_spec (a + i) (a + n)), (Z.ltb_spec i n); try lia; reflexivity.
Qed.

(** The rest of the vector behind the first blocks gives the same slices. *)
Lemma slice_drop es off n m a : n <= a -> off <= n ->
  slice (filter (fun e => n <=? fst e) (filter (fun e => off <=? fst e) es)) a m = slice es a m.
Proof.
  intros H1 H2. unfold slice. rewrite !filter_filter. f_equal. apply filter_ext. intros e.
  destruct (Z.leb_spec off (fst e)), (Z.leb_spec n (fst e)), (Z.leb_spec a (fst e)); cbn [andb]; try lia; reflexivity.
Qed.

(** ** Blocks with their offsets *)
Section Blocks.
Context {B : Type} (bdim blen : B -> Z) (bpush : B -> vec -> vec -> res B) (bprod : B -> vec -> vec -> res vec).

Fixpoint offsets (off : Z) (bs : list B) : list (Z * B) :=
  match bs with [] => [] | b :: bs' => (off, b) :: offsets (off + bdim b) bs' end.
Definition total (bs : list B) : Z := fold_right (fun b t => bdim b + t) 0 bs.

Definition slicev (nv : Z) (es : list (Z * num)) (off n : Z) : vec := mkvec n nv (slice es off n).

(** What one block does with the new pair. *)
Definition push_one (eps : num) (nv : Z) (se ye : list (Z * num)) (ob : Z * B) : res B :=
  let s := slicev nv se (fst ob) (bdim (snd ob)) in
  let y := slicev nv ye (fst ob) (bdim (snd ob)) in
  check (vec_is_finite s) ;;; check (vec_is_finite y) ;;;
  if is_zero (vec_norm_sq s) eps then Ok (snd ob) else bpush (snd ob) s y.

Lemma from_off (es : list (Z * num)) off hi n : sorted_in off hi (keys es) ->
  filter (fun e => (off <=? fst e) && (fst e <? off + n)) es = filter (fun e => fst e <? off + n) es.
Proof.
  intros Hs. apply filter_ext_in. intros [i x] Hin. pose proof (sorted_in_In _ _ _ _ Hs (In_keys _ _ _ Hin)).
  cbn [fst]. destruct (Z.leb_spec off i); [reflexivity|lia].
Qed.

Lemma push_slice es off hi n nv : 0 < n <= nv -> sorted_in off hi (keys es) ->
  push_all (mkvec n nv []) (shift_by (- off) (filter (fun e => fst e <? off + n) es)) = Ok (slicev nv es off n).
Proof.
  intros Hn Hs. rewrite <- (from_off es off hi n Hs).
  change (shift_by (- off) (filter (fun e => (off <=? fst e) && (fst e <? off + n)) es)) with (slice es off n).
  rewrite push_all_ok; cbn [vent vdim vcap app].
  - reflexivity.
  - eapply slice_sorted, Hs.
  - unfold vnnz. cbn [vent length]. pose proof (slice_length es off n off hi ltac:(lia) Hs). lia.
Qed.

Lemma rest_sorted (es : list (Z * num)) lo hi n : sorted_in lo hi (keys es) -> sorted_in n hi (keys (filter (fun e => n <=? fst e) es)).
Proof.
  intros Hs. eapply sorted_bounds; [exact (filter_sorted (fun i => n <=? i) lo hi es Hs)|].
  intros i Hi. apply (filter_keys (fun i => n <=? i)) in Hi as [Hi Hn]. apply Z.leb_le in Hn.
  pose proof (sorted_in_In _ _ _ _ Hs Hi). lia.
Qed.

Lemma slice_rest es lo hi n a m : sorted_in lo hi (keys es) -> n <= a ->
  slice (filter (fun e => n <=? fst e) es) a m = slice es a m.
Proof.
  intros Hs H1. unfold slice. rewrite filter_filter. f_equal. apply filter_ext. intros e.
  destruct (Z.leb_spec n (fst e)), (Z.leb_spec a (fst e)); cbn [andb]; try lia; reflexivity.
Qed.

Lemma offsets_ge off bs o b : Forall (fun b => 0 < bdim b) bs -> In (o, b) (offsets off bs) ->
  off <= o /\ o + bdim b <= off + total bs /\ In b bs.
Proof.
  revert off; induction bs as [|c bs IH]; intros off Hd Hin; [contradiction|].
  apply Forall_cons_iff in Hd as [Hc Hd]. cbn [offsets In total fold_right] in *. fold (total bs) in *.
  assert (0 <= total bs).
  { clear -Hd. induction Hd; cbn [total fold_right]; [lia|]. fold (total l) in *. lia. }
  destruct Hin as [E|Hin]; [inv E; split; [lia|]; split; [lia|auto]|].
  destruct (IH _ Hd Hin) as (H1 & H2 & H3). split; [lia|]. split; [lia|auto].
Qed.

Lemma rmapM_ext {A C} (f g : A -> res C) l : (forall a, In a l -> f a = g a) -> rmapM f l = rmapM g l.
Proof. intros H. induction l as [|a l IH]; [reflexivity|]. cbn [rmapM]. rewrite H by now left. rewrite IH by (intros; apply H; now right). reflexivity. Qed.

(** Pushing a pair is pushing the slices of the pair to every block. *)
Theorem push_blocks_eq eps nv bs : forall off se ye,
  Forall (fun b => 0 < bdim b <= nv) bs -> sorted_in off nv (keys se) -> sorted_in off nv (keys ye) ->
  push_blocks bdim bpush eps nv off bs se ye = rmapM (push_one eps nv se ye) (offsets off bs).
Proof.
  induction bs as [|b bs IH]; intros off se ye Hd Hs Hy; [reflexivity|].
  apply Forall_cons_iff in Hd as [Hb Hd]. cbn [push_blocks offsets rmapM].
  rewrite (span_filter _ _ _ _ Hs), (span_filter _ _ _ _ Hy). rewrite (push_slice _ _ _ _ _ Hb Hs), (push_slice _ _ _ _ _ Hb Hy).
  cbn [rbind]. unfold push_one at 1. cbn [fst snd]. cbv zeta.
  destruct (check (vec_is_finite (slicev nv se off (bdim b)))); cbn [rbind]; try reflexivity.
  destruct (check (vec_is_finite (slicev nv ye off (bdim b)))); cbn [rbind]; try reflexivity.
  match goal with |- rbind ?X _ = rbind ?X _ => destruct X; cbn [rbind]; try reflexivity end.
  rewrite (IH _ _ _ Hd (rest_sorted _ _ _ _ Hs) (rest_sorted _ _ _ _ Hy)).
  erewrite rmapM_ext; [reflexivity|]. intros [o c] Hin. unfold push_one, slicev. cbn [fst snd].
  destruct (offsets_ge (off + bdim b) bs o c) as (H1 & _ & _); [eapply Forall_impl; [|exact Hd]; cbn; intros; lia|exact Hin|].
  rewrite !(slice_rest _ _ _ _ _ _ Hs), !(slice_rest _ _ _ _ _ _ Hy) by lia. reflexivity.
Qed.

(** What one block contributes to the product. *)
Definition prod_one (nv : Z) (de : list (Z * num)) (ob : Z * B) : res vec :=
  let d := slicev nv de (fst ob) (bdim (snd ob)) in
  if blen (snd ob) =? 0 then Ok d else bprod (snd ob) d (mkvec (bdim (snd ob)) nv []).

Definition bprod_wf (nv : Z) (b : B) : Prop := blen b <> 0 -> forall v p, wf v -> vdim v = bdim b -> vcap v = nv ->
  bprod b v (mkvec (bdim b) nv []) = Ok p -> wf p /\ vdim p = bdim b.

Definition place (ops : list (Z * vec)) : list (Z * num) := concat (map (fun op => shift_by (fst op) (vent (snd op))) ops).

Lemma slicev_wf es lo hi off n nv : 0 <= n <= nv -> sorted_in lo hi (keys es) -> wf (slicev nv es off n).
Proof.
  intros Hn Hs. split; [cbn; lia|]. split; cbn [slicev vdim vent vcap].
  - eapply slice_sorted, Hs.
  - pose proof (slice_length es off n lo hi ltac:(lia) Hs). lia.
Qed.

(** The product is assembled from the products of the blocks; nothing is added behind the last
    block. *)
Theorem prod_blocks_eq nv bs : forall off de product,
  Forall (fun b => 0 < bdim b <= nv) bs -> Forall (bprod_wf nv) bs -> 0 <= off -> off + total bs <= nv ->
  sorted_in off nv (keys de) ->
  vdim product = nv -> sorted_in 0 off (keys (vent product)) -> nv <= vcap product ->
  prod_blocks bdim blen bprod nv off bs de product =
  (ps <- rmapM (prod_one nv de) (offsets off bs) ;;
   Ok (mkvec nv (vcap product) (vent product ++ place (List.combine (map fst (offsets off bs)) ps)))).
Proof.
  induction bs as [|b bs IH]; intros off de product Hd Hw Ho Ht Hs Dp Sp Cp.
  { cbn. rewrite app_nil_r, <- Dp. destruct product; reflexivity. }
  apply Forall_cons_iff in Hd as [Hb Hd]. apply Forall_cons_iff in Hw as [Hwb Hw]. cbn [total fold_right] in Ht. fold (total bs) in Ht.
  assert (Htot : 0 <= total bs).
  { clear -Hd. induction Hd; cbn [total fold_right]; [lia|]. fold (total l) in *. lia. }
  cbn [prod_blocks offsets rmapM map]. rewrite (span_filter _ _ _ _ Hs). cbn [fst].
  unfold prod_one at 1. cbn [fst snd]. cbv zeta.
  assert (Hsw : wf (slicev nv de off (bdim b))) by (eapply slicev_wf; [lia|exact Hs]).
  assert (Hkey : forall (p : vec), wf p -> vdim p = bdim b ->
     push_all product (shift_by off (vent p)) = Ok (mkvec nv (vcap product) (vent product ++ shift_by off (vent p))) /\
     sorted_in 0 (off + bdim b) (keys (vent product ++ shift_by off (vent p)))).
  { intros p (_ & Hp & _) Dimp. rewrite Dimp in Hp. apply (shift_sorted off) in Hp.
    replace (0 + off) with off in Hp by lia. replace (bdim b + off) with (off + bdim b) in Hp by lia.
    assert (Hall : sorted_in 0 (off + bdim b) (keys (vent product ++ shift_by off (vent p)))).
    { rewrite keys_app. apply sorted_in_app. split; [eapply sorted_in_weaken; [| |exact Sp]; lia|].
      eapply sorted_bounds; [exact Hp|]. intros i Hi. pose proof (sorted_in_In _ _ _ _ Hp Hi).
      destruct (rev (keys (vent product))) as [|k l] eqn:E; [lia|].
      assert (In k (keys (vent product))) by (apply in_rev; rewrite E; now left).
      pose proof (sorted_in_In _ _ _ _ Sp H0). lia. }
    split; [|exact Hall]. rewrite push_all_ok; [now rewrite Dp| |].
    - rewrite Dp. eapply sorted_in_weaken; [| |exact Hall]; lia.
    - pose proof (sorted_in_length _ _ _ Hall) as L. unfold keys in L. rewrite map_length, app_length in L. unfold vnnz. lia. }
  assert (Hrest : forall p, wf p -> vdim p = bdim b ->
     prod_blocks bdim blen bprod nv (off + bdim b) bs (filter (fun e => off + bdim b <=? fst e) de)
       (mkvec nv (vcap product) (vent product ++ shift_by off (vent p)))
     = (bs0 <- rmapM (prod_one nv de) (offsets (off + bdim b) bs) ;;
        Ok (mkvec nv (vcap product) (vent product ++ shift_by off (vent p) ++ place (List.combine (map fst (offsets (off + bdim b) bs)) bs0))))).
  { intros p Hp Dimp. destruct (Hkey p Hp Dimp) as [_ Hall].
    rewrite IH; cbn [vdim vent vcap]; auto; try lia; [|eapply rest_sorted, Hs].
    rewrite (rmapM_ext _ (prod_one nv de)).
    - destruct (rmapM (prod_one nv de) (offsets (off + bdim b) bs)); cbn [rbind]; try reflexivity. now rewrite <- app_assoc.
    - intros [o c] Hin. unfold prod_one, slicev. cbn [fst snd].
      destruct (offsets_ge (off + bdim b) bs o c) as (H1 & _ & _); [eapply Forall_impl; [|exact Hd]; cbn; intros; lia|exact Hin|].
      rewrite !(slice_rest _ _ _ _ _ _ Hs) by lia. reflexivity. }
  destruct (Z.eqb_spec (blen b) 0) as [E0|E0].
  - cbn [rbind]. assert (Es : filter (fun e => fst e <? off + bdim b) de = shift_by off (vent (slicev nv de off (bdim b)))).
    { cbn [slicev vent]. unfold slice, shift_by. rewrite (from_off _ _ _ _ Hs), map_map. cbn [fst snd].
      symmetry. erewrite map_ext; [apply map_id|]. intros [i x]. cbn [fst snd]. f_equal. lia. }
    rewrite Es. destruct (Hkey _ Hsw eq_refl) as [-> _]. cbn [rbind]. rewrite (Hrest _ Hsw eq_refl).
    destruct (rmapM _ _); reflexivity.
  - rewrite (push_slice _ _ _ _ _ Hb Hs). cbn [rbind].
    destruct (bprod b (slicev nv de off (bdim b)) (mkvec (bdim b) nv [])) as [p| |] eqn:Ep; cbn [rbind]; try reflexivity.
    destruct (Hwb E0 _ _ Hsw eq_refl eq_refl Ep) as [Hp Dimp]. destruct (Hkey _ Hp Dimp) as [-> _]. cbn [rbind].
    rewrite (Hrest _ Hp Dimp). destruct (rmapM _ _); reflexivity.
Qed.

Lemma place_sorted bs ps : forall off, Forall (fun b => 0 < bdim b) bs ->
  Forall2 (fun b p => wf p /\ vdim p = bdim b) bs ps ->
  sorted_in off (off + total bs) (keys (place (List.combine (map fst (offsets off bs)) ps))).
Proof.
  intros off Hd F. revert off; induction F as [|b p bs ps [(_ & Sp & _) Dp] F IH]; intros off; [exact I|].
  apply Forall_cons_iff in Hd as [Hb Hd]. cbn [offsets map List.combine place concat fst snd total fold_right].
  fold (place (List.combine (map fst (offsets (off + bdim b) bs)) ps)). fold (total bs). specialize (IH Hd (off + bdim b)).
  assert (Htot : 0 <= total bs).
  { clear -Hd. induction Hd; cbn [total fold_right]; [lia|]. fold (total l) in *. lia. }
  rewrite Dp in Sp. apply (shift_sorted off) in Sp. replace (0 + off) with off in Sp by lia. rewrite keys_app. apply sorted_in_app. split.
  - eapply sorted_in_weaken; [| |exact Sp]; lia.
  - eapply sorted_bounds; [exact IH|]. intros i Hi. pose proof (sorted_in_In _ _ _ _ IH Hi).
    destruct (rev (keys (shift_by off (vent p)))) as [|k l] eqn:E; [lia|].
    assert (Hk : In k (keys (shift_by off (vent p)))) by (apply in_rev; rewrite E; now left).
    pose proof (sorted_in_In _ _ _ _ Sp Hk). lia.
Qed.
End Blocks.
End Gen.
