(** Conversions, equality, box test, clipping, removal and insertion of entries. *)
From Coq Require Import Reals Lra.
From Verif Require Import Base Num Cmp Sparse Vec VecFacts Order.
Local Open Scope Z_scope.

Section Conv.
Context {N : Num}.

(** ** C03 *)


Lemma get_filter_pred (P : Z * num -> bool) lo hi (l : list (Z * num)) i :
  sorted_in lo hi (keys l) ->
  get (filter P l) i = match get l i with Some x => if P (i, x) then Some x else None | None => None end.
Proof.
  revert lo; induction l as [|[j x] l IH]; intros lo H; [reflexivity|].
  cbn [keys map fst sorted_in] in H. destruct H as [Hj H]. cbn [filter get].
  destruct (Z.eqb_spec j i) as [->|Hne].
  - destruct (P (i, x)) eqn:E; cbn [get].
    + now rewrite Z.eqb_refl.
    + rewrite (IH _ H). rewrite (get_below (i+1) hi l i H) by lia. reflexivity.
  - destruct (P (j, x)) eqn:E; cbn [get].
    + destruct (Z.eqb_spec j i); [congruence|]. apply (IH _ H).
    + apply (IH _ H).
Qed.

Lemma vec_set_from_raw_spec v values eps : wf v ->
  exists v', vec_set_from_raw v values eps = Ok v' /\ wf v'
    /\ vdim v' = Z.of_nat (length values)
    /\ forall i, 0 <= i -> get (vent v') i =
         match nth_error values (Z.to_nat i) with
         | Some x => if is_zero x eps then None else Some x
         | None => None
         end.
Proof.
  intros Hw. unfold vec_set_from_raw.
  set (P := fun e : Z * num => negb (is_zero (snd e) eps)).
  destruct (vec_resize_spec (vec_clear v) (Z.of_nat (length values))) as (v1 & E1 & Hw1 & Hd1 & Hg1);
    [now apply wf_clear|lia|].
  assert (He1 : vent v1 = []).
  { revert E1. unfold vec_resize. destruct (0 <=? Z.of_nat (length values)); [|discriminate]. cbn [check rbind].
    intros E; injection E as <-. cbn [vent vec_clear vdim]. destruct (_ <? _); reflexivity. }
  rewrite E1. cbn [rbind].
  destruct (vec_reserve_spec v1 (Z.of_nat (length (filter P (enum values))))) as (v2 & E2 & Hw2 & Hd2 & He2 & Hc2);
    [auto|lia|].
  rewrite E2. cbn [rbind].
  rewrite (rfold_filter_push (fun e => is_zero (snd e) eps) fst snd).
  change (fun r : Z * num => negb (is_zero (snd r) eps)) with P.
  replace (map (fun r : Z * num => (fst r, snd r)) (filter P (enum values))) with (filter P (enum values)).
  2:{ rewrite <- (map_id (filter P (enum values))) at 1. apply map_ext. intros [a b]; reflexivity. }
  assert (Hsen : sorted_in 0 (Z.of_nat (length values)) (keys (enum values))).
  { pose proof (sorted_enum_from 0 values) as H. rewrite Z.add_0_l in H. exact H. }
  assert (Hsf : sorted_in 0 (Z.of_nat (length values)) (keys (filter P (enum values)))).
  { apply (sorted_in_filter_keys P fst). exact Hsen. }
  rewrite push_all_ok; rewrite ?He2, ?He1, ?app_nil_l.
  - eexists. split; [reflexivity|]. unfold wf; cbn [vdim vcap vent].
    rewrite Hd2, Hd1. repeat split; auto; try lia.
    intros i Hi. rewrite (get_filter_pred P 0 (Z.of_nat (length values))) by exact Hsen.
    unfold enum. rewrite get_enum_from. destruct (Z.leb_spec 0 i); [|lia]. rewrite Z.sub_0_r.
    destruct (nth_error values (Z.to_nat i)) as [x|]; [|reflexivity]. unfold P. cbn [snd].
    destruct (is_zero x eps); reflexivity.
  - now rewrite Hd2, Hd1.
  - unfold vnnz. rewrite He2, He1. cbn [length]. lia.
Qed.

Lemma set_nth_length {A} (l : list A) n a : length (set_nth l n a) = length l.
Proof. revert n; induction l as [|b l IH]; intros [|n]; simpl; auto. Qed.

Lemma set_nth_spec {A} (l : list A) n a m :
  (n < length l)%nat -> nth_error (set_nth l n a) m = if Nat.eqb m n then Some a else nth_error l m.
Proof.
  revert n m; induction l as [|b l IH]; intros n m H; cbn [length] in H; [lia|].
  destruct n as [|n], m as [|m]; cbn [set_nth nth_error Nat.eqb]; auto. apply IH. lia.
Qed.

Lemma arr_set_ok {A} (l : list A) i a : 0 <= i < Z.of_nat (length l) ->
  arr_set l i a = Ok (set_nth l (Z.to_nat i) a).
Proof.
  intros H. unfold arr_set. destruct (Z.leb_spec 0 i), (Z.ltb_spec i (Z.of_nat (length l))); simpl; auto; lia.
Qed.

Lemma to_raw_loop lo dim (es : list (Z * num)) a :
  sorted_in lo dim (keys es) -> 0 <= lo -> Z.of_nat (length a) = dim ->
  exists a', rfold (fun a e => arr_set a (fst e) (snd e)) a es = Ok a' /\ length a' = length a
    /\ forall n, (n < length a)%nat -> nth_error a' n =
         match get es (Z.of_nat n) with Some x => Some x | None => nth_error a n end.
Proof.
  revert lo a; induction es as [|[i x] es IH]; intros lo a Hs Hlo Hl.
  - exists a. simpl. auto.
  - cbn [keys map fst sorted_in] in Hs. destruct Hs as [Hi Hs]. cbn [rfold fst snd].
    rewrite arr_set_ok by lia. cbn [rbind].
    destruct (IH (i+1) (set_nth a (Z.to_nat i) x)) as (a' & E & Hl' & Hn); [auto|lia|rewrite set_nth_length; auto|].
    exists a'. rewrite E, Hl', set_nth_length. split; [reflexivity|]. split; [reflexivity|].
    intros n Hn'. rewrite Hn by (rewrite set_nth_length; auto). cbn [get].
    rewrite set_nth_spec by lia.
    destruct (Z.eqb_spec i (Z.of_nat n)) as [E'|Hne].
    + subst i. rewrite (get_below (Z.of_nat n + 1) dim) by (auto; lia). rewrite Nat2Z.id, Nat.eqb_refl. reflexivity.
    + destruct (get es (Z.of_nat n)); [reflexivity|]. destruct (Nat.eqb_spec n (Z.to_nat i)); [lia|reflexivity].
Qed.

Lemma vec_to_raw_spec v : wf v ->
  exists a, vec_to_raw v = Ok a /\ Z.of_nat (length a) = vdim v
    /\ forall i, 0 <= i < vdim v -> nth_error a (Z.to_nat i) = Some (dense v i).
Proof.
  intros (Hd & Hs & Hc). unfold vec_to_raw.
  destruct (to_raw_loop 0 (vdim v) (vent v) (repeat n0 (Z.to_nat (vdim v)))) as (a & E & Hl & Hn); auto; try lia.
  { rewrite repeat_length. lia. }
  rewrite repeat_length in *. exists a. split; [exact E|]. split; [lia|].
  intros i Hi. rewrite Hn by lia. rewrite Z2Nat.id by lia. unfold dense, oval.
  destruct (get (vent v) i); [reflexivity|].
  rewrite nth_error_nth' with (d := n0) by (rewrite repeat_length; lia). f_equal. apply nth_repeat.
Qed.

Lemma nth_error_ext {A} (l1 l2 : list A) : (forall n, nth_error l1 n = nth_error l2 n) -> l1 = l2.
Proof.
  revert l2; induction l1 as [|a l1 IH]; intros [|b l2] H; auto.
  - specialize (H 0%nat); discriminate.
  - specialize (H 0%nat); discriminate.
  - pose proof (H 0%nat) as H0. injection H0 as ->. f_equal. apply IH. intros n. apply (H (S n)).
Qed.

Lemma raw_roundtrip v values eps : wf v ->
  exists v', vec_set_from_raw v values eps = Ok v' /\
    vec_to_raw v' = Ok (map (fun x => if is_zero x eps then n0 else x) values).
Proof.
  intros Hw. destruct (vec_set_from_raw_spec v values eps Hw) as (v' & E & Hw' & Hd & Hg).
  exists v'. split; [exact E|]. destruct (vec_to_raw_spec v' Hw') as (a & Ea & Hl & Hn). rewrite Ea. f_equal.
  apply nth_error_ext. intros n. rewrite nth_error_map.
  destruct (Nat.ltb_spec n (length values)) as [Hlt|Hge].
  - specialize (Hn (Z.of_nat n)). rewrite Nat2Z.id in Hn. rewrite Hn by lia. unfold dense. rewrite Hg by lia.
    rewrite Nat2Z.id. destruct (nth_error values n) as [x|] eqn:En; [|apply nth_error_None in En; lia].
    cbn [option_map]. destruct (is_zero x eps); reflexivity.
  - replace (nth_error a n) with (@None num) by (symmetry; apply nth_error_None; lia).
    replace (nth_error values n) with (@None num) by (symmetry; apply nth_error_None; lia). reflexivity.
Qed.

Lemma sparse_roundtrip v r eps : wf v -> wf r ->
  (forall i x, In (i, x) (vent v) -> is_zero x eps = false) -> is_zero n0 eps = true ->
  exists a v', vec_to_raw v = Ok a /\ vec_set_from_raw r a eps = Ok v' /\ vdim v' = vdim v
    /\ forall i, get (vent v') i = get (vent v) i.
Proof.
  intros Hw Hr Hnz Hz. destruct (vec_to_raw_spec v Hw) as (a & Ea & Hl & Hn).
  destruct (vec_set_from_raw_spec r a eps Hr) as (v' & E & Hw' & Hd & Hg).
  exists a, v'. split; [exact Ea|]. split; [exact E|]. split; [lia|].
  intros i. destruct Hw as (Hd0 & Hs & Hc). 
  destruct (Z.leb_spec 0 i) as [Hi|Hi].
  2:{ rewrite (get_below 0 (vdim v) (vent v)) by auto. destruct Hw' as (_ & Hs' & _). now rewrite (get_below 0 (vdim v') (vent v')). }
  rewrite Hg by lia.
  destruct (Z.ltb_spec i (vdim v)) as [Hlt|Hge].
  - rewrite Hn by lia. unfold dense. destruct (get (vent v) i) as [x|] eqn:Ex; cbn [oval].
    + rewrite (Hnz i x) by now apply get_Some_In. reflexivity.
    + now rewrite Hz.
  - replace (nth_error a (Z.to_nat i)) with (@None num) by (symmetry; apply nth_error_None; lia).
    symmetry. apply get_None. intros Hin. pose proof (sorted_in_In _ _ _ _ Hs Hin). lia.
Qed.

Lemma vec_value_at_spec v i : i < vdim v -> vec_value_at v i = Ok (dense v i).
Proof.
  intros H. unfold vec_value_at, vec_at. destruct (Z.ltb_spec i (vdim v)); [reflexivity|lia].
Qed.

Lemma vec_concat_spec x y r : wf x -> wf y -> 0 <= vcap r ->
  exists z, vec_concat x y r = Ok z /\ wf z /\ vdim z = vdim x + vdim y
    /\ forall i, get (vent z) i = if i <? vdim x then get (vent x) i else get (vent y) (i - vdim x).
Proof.
  intros (Hdx & Hsx & Hcx) (Hdy & Hsy & Hcy) Hcr. unfold vec_concat.
  unfold vec_reserve, vec_clear at 1. cbn [vcap].
  destruct (Z.leb_spec 0 (vnnz x + vnnz y)); [|unfold vnnz in *; lia]. cbn [check rbind].
  set (c' := Z.max (vcap r) (vnnz x + vnnz y)).
  assert (E : (if vnnz x + vnnz y <=? vcap r then vec_clear r else
     mkvec (vdim (vec_clear r)) (vnnz x + vnnz y) (vent (vec_clear r))) = mkvec (vdim r) c' []).
  { unfold c', vec_clear. cbn [vdim vent]. destruct (Z.leb_spec (vnnz x + vnnz y) (vcap r)); f_equal; lia. }
  change (vcap (vec_clear r)) with (vcap r). rewrite E.
  unfold vec_resize. destruct (Z.leb_spec 0 (vdim x + vdim y)); [|lia]. cbn [check rbind vdim vcap vent].
  replace (if vdim x + vdim y <? vdim r then rev (drop_ge (vdim x + vdim y) (rev [])) else []) with (@nil (Z*num))
    by (destruct (_ <? vdim r); reflexivity).
  assert (Hsh : forall l lo hi, sorted_in lo hi (keys l) ->
            sorted_in (lo + vdim x) (hi + vdim x) (keys (map (fun e : Z * num => (fst e + vdim x, snd e)) l))).
  { clear. induction l as [|[i a] l IH]; intros lo hi H; [exact I|]. cbn [keys map fst snd sorted_in] in *.
    destruct H as [H H']. split; [lia|]. specialize (IH _ _ H'). replace (i + vdim x + 1) with (i + 1 + vdim x) by lia. exact IH. }
  specialize (Hsh (vent y) 0 (vdim y) Hsy).
  assert (Hcat : sorted_in 0 (vdim x + vdim y) (keys (vent x) ++ keys (map (fun e : Z * num => (fst e + vdim x, snd e)) (vent y)))).
  { apply sorted_in_app. split; [eapply sorted_in_weaken; [| |exact Hsx]; lia|].
    eapply sorted_in_weaken; [| |exact Hsh]; [|lia].
    destruct (rev (keys (vent x))) as [|j t] eqn:Er; [lia|].
    assert (In j (keys (vent x))) by (apply in_rev; rewrite Er; now left).
    pose proof (sorted_in_In _ _ _ _ Hsx H1). lia. }
  rewrite push_all_ok; cbn [vdim vcap vent app].
  2:{ eapply sorted_in_weaken; [| |exact Hsx]; lia. }
  2:{ unfold vnnz in *; cbn [vent length]. lia. }
  cbn [rbind]. rewrite push_all_ok; cbn [vdim vcap vent].
  - eexists. split; [reflexivity|]. unfold wf; cbn [vdim vcap vent]. rewrite keys_app, app_length, map_length.
    unfold vnnz in *. repeat split; auto; try lia.
    intros i. rewrite get_app. destruct (Z.ltb_spec i (vdim x)).
    + destruct (get (vent x) i); [reflexivity|]. apply get_None. intros Hi.
      pose proof (sorted_in_In _ _ _ _ Hsh Hi). lia.
    + replace (get (vent x) i) with (@None num).
      2:{ symmetry. apply get_None. intros Hi. pose proof (sorted_in_In _ _ _ _ Hsx Hi). lia. }
      clear. induction (vent y) as [|[j a] l IH]; [reflexivity|]. cbn [map get fst snd].
      destruct (Z.eqb_spec (j + vdim x) i), (Z.eqb_spec j (i - vdim x)); try lia; auto.
  - rewrite keys_app. exact Hcat.
  - unfold vnnz in *; cbn [vent]. rewrite map_length. lia.
Qed.

(** ** C05: equality *)
Lemma vec_eq_spec x y eps : wf x -> wf y -> vdim x = vdim y ->
  is_eq n0 n0 eps = true ->
  exists b, vec_eq x y eps = Ok b /\
    (b = true <-> forall i, 0 <= i < vdim x -> is_eq (dense x i) (dense y i) eps = true).
Proof.
  intros (Hdx & Hsx & Hcx) (Hdy & Hsy & Hcy) Hd H0. unfold vec_eq. rewrite Hd, Z.eqb_refl. cbn [check rbind].
  rewrite Hd in Hsx. destruct (align2 (vdim y) (vent x) (vent y) Hsx Hsy) as (idxs & Hs & Hm & He & _).
  rewrite He. cbn [rbind]. eexists. split; [reflexivity|]. rewrite forallb_forall. split.
  - intros H i Hi. destruct (get (vent x) i) eqn:E1; [|destruct (get (vent y) i) eqn:E2].
    + assert (Hin : In i idxs). { apply Hm. left. apply get_Some_In in E1. eapply In_keys, E1. }
      specialize (H _ (in_map (fun i => (i, [get (vent x) i; get (vent y) i])) _ _ Hin)). exact H.
    + assert (Hin : In i idxs). { apply Hm. right. apply get_Some_In in E2. eapply In_keys, E2. }
      specialize (H _ (in_map (fun i => (i, [get (vent x) i; get (vent y) i])) _ _ Hin)). exact H.
    + unfold dense. now rewrite E1, E2.
  - intros H row Hr. apply in_map_iff in Hr. destruct Hr as (i & <- & Hi). cbn [snd].
    apply H. apply (sorted_in_In _ _ _ _ Hs Hi).
Qed.

End Conv.

Section Box.
Context {N : Num} {O : Ord N}.

(** ** C06: box test *)
Definition in_box_at (x lb ub : vec) (i : Z) : Prop :=
  nltb (dense x i) (dense lb i) = false /\ nltb (dense ub i) (dense x i) = false.

Lemma vec_is_boxed_spec x lb ub :
  wf x -> wf lb -> wf ub -> vdim lb = vdim x -> vdim ub = vdim x ->
  exists b, vec_is_boxed x lb ub = Ok b /\ (b = true <-> forall i, 0 <= i < vdim x -> in_box_at x lb ub i).
Proof.
  intros (Hdx & Hsx & Hcx) (Hdl & Hsl & Hcl) (Hdu & Hsu & Hcu) El Eu.
  unfold vec_is_boxed. rewrite El, Eu, Z.eqb_refl. cbn [check rbind].
  rewrite El in Hsl. rewrite Eu in Hsu.
  destruct (align3 (vdim x) (vent x) (vent lb) (vent ub) Hsx Hsl Hsu) as (idxs & Hs & Hm & He & _).
  rewrite He. cbn [rbind]. eexists. split; [reflexivity|]. rewrite forallb_forall. split.
  - intros H i Hi. destruct (existsb (Z.eqb i) idxs) eqn:Ein.
    + apply existsb_In in Ein.
      specialize (H _ (in_map (fun i => (i, [get (vent x) i; get (vent lb) i; get (vent ub) i])) _ _ Ein)).
      cbn [snd] in H. apply andb_true_iff in H. destruct H as [H1 H2]. apply negb_true_iff in H1, H2.
      split; assumption.
    + assert (Hn : ~ In i idxs) by (intros Hi'; apply existsb_In in Hi'; congruence). rewrite Hm in Hn.
      unfold in_box_at, dense.
      replace (get (vent x) i) with (@None num) by (symmetry; apply get_None; tauto).
      replace (get (vent lb) i) with (@None num) by (symmetry; apply get_None; tauto).
      replace (get (vent ub) i) with (@None num) by (symmetry; apply get_None; tauto).
      cbn [oval]. split; apply lt00.
  - intros H row Hr. apply in_map_iff in Hr. destruct Hr as (i & <- & Hi). cbn [snd].
    destruct (H i (sorted_in_In _ _ _ _ Hs Hi)) as [H1 H2]. unfold dense in *. now rewrite H1, H2.
Qed.

(** ** C07: clipping *)

Definition ordered_at (lb ub : vec) (i : Z) : Prop :=
  nn (dense lb i) /\ nn (dense ub i) /\ (val (dense lb i) <= val (dense ub i))%R.

Lemma clip_val_spec x l u : nn x -> nn l -> nn u -> (val l <= val u)%R ->
  nn (clip_val x l u) /\ (val l <= val (clip_val x l u) <= val u)%R
  /\ val (clip_val x l u) = Rmax (Rmin (val x) (val u)) (val l).
Proof.
  intros Hx Hl Hu H. unfold clip_val. assert (Hm : nn (nmin x u)) by now apply nn_min.
  rewrite val_max, val_min by auto. split; [now apply nn_max|]. split; [|reflexivity].
  unfold Rmax, Rmin. repeat destruct Rle_dec; lra.
Qed.

Lemma is_zero_iff x eps : nn x -> nn eps -> (is_zero x eps = true <-> (Rabs (val x) <= val eps)%R).
Proof. intros. unfold is_zero. rewrite leb_iff by auto using nn_abs. now rewrite val_abs. Qed.

(** Rows that survive clipping carry an entry of [x], or of both bounds. *)
Lemma clip_count (idxs : list Z) (X L U : list Z) (P : Z -> bool) :
  NoDup idxs ->
  (forall i, In i idxs -> P i = true -> In i X \/ (In i L /\ In i U)) ->
  (length (filter P idxs) <= length X + Nat.min (length L) (length U))%nat.
Proof.
  intros Hnd HP.
  assert (Hinc1 : incl (filter P idxs) (X ++ L)).
  { intros i Hi. apply filter_In in Hi. apply in_app_iff. destruct (HP i); tauto. }
  assert (Hinc2 : incl (filter P idxs) (X ++ U)).
  { intros i Hi. apply filter_In in Hi. apply in_app_iff. destruct (HP i); tauto. }
  assert (Hnd' : NoDup (filter P idxs)) by now apply NoDup_filter.
  pose proof (NoDup_incl_length Hnd' Hinc1) as H1. pose proof (NoDup_incl_length Hnd' Hinc2) as H2.
  rewrite app_length in H1, H2. lia.
Qed.

Lemma vec_clip_spec x lb ub eps r :
  wf x -> wf lb -> wf ub -> vdim lb = vdim x -> vdim ub = vdim x -> vdim r = vdim x -> 0 <= vcap r ->
  (forall i, 0 <= i < vdim x -> nn (dense x i) /\ ordered_at lb ub i) ->
  nn eps -> (0 <= val eps)%R ->
  (* dropping a small value must not leave the box *)
  (forall i, 0 <= i < vdim x ->
     is_zero (clip_val (dense x i) (dense lb i) (dense ub i)) eps = true ->
     (val (dense lb i) <= 0 <= val (dense ub i))%R) ->
  exists c, vec_clip x lb ub eps r = Ok c /\ wf c /\ vdim c = vdim x
    /\ (forall i, 0 <= i < vdim x -> in_box_at c lb ub i)
    /\ (forall i, 0 <= i < vdim x ->
          let p := clip_val (dense x i) (dense lb i) (dense ub i) in
          dense c i = p \/ (is_zero p eps = true /\ dense c i = n0)).
Proof.
  intros Hwx Hwl Hwu El Eu Er Hcr Hord Heps Heps0 Hdrop.
  destruct Hwx as (Hdx & Hsx & Hcx). pose proof Hwl as (Hdl & Hsl & Hcl). pose proof Hwu as (Hdu & Hsu & Hcu).
  unfold vec_clip. rewrite El, Eu, Er, Z.eqb_refl. cbn [check rbind].
  set (want := Z.min (Z.max (vnnz lb) (vnnz x) + Z.max (vnnz ub) (vnnz x)) (vdim x)).
  assert (Hwant : 0 <= want) by (unfold want, vnnz; lia).
  unfold vec_reserve. destruct (Z.leb_spec 0 want); [|lia]. cbn [check rbind].
  set (c' := Z.max (vcap r) want).
  assert (Ec : (if want <=? vcap (vec_clear r) then vec_clear r
     else mkvec (vdim (vec_clear r)) want (vent (vec_clear r))) = mkvec (vdim r) c' []).
  { unfold c', vec_clear. cbn [vdim vent vcap]. destruct (Z.leb_spec want (vcap r)); f_equal; lia. }
  rewrite Ec.
  rewrite El in Hsl. rewrite Eu in Hsu.
  destruct (align3 (vdim x) (vent x) (vent lb) (vent ub) Hsx Hsl Hsu) as (idxs & Hs & Hm & He & _).
  rewrite He. cbn [rbind].
  set (G := fun i => [get (vent x) i; get (vent lb) i; get (vent ub) i]).
  set (F := fun l : list (option num) => match l with [a; l; u] => clip_val (oval a) (oval l) (oval u) | _ => n0 end).
  rewrite (rfold_ext _ (fun r row => let value := F (snd row) in
            if is_zero value eps then Ok r else vec_push r (fst row) value)).
  2:{ intros t a Ha. apply in_map_iff in Ha. destruct Ha as (i & <- & _). reflexivity. }
  change (map (fun i => (i, [get (vent x) i; get (vent lb) i; get (vent ub) i])) idxs) with (map (fun i => (i, G i)) idxs).
  rewrite (rfold_rows_push F (fun v => is_zero v eps) G).
  set (P := fun i => negb (is_zero (F (G i)) eps)).
  assert (HF : forall i, F (G i) = clip_val (dense x i) (dense lb i) (dense ub i)) by reflexivity.
  assert (Hsf : sorted_in 0 (vdim x) (keys (map (fun i => (i, F (G i))) (filter P idxs)))).
  { apply sorted_map_pair, sorted_filter, Hs. }
  assert (Hcap : Z.of_nat (length (filter P idxs)) <= c').
  { assert (H1 : (length (filter P idxs) <= length (keys (vent x)) + Nat.min (length (keys (vent lb))) (length (keys (vent ub))))%nat).
    { apply clip_count; [eapply sorted_in_NoDup, Hs|]. intros i Hi HP.
      assert (Hr : 0 <= i < vdim x) by apply (sorted_in_In _ _ _ _ Hs Hi).
      destruct (Hord i Hr) as (Hnx & Hnl & Hnu & Hlu).
      destruct (get (vent x) i) eqn:Ex. { left. eapply In_keys, get_Some_In, Ex. }
      right. unfold P in HP. rewrite HF in HP. apply negb_true_iff in HP.
      assert (Hx0 : dense x i = n0) by (unfold dense; now rewrite Ex).
      destruct (clip_val_spec (dense x i) (dense lb i) (dense ub i)) as (Hnc & _ & Hcv); auto.
      assert (Hnz : ~ (Rabs (val (clip_val (dense x i) (dense lb i) (dense ub i))) <= val eps)%R).
      { intros Hc. apply is_zero_iff in Hc; auto. congruence. }
      rewrite Hcv in Hnz. rewrite Hx0, val_0 in Hnz.
      split.
      - destruct (get (vent lb) i) eqn:E2; [eapply In_keys, get_Some_In, E2|exfalso].
        assert (E2' : dense lb i = n0) by (unfold dense; now rewrite E2). rewrite E2', val_0 in *.
        apply Hnz. unfold Rmax, Rmin. repeat destruct Rle_dec; try lra; rewrite Rabs_R0; lra.
      - destruct (get (vent ub) i) eqn:E2; [eapply In_keys, get_Some_In, E2|exfalso].
        assert (E2' : dense ub i = n0) by (unfold dense; now rewrite E2). rewrite E2', val_0 in *.
        apply Hnz. unfold Rmax, Rmin. repeat destruct Rle_dec; try lra; rewrite ?Rabs_R0; try lra.
        replace (val (dense lb i)) with 0%R by lra. rewrite Rabs_R0. lra. }
    unfold keys in H1. rewrite !map_length in H1.
    assert (H2 : (Z.of_nat (length (filter P idxs)) <= vdim x)%Z).
    { pose proof (sorted_in_length _ _ _ (sorted_filter P idxs 0 (vdim x) Hs)). lia. }
    unfold c', want, vnnz. lia. }
  rewrite push_all_ok; cbn [vdim vcap vent app].
  2:{ rewrite Er. exact Hsf. }
  2:{ unfold vnnz; cbn [vent length]. rewrite map_length. lia. }
  cbn [rbind]. set (c := mkvec (vdim r) c' (map (fun i => (i, F (G i))) (filter P idxs))).
  assert (Hwc : wf c).
  { unfold wf, c; cbn [vdim vcap vent]. rewrite Er, map_length. repeat split; auto; lia. }
  assert (Hval : forall i, 0 <= i < vdim x ->
     let p := clip_val (dense x i) (dense lb i) (dense ub i) in
     dense c i = p \/ (is_zero p eps = true /\ dense c i = n0)).
  { intros i Hi p.
    assert (Ed : dense c i = oval (if existsb (Z.eqb i) idxs && P i then Some (F (G i)) else None)).
    { unfold dense, c. cbn [vent]. f_equal. rewrite (get_map_filter P (fun i => F (G i)) 0 (vdim x)) by exact Hs. reflexivity. }
    rewrite !Ed. clear Ed.
    destruct (existsb (Z.eqb i) idxs) eqn:Ein; cbn [andb].
    - unfold P. rewrite HF. fold p. destruct (is_zero p eps) eqn:Ez; cbn [negb oval]; auto.
    - right. split; [|reflexivity]. assert (Hn : ~ In i idxs) by (intros Hi'; apply existsb_In in Hi'; congruence).
      rewrite Hm in Hn. unfold p, dense.
      replace (get (vent x) i) with (@None num) by (symmetry; apply get_None; tauto).
      replace (get (vent lb) i) with (@None num) by (symmetry; apply get_None; tauto).
      replace (get (vent ub) i) with (@None num) by (symmetry; apply get_None; tauto).
      cbn [oval]. apply is_zero_iff; auto.
      + destruct (clip_val_spec n0 n0 n0) as (H1 & _ & _); auto using nn_0. lra.
      + destruct (clip_val_spec n0 n0 n0) as (_ & H1 & _); auto using nn_0; [lra|]. rewrite val_0 in H1.
        replace (val (clip_val n0 n0 n0)) with 0%R by lra. rewrite Rabs_R0. lra. }
  assert (Hbox : forall i, 0 <= i < vdim x -> in_box_at c lb ub i).
  { intros i Hi. destruct (Hord i Hi) as (Hnx & Hnl & Hnu & Hlu).
    destruct (clip_val_spec (dense x i) (dense lb i) (dense ub i)) as (Hnc & Hcb & Hcv); auto.
    destruct (Hval i Hi) as [E|[Ez E]]; unfold in_box_at; rewrite E.
    - split; apply ltb_false_iff; auto; lra.
    - specialize (Hdrop i Hi Ez). split; apply ltb_false_iff; auto using nn_0; rewrite val_0; lra. }
  destruct (vec_is_boxed_spec c lb ub Hwc Hwl Hwu) as (b & Eb & Hb); [cbn; congruence|cbn; congruence|].
  rewrite Eb. cbn [rbind]. replace b with true.
  2:{ symmetry. apply Hb. cbn [c vdim]. rewrite Er. exact Hbox. }
  cbn [check rbind]. exists c. repeat split; auto; try apply Hwc; try apply Hbox; auto.
Qed.

End Box.

(** ** C08: removing and re-inserting entries *)
Section Renumber.
Context {N : Num}.

(** Number of removed indices below [i]. *)
Definition count_lt (fs : list Z) (i : Z) : Z := Z.of_nat (length (filter (fun f => f <? i) fs)).

(** Original index [i] and reduced index [j] name the same (kept) coordinate. *)
Definition kept (fs : list Z) (i j : Z) : Prop := ~ In i fs /\ j = i - count_lt fs i.

Lemma count_lt_nil i : count_lt [] i = 0. Proof. reflexivity. Qed.
Lemma count_lt_cons f fs i : count_lt (f :: fs) i = (if f <? i then 1 else 0) + count_lt fs i.
Proof. unfold count_lt. simpl. destruct (f <? i); cbn [length]; lia. Qed.
Lemma count_lt_nonneg fs i : 0 <= count_lt fs i. Proof. unfold count_lt; lia. Qed.
Lemma count_lt_le_length fs i : count_lt fs i <= Z.of_nat (length fs).
Proof. unfold count_lt. pose proof (filter_length_le (fun f => f <? i) fs). lia. Qed.
Lemma count_lt_app a b i : count_lt (a ++ b) i = count_lt a i + count_lt b i.
Proof. unfold count_lt. rewrite filter_app, app_length. lia. Qed.
Lemma count_lt_all fs i : (forall f, In f fs -> f < i) -> count_lt fs i = Z.of_nat (length fs).
Proof.
  induction fs as [|f fs IH]; intros H; [reflexivity|]. rewrite count_lt_cons.
  pose proof (H f (or_introl eq_refl)). destruct (Z.ltb_spec f i); [|lia]. rewrite IH by (intros; apply H; now right).
  cbn [length]. lia.
Qed.
Lemma count_lt_none fs i : (forall f, In f fs -> i <= f) -> count_lt fs i = 0.
Proof.
  induction fs as [|f fs IH]; intros H; [reflexivity|]. rewrite count_lt_cons.
  pose proof (H f (or_introl eq_refl)). destruct (Z.ltb_spec f i); [lia|]. rewrite IH by (intros; apply H; now right). lia.
Qed.
(** Between kept indices the count grows slower than the index. *)
Lemma count_lt_mono fs lo hi i i' : sorted_in lo hi fs -> ~ In i fs -> i < i' ->
  count_lt fs i <= count_lt fs i' /\ i - count_lt fs i < i' - count_lt fs i'.
Proof.
  intros Hs Hni Hlt.
  assert (H : 0 <= count_lt fs i' - count_lt fs i <= i' - i - 1).
  { assert (Hs' : NoDup fs) by (eapply sorted_in_NoDup; eassumption).
    assert (E : count_lt fs i' - count_lt fs i = Z.of_nat (length (filter (fun f => (i <=? f) && (f <? i')) fs))).
    { clear Hs Hs' Hni. induction fs as [|f fs IH]; [reflexivity|]. rewrite !count_lt_cons. cbn [filter].
      destruct (Z.ltb_spec f i'), (Z.ltb_spec f i), (Z.leb_spec i f); cbn [andb length]; lia. }
    rewrite E. split; [lia|].
    set (g := filter (fun f => (i <=? f) && (f <? i')) fs).
    assert (Hg : NoDup g) by now apply NoDup_filter.
    assert (Hin : incl g (map (fun k => i + 1 + Z.of_nat k) (seq 0 (Z.to_nat (i' - i - 1))))).
    { intros f Hf. apply filter_In in Hf. destruct Hf as [Hf Hb]. apply andb_true_iff in Hb.
      destruct Hb as [Hb1 Hb2]. apply Z.leb_le in Hb1. apply Z.ltb_lt in Hb2.
      assert (f <> i) by (intros ->; tauto).
      apply in_map_iff. exists (Z.to_nat (f - i - 1)). split; [lia|]. apply in_seq. lia. }
    pose proof (NoDup_incl_length Hg Hin) as Hlen. rewrite map_length, seq_length in Hlen. lia. }
  lia.
Qed.

Lemma kept_inj fs lo hi i i' j : sorted_in lo hi fs -> kept fs i j -> kept fs i' j -> i = i'.
Proof.
  intros Hs [H1 E1] [H2 E2]. destruct (Z.lt_trichotomy i i') as [H|[H|H]]; auto; exfalso.
  - pose proof (count_lt_mono fs lo hi i i' Hs H1 H). lia.
  - pose proof (count_lt_mono fs lo hi i' i Hs H2 H). lia.
Qed.

Lemma skip_lt_spec fs off i lo hi fs' off' :
  sorted_in lo hi fs -> skip_lt fs off i = (fs', off') ->
  exists pre, fs = pre ++ fs' /\ off' = off + Z.of_nat (length pre) /\ (forall f, In f pre -> f < i)
    /\ (forall f, In f fs' -> i <= f).
Proof.
  revert off lo; induction fs as [|f fs IH]; intros off lo Hs E; cbn [skip_lt] in E.
  - injection E as <- <-. exists []. cbn. repeat split; auto; try lia; tauto.
  - destruct Hs as [Hf Hs]. destruct (Z.ltb_spec f i) as [Hlt|Hge].
    + destruct (IH (off+1) (f+1) Hs E) as (pre & -> & -> & H1 & H2). exists (f :: pre). cbn [length app].
      repeat split; auto; try lia. intros g [<-|Hg]; auto.
    + injection E as <- <-. exists []. cbn [app length]. split; [reflexivity|]. split; [lia|]. split; [intros g []|].
      intros g [<-|Hg]; [auto|]. pose proof (sorted_in_In _ _ _ _ Hs Hg). lia.
Qed.

(** The entries produced by [remove_loop]. *)
Fixpoint remove_ents (fs : list Z) (es : list (Z * num)) : list (Z * num) :=
  match es with
  | [] => []
  | (i, x) :: es' =>
    if existsb (Z.eqb i) fs then remove_ents fs es' else (i - count_lt fs i, x) :: remove_ents fs es'
  end.

Lemma remove_loop_spec pre fs es lo lo' hi hi' t :
  sorted_in lo hi (pre ++ fs) -> sorted_in lo' hi' (keys es) ->
  (forall f, In f pre -> forall i, In i (keys es) -> f < i) ->
  remove_loop fs (Z.of_nat (length pre)) es t = push_all t (remove_ents (pre ++ fs) es).
Proof.
  revert pre fs lo' t; induction es as [|[i x] es IH]; intros pre fs lo' t Hf He Hpre; [reflexivity|].
  cbn [remove_loop remove_ents]. destruct (skip_lt fs (Z.of_nat (length pre)) i) as [fs' off'] eqn:Esk.
  assert (Hfs : exists l, sorted_in l hi fs). { apply sorted_in_app in Hf. destruct Hf as [_ Hf]. eauto. }
  destruct Hfs as (l & Hfs).
  destruct (skip_lt_spec _ _ _ _ _ _ _ Hfs Esk) as (p & -> & -> & Hp1 & Hp2).
  cbn [keys map fst sorted_in] in He. destruct He as [Hi He].
  assert (Hpre' : forall f, In f (pre ++ p) -> forall k, In k (keys es) -> f < k).
  { intros f Hin k Hk. pose proof (sorted_in_In _ _ _ _ He Hk). apply in_app_iff in Hin. destruct Hin as [Hin|Hin].
    - apply Hpre; auto. right. exact Hk.
    - specialize (Hp1 f Hin). lia. }
  rewrite <- Nat2Z.inj_add, <- app_length. rewrite app_assoc in Hf |- *.
  assert (Hcount : count_lt ((pre ++ p) ++ fs') i = Z.of_nat (length (pre ++ p))).
  { rewrite count_lt_app, (count_lt_all (pre ++ p)), (count_lt_none fs'); auto; [lia|].
    intros f Hin. apply in_app_iff in Hin. destruct Hin as [Hin|Hin]; auto. apply Hpre; auto. now left. }
  assert (Hni : ~ In i (pre ++ p)).
  { intros Hin. apply in_app_iff in Hin. destruct Hin as [Hin|Hin].
    - specialize (Hpre i Hin i (or_introl eq_refl)). lia.
    - specialize (Hp1 i Hin). lia. }
  destruct fs' as [|f fs'].
  - destruct (existsb (Z.eqb i) ((pre ++ p) ++ [])) eqn:Ex.
    + apply existsb_In in Ex. rewrite app_nil_r in Ex. tauto.
    + unfold push_all. cbn [rfold fst snd]. rewrite Hcount. destruct (vec_push t _ x) as [t'| |]; cbn [rbind]; auto.
      apply (IH (pre ++ p) [] (i + 1)); auto.
  - destruct (Z.eqb_spec f i) as [->|Hne].
    + destruct (existsb (Z.eqb i) ((pre ++ p) ++ i :: fs')) eqn:Ex.
      * apply (IH (pre ++ p) (i :: fs') (i + 1)); auto.
      * exfalso. assert (In i ((pre ++ p) ++ i :: fs')) by (apply in_app_iff; right; now left).
        apply existsb_In in H. congruence.
    + destruct (existsb (Z.eqb i) ((pre ++ p) ++ f :: fs')) eqn:Ex.
      * exfalso. apply existsb_In in Ex. apply in_app_iff in Ex. destruct Ex as [Ex|Ex]; [tauto|].
        assert (Hs2 : exists l, sorted_in l hi (f :: fs')). { apply sorted_in_app in Hf. destruct Hf as [_ Hf]. eauto. }
        destruct Hs2 as (l2 & Hl2 & Hs2). destruct Ex as [->|Ex]; [congruence|].
        pose proof (sorted_in_In _ _ _ _ Hs2 Ex). specialize (Hp2 f (or_introl eq_refl)). lia.
      * unfold push_all. cbn [rfold fst snd]. rewrite Hcount. destruct (vec_push t _ x) as [t'| |]; cbn [rbind]; auto.
        apply (IH (pre ++ p) (f :: fs') (i + 1)); auto.
Qed.

Lemma remove_ents_sorted fs dim lo es :
  sorted_in 0 dim fs -> sorted_in lo dim (keys es) -> 0 <= lo ->
  forall m, m <= lo - count_lt fs lo -> 
  sorted_in m (dim - Z.of_nat (length fs)) (keys (remove_ents fs es)).
Proof.
  intros Hf. revert lo; induction es as [|[i x] es IH]; intros lo He Hlo m Hm; [exact I|].
  cbn [keys map fst sorted_in] in He. destruct He as [Hi He]. cbn [remove_ents].
  assert (Hgrow : forall a b, a <= b -> a - count_lt fs a <= b - count_lt fs b).
  { intros a b Hab. 
    assert (E : count_lt fs b - count_lt fs a = Z.of_nat (length (filter (fun f => (a <=? f) && (f <? b)) fs))).
    { clear -Hab. induction fs as [|f fs IH]; [reflexivity|]. rewrite !count_lt_cons. cbn [filter].
      destruct (Z.ltb_spec f b), (Z.ltb_spec f a), (Z.leb_spec a f); cbn [andb length]; lia. }
    assert (Hl : le (length (filter (fun f => (a <=? f) && (f <? b)) fs)) (Z.to_nat (b - a))).
    { assert (Hin : incl (filter (fun f => (a <=? f) && (f <? b)) fs) (map (fun k => a + Z.of_nat k) (seq 0 (Z.to_nat (b - a))))).
      { intros f Hin. apply filter_In in Hin. destruct Hin as [_ Hb]. apply andb_true_iff in Hb.
      destruct Hb as [Hb1 Hb2]. apply Z.leb_le in Hb1. apply Z.ltb_lt in Hb2.
      apply in_map_iff. exists (Z.to_nat (f - a)). split; [lia|]. apply in_seq. lia. }
      assert (Hnd : NoDup (filter (fun f => (a <=? f) && (f <? b)) fs)) by (apply NoDup_filter; eapply sorted_in_NoDup, Hf).
      pose proof (NoDup_incl_length Hnd Hin) as Hlen. rewrite map_length, seq_length in Hlen. exact Hlen. }
    lia. }
  destruct (existsb (Z.eqb i) fs) eqn:Ex.
  - apply (IH (i+1)); auto; try lia.
    pose proof (Hgrow lo (i+1)). lia.
  - assert (Hni : ~ In i fs) by (intros H; apply existsb_In in H; congruence).
    cbn [keys map fst sorted_in]. split.
    + pose proof (Hgrow lo i). split; [lia|].
      (* upper bound: remaining removed indices are above i *)
      assert (Hc : count_lt fs dim = Z.of_nat (length fs)).
      { apply count_lt_all. intros f Hin. apply (sorted_in_In _ _ _ _ Hf Hin). }
      destruct (count_lt_mono fs 0 dim i dim Hf Hni) as [_ H']; lia.
    + apply (IH (i+1)); auto; try lia.
      destruct (count_lt_mono fs 0 dim i (i+1) Hf Hni) as [H1 H2]; try lia.
Qed.

Lemma remove_ents_length fs es : (length (remove_ents fs es) <= length es)%nat.
Proof. induction es as [|[i x] es IH]; simpl; [lia|]. destruct (existsb _ _); simpl; lia. Qed.

Lemma remove_ents_get fs dim lo es j y : sorted_in 0 dim fs -> sorted_in lo dim (keys es) ->
  (get (remove_ents fs es) j = Some y <-> exists i, kept fs i j /\ get es i = Some y).
Proof.
  intros Hf. revert lo; induction es as [|[i x] es IH]; intros lo He.
  - simpl. split; [discriminate|]. intros (i & _ & H); discriminate.
  - cbn [keys map fst sorted_in] in He. destruct He as [Hi He]. cbn [remove_ents get].
    destruct (existsb (Z.eqb i) fs) eqn:Ex.
    + apply existsb_In in Ex. rewrite (IH _ He). split; intros (k & Hk & Hg).
      * exists k. split; auto. destruct (Z.eqb_spec i k) as [->|]; auto. destruct Hk; tauto.
      * exists k. split; auto. destruct (Z.eqb_spec i k) as [->|]; auto. destruct Hk; tauto.
    + assert (Hni : ~ In i fs) by (intros H; apply existsb_In in H; congruence).
      cbn [get]. destruct (Z.eqb_spec (i - count_lt fs i) j) as [<-|Hne].
      * split.
        { intros E; injection E as ->. exists i. split; [split; auto|]. now rewrite Z.eqb_refl. }
        { intros (k & Hk & Hg). assert (k = i) as ->.
          { apply (kept_inj fs 0 dim k i (i - count_lt fs i)); auto. split; auto. }
          rewrite Z.eqb_refl in Hg. exact Hg. }
      * rewrite (IH _ He). split; intros (k & Hk & Hg); exists k; split; auto;
          destruct (Z.eqb_spec i k) as [->|]; auto; destruct Hk as [_ Hk]; congruence.
Qed.

Lemma vec_remove_entries_spec source target fs :
  wf source -> wf target -> sorted_in 0 (vdim source) fs ->
  vdim source = vdim target + Z.of_nat (length fs) ->
  exists t, vec_remove_entries source target fs = Ok t /\ wf t /\ vdim t = vdim target
    /\ forall i j, kept fs i j -> get (vent t) j = get (vent source) i.
Proof.
  intros (Hd & Hs & Hc) Hwt Hf Hdim. unfold vec_remove_entries.
  change (vdim (vec_clear target)) with (vdim target). rewrite Hdim, Z.eqb_refl. cbn [check rbind].
  destruct (vec_reserve_spec (vec_clear target) (vnnz source)) as (t1 & E1 & Hw1 & Hd1 & He1 & Hc1);
    [now apply wf_clear|unfold vnnz; lia|].
  rewrite E1. cbn [rbind]. cbn [vec_clear vent] in He1. change (vdim (vec_clear target)) with (vdim target) in Hd1.
  pose proof (remove_loop_spec [] fs (vent source) 0 0 (vdim source) (vdim source) t1 Hf Hs) as Hloop.
  cbn [length app] in Hloop. change (Z.of_nat 0) with 0 in Hloop. rewrite Hloop by (intros f []).
  assert (Hsr : sorted_in 0 (vdim target) (keys (remove_ents fs (vent source)))).
  { replace (vdim target) with (vdim source - Z.of_nat (length fs)) by lia.
    apply (remove_ents_sorted fs (vdim source) 0 (vent source) Hf Hs); [lia|].
    rewrite count_lt_none; [lia|]. intros f Hin. apply (sorted_in_In _ _ _ _ Hf Hin). }
  pose proof (remove_ents_length fs (vent source)) as Hl.
  rewrite push_all_ok; rewrite ?He1, ?Hd1; cbn [app].
  - eexists. split; [reflexivity|]. unfold wf; cbn [vdim vcap vent]. unfold vnnz in *.
    destruct Hwt as (Hdt & _ & _). repeat split; auto; try lia.
    intros i j Hk. destruct (get (vent source) i) as [x|] eqn:E.
    + apply (remove_ents_get fs (vdim source) 0); eauto.
    + destruct (get (remove_ents fs (vent source)) j) as [y|] eqn:E'; [|reflexivity].
      apply (remove_ents_get fs (vdim source) 0) in E'; auto. destruct E' as (k & Hk' & Hg).
      rewrite (kept_inj fs 0 (vdim source) i k j) in E by auto. congruence.
  - exact Hsr.
  - unfold vnnz in *. rewrite He1. cbn [length]. lia.
Qed.

End Renumber.
