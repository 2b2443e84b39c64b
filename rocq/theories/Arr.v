(** Arrays as finite functions, positions in lists, boolean loops. *)
From Verif Require Import Base Num Cmp Sparse Vec VecFacts VecFacts2 Mat MatFacts.
Local Open Scope Z_scope.

(** [l] holds [f 0], ..., [f (n-1)]. *)
Definition arr {A} (l : list A) (n : Z) (f : Z -> A) : Prop :=
  length l = Z.to_nat n /\ forall j, 0 <= j < n -> nth_error l (Z.to_nat j) = Some (f j).

Definition upd {A} (f : Z -> A) (i : Z) (a : A) : Z -> A := fun j => if j =? i then a else f j.

Lemma arr_get_arr {A} (l : list A) n f j : arr l n f -> 0 <= j < n -> arr_get l j = Ok (f j).
Proof. intros [_ H] Hj. apply arr_get_nth; [lia|]. auto. Qed.

Lemma arr_get_out {A} (l : list A) n f j : arr l n f -> ~ 0 <= j < n -> arr_get l j = Trap.
Proof.
  intros [Hl _] Hj. unfold arr_get. destruct (Z.leb_spec 0 j); auto.
  rewrite (proj2 (nth_error_None l (Z.to_nat j))); auto. lia.
Qed.

Lemma arr_set_arr {A} (l : list A) n f i a : arr l n f -> 0 <= i < n ->
  exists l', arr_set l i a = Ok l' /\ arr l' n (upd f i a).
Proof.
  intros [Hl H] Hi. exists (set_nth l (Z.to_nat i) a). split; [apply arr_set_ok; lia|].
  split; [now rewrite set_nth_length|]. intros j Hj. rewrite set_nth_spec by lia. unfold upd.
  destruct (Nat.eqb_spec (Z.to_nat j) (Z.to_nat i)), (Z.eqb_spec j i); try lia; auto.
Qed.

Lemma arr_repeat {A} (a : A) n : arr (repeat a (Z.to_nat n)) n (fun _ => a).
Proof. split; [apply repeat_length|]. intros j Hj. apply nth_error_repeat. lia. Qed.

Lemma arr_ext {A} (l : list A) n f g : arr l n f -> (forall j, 0 <= j < n -> f j = g j) -> arr l n g.
Proof. intros [Hl H] E. split; auto. intros j Hj. rewrite H, E; auto. Qed.

Lemma arr_eq {A} (l l' : list A) n f g : arr l n f -> arr l' n g -> (forall j, 0 <= j < n -> f j = g j) -> l = l'.
Proof.
  intros [Hl H] [Hl' H'] E. apply nth_error_ext. intros k. destruct (Nat.lt_ge_cases k (length l)) as [Hk|Hk].
  - rewrite <- (Nat2Z.id k), H, H' by lia. f_equal. apply E. lia.
  - rewrite (proj2 (nth_error_None l k)), (proj2 (nth_error_None l' k)); auto; lia.
Qed.

(** A loop with an early [return false]. *)
Lemma bool_loop {A} (f : A -> res bool) (g : A -> bool) l (b : bool) :
  (forall a, In a l -> f a = Ok (g a)) ->
  rfold (fun (ok : bool) a => if ok then f a else Ok false) b l = Ok (b && forallb g l).
Proof.
  revert b; induction l as [|a l IH]; intros b H; cbn [rfold forallb]; [now rewrite andb_true_r|].
  destruct b.
  - rewrite H by (now left). cbn [rbind]. rewrite IH; [reflexivity|]. intros; apply H; now right.
  - cbn [rbind]. rewrite IH; [reflexivity|]. intros; apply H; now right.
Qed.

Lemma forallb_zrange n g : forallb g (zrange n) = true <-> forall j, 0 <= j < n -> g j = true.
Proof.
  rewrite forallb_forall. split; intros H j Hj; apply H; now apply zrange_In.
Qed.

(** First position of an element. *)
Fixpoint pos (l : list Z) (x : Z) : option Z :=
  match l with
  | [] => None
  | a :: l' => if a =? x then Some 0 else option_map (fun k => k + 1) (pos l' x)
  end.

Lemma pos_None l x : pos l x = None <-> ~ In x l.
Proof.
  induction l as [|a l IH]; cbn [pos In]; [tauto|]. destruct (Z.eqb_spec a x); [intuition discriminate|].
  destruct (pos l x); cbn [option_map]; [|tauto]. split; [discriminate|]. intros H. exfalso.
  assert (Some z = None) by tauto. discriminate.
Qed.

Lemma pos_Some l x k : pos l x = Some k -> 0 <= k < len l /\ nth_error l (Z.to_nat k) = Some x.
Proof.
  revert k; induction l as [|a l IH]; intros k; cbn [pos]; [discriminate|]. cbn [length].
  destruct (Z.eqb_spec a x) as [->|].
  - intros [= <-]. split; [lia|reflexivity].
  - destruct (pos l x) as [q|]; cbn [option_map]; [|discriminate]. intros E. assert (k = q + 1) as -> by congruence. destruct (IH q eq_refl) as [H1 H2].
    split; [lia|]. replace (Z.to_nat (q + 1)) with (S (Z.to_nat q)) by lia. exact H2.
Qed.

Lemma pos_app l x y : ~ In x l -> pos (l ++ [x]) y = if x =? y then Some (len l) else pos l y.
Proof.
  induction l as [|a l IH]; intros H; cbn [app pos length]; [destruct (x =? y); reflexivity|].
  rewrite IH by (intros ?; apply H; now right). destruct (Z.eqb_spec a y) as [->|].
  - destruct (Z.eqb_spec x y) as [->|]; [|reflexivity]. destruct H. now left.
  - destruct (x =? y); cbn [option_map]; [f_equal; lia|reflexivity].
Qed.

Lemma NoDup_range_length (l : list Z) n : NoDup l -> (forall x, In x l -> 0 <= x < n) -> len l <= Z.max 0 n.
Proof.
  intros Hn Hr. assert (H : incl l (zrange n)) by (intros x Hx; apply zrange_In; auto).
  pose proof (NoDup_incl_length Hn H) as L. rewrite zrange_length in L. lia.
Qed.

Lemma NoDup_snoc {A} (l : list A) x : NoDup l -> ~ In x l -> NoDup (l ++ [x]).
Proof.
  induction l as [|a l IH]; intros Hn Hx; cbn [app]; [constructor; auto; constructor|].
  inv Hn. constructor; [|apply IH; auto; intros ?; apply Hx; now right].
  intros Hin. apply in_app_iff in Hin. destruct Hin as [|[<-|[]]]; auto. apply Hx. now left.
Qed.

Lemma get_snoc {A} (l : list (Z * A)) i x j : ~ In i (keys l) ->
  get (l ++ [(i, x)]) j = if i =? j then Some x else get l j.
Proof.
  intros H. rewrite get_app. cbn [get]. destruct (Z.eqb_spec i j) as [->|].
  - rewrite (proj2 (get_None l j) H). reflexivity.
  - destruct (get l j); reflexivity.
Qed.

(** Pairs of positions: nth of NoDup lists is injective. *)
Lemma NoDup_nth_inj {A} (l : list A) i j x : NoDup l -> nth_error l i = Some x -> nth_error l j = Some x -> i = j.
Proof.
  intros Hn Hi Hj. rewrite NoDup_nth_error in Hn. apply Hn; [|congruence].
  apply nth_error_Some. congruence.
Qed.
