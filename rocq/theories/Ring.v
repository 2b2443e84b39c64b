(** The circular buffers of step/step_rule_window.c, quasi_newton/bfgs.c and quasi_newton/sr1.c. *)
From Verif Require Import Base Num Sparse Vec VecFacts VecFacts2 Mat MatFacts.
Local Open Scope Z_scope.

(** step_rule_window.c:24-35, bfgs.c:160-172, sr1.c:195-206; [%] truncates in C. *)
Definition data_index (n l index : Z) : Z :=
  if l =? 0 then 0 else
  let d := Z.rem index n in if d <? 0 then d + n else d.

(** The integers a, ..., b of a loop [for (i = a; i <= b; ++i)]. *)
Definition zseq (a b : Z) : list Z := map (Z.add a) (zrange (b - a + 1)).

(** [data] holds the history [h] (newest first) at cursor [curr], [l] entries visible. *)
Definition ring {A} (data : list A) (n l curr : Z) (h : list A) : Prop :=
  0 <= n /\ len data = n /\ l = Z.min n (len h) /\
  curr = (if n =? 0 then -1 else len h - 1) /\
  forall k, 0 <= k < l -> nth_error data (Z.to_nat ((curr - k) mod n)) = nth_error h (Z.to_nat k).

Lemma data_index_mod n l i : 0 < l -> 0 < n -> 0 <= i -> data_index n l i = i mod n.
Proof.
  intros Hl Hn Hi. unfold data_index. destruct (Z.eqb_spec l 0); [lia|].
  rewrite Z.rem_mod_nonneg by lia. cbv zeta. pose proof (Z.mod_pos_bound i n Hn).
  destruct (Z.ltb_spec (i mod n) 0); lia.
Qed.

Lemma ring_empty {A} (junk : list A) n : 0 <= n -> len junk = n -> ring junk n 0 (-1) [].
Proof.
  intros Hn Hl. split; [exact Hn|]. split; [exact Hl|]. cbn [length]. split; [lia|]. split.
  - destruct (n =? 0); lia.
  - intros k Hk. lia.
Qed.

(** Reading entry [i] of the visible range curr-l+1 .. curr. *)
Lemma ring_get {A} (data : list A) n l curr h i : ring data n l curr h -> curr - l + 1 <= i <= curr ->
  exists a, nth_error h (Z.to_nat (curr - i)) = Some a /\ arr_get data (data_index n l i) = Ok a.
Proof.
  intros (Hn & Hd & Hl & Hc & H) Hi. destruct (Z.eqb_spec n 0); [lia|].
  destruct (nth_error h (Z.to_nat (curr - i))) as [a|] eqn:E.
  2: { apply nth_error_None in E. lia. }
  exists a. split; [reflexivity|]. rewrite data_index_mod by lia.
  apply arr_get_nth; [apply Z.mod_pos_bound; lia|]. rewrite <- E.
  rewrite <- (H (curr - i)) by lia. f_equal. f_equal. f_equal. lia.
Qed.

(** Storing at curr+1. *)
Lemma ring_push {A} (data : list A) n l curr h a : ring data n l curr h -> 0 < n ->
  exists data', arr_set data (data_index n l (curr + 1)) a = Ok data' /\
    ring data' n (if l <? n then l + 1 else l) (curr + 1) (a :: h).
Proof.
  intros (Hn & Hd & Hl & Hc & H) Hp. destruct (Z.eqb_spec n 0); [lia|].
  assert (Hi : data_index n l (curr + 1) = (curr + 1) mod n).
  { destruct (Z.eq_dec l 0) as [->|].
    - unfold data_index. cbn [Z.eqb]. assert (len h = 0) by lia. replace (curr + 1) with 0 by lia. now rewrite Z.mod_0_l.
    - apply data_index_mod; lia. }
  rewrite Hi. pose proof (Z.mod_pos_bound (curr + 1) n Hp) as Hb.
  exists (set_nth data (Z.to_nat ((curr + 1) mod n)) a). split; [apply arr_set_ok; lia|].
  split; [exact Hn|]. split; [rewrite set_nth_length; exact Hd|]. cbn [length].
  split; [destruct (Z.ltb_spec l n); lia|]. split; [destruct (Z.eqb_spec n 0); lia|].
  intros k Hk. rewrite set_nth_spec.
  2: { apply Nat2Z.inj_lt. rewrite Z2Nat.id by lia. lia. }
  destruct (Z.eq_dec k 0) as [->|Hk0].
  - replace (curr + 1 - 0) with (curr + 1) by lia. rewrite Nat.eqb_refl. reflexivity.
  - assert (Hkn : k < n) by (destruct (Z.ltb_spec l n); lia).
    assert (Hne : (curr + 1 - k) mod n <> (curr + 1) mod n).
    { intros E. assert (E0 : (curr + 1 - (curr + 1 - k)) mod n = 0).
      { rewrite Zminus_mod, E, Z.sub_diag. apply Z.mod_0_l. lia. }
      replace (curr + 1 - (curr + 1 - k)) with k in E0 by lia. rewrite Z.mod_small in E0; lia. }
    pose proof (Z.mod_pos_bound (curr + 1 - k) n Hp).
    destruct (Nat.eqb_spec (Z.to_nat ((curr + 1 - k) mod n)) (Z.to_nat ((curr + 1) mod n))); [lia|].
    replace (curr + 1 - k) with (curr - (k - 1)) by lia.
    rewrite H by (destruct (Z.ltb_spec l n); lia).
    replace (Z.to_nat k) with (S (Z.to_nat (k - 1))) by lia. reflexivity.
Qed.
