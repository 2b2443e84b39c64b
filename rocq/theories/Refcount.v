(** Reference counting: the capture/release/free idiom shared by all modules of
    /repo/src/main, e.g. step/step_rule.c:81-131, problem.c, func.c, working_set.c, settings.c. *)
From Verif Require Import Base Sparse Vec VecFacts2.

(** An object: its reference count and the objects it captured on creation. *)
Record obj := mkobj { rc : nat; kids : list nat }.
(** Memory: [None] is an object that has been freed. *)
Definition heap := list (option obj).

Definition look (h : heap) (i : nat) : res obj :=
  match nth_error h i with Some (Some o) => Ok o | _ => Trap end.   (* use after free *)

(** step_rule.c:81-87: [++refcount] *)
Definition capture (h : heap) (i : nat) : res heap :=
  o <- look h i ;; Ok (set_nth h i (Some (mkobj (S (rc o)) (kids o)))).

(** step_rule.c:28-49: a new object captures its children and starts with one reference. *)
Definition create (h : heap) (ks : list nat) : res (heap * nat) :=
  h <- rfold capture h ks ;; Ok (h ++ [Some (mkobj 1 ks)], length h).

(** step_rule.c:89-131: [if (--refcount == 0) free], where freeing releases the children.
    [fuel] bounds the call depth; the memory itself is given back before rather than after
    releasing the children, which makes more uses illegal. *)
Fixpoint release (fuel : nat) (h : heap) (i : nat) : res heap :=
  match fuel with
  | O => Trap
  | S fuel' =>
    o <- look h i ;;
    match rc o with
    | O => Trap
    | 1 => rfold (release fuel') (set_nth h i None) (kids o)
    | S n => Ok (set_nth h i (Some (mkobj n (kids o))))
    end
  end.

(** A program: handles are the pointers held outside of objects. *)
Inductive rop := RCreate (ks : list nat) | RCapture (i : nat) | RRelease (i : nat).
Record rstate := mkrs { rs_heap : heap; rs_handles : list nat }.

Fixpoint remove_one (x : nat) (l : list nat) : list nat :=
  match l with [] => [] | y :: l' => if Nat.eq_dec y x then l' else y :: remove_one x l' end.

Definition rstep (s : rstate) (op : rop) : res rstate :=
  match op with
  | RCreate ks => hi <- create (rs_heap s) ks ;; Ok (mkrs (fst hi) (snd hi :: rs_handles s))
  | RCapture i => h <- capture (rs_heap s) i ;; Ok (mkrs h (i :: rs_handles s))
  | RRelease i => h <- release (length (rs_heap s)) (rs_heap s) i ;; Ok (mkrs h (remove_one i (rs_handles s)))
  end.

(** What a correct client does: it uses only pointers it holds (a released pointer is set
    to NULL and hence gone). *)
Definition rlegal (s : rstate) (op : rop) : Prop :=
  match op with
  | RCreate ks => incl ks (rs_handles s)
  | RCapture i | RRelease i => In i (rs_handles s)
  end.

Inductive rruns : rstate -> list rop -> rstate -> Prop :=
| rruns_nil s : rruns s [] s
| rruns_cons s op s' ops s'' : rlegal s op -> rstep s op = Ok s' -> rruns s' ops s'' -> rruns s (op :: ops) s''.

(** ** Invariant *)
Notation cnt l x := (count_occ Nat.eq_dec l x).

Definition slot_refs (x : nat) (s : option obj) : nat := match s with Some o => cnt (kids o) x | None => 0 end.
(** References to [x] from live objects. *)
Definition refs (h : heap) (x : nat) : nat := list_sum (map (slot_refs x) h).

Definition rinv (h : heap) (pend : list nat) : Prop :=
  (forall i o, nth_error h i = Some (Some o) -> rc o = cnt pend i + refs h i /\ 0 < rc o /\ (forall k, In k (kids o) -> k < i))
  /\ (forall i, 0 < cnt pend i + refs h i -> exists o, nth_error h i = Some (Some o)).

Lemma set_nth_same {A} (l : list A) n a : n < length l -> nth_error (set_nth l n a) n = Some a.
Proof. intros H. rewrite set_nth_spec by auto. now rewrite Nat.eqb_refl. Qed.
Lemma set_nth_other {A} (l : list A) n a m : n < length l -> m <> n -> nth_error (set_nth l n a) m = nth_error l m.
Proof. intros H Hm. rewrite set_nth_spec by auto. destruct (Nat.eqb_spec m n); congruence. Qed.

Lemma refs_set h i s s' x : nth_error h i = Some s -> refs (set_nth h i s') x + slot_refs x s = refs h x + slot_refs x s'.
Proof.
  unfold refs. revert i; induction h as [|a h IH]; intros [|i] H; cbn [nth_error] in H; try discriminate.
  - injection H as ->. cbn [set_nth map list_sum fold_right]. fold list_sum. unfold list_sum. lia.
  - specialize (IH i H). cbn [set_nth map list_sum fold_right] in *. unfold list_sum in *. lia.
Qed.

Lemma nth_len {A} (l : list A) i a : nth_error l i = Some a -> i < length l.
Proof. intros H. apply nth_error_Some. congruence. Qed.

Lemma rinv_perm h p q : (forall x, cnt p x = cnt q x) -> rinv h p -> rinv h q.
Proof.
  intros E [H1 H2]. split.
  - intros i o Ho. destruct (H1 i o Ho) as (A & B & C). rewrite <- E. auto.
  - intros i Hi. apply H2. rewrite E. exact Hi.
Qed.

Lemma cnt_app l m x : cnt (l ++ m) x = cnt l x + cnt m x.
Proof. apply count_occ_app. Qed.

(** Capturing a live object. *)
Lemma capture_ok h p i o : rinv h p -> nth_error h i = Some (Some o) ->
  exists h', capture h i = Ok h' /\ rinv h' (i :: p) /\ length h' = length h /\
    (forall j, (exists o', nth_error h j = Some (Some o')) <-> (exists o', nth_error h' j = Some (Some o'))).
Proof.
  intros [H1 H2] Ho. unfold capture, look. rewrite Ho. cbn [rbind]. eexists. split; [reflexivity|].
  pose proof (nth_len _ _ _ Ho) as Hl.
  assert (R : forall x, refs (set_nth h i (Some (mkobj (S (rc o)) (kids o)))) x = refs h x).
  { intros x. pose proof (refs_set h i (Some o) (Some (mkobj (S (rc o)) (kids o))) x Ho) as E. cbn [slot_refs kids] in E. lia. }
  split; [split|split].
  - intros j o' Ho'. rewrite R. destruct (Nat.eq_dec j i) as [->|Hj].
    + rewrite set_nth_same in Ho' by auto. injection Ho' as <-. cbn [rc kids]. destruct (H1 i o Ho) as (A & B & C).
      rewrite count_occ_cons_eq by reflexivity. split; [lia|]. split; [lia|exact C].
    + rewrite set_nth_other in Ho' by auto. destruct (H1 j o' Ho') as (A & B & C).
      rewrite count_occ_cons_neq by auto. auto.
  - intros j Hj. rewrite R in Hj. destruct (Nat.eq_dec j i) as [->|Hne].
    + rewrite set_nth_same by auto. eauto.
    + rewrite set_nth_other by auto. apply H2. rewrite count_occ_cons_neq in Hj by auto. exact Hj.
  - apply set_nth_length.
  - intros j. destruct (Nat.eq_dec j i) as [->|Hne].
    + rewrite set_nth_same by auto. split; eauto.
    + rewrite set_nth_other by auto. tauto.
Qed.

Lemma captures_ok ks : forall h p, rinv h p -> (forall k, In k ks -> exists o, nth_error h k = Some (Some o)) ->
  exists h', rfold capture h ks = Ok h' /\ rinv h' (rev ks ++ p) /\ length h' = length h
    /\ (forall j, (exists o', nth_error h j = Some (Some o')) <-> (exists o', nth_error h' j = Some (Some o'))).
Proof.
  induction ks as [|k ks IH]; intros h p Hi Hk; cbn [rfold rev app].
  - exists h. split; [reflexivity|]. split; [exact Hi|]. split; [reflexivity|]. tauto.
  - destruct (Hk k (or_introl eq_refl)) as (o & Ho).
    destruct (capture_ok h p k o Hi Ho) as (h1 & E1 & I1 & L1 & S1). rewrite E1. cbn [rbind].
    destruct (IH h1 (k :: p) I1) as (h2 & E2 & I2 & L2 & S2).
    { intros k' Hk'. apply S1. apply Hk. now right. }
    exists h2. split; [exact E2|]. split; [|split].
    + rewrite <- app_assoc. exact I2.
    + congruence.
    + intros j. rewrite S1. apply S2.
Qed.

Lemma cnt_rev l x : cnt (rev l) x = cnt l x.
Proof. induction l as [|a l IH]; [reflexivity|]. cbn [rev]. rewrite cnt_app, IH. cbn [count_occ]. destruct (Nat.eq_dec a x); lia. Qed.

Lemma nth_beyond {A} (l : list A) i : length l <= i -> nth_error l i = None.
Proof. apply nth_error_None. Qed.

(** Nobody refers to indices beyond the heap. *)
Lemma rinv_bound h p i : rinv h p -> length h <= i -> cnt p i + refs h i = 0.
Proof.
  intros [_ H2] Hl. destruct (Nat.eq_dec (cnt p i + refs h i) 0) as [E|E]; [exact E|].
  destruct (H2 i) as (o & Ho); [lia|]. apply nth_len in Ho. lia.
Qed.

Lemma create_ok h p ks : rinv h p -> incl ks p ->
  exists h', create h ks = Ok (h', length h) /\ rinv h' (length h :: p).
Proof.
  intros Hi Hk. unfold create.
  destruct (captures_ok ks h p Hi) as (h1 & E1 & [H1 H2] & L1 & S1).
  { intros k Hin. destruct Hi as [_ Hi2]. apply Hi2. pose proof (proj1 (count_occ_In Nat.eq_dec p k) (Hk k Hin)). lia. }
  rewrite E1. cbn [rbind]. rewrite L1. eexists. split; [reflexivity|].
  assert (R : forall x, refs (h1 ++ [Some (mkobj 1 ks)]) x = refs h1 x + cnt ks x).
  { intros x. unfold refs. rewrite map_app, list_sum_app. cbn. lia. }
  assert (B0 : cnt (rev ks ++ p) (length h) + refs h1 (length h) = 0).
  { apply rinv_bound; [split; assumption|lia]. }
  split.
  - intros i o Ho. rewrite R. destruct (Nat.eq_dec i (length h)) as [->|Hne].
    + rewrite nth_error_app2 in Ho by lia. rewrite L1, Nat.sub_diag in Ho. cbn in Ho. injection Ho as <-. cbn [rc kids].
      rewrite cnt_app, cnt_rev in B0. rewrite count_occ_cons_eq by reflexivity. split; [lia|]. split; [lia|].
      intros k Hin. destruct (S1 k) as [Sk _]. destruct Hi as [_ Hi2].
      destruct (Hi2 k) as (o & Ho). { pose proof (proj1 (count_occ_In Nat.eq_dec p k) (Hk k Hin)). lia. }
      apply nth_len in Ho. lia.
    + assert (Hlt : i < length h1). { apply nth_len in Ho. rewrite app_length in Ho. cbn [length] in Ho. lia. }
      rewrite nth_error_app1 in Ho by auto. destruct (H1 i o Ho) as (A & B & C).
      rewrite cnt_app, cnt_rev in A. rewrite count_occ_cons_neq by auto. split; [lia|]. auto.
  - intros i Hpos. rewrite R in Hpos. destruct (Nat.eq_dec i (length h)) as [->|Hne].
    + rewrite nth_error_app2 by lia. rewrite L1, Nat.sub_diag. cbn. eauto.
    + rewrite count_occ_cons_neq in Hpos by auto. destruct (H2 i) as (o & Ho).
      { rewrite cnt_app, cnt_rev. lia. }
      exists o. rewrite nth_error_app1; [exact Ho|]. now apply nth_len in Ho.
Qed.

(** Releasing a pending reference: succeeds, and frees only objects without references. *)
Lemma release_ok fuel : forall h p i, i < fuel -> rinv h (i :: p) ->
  exists h', release fuel h i = Ok h' /\ rinv h' p /\ length h' = length h
    /\ (forall j, nth_error h j = Some None -> nth_error h' j = Some None).
Proof.
  induction fuel as [|fuel IH]; intros h p i Hf [H1 H2]; [lia|]. cbn [release].
  destruct (H2 i) as (o & Ho). { rewrite count_occ_cons_eq by reflexivity. lia. }
  destruct (H1 i o Ho) as (A & B & C). rewrite count_occ_cons_eq in A by reflexivity.
  pose proof (nth_len _ _ _ Ho) as Hl. unfold look. rewrite Ho. cbn [rbind].
  destruct (rc o) as [|[|n]] eqn:Er; [lia| |].
  - (* last reference *)
    assert (Z : cnt p i = 0 /\ refs h i = 0) by lia. destruct Z as [Z1 Z2].
    set (h1 := set_nth h i None).
    assert (R : forall x, refs h1 x + cnt (kids o) x = refs h x).
    { intros x. pose proof (refs_set h i (Some o) None x Ho) as E. cbn [slot_refs] in E. unfold h1. lia. }
    assert (I1 : rinv h1 (kids o ++ p)).
    { split.
      - intros j o' Ho'. destruct (Nat.eq_dec j i) as [->|Hne].
        + unfold h1 in Ho'. rewrite set_nth_same in Ho' by auto. discriminate.
        + unfold h1 in Ho'. rewrite set_nth_other in Ho' by auto. destruct (H1 j o' Ho') as (A' & B' & C').
          rewrite count_occ_cons_neq in A' by auto. rewrite cnt_app. specialize (R j). split; [lia|]. auto.
      - intros j Hj. rewrite cnt_app in Hj. specialize (R j). destruct (Nat.eq_dec j i) as [->|Hne]; [lia|].
        unfold h1. rewrite set_nth_other by auto. apply H2. rewrite count_occ_cons_neq by auto. lia. }
    assert (L1 : length h1 = length h) by apply set_nth_length.
    assert (F1 : forall j, nth_error h j = Some None -> nth_error h1 j = Some None).
    { intros j Hj. destruct (Nat.eq_dec j i) as [->|Hne]; [congruence|]. unfold h1. rewrite set_nth_other by auto. exact Hj. }
    assert (G : forall ks h1 , (forall k, In k ks -> k < fuel) -> rinv h1 (ks ++ p) ->
       exists h', rfold (release fuel) h1 ks = Ok h' /\ rinv h' p /\ length h' = length h1
         /\ (forall j, nth_error h1 j = Some None -> nth_error h' j = Some None)).
    { clear - IH. induction ks as [|k ks IHk]; intros h1 Hk Hi; cbn [rfold].
      - exists h1. auto.
      - destruct (IH h1 (ks ++ p) k) as (h2 & E2 & I2 & L2 & F2); [apply Hk; now left|exact Hi|].
        rewrite E2. cbn [rbind]. destruct (IHk h2) as (h3 & E3 & I3 & L3 & F3); [intros k' Hk'; apply Hk; now right|exact I2|].
        exists h3. split; [exact E3|]. split; [exact I3|]. split; [congruence|auto]. }
    destruct (G (kids o) h1) as (h' & E' & I' & L' & F').
    + intros k Hk. apply C in Hk. lia.
    + exact I1.
    + exists h'. split; [exact E'|]. split; [exact I'|]. split; [congruence|auto].
  - (* others remain *)
    eexists. split; [reflexivity|].
    assert (R : forall x, refs (set_nth h i (Some (mkobj (S n) (kids o)))) x = refs h x).
    { intros x. pose proof (refs_set h i (Some o) (Some (mkobj (S n) (kids o))) x Ho) as E. cbn [slot_refs kids] in E. lia. }
    split; [split|split].
    + intros j o' Ho'. rewrite R. destruct (Nat.eq_dec j i) as [->|Hne].
      * rewrite set_nth_same in Ho' by auto. injection Ho' as <-. cbn [rc kids]. split; [lia|]. split; [lia|exact C].
      * rewrite set_nth_other in Ho' by auto. destruct (H1 j o' Ho') as (A' & B' & C').
        rewrite count_occ_cons_neq in A' by auto. auto.
    + intros j Hj. rewrite R in Hj. destruct (Nat.eq_dec j i) as [->|Hne].
      * rewrite set_nth_same by auto. eauto.
      * rewrite set_nth_other by auto. apply H2. rewrite count_occ_cons_neq by auto. exact Hj.
    + apply set_nth_length.
    + intros j Hj. destruct (Nat.eq_dec j i) as [->|Hne]; [congruence|]. rewrite set_nth_other by auto. exact Hj.
Qed.

Lemma cnt_remove_one i l : In i l -> forall x, cnt (i :: remove_one i l) x = cnt l x.
Proof.
  intros Hin x. induction l as [|a l IH]; [destruct Hin|]. cbn [remove_one].
  destruct (Nat.eq_dec a i) as [->|Hne]; [reflexivity|].
  destruct Hin as [->|Hin]; [congruence|]. specialize (IH Hin).
  cbn [count_occ] in *. destruct (Nat.eq_dec i x), (Nat.eq_dec a x); lia.
Qed.

Lemma rstep_ok s op : rinv (rs_heap s) (rs_handles s) -> rlegal s op ->
  exists s', rstep s op = Ok s' /\ rinv (rs_heap s') (rs_handles s').
Proof.
  intros Hi Hl. destruct op as [ks|i|i]; cbn [rstep rlegal] in *.
  - destruct (create_ok _ _ ks Hi Hl) as (h' & E & I). rewrite E. cbn [rbind]. eexists. split; [reflexivity|]. exact I.
  - destruct Hi as [H1 H2]. destruct (H2 i) as (o & Ho). { pose proof (proj1 (count_occ_In Nat.eq_dec _ _) Hl). lia. }
    destruct (capture_ok _ _ i o (conj H1 H2) Ho) as (h' & E & I & _). rewrite E. cbn [rbind]. eexists. split; [reflexivity|]. exact I.
  - assert (Hlt : i < length (rs_heap s)).
    { destruct Hi as [_ H2]. destruct (H2 i) as (o & Ho). { pose proof (proj1 (count_occ_In Nat.eq_dec _ _) Hl). lia. } now apply nth_len in Ho. }
    destruct (release_ok (length (rs_heap s)) (rs_heap s) (remove_one i (rs_handles s)) i Hlt) as (h' & E & I & _).
    { apply (rinv_perm _ (rs_handles s)); [|exact Hi]. intros x. symmetry. now apply cnt_remove_one. }
    rewrite E. cbn [rbind]. eexists. split; [reflexivity|]. exact I.
Qed.

Lemma rruns_inv s ops s' : rruns s ops s' -> rinv (rs_heap s) (rs_handles s) -> rinv (rs_heap s') (rs_handles s').
Proof.
  induction 1 as [|s op s1 ops s2 Hl E Hr IH]; intros Hi; [exact Hi|]. apply IH.
  destruct (rstep_ok s op Hi Hl) as (s1' & E' & I). assert (s1 = s1') as -> by congruence. exact I.
Qed.

Lemma rinv_empty : rinv [] [].
Proof. split; intros i; [intros o H; destruct i; discriminate|]. cbn. lia. Qed.

(** No leak: without handles nothing is live. *)
Lemma rinv_no_leak h : rinv h [] -> forall i o, nth_error h i <> Some (Some o).
Proof.
  intros [H1 H2]. assert (G : forall d i o, length h - i <= d -> nth_error h i <> Some (Some o)).
  { induction d as [|d IH]; intros i o Hd Ho.
    - apply nth_len in Ho. lia.
    - destruct (H1 i o Ho) as (A & B & C). cbn [count_occ] in A.
      assert (Hex : exists j p, nth_error h j = Some (Some p) /\ In i (kids p)).
      { assert (Hp : 0 < refs h i) by lia. clear - Hp. unfold refs in Hp.
        induction h as [|a h IH]; [cbn in Hp; lia|].
        destruct (Nat.eq_dec (slot_refs i a) 0) as [E|E].
        - cbn [map list_sum fold_right] in Hp. destruct IH as (j & p & Hj & Hin); [unfold list_sum; lia|].
          exists (S j), p. auto.
        - destruct a as [p|]; cbn [slot_refs] in E; [|lia]. exists 0, p. split; [reflexivity|]. apply (count_occ_In Nat.eq_dec). lia. }
      destruct Hex as (j & p & Hj & Hin). destruct (H1 j p Hj) as (_ & _ & Cp). apply Cp in Hin.
      pose proof (nth_len _ _ _ Hj). apply (IH j p); [lia|exact Hj]. }
  intros i o. apply (G (length h)). lia.
Qed.
