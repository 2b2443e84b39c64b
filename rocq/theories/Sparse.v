(** Sparse entry lists and the k-way merge loop used throughout the code.

    Many C functions walk over several sparse vectors at once with the same loop
    (e.g. /repo/src/main/sparse/vec.c:393-426 for two, 570-615 for three
    vectors, /repo/src/main/iterate.c:154-267 for four).  The loop body is executed
    once per element of [align]; the value(s) it sees are [Some v] when the
    respective "valid_..." flag is set and [None] otherwise. *)
From Coq Require Import Sorted.
From Verif Require Import Base.

Local Open Scope Z_scope.

Section Sparse.
Context {V : Type}.

Local Notation entry := (Z * V)%type.

(** First entry with the given index: sleqp_vec_at, vec.c:459-473. *)
Fixpoint get (l : list entry) (i : Z) : option V :=
  match l with
  | [] => None
  | (j, v) :: l' => if Z.eqb j i then Some v else get l' i
  end.

Definition keys (l : list entry) : list Z := map fst l.

(** [valid ? indices[k] : dim + 1] *)
Definition head_idx (dim : Z) (l : list entry) : Z :=
  match l with [] => dim + 1 | (i, _) :: _ => i end.

Definition min_head (dim : Z) (ls : list (list entry)) : Z :=
  fold_right (fun l m => Z.min (head_idx dim l) m) (dim + 1)%Z ls.

(** [valid && i == i_combined] *)
Definition head_val (i : Z) (l : list entry) : option V :=
  match l with [] => None | (j, v) :: _ => if Z.eqb j i then Some v else None end.

(** [if (valid) ++k] *)
Definition advance (i : Z) (l : list entry) : list entry :=
  match l with [] => [] | (j, _) :: l' => if Z.eqb j i then l' else l end.

Definition all_nil (ls : list (list entry)) : bool :=
  forallb (fun l => match l with [] => true | _ => false end) ls.

(** The loop [while (k_1 < nnz_1 || ... )]; running out of fuel means that the
    C loop does not terminate (possible only for invalid vectors). *)
Fixpoint align_loop (fuel : nat) (dim : Z) (ls : list (list entry))
  : res (list (Z * list (option V))) :=
  if all_nil ls then Ok [] else
  match fuel with
  | O => Trap
  | S f =>
    let i := min_head dim ls in
    rest <- align_loop f dim (map (advance i) ls) ;;
    Ok ((i, map (head_val i) ls) :: rest)
  end.

Definition total_len (ls : list (list entry)) : nat :=
  fold_right (fun l n => (length l + n)%nat) 0%nat ls.

Definition align (dim : Z) (ls : list (list entry)) : res (list (Z * list (option V))) :=
  align_loop (total_len ls) dim ls.

(** ** Specification side *)

(** Strictly increasing indices, all in [lo, hi). *)
Fixpoint sorted_in (lo hi : Z) (l : list Z) : Prop :=
  match l with
  | [] => True
  | i :: l' => (lo <= i < hi)%Z /\ sorted_in (i + 1) hi l'
  end.

Lemma sorted_in_weaken lo lo' hi hi' l :
  (lo' <= lo)%Z -> (hi <= hi')%Z -> sorted_in lo hi l -> sorted_in lo' hi' l.
Proof.
  revert lo lo'; induction l as [|i l IH]; simpl; intros lo lo' H1 H2 H; [auto|].
  destruct H as [H H']. split; [lia|]. apply (IH (i+1)%Z); [lia|lia|auto].
Qed.

Lemma sorted_in_In lo hi l i : sorted_in lo hi l -> In i l -> (lo <= i < hi)%Z.
Proof.
  revert lo; induction l as [|j l IH]; simpl; intros lo H Hin; [tauto|].
  destruct H as [H H']. destruct Hin as [->|Hin]; [lia|].
  specialize (IH _ H' Hin). lia.
Qed.

Lemma sorted_in_app lo hi l1 l2 :
  sorted_in lo hi (l1 ++ l2) <->
  sorted_in lo hi l1 /\ sorted_in (match rev l1 with [] => lo | i :: _ => i + 1 end) hi l2.
Proof.
  revert lo; induction l1 as [|i l1 IH]; simpl; intros lo.
  - tauto.
  - rewrite IH. destruct (rev l1) as [|j r] eqn:E; simpl.
    + intuition.
    + intuition.
Qed.

Lemma sorted_in_length lo hi l : sorted_in lo hi l -> (Z.of_nat (length l) <= Z.max 0 (hi - lo))%Z.
Proof.
  revert lo; induction l as [|i l IH]; cbn [sorted_in length]; intros lo H; [lia|].
  destruct H as [H H']. specialize (IH _ H'). lia.
Qed.

Lemma sorted_in_NoDup lo hi l : sorted_in lo hi l -> NoDup l.
Proof.
  revert lo; induction l as [|i l IH]; simpl; intros lo H; constructor.
  - intros Hin. destruct H as [_ H]. pose proof (sorted_in_In _ _ _ _ H Hin). lia.
  - destruct H as [_ H]. eauto.
Qed.

(** Two strictly increasing lists with the same members are equal. *)
Lemma sorted_in_ext lo hi l1 l2 :
  sorted_in lo hi l1 -> sorted_in lo hi l2 -> (forall i, In i l1 <-> In i l2) -> l1 = l2.
Proof.
  revert lo l2; induction l1 as [|i l1 IH]; intros lo [|j l2] H1 H2 Hin; auto.
  - exfalso. apply (in_nil (a:=j)). apply Hin. now left.
  - exfalso. apply (in_nil (a:=i)). apply Hin. now left.
  - destruct H1 as [H1 H1'], H2 as [H2 H2'].
    assert (i = j) as <-.
    { assert (Hi : In i (j :: l2)) by (apply Hin; now left).
      assert (Hj : In j (i :: l1)) by (apply Hin; now left).
      destruct Hi as [->|Hi]; auto. destruct Hj as [->|Hj]; auto.
      pose proof (sorted_in_In _ _ _ _ H2' Hi). pose proof (sorted_in_In _ _ _ _ H1' Hj). lia. }
    f_equal. apply (IH (i+1)%Z); auto. intros k. specialize (Hin k). simpl in Hin.
    split; intros Hk.
    + pose proof (sorted_in_In _ _ _ _ H1' Hk). destruct (proj1 Hin (or_intror Hk)); [lia|auto].
    + pose proof (sorted_in_In _ _ _ _ H2' Hk). destruct (proj2 Hin (or_intror Hk)); [lia|auto].
Qed.

Lemma get_None l i : get l i = None <-> ~ In i (keys l).
Proof.
  induction l as [|[j v] l IH]; simpl; [tauto|].
  destruct (Z.eqb_spec j i) as [->|Hne].
  - split; [discriminate|]. intros H; exfalso; auto.
  - rewrite IH. split; [intros H [H'|H']; auto | intros H H'; auto].
Qed.

Lemma get_Some_In l i v : get l i = Some v -> In (i, v) l.
Proof.
  induction l as [|[j w] l IH]; simpl; [discriminate|].
  destruct (Z.eqb_spec j i) as [->|Hne]; intros H; [injection H as ->; auto|auto].
Qed.

Lemma get_In_key l i : In i (keys l) -> exists v, get l i = Some v.
Proof.
  intros H. destruct (get l i) as [v|] eqn:E; eauto. apply get_None in E. tauto.
Qed.

Lemma In_keys l i (v : V) : In (i, v) l -> In i (keys l).
Proof. intros H. apply (in_map fst) in H. exact H. Qed.

Lemma In_get lo hi l i v : sorted_in lo hi (keys l) -> In (i, v) l -> get l i = Some v.
Proof.
  revert lo; induction l as [|[j w] l IH]; simpl; intros lo Hs Hin; [tauto|].
  destruct Hs as [Hj Hs]. destruct Hin as [E|Hin].
  - injection E as -> ->. now rewrite Z.eqb_refl.
  - pose proof (sorted_in_In _ _ _ _ Hs (In_keys _ _ _ Hin)) as Hk.
    destruct (Z.eqb_spec j i); [lia|]. eauto.
Qed.

Lemma get_below lo hi l i : sorted_in lo hi (keys l) -> (i < lo)%Z -> get l i = None.
Proof.
  intros Hs Hi. apply get_None. intros Hin. pose proof (sorted_in_In _ _ _ _ Hs Hin). lia.
Qed.

Lemma get_app l1 l2 i :
  get (l1 ++ l2) i = match get l1 i with Some v => Some v | None => get l2 i end.
Proof.
  induction l1 as [|[j v] l1 IH]; simpl; auto. destruct (Z.eqb j i); auto.
Qed.

(** ** The merge loop on valid inputs *)

Lemma all_nil_iff ls : all_nil ls = true <-> (forall l, In l ls -> l = []).
Proof.
  unfold all_nil. rewrite forallb_forall. split; intros H l Hl; specialize (H l Hl).
  - destruct l; [auto|discriminate].
  - now subst.
Qed.

Lemma min_head_le dim ls l : In l ls -> (min_head dim ls <= head_idx dim l)%Z.
Proof.
  unfold min_head. induction ls as [|l0 ls IH]; simpl; intros H; [tauto|].
  destruct H as [->|H]; [lia|]. specialize (IH H). lia.
Qed.

Lemma min_head_lb dim ls m : (m <= dim + 1)%Z -> (forall l, In l ls -> (m <= head_idx dim l)%Z) ->
  (m <= min_head dim ls)%Z.
Proof.
  unfold min_head. induction ls as [|l0 ls IH]; simpl; intros Hm H; [lia|].
  pose proof (H l0 (or_introl eq_refl)). assert (m <= fold_right (fun l m => Z.min (head_idx dim l) m) (dim+1) ls)%Z by (apply IH; auto). lia.
Qed.

Lemma min_head_attained dim ls : (exists l i v t, In l ls /\ l = (i,v)::t /\ (i <= dim)%Z) ->
  exists i v t, In ((i,v)::t) ls /\ min_head dim ls = i.
Proof.
  unfold min_head. induction ls as [|l0 ls IH]; simpl; intros (l & i & v & t & Hin & -> & Hi); [tauto|].
  destruct Hin as [E|Hin].
  - subst l0. simpl.
    destruct (Z_le_gt_dec i (fold_right (fun l m => Z.min (head_idx dim l) m) (dim+1) ls)) as [Hle|Hgt].
    + exists i, v, t. split; [now left|]. lia.
    + assert (Hex : exists l i v t, In l ls /\ l = (i,v)::t /\ (i <= dim)%Z).
      { clear IH. revert Hgt. induction ls as [|l1 ls IH1]; simpl; intros Hgt; [lia|].
        destruct l1 as [|[j w] l1].
        - simpl in Hgt. destruct IH1 as (l & i' & v' & t' & H1 & H2 & H3); [lia|].
          exists l, i', v', t'. split; [now right|]. auto.
        - simpl in Hgt. destruct (Z_le_gt_dec j dim).
          + exists ((j,w)::l1), j, w, l1. split; [now left|]. auto.
          + destruct IH1 as (l & i' & v' & t' & H1 & H2 & H3); [lia|].
            exists l, i', v', t'. split; [now right|]. auto. }
      destruct (IH Hex) as (i' & v' & t' & Hin' & E'). exists i', v', t'. split; [now right|]. rewrite E' in *. lia.
  - destruct IH as (i' & v' & t' & Hin' & E'). { exists ((i,v)::t), i, v, t. auto. }
    destruct (Z_le_gt_dec (head_idx dim l0) i') as [Hle|Hgt].
    + assert (Hi' : (i' <= dim)%Z).
      { rewrite <- E'. pose proof (min_head_le dim ls _ Hin). unfold min_head in H. simpl in H. lia. }
      destruct l0 as [|[j w] l0]; simpl in Hle.
      * lia.
      * exists j, w, l0. split; [now left|]. simpl. rewrite E'. lia.
    + exists i', v', t'. split; [now right|]. rewrite E'. lia.
Qed.

Definition valid_ents (dim : Z) (l : list entry) : Prop := sorted_in 0 dim (keys l).

Lemma advance_get lo dim l i k :
  sorted_in lo dim (keys l) -> (i <= head_idx dim l)%Z -> (i < k)%Z ->
  get (advance i l) k = get l k.
Proof.
  destruct l as [|[j v] l]; simpl; intros Hs Hi Hk; [auto|].
  destruct (Z.eqb_spec j i) as [->|Hne].
  - destruct (Z.eqb_spec i k); [lia|auto].
  - simpl. auto.
Qed.

Lemma advance_sorted lo dim l i :
  sorted_in lo dim (keys l) -> (i <= head_idx dim l)%Z -> sorted_in (i+1) dim (keys (advance i l)).
Proof.
  destruct l as [|[j v] l]; simpl; intros Hs Hi; [auto|]. destruct Hs as [Hj Hs].
  destruct (Z.eqb_spec j i) as [->|Hne]; [exact Hs|].
  simpl. split; [lia|auto].
Qed.

Lemma head_val_get lo dim l i :
  sorted_in lo dim (keys l) -> (i <= head_idx dim l)%Z -> head_val i l = get l i.
Proof.
  destruct l as [|[j v] l]; simpl; intros Hs Hi; [auto|]. destruct Hs as [Hj Hs].
  destruct (Z.eqb_spec j i) as [->|Hne]; [auto|].
  symmetry. apply (get_below (j+1) dim); [auto|lia].
Qed.

Lemma total_len_advance_le i ls : (total_len (map (advance i) ls) <= total_len ls)%nat.
Proof.
  induction ls as [|l ls IH]; simpl; [lia|].
  assert (length (advance i l) <= length l)%nat.
  { destruct l as [|[j v] l]; simpl; [lia|]. destruct (Z.eqb j i); simpl; lia. }
  lia.
Qed.

Lemma total_len_advance_lt i v t ls : In ((i,v)::t) ls ->
  (total_len (map (advance i) ls) < total_len ls)%nat.
Proof.
  induction ls as [|l ls IH]; simpl; intros H; [tauto|].
  destruct H as [->|H].
  - simpl. rewrite Z.eqb_refl. pose proof (total_len_advance_le i ls). lia.
  - specialize (IH H).
    assert (length (advance i l) <= length l)%nat.
    { destruct l as [|[j w] l]; simpl; [lia|]. destruct (Z.eqb j i); simpl; lia. }
    lia.
Qed.

Lemma align_loop_spec fuel dim lo ls :
  (forall l, In l ls -> sorted_in lo dim (keys l)) -> (total_len ls <= fuel)%nat ->
  exists idxs, sorted_in lo dim idxs
    /\ (forall i, In i idxs <-> exists l, In l ls /\ In i (keys l))
    /\ align_loop fuel dim ls = Ok (map (fun i => (i, map (fun l => get l i) ls)) idxs).
Proof.
  revert lo ls; induction fuel as [|fuel IH]; intros lo ls Hs Hf.
  - exists []. split; [exact I|]. assert (Hn : all_nil ls = true).
    { apply all_nil_iff. clear Hs. induction ls as [|l ls IHl]; simpl; intros l' H; [tauto|].
      simpl in Hf. destruct H as [<-|H]; [destruct l; [auto|simpl in Hf; lia]|].
      apply IHl; auto. lia. }
    split.
    + intros i; split; [intros []|]. intros (l & Hl & Hi). rewrite all_nil_iff in Hn.
      rewrite (Hn _ Hl) in Hi. exact Hi.
    + simpl. now rewrite Hn.
  - cbn [align_loop]. destruct (all_nil ls) eqn:Hn.
    + exists []. split; [exact I|]. split; [|reflexivity].
      intros i; split; [intros []|]. intros (l & Hl & Hi). rewrite all_nil_iff in Hn.
      rewrite (Hn _ Hl) in Hi. exact Hi.
    + set (i := min_head dim ls).
      assert (Hatt : exists i v t, In ((i,v)::t) ls /\ min_head dim ls = i).
      { apply min_head_attained. 
        assert (Hex : exists l, In l ls /\ l <> []).
        { clear -Hn. induction ls as [|l ls IHl]; simpl in *; [discriminate|].
          destruct l as [|e l].
          - destruct IHl as (l & H1 & H2); auto. exists l. auto.
          - exists (e::l). split; [auto|discriminate]. }
        destruct Hex as ([|[j v] t] & Hin & Hne); [congruence|].
        exists ((j,v)::t), j, v, t. split; [auto|]. split; [auto|].
        specialize (Hs _ Hin). simpl in Hs. lia. }
      destruct Hatt as (i0 & v0 & t0 & Hin0 & Ei0). fold i in Ei0. subst i0.
      assert (Hrange : (lo <= i < dim)%Z).
      { specialize (Hs _ Hin0). simpl in Hs. lia. }
      assert (Hle : forall l, In l ls -> (i <= head_idx dim l)%Z) by (intros; apply min_head_le; auto).
      destruct (IH (i+1)%Z (map (advance i) ls)) as (idxs & Hsort & Hmem & Heq).
      { intros l Hl. apply in_map_iff in Hl. destruct Hl as (l' & <- & Hl').
        apply (advance_sorted lo); auto. }
      { pose proof (total_len_advance_lt i v0 t0 ls Hin0). lia. }
      exists (i :: idxs). split; [simpl; split; [lia|auto]|]. split.
      * intros k. simpl. rewrite Hmem. split.
        { intros [<-|(l & Hl & Hk)].
          - exists ((i,v0)::t0). split; [auto|]. simpl. auto.
          - apply in_map_iff in Hl. destruct Hl as (l' & <- & Hl'). exists l'. split; [auto|].
            destruct l' as [|[j w] l']; simpl in *; [tauto|]. destruct (Z.eqb j i); simpl in *; auto. }
        { intros (l & Hl & Hk). destruct (Z.eq_dec k i) as [->|Hne]; [auto|]. right.
          exists (advance i l). split; [now apply in_map|].
          destruct l as [|[j w] l]; simpl in *; [tauto|].
          destruct (Z.eqb_spec j i) as [->|]; simpl; [|auto].
          destruct Hk; [congruence|auto]. }
      * rewrite Heq. simpl. f_equal. f_equal.
        { f_equal. apply map_ext_in. intros l Hl. apply (head_val_get lo dim); auto. }
        { apply map_ext_in. intros k Hk. f_equal. rewrite map_map. apply map_ext_in. intros l Hl.
          apply (advance_get lo dim); auto. pose proof (sorted_in_In _ _ _ _ Hsort Hk). lia. }
Qed.

(** The merge loop terminates on valid vectors, visits exactly the union of the
    index sets in increasing order, and sees each vector's entry at that index. *)
Lemma align_spec dim ls :
  (forall l, In l ls -> valid_ents dim l) ->
  exists idxs, sorted_in 0 dim idxs
    /\ (forall i, In i idxs <-> exists l, In l ls /\ In i (keys l))
    /\ align dim ls = Ok (map (fun i => (i, map (fun l => get l i) ls)) idxs).
Proof. intros H. apply align_loop_spec; auto. Qed.

End Sparse.


(** Members of the union of the index sets of [ls] are bounded by the total number of entries. *)
Lemma union_length {V} (ls : list (list (Z * V))) idxs :
  NoDup idxs -> (forall i, In i idxs -> exists l, In l ls /\ In i (keys l)) ->
  (length idxs <= total_len ls)%nat.
Proof.
  intros Hnd H.
  assert (Hincl : incl idxs (flat_map keys ls)).
  { intros i Hi. apply in_flat_map. destruct (H i Hi) as (l & Hl & Hk). exists l. auto. }
  pose proof (NoDup_incl_length Hnd Hincl) as Hlen.
  assert (E : length (flat_map keys ls) = total_len ls).
  { clear. induction ls as [|l ls IH]; simpl; [reflexivity|]. unfold keys at 1. rewrite app_length, map_length, IH. reflexivity. }
  lia.
Qed.
