(** Models of /repo/src/main/callback_handler.c and /repo/src/main/hess_struct.c. *)
From Coq Require Import Permutation.
From Verif Require Import Base Num Cmp Sparse Vec VecFacts VecFacts2 Mat MatFacts Arr.
Local Open Scope Z_scope.

(** ** Callback handler *)

(** callback_handler.c:8-12: function and data pointers as integers *)
Definition cb : Type := Z * Z.
Definition cb_eqb (a b : cb) : bool := (fst a =? fst b) && (snd a =? snd b).

(** callback_handler.c:14-22; [None]: memory not yet written *)
Record handler := mkhandler { hsize : Z; hcap : Z; hslots : list (option cb) }.

(** callback_handler.c:24-36 *)
Definition h_create : handler := mkhandler 0 0 [].

(** callback_handler.c:46-50 *)
Definition h_size (h : handler) : Z := hsize h.

Definition slot (h : handler) (i : Z) : res cb :=
  o <- arr_get (hslots h) i ;; match o with Some c => Ok c | None => Trap end.

(** callback_handler.c:52-71 *)
Definition h_get (h : handler) (p : Z) : res cb :=
  if (p <? 0) || (hsize h <=? p) then Err EIllegalArg else slot h p.

(** callback_handler.c:72-89 *)
Definition h_reserve (h : handler) : res handler :=
  if hsize h <? hcap h then Ok h else
  let next := Z.max 1 (2 * hcap h) in
  check (hsize h <? next) ;;;
  Ok (mkhandler (hsize h) next (hslots h ++ repeat None (Z.to_nat (next - len (hslots h))))).

(** callback_handler.c:91-104 *)
Definition h_add (h : handler) (c : cb) : res handler :=
  h <- h_reserve h ;;
  s <- arr_set (hslots h) (hsize h) (Some c) ;;
  Ok (mkhandler (hsize h + 1) (hcap h) s).

(** callback_handler.c:114-126: position of the first match *)
Definition h_find (h : handler) (c : cb) : res (option Z) :=
  rfold (fun acc p => match acc with
                      | Some _ => Ok acc
                      | None => x <- slot h p ;; Ok (if cb_eqb x c then Some p else None)
                      end) None (zrange (hsize h)).

(** callback_handler.c:106-142 *)
Definition h_remove (h : handler) (c : cb) : res handler :=
  f <- h_find h c ;;
  match f with
  | None => Err EIllegalArg
  | Some p =>
    let size := hsize h - 1 in
    s <- (if p =? size then Ok (hslots h)
          else x <- arr_get (hslots h) size ;; arr_set (hslots h) p x) ;;
    s <- arr_set s size (Some (0, 0)) ;;
    Ok (mkhandler size (hcap h) s)
  end.

(** [h] registers exactly the callbacks [l]. *)
Definition registers (h : handler) (l : list cb) : Prop :=
  exists rest, hslots h = map Some l ++ rest /\ hsize h = len l /\ hcap h = len (hslots h).

Lemma create_registers : registers h_create [].
Proof. exists []. repeat split. Qed.

Lemma set_nth_app_r {A} (l r : list A) k x : set_nth (l ++ r) (length l + k) x = l ++ set_nth r k x.
Proof. induction l; cbn; congruence. Qed.

Lemma h_add_spec h l c : registers h l -> exists h', h_add h c = Ok h' /\ registers h' (l ++ [c]).
Proof.
  intros (rest & Hs & Hz & Hc). unfold h_add, h_reserve.
  assert (Hlen : len (hslots h) = len l + len rest) by (rewrite Hs, app_length, map_length; lia).
  assert (Hpush : forall r0 r cap, r = r0 :: tl r -> cap = len (map Some l ++ r) ->
    exists h', (s <- arr_set (map Some l ++ r) (hsize h) (Some c) ;; Ok (mkhandler (hsize h + 1) cap s)) = Ok h' /\ registers h' (l ++ [c])).
  { intros r0 r cap Hr Hcap. rewrite arr_set_ok by (rewrite app_length, map_length, Hr; cbn [length]; lia). cbn [rbind].
    eexists. split; [reflexivity|]. exists (tl r). cbn [hslots hsize hcap]. 
    assert (Hset : set_nth (map Some l ++ r) (Z.to_nat (hsize h)) (Some c) = map Some l ++ Some c :: tl r).
    { rewrite Hz, Nat2Z.id, Hr. replace (length l) with (length (map (@Some cb) l)) by apply map_length. apply set_nth_app. }
    rewrite Hset. split; [|split].
    - rewrite map_app, <- app_assoc. reflexivity.
    - rewrite app_length. cbn [length]. lia.
    - rewrite Hcap, Hr, !app_length. reflexivity. }
  destruct (Z.ltb_spec (hsize h) (hcap h)).
  - cbn [rbind hslots hsize hcap]. rewrite Hs. destruct rest as [|r0 rest]; [cbn [length] in Hlen; lia|].
    apply (Hpush r0 (r0 :: rest)); [reflexivity|]. rewrite Hc, Hs. reflexivity.
  - destruct (Z.ltb_spec (hsize h) (Z.max 1 (2 * hcap h))); [|lia]. cbn [check rbind hslots hsize hcap].
    rewrite Hs, <- app_assoc. destruct rest; [|cbn [length] in Hlen; lia]. cbn [app]. rewrite app_nil_r.
    remember (Z.to_nat (Z.max 1 (2 * hcap h) - len (map Some l))) as k eqn:Hk. rewrite map_length in Hk.
    destruct k as [|k]; [lia|]. apply (Hpush None (repeat None (S k))); [reflexivity|].
    rewrite app_length, map_length, repeat_length. lia.
Qed.

Lemma cb_eqb_spec a b : cb_eqb a b = true <-> a = b.
Proof.
  unfold cb_eqb. rewrite andb_true_iff, !Z.eqb_eq. destruct a, b; cbn; split; [intros []; congruence|intros [=]; auto].
Qed.

Lemma cb_dec (a b : cb) : {a = b} + {a <> b}.
Proof. destruct (cb_eqb a b) eqn:E; [left; now apply cb_eqb_spec|right; intros H; apply cb_eqb_spec in H; congruence]. Defined.

Lemma slot_registers h l p c : registers h l -> nth_error l p = Some c -> slot h (Z.of_nat p) = Ok c.
Proof.
  intros (rest & Hs & _) Hp. unfold slot. assert (E : arr_get (hslots h) (Z.of_nat p) = Ok (Some c)).
  { apply arr_get_nth; [lia|]. rewrite Nat2Z.id, Hs, nth_error_app1; [now apply map_nth_error|].
    rewrite map_length. apply nth_error_Some. congruence. }
  now rewrite E.
Qed.

Lemma h_find_spec h l c : registers h l ->
  (exists p, h_find h c = Ok (Some (Z.of_nat p)) /\ nth_error l p = Some c /\ ~ In c (firstn p l))
  \/ (h_find h c = Ok None /\ ~ In c l).
Proof.
  intros H. pose proof H as (rest & Hs & Hz & _). unfold h_find.
  destruct (zrange_loop (fun j acc =>
     match acc with Some q => exists p, q = Z.of_nat p /\ nth_error l p = Some c /\ ~ In c (firstn p l)
                  | None => ~ In c (firstn (Z.to_nat j) l) end)
    (fun acc p => match acc with
                      | Some _ => Ok acc
                      | None => x <- slot h p ;; Ok (if cb_eqb x c then Some p else None)
                      end) (hsize h) None) as (acc & E & I).
  - lia.
  - cbn. tauto.
  - intros j [q|] Hj I; [eauto|].
    destruct (nth_error l (Z.to_nat j)) as [x|] eqn:E; [|apply nth_error_None in E; lia].
    pose proof (slot_registers h l _ x H E) as E2. rewrite Z2Nat.id in E2 by lia. rewrite E2. cbn [rbind].
    destruct (cb_eqb x c) eqn:Ec.
    + apply cb_eqb_spec in Ec. subst x. eexists. split; [reflexivity|]. exists (Z.to_nat j). rewrite Z2Nat.id by lia. auto.
    + eexists. split; [reflexivity|]. replace (Z.to_nat (j + 1)) with (S (Z.to_nat j)) by lia.
      intros Hin. assert (Hfs : firstn (S (Z.to_nat j)) l = firstn (Z.to_nat j) l ++ [x]).
      { clear -E. revert l E. generalize (Z.to_nat j) as n. induction n as [|n IH]; intros [|a l]; cbn [nth_error]; try discriminate.
        - intros [= ->]. reflexivity.
        - intros E. rewrite firstn_cons, (IH l E). reflexivity. }
      rewrite Hfs in Hin. apply in_app_iff in Hin. destruct Hin as [|[->|[]]]; auto.
      assert (cb_eqb c c = true) by now apply cb_eqb_spec. congruence.
  - rewrite E. destruct acc as [q|].
    + left. destruct I as (p & -> & I). eauto.
    + right. split; auto. rewrite Hz, Nat2Z.id, firstn_all in I. exact I.
Qed.

Lemma nth_split_last {A} (l : list A) p x : nth_error l p = Some x -> p <> (length l - 1)%nat ->
  exists a b y, l = a ++ x :: b ++ [y] /\ length a = p.
Proof.
  intros E Hp. destruct (nth_error_split l p E) as (a & b & -> & <-). destruct b as [|b0 b] using rev_ind.
  - rewrite app_length in Hp. cbn [length] in Hp. lia.
  - eauto.
Qed.

Lemma h_remove_spec h l c : registers h l ->
  (In c l -> exists h' l', h_remove h c = Ok h' /\ registers h' l' /\ Permutation l (c :: l')) /\
  (~ In c l -> h_remove h c = Err EIllegalArg).
Proof.
  intros H. pose proof H as (rest & Hs & Hz & Hc). unfold h_remove.
  destruct (h_find_spec h l c H) as [(p & E & Hp & _)|(E & Hn)]; rewrite E; cbn [rbind].
  2: { split; [contradiction|reflexivity]. }
  split; [|intros Hn; destruct Hn; eapply nth_error_In; eauto]. intros _.
  assert (Hlt : (p < length l)%nat) by (apply nth_error_Some; congruence).
  destruct (Z.eqb_spec (Z.of_nat p) (hsize h - 1)) as [He|Hne]; cbn [rbind].
  - destruct (nth_error_split l p Hp) as (a & b & -> & Hap). rewrite app_length in *. cbn [length] in *.
    destruct b; [|cbn [length] in *; lia].
    rewrite arr_set_ok by (rewrite Hs, !app_length, map_length, app_length; cbn [length]; lia). cbn [rbind].
    eexists _, a. split; [reflexivity|]. split; [|rewrite Permutation_app_comm; reflexivity].
    exists (Some (0, 0) :: rest). cbn [hslots hsize hcap]. rewrite Hs, map_app, <- app_assoc. cbn [map app].
    replace (Z.to_nat (hsize h - 1)) with (length (map Some a)) by (rewrite map_length; lia). rewrite set_nth_app.
    split; [reflexivity|]. split; [lia|]. rewrite Hc, Hs, map_app, <- app_assoc. cbn [map app]. rewrite !app_length. reflexivity.
  - destruct (nth_split_last l p c Hp) as (a & b & y & -> & Ha); [lia|].
    rewrite !app_length in *. cbn [length] in *. rewrite app_length in *. cbn [length] in *.
    assert (Hsl : hslots h = map Some a ++ Some c :: map Some b ++ Some y :: rest).
    { rewrite Hs, map_app. cbn [map]. rewrite map_app. cbn [map]. now rewrite <- !app_assoc, <- app_comm_cons, <- app_assoc. }
    assert (Hlen : length (hslots h) = (length a + 1 + length b + 1 + length rest)%nat).
    { rewrite Hsl, app_length. cbn [length]. rewrite app_length. cbn [length]. rewrite !map_length. lia. }
    assert (E1 : arr_get (hslots h) (hsize h - 1) = Ok (Some y)).
    { apply arr_get_nth; [lia|]. rewrite Hsl. rewrite nth_error_app2 by (rewrite map_length; lia). rewrite map_length.
      replace (Z.to_nat (hsize h - 1) - length a)%nat with (S (length b)) by lia. cbn [nth_error].
      rewrite nth_error_app2 by (rewrite map_length; lia). rewrite map_length, Nat.sub_diag. reflexivity. }
    rewrite E1. cbn [rbind]. rewrite arr_set_ok by lia. cbn [rbind].
    rewrite arr_set_ok by (rewrite set_nth_length; lia). cbn [rbind].
    eexists _, (a ++ y :: b). split; [reflexivity|]. split.
    + exists (Some (0, 0) :: rest). cbn [hslots hsize hcap]. rewrite Hsl.
      replace (Z.to_nat (Z.of_nat p)) with (length (map Some a)) by (rewrite map_length; lia). rewrite set_nth_app.
      replace (map Some a ++ Some y :: map Some b ++ Some y :: rest) with ((map Some a ++ Some y :: map Some b) ++ Some y :: rest)
        by (rewrite <- app_assoc; reflexivity).
      replace (Z.to_nat (hsize h - 1)) with (length (map Some a ++ Some y :: map Some b))
        by (rewrite app_length; cbn [length]; rewrite !map_length; lia).
      rewrite set_nth_app. split; [rewrite map_app; reflexivity|]. split; [rewrite app_length; cbn [length]; lia|].
      rewrite Hc, Hlen. rewrite !app_length. cbn [length]. rewrite !map_length. lia.
    + rewrite (Permutation_app_comm a (y :: b)). rewrite (Permutation_app_comm a (c :: b ++ [y])). cbn [app].
      apply perm_skip. apply (Permutation_app_tail a (l := b ++ [y]) (l' := y :: b)). symmetry. apply Permutation_cons_append.
Qed.

(** Histories: failing removals leave the handler unchanged. *)
Inductive hop := HAdd (c : cb) | HRemove (c : cb).
Definition hstep (h : handler) (o : hop) : res handler :=
  match o with
  | HAdd c => h_add h c
  | HRemove c => match h_remove h c with Err _ => Ok h | r => r end
  end.

(** Number of copies of [c] registered after a history, starting from [n]. *)
Fixpoint copies (c : cb) (n : nat) (ops : list hop) : nat :=
  match ops with
  | [] => n
  | HAdd d :: ops' => copies c (if cb_dec d c then S n else n) ops'
  | HRemove d :: ops' => copies c (if cb_dec d c then pred n else n) ops'
  end.

Lemma h_run ops : forall h l, registers h l ->
  exists h' l', rfold hstep h ops = Ok h' /\ registers h' l' /\ forall c, count_occ cb_dec l' c = copies c (count_occ cb_dec l c) ops.
Proof.
  induction ops as [|o ops IH]; intros h l H; cbn [rfold copies].
  - exists h, l. auto.
  - destruct o as [d|d]; cbn [hstep].
    + destruct (h_add_spec h l d H) as (h1 & E & H1). rewrite E. cbn [rbind].
      destruct (IH h1 _ H1) as (h' & l' & E' & R & C). exists h', l'. split; [auto|]. split; [auto|].
      intros c. rewrite C. f_equal. rewrite count_occ_app. cbn [count_occ]. destruct (cb_dec d c); lia.
    + destruct (h_remove_spec h l d H) as [Hin Hnin]. destruct (in_dec cb_dec d l) as [Hd|Hd].
      * destruct (Hin Hd) as (h1 & l1 & E & H1 & P). rewrite E. cbn [rbind].
        destruct (IH h1 _ H1) as (h' & l' & E' & R & C). exists h', l'. split; [auto|]. split; [auto|].
        intros c. rewrite C. f_equal. rewrite (proj1 (Permutation_count_occ cb_dec _ _) P c). cbn [count_occ].
        destruct (cb_dec d c); lia.
      * rewrite (Hnin Hd). cbn [rbind]. destruct (IH h _ H) as (h' & l' & E' & R & C). exists h', l'. split; [auto|]. split; [auto|].
        intros c. rewrite C. f_equal. destruct (cb_dec d c) as [->|]; auto.
        apply (count_occ_not_In cb_dec) in Hd. lia.
Qed.

Lemma h_get_spec h l p : registers h l ->
  h_get h p = if (0 <=? p) && (p <? len l) then match nth_error l (Z.to_nat p) with Some c => Ok c | None => Trap end else Err EIllegalArg.
Proof.
  intros H. pose proof H as (rest & Hs & Hz & _). unfold h_get. rewrite Hz.
  destruct (Z.ltb_spec p 0), (Z.leb_spec 0 p), (Z.leb_spec (len l) p), (Z.ltb_spec p (len l)); cbn [orb andb]; try lia; auto.
  destruct (nth_error l (Z.to_nat p)) as [c|] eqn:E; [|apply nth_error_None in E; lia].
  pose proof (slot_registers h l _ c H E) as E2. rewrite Z2Nat.id in E2 by lia. exact E2.
Qed.

(** ** Hessian block structure *)

(** hess_struct.c:7-13; [sends] is the allocated array (length fixed at creation),
    [None]: not yet written *)
Record hstruct := mkhs { sends : list (option Z); snum : Z; sdim : Z }.

(** hess_struct.c:44-68 *)
Definition hs_push (s : hstruct) (e : Z) : res hstruct :=
  if sdim s <? e then Err EIllegalArg else
  if sdim s <=? snum s then Err EIllegalArg else
  last <- (if 0 <? snum s then arr_get (sends s) (snum s - 1) else Ok (Some 0)) ;;
  match last with
  | None => Trap
  | Some l =>
    if (0 <? snum s) && (e <=? l) then Err EIllegalArg else
    ends <- arr_set (sends s) (snum s) (Some e) ;;
    Ok (mkhs ends (snum s + 1) (sdim s))
  end.

(** hess_struct.c:15-36 *)
Definition hs_create (dim : Z) (empty : bool) : res hstruct :=
  let s := mkhs (repeat None (Z.to_nat dim)) 0 dim in
  if negb empty && (0 <? dim) then hs_push s dim else Ok s.

(** hess_struct.c:70-76 *)
Definition hs_clear (s : hstruct) : hstruct := mkhs (sends s) 0 (sdim s).

Definition hs_end (s : hstruct) (k : Z) : res Z :=
  o <- arr_get (sends s) k ;; match o with Some e => Ok e | None => Trap end.

(** hess_struct.c:78-95: the range test is [block > num_blocks] *)
Definition hs_range (s : hstruct) (block : Z) : res (Z * Z) :=
  if snum s <? block then Err EIllegalArg else
  b <- (if 0 <? block then hs_end s (block - 1) else Ok 0) ;;
  e <- hs_end s block ;;
  Ok (b, e).

(** hess_struct.c:97-109 *)
Definition hs_lin_range (s : hstruct) : res (Z * Z) :=
  b <- (if snum s =? 0 then Ok 0 else hs_end s (snum s - 1)) ;; Ok (b, sdim s).

(** hess_struct.c:157-179 *)
Definition hs_copy (source target : hstruct) : res hstruct :=
  rfold (fun t block => r <- hs_range source block ;; hs_push t (snd r))
    (mkhs (sends target) 0 (sdim source)) (zrange (snum source)).

(** [s] has the block ends [es]. *)
Definition blocks (s : hstruct) (es : list Z) : Prop :=
  snum s = len es /\ len es <= sdim s <= len (sends s)
  /\ (forall k e, nth_error es k = Some e -> nth_error (sends s) k = Some (Some e))
  /\ (forall i j x y, (i < j)%nat -> nth_error es i = Some x -> nth_error es j = Some y -> x < y)
  /\ (forall x, In x es -> x <= sdim s).

Definition last_end (es : list Z) : Z := last es 0.

Lemma last_nth es : es <> [] -> nth_error es (length es - 1) = Some (last es 0).
Proof.
  intros H. destruct es as [|e es _] using rev_ind; [congruence|].
  rewrite app_length, last_last. cbn [length]. replace (length es + 1 - 1)%nat with (length es) by lia.
  rewrite nth_error_app2 by lia. now rewrite Nat.sub_diag.
Qed.

Lemma hs_push_spec s es e : blocks s es ->
  (e <= sdim s /\ len es < sdim s /\ (es <> [] -> last es 0 < e) ->
     exists s', hs_push s e = Ok s' /\ blocks s' (es ++ [e]) /\ sdim s' = sdim s) /\
  (~ (e <= sdim s /\ len es < sdim s /\ (es <> [] -> last es 0 < e)) -> hs_push s e = Err EIllegalArg).
Proof.
  intros (H1 & H2 & H3 & H4 & H5). unfold hs_push.
  assert (Hlast : (if 0 <? snum s then arr_get (sends s) (snum s - 1) else Ok (Some 0)) = Ok (Some (last es 0))).
  { destruct (Z.ltb_spec 0 (snum s)).
    - apply arr_get_nth; [lia|]. replace (Z.to_nat (snum s - 1)) with (length es - 1)%nat by lia.
      apply H3, last_nth. intros ->. cbn [length] in H1. lia.
    - destruct es; [reflexivity|]. cbn [length] in H1. lia. }
  rewrite Hlast. cbn [rbind]. split.
  - intros (A & B & C). destruct (Z.ltb_spec (sdim s) e); [lia|]. destruct (Z.leb_spec (sdim s) (snum s)); [lia|].
    assert (Hc : (0 <? snum s) && (e <=? last es 0) = false).
    { destruct es as [|e0 es0]; [cbn [length] in H1; rewrite H1; reflexivity|].
      specialize (C ltac:(discriminate)). rewrite (proj2 (Z.leb_gt _ _)) by lia. apply andb_false_r. }
    rewrite Hc. rewrite arr_set_ok by lia. cbn [rbind]. eexists. split; [reflexivity|]. split; [|reflexivity].
    unfold blocks; cbn [snum sdim sends]. rewrite app_length, set_nth_length. cbn [length]. split; [lia|]. split; [lia|]. split; [|split].
    + intros k x Hk. rewrite set_nth_spec by lia. destruct (Nat.eqb_spec k (Z.to_nat (snum s))) as [->|].
      * rewrite nth_error_app2 in Hk by lia. replace (Z.to_nat (snum s) - length es)%nat with O in Hk by lia. cbn in Hk. congruence.
      * apply H3. assert (Hkl : (k < length (es ++ [e]))%nat) by (apply nth_error_Some; congruence).
        rewrite app_length in Hkl. cbn [length] in Hkl. rewrite nth_error_app1 in Hk by lia. exact Hk.
    + intros i j x y Hij Hi Hj. assert (Hjl : (j < length (es ++ [e]))%nat) by (apply nth_error_Some; congruence).
      rewrite app_length in Hjl. cbn [length] in Hjl. rewrite nth_error_app1 in Hi by lia.
      destruct (Nat.eq_dec j (length es)) as [->|].
      * rewrite nth_error_app2 in Hj by lia. rewrite Nat.sub_diag in Hj. cbn in Hj. injection Hj as <-.
        assert (Hne : es <> []) by (intros ->; destruct i; discriminate). specialize (C Hne).
        pose proof (last_nth es Hne) as Hl. destruct (Nat.eq_dec i (length es - 1)) as [->|].
        -- rewrite Hl in Hi. injection Hi as <-. exact C.
        -- specialize (H4 i (length es - 1)%nat x _ ltac:(lia) Hi Hl). lia.
      * rewrite nth_error_app1 in Hj by lia. exact (H4 i j x y Hij Hi Hj).
    + intros x Hx. apply in_app_iff in Hx. destruct Hx as [|[<-|[]]]; auto.
  - intros Hn. destruct (Z.ltb_spec (sdim s) e); [reflexivity|]. destruct (Z.leb_spec (sdim s) (snum s)); [reflexivity|].
    destruct es as [|e0 es0].
    + destruct Hn. split; [lia|]. split; [lia|]. congruence.
    + destruct (Z.ltb_spec 0 (snum s)); [|cbn [length] in H1; lia].
      destruct (Z.leb_spec e (last (e0 :: es0) 0)); cbn [andb]; [reflexivity|].
      destruct Hn. split; [lia|]. split; [lia|]. intros _. lia.
Qed.

Lemma hs_create_spec dim : 0 <= dim -> exists s, hs_create dim true = Ok s /\ blocks s [] /\ sdim s = dim.
Proof.
  intros Hd. eexists. split; [reflexivity|]. split; [|reflexivity]. unfold blocks; cbn [snum sdim sends length].
  rewrite repeat_length. repeat split; try lia; try contradiction.
  - intros [|k] e; discriminate.
  - intros [|i] j x y _; discriminate.
Qed.

(** Pushes of a history that are accepted. *)
Fixpoint accepted (dim : Z) (es : list Z) (pushes : list Z) : list Z :=
  match pushes with
  | [] => es
  | e :: ps => accepted dim (if (e <=? dim) && (len es <? dim) && (match es with [] => true | _ => last es 0 <? e end)
                             then es ++ [e] else es) ps
  end.

Definition hs_try (s : hstruct) (e : Z) : res hstruct := match hs_push s e with Err _ => Ok s | r => r end.

Lemma hs_run pushes : forall s es, blocks s es ->
  exists s', rfold hs_try s pushes = Ok s' /\ blocks s' (accepted (sdim s) es pushes) /\ sdim s' = sdim s.
Proof.
  induction pushes as [|e ps IH]; intros s es H; cbn [rfold accepted].
  - eauto.
  - destruct (hs_push_spec s es e H) as [Hok Hrej]. unfold hs_try at 1.
    destruct (Z.leb_spec e (sdim s)); cbn [andb].
    2: { rewrite Hrej by lia. cbn [rbind]. apply IH; auto. }
    destruct (Z.ltb_spec (len es) (sdim s)); cbn [andb].
    2: { rewrite Hrej by lia. cbn [rbind]. apply IH; auto. }
    destruct es as [|e0 es0].
    { destruct Hok as (s' & E & B & D); [repeat split; auto; congruence|]. rewrite E. cbn [rbind]. rewrite <- D. apply IH; auto. }
    destruct (Z.ltb_spec (last (e0 :: es0) 0) e).
    + destruct Hok as (s' & E & B & D); [repeat split; auto; intros; lia|]. rewrite E. cbn [rbind]. rewrite <- D. apply IH; auto.
    + rewrite Hrej. 2: { intros (_ & _ & C). specialize (C ltac:(discriminate)). lia. } cbn [rbind]. apply IH; auto.
Qed.

Lemma hs_range_spec s es k e : blocks s es -> nth_error es k = Some e ->
  hs_range s (Z.of_nat k) = Ok (match k with O => 0 | S k' => nth k' es 0 end, e).
Proof.
  intros (H1 & H2 & H3 & _) Hk. assert (Hlt : (k < length es)%nat) by (apply nth_error_Some; congruence).
  assert (He : forall q x, nth_error es q = Some x -> hs_end s (Z.of_nat q) = Ok x).
  { intros q x Hq. apply H3 in Hq. unfold hs_end. rewrite <- (Nat2Z.id q) in Hq. apply arr_get_nth in Hq; [|lia]. now rewrite Hq. }
  unfold hs_range. destruct (Z.ltb_spec (snum s) (Z.of_nat k)); [lia|].
  destruct k as [|k'].
  - rewrite (He 0%nat e Hk). reflexivity.
  - destruct (Z.ltb_spec 0 (Z.of_nat (S k'))); [|lia]. replace (Z.of_nat (S k') - 1) with (Z.of_nat k') by lia.
    rewrite (He k' (nth k' es 0)) by (apply nth_error_nth'; lia). cbn [rbind]. rewrite (He (S k') e Hk). reflexivity.
Qed.

Lemma hs_lin_spec s es : blocks s es -> hs_lin_range s = Ok (last es 0, sdim s).
Proof.
  intros (H1 & H2 & H3 & _). unfold hs_lin_range. destruct (Z.eqb_spec (snum s) 0).
  - destruct es; [reflexivity|cbn [length] in H1; lia].
  - assert (Hne : es <> []) by (intros ->; cbn [length] in H1; lia). pose proof (H3 _ _ (last_nth es Hne)) as Hl.
    unfold hs_end. replace (length es - 1)%nat with (Z.to_nat (snum s - 1)) in Hl by lia. apply arr_get_nth in Hl; [|lia]. now rewrite Hl.
Qed.

Lemma hs_copy_spec s es t : blocks s es -> 0 <= sdim s <= len (sends t) ->
  exists t', hs_copy s t = Ok t' /\ blocks t' es /\ sdim t' = sdim s.
Proof.
  intros H Ht. pose proof H as (H1 & H2 & H3 & H4 & H5). unfold hs_copy.
  destruct (zrange_loop (fun j t' => blocks t' (firstn (Z.to_nat j) es) /\ sdim t' = sdim s)
     (fun t block => r <- hs_range s block ;; hs_push t (snd r)) (snum s) (mkhs (sends t) 0 (sdim s))) as (t' & E & I & D).
  - lia.
  - split; [|reflexivity]. unfold blocks; cbn [snum sdim sends]. cbn [Z.to_nat firstn length]. repeat split; try lia; try contradiction.
    + intros [|k] e; discriminate.
    + intros [|i] j x y _; discriminate.
  - intros j u Hj [I D]. destruct (nth_error es (Z.to_nat j)) as [e|] eqn:Ej; [|apply nth_error_None in Ej; lia].
    pose proof (hs_range_spec s es _ e H Ej) as Er. rewrite Z2Nat.id in Er by lia. rewrite Er. cbn [rbind snd].
    destruct (hs_push_spec u _ e I) as [Hok _]. destruct Hok as (u' & E & B & D').
    + rewrite D. split; [apply H5; eapply nth_error_In; eauto|]. rewrite firstn_length. split; [lia|]. intros Hne.
      pose proof (last_nth _ Hne) as Hl. rewrite firstn_length in Hl.
      assert (Hl2 : nth_error es (Nat.min (Z.to_nat j) (length es) - 1) = Some (last (firstn (Z.to_nat j) es) 0)).
      { rewrite <- Hl. transitivity (nth_error (firstn (Z.to_nat j) es ++ skipn (Z.to_nat j) es) (Nat.min (Z.to_nat j) (length es) - 1)).
        - now rewrite firstn_skipn.
        - apply nth_error_app1. rewrite firstn_length. destruct (Z.to_nat j), es; cbn [firstn] in *; try congruence. cbn [length]. lia. }
      assert (Hpos : (0 < Z.to_nat j)%nat) by (destruct (Z.to_nat j); [cbn [firstn] in Hne; congruence|lia]).
      eapply H4; [|exact Hl2|exact Ej]. lia.
    + exists u'. split; [exact E|]. split; [|congruence]. replace (Z.to_nat (j + 1)) with (S (Z.to_nat j)) by lia.
      replace (firstn (S (Z.to_nat j)) es) with (firstn (Z.to_nat j) es ++ [e]); [exact B|].
      clear -Ej. revert es Ej. generalize (Z.to_nat j) as n. induction n as [|n IH]; intros [|a l]; cbn [nth_error]; try discriminate.
      * intros [= ->]. reflexivity.
      * intros Ej. rewrite !firstn_cons, <- (IH l Ej). reflexivity.
  - exists t'. split; [exact E|]. split; [|exact D]. rewrite H1, Nat2Z.id, firstn_all in I. exact I.
Qed.
