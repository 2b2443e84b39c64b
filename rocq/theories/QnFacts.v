(** Storage of the quasi-Newton approximations (C39): the ring buffers, for any number type. *)
From Verif Require Import Base Num Cmp Sparse Vec VecFacts VecFacts2 Mat MatFacts Ring QuasiNewton.
Local Open Scope Z_scope.

(** As [ring], but the cursor is itself reduced modulo the size (bfgs.c:556, sr1.c:337). *)
Definition ringm {A} (data : list A) (n l curr : Z) (h : list A) : Prop :=
  0 < n /\ len data = n /\ l = Z.min n (len h) /\ (0 < l -> 0 <= curr < n) /\
  forall k, 0 <= k < l -> nth_error data (Z.to_nat ((curr - k) mod n)) = nth_error h (Z.to_nat k).

Lemma data_index_any n l i : 0 < l -> 0 < n -> data_index n l i = i mod n.
Proof.
  intros Hl Hn. unfold data_index. destruct (Z.eqb_spec l 0); [lia|]. cbv zeta.
  pose proof (Z.quot_rem' i n) as E. destruct (Z.ltb_spec (Z.rem i n) 0) as [H|H].
  - apply (Z.mod_unique i n (Z.quot i n - 1)); [|lia]. left.
    pose proof (Z.rem_bound_abs i n). lia.
  - apply (Z.mod_unique i n (Z.quot i n)); [|lia]. left.
    pose proof (Z.rem_bound_abs i n). lia.
Qed.

Lemma ringm_empty {A} (junk : list A) n c : 0 < n -> len junk = n -> ringm junk n 0 c [].
Proof. intros Hn Hl. repeat split; auto; cbn [length]; lia. Qed.

Lemma ringm_reset {A} (data : list A) n l curr h : ringm data n l curr h -> ringm data n 0 curr [].
Proof. intros (Hn & Hd & _). now apply ringm_empty. Qed.

Lemma ringm_index {A} (data : list A) n l curr h k : ringm data n l curr h -> 0 <= k < l ->
  data_index n l (curr - k) = (curr - k) mod n /\ 0 <= (curr - k) mod n < n.
Proof.
  intros (Hn & Hd & Hl & Hc & H) Hk. split; [apply data_index_any; lia|]. apply Z.mod_pos_bound. lia.
Qed.

Lemma mod_neq n c k k' : 0 < n -> 0 <= k < n -> 0 <= k' < n -> k <> k' -> (c - k) mod n <> (c - k') mod n.
Proof.
  intros Hn Hk Hk' Hne E. apply Hne.
  assert (E0 : ((c - k) - (c - k')) mod n = 0) by (rewrite Zminus_mod, E, Z.sub_diag; apply Z.mod_0_l; lia).
  replace (c - k - (c - k')) with (k' - k) in E0 by lia.
  apply Z.mod_divide in E0; [|lia]. destruct E0 as [q E0]. assert (q = 0) by nia. subst q. lia.
Qed.

Lemma ringm_get {A} (data : list A) n l curr h k : ringm data n l curr h -> 0 <= k < l ->
  exists a, nth_error h (Z.to_nat k) = Some a /\ arr_get data (data_index n l (curr - k)) = Ok a.
Proof.
  intros HR Hk. destruct (ringm_index _ _ _ _ _ _ HR Hk) as [-> Hb]. destruct HR as (Hn & Hd & Hl & Hc & H).
  destruct (nth_error h (Z.to_nat k)) as [a|] eqn:E.
  2: { apply nth_error_None in E. lia. }
  exists a. split; [reflexivity|]. apply arr_get_nth; [lia|]. rewrite <- E. apply H. lia.
Qed.

Definition next_len (l n : Z) : Z := if l <? n then l + 1 else l.

Lemma ringm_next {A} (data : list A) n l curr h : ringm data n l curr h ->
  0 <= data_index n l (curr + 1) < n /\ (0 < l -> data_index n l (curr + 1) = (curr + 1) mod n).
Proof.
  intros (Hn & Hd & Hl & Hc & H). destruct (Z.eq_dec l 0) as [E|E].
  - rewrite E. unfold data_index. cbn [Z.eqb]. lia.
  - rewrite data_index_any by lia. pose proof (Z.mod_pos_bound (curr + 1) n Hn). lia.
Qed.

Lemma ringm_push {A} (data : list A) n l curr h a : ringm data n l curr h ->
  let next := data_index n l (curr + 1) in
  exists data', arr_set data next a = Ok data' /\ data' = set_nth data (Z.to_nat next) a /\
    ringm data' n (next_len l n) next (a :: h).
Proof.
  intros HR. pose proof (ringm_next _ _ _ _ _ HR) as [Hb Hm]. destruct HR as (Hn & Hd & Hl & Hc & H).
  cbv zeta. set (next := data_index n l (curr + 1)) in *.
  exists (set_nth data (Z.to_nat next) a). split; [apply arr_set_ok; lia|]. split; [reflexivity|].
  split; [exact Hn|]. split; [rewrite set_nth_length; exact Hd|]. cbn [length]. unfold next_len.
  split; [destruct (Z.ltb_spec l n); lia|]. split; [auto|].
  intros k Hk. rewrite set_nth_spec by lia.
  assert (Hkn : k < n) by (destruct (Z.ltb_spec l n); lia).
  destruct (Z.eq_dec k 0) as [->|Hk0].
  - rewrite Z.sub_0_r, Z.mod_small by lia. rewrite Nat.eqb_refl. reflexivity.
  - assert (Hl0 : 0 < l) by (destruct (Z.ltb_spec l n); lia). specialize (Hm Hl0).
    assert (E : (next - k) mod n = (curr - (k - 1)) mod n).
    { rewrite Hm, Zminus_mod_idemp_l. f_equal. lia. }
    assert (Hne : (next - k) mod n <> next).
    { intros E0. apply (mod_neq n next k 0); try lia. rewrite E0, Z.sub_0_r. symmetry. apply Z.mod_small. lia. }
    pose proof (Z.mod_pos_bound (next - k) n Hn).
    destruct (Nat.eqb_spec (Z.to_nat ((next - k) mod n)) (Z.to_nat next)); [lia|].
    rewrite E, H by (destruct (Z.ltb_spec l n); lia).
    replace (Z.to_nat k) with (S (Z.to_nat (k - 1))) by lia. reflexivity.
Qed.

(** Loops over zseq. *)
Lemma rfold_map {A B S} (f : S -> B -> res S) (g : A -> B) l s :
  rfold f s (map g l) = rfold (fun s x => f s (g x)) s l.
Proof. revert s; induction l as [|a l IH]; intros s; cbn [map rfold]; [reflexivity|]. destruct (f s (g a)); cbn [rbind]; auto. Qed.

Lemma zseq_loop {S} (I : Z -> S -> Prop) (f : S -> Z -> res S) a b s :
  a <= b + 1 -> I a s ->
  (forall v t, a <= v <= b -> I v t -> exists t', f t v = Ok t' /\ I (v + 1) t') ->
  exists s', rfold f s (zseq a b) = Ok s' /\ I (b + 1) s'.
Proof.
  intros Hab H0 Hstep. unfold zseq. rewrite rfold_map.
  destruct (zrange_loop (fun j t => I (a + j) t) (fun s x => f s (a + x)) (b - a + 1) s) as (s' & E & HI).
  - lia.
  - now rewrite Z.add_0_r.
  - intros j t Hj Ht. destruct (Hstep (a + j) t) as (t' & E' & HI'); [lia|exact Ht|].
    exists t'. split; [exact E'|]. now rewrite Z.add_assoc.
  - exists s'. split; [exact E|]. now replace (b + 1) with (a + (b - a + 1)) by lia.
Qed.

Lemma zseq_inv {S} (P : S -> Prop) (f : S -> Z -> res S) l s s' :
  P s -> (forall t v t', P t -> f t v = Ok t' -> P t') -> rfold f s l = Ok s' -> P s'.
Proof.
  intros H0 Hstep. revert s H0; induction l as [|v l IH]; intros s H0 E; cbn [rfold] in E.
  - now inv E.
  - apply rbind_ok in E as (t & E1 & E2). exact (IH t (Hstep _ _ _ H0 E1) E2).
Qed.

Lemma zseq_cons a b : a <= b -> zseq a b = a :: zseq (a + 1) b.
Proof.
  intros H. unfold zseq, zrange. replace (Z.to_nat (b - a + 1)) with (S (Z.to_nat (b - (a + 1) + 1))) by lia.
  cbn [seq map]. f_equal; [lia|]. rewrite <- seq_shift, !map_map. apply map_ext. intros n. lia.
Qed.
Lemma zseq_nil a b : b < a -> zseq a b = [].
Proof. intros H. unfold zseq, zrange. replace (Z.to_nat (b - a + 1)) with 0%nat by lia. reflexivity. Qed.

Section Gen.
Context {N : Num}.

Lemma push_all_inv v es v' : push_all v es = Ok v' -> vent v' = vent v ++ es /\ vdim v' = vdim v.
Proof.
  unfold push_all. revert v; induction es as [|[i x] es IH]; intros v E; cbn [rfold fst snd] in E.
  - inv E. now rewrite app_nil_r.
  - apply rbind_ok in E as (w & E1 & E2). apply vec_push_inv in E1 as (-> & _).
    apply IH in E2 as (E2 & E3). cbn [vent vdim] in *. rewrite E2, E3, <- app_assoc. auto.
Qed.
Lemma vec_copy_inv s t t' : vec_copy s t = Ok t' -> vent t' = vent s /\ vdim s = vdim t /\ vdim t' = vdim t.
Proof.
  unfold vec_copy. intros E. apply rbind_ok in E as (u & E1 & E). apply check_ok in E1.
  apply Z.eqb_eq in E1. apply rbind_ok in E as (w & E2 & E). apply push_all_inv in E as [E3 E4].
  cbn [vec_clear vent vdim] in *. rewrite E3, E4. split; [reflexivity|]. split; [exact E1|].
  unfold vec_reserve in E2. apply rbind_ok in E2 as (u2 & _ & E2).
  destruct (vnnz s <=? vcap t); inv E2; reflexivity.
Qed.

(** ** BFGS *)

Definition bframe (b b' : bblock) : Prop :=
  bb_dim b' = bb_dim b /\ bb_s b' = bb_s b /\ bb_y b' = bb_y b /\ bb_ys b' = bb_ys b /\ bb_ss b' = bb_ss b /\
  bb_num b' = bb_num b /\ bb_len b' = bb_len b /\ bb_curr b' = bb_curr b /\
  bb_damped b' = bb_damped b /\ bb_sized b' = bb_sized b.
Lemma bframe_refl b : bframe b b. Proof. repeat split. Qed.
Lemma bframe_trans a b c : bframe a b -> bframe b c -> bframe a c.
Proof. unfold bframe. intuition congruence. Qed.

Lemma rmap_ok {A B} (f : A -> B) m b : rmap f m = Ok b -> exists a, m = Ok a /\ b = f a.
Proof. destruct m; cbn; intros E; inv E. eauto. Qed.

Ltac step H := let u := fresh "u" in let E := fresh "E" in apply rbind_ok in H as (u & E & H).

Lemma compute_sizing_frame b v b' : bfgs_compute_sizing b v = Ok b' -> bframe b b'.
Proof.
  unfold bfgs_compute_sizing. intros H. destruct (bb_begin b =? v).
  - apply rmap_ok in H as (a & _ & ->). repeat split.
  - step H. step H. destruct (bb_sized b) eqn:Es; [do 7 step H|]; apply rmap_ok in H as (a & _ & ->); repeat split; cbn [bb_sized]; auto.
Qed.
Lemma product_step_frame z b v b' : bfgs_product_step z b v = Ok b' -> bframe b b'.
Proof.
  unfold bfgs_product_step. intros H. do 7 step H. step H. destruct u6 as [r dot]. do 7 step H.
  cbn [bb_sized] in H. destruct (bb_sized b) eqn:Es.
  - apply compute_sizing_frame in H. eapply bframe_trans; [|exact H]. repeat split; cbn [bb_sized]; auto.
  - inv H. repeat split; cbn [bb_sized]; auto.
Qed.
Lemma compute_products_frame z b b' : bfgs_compute_products z b = Ok b' -> bframe b b'.
Proof.
  unfold bfgs_compute_products. intros H. do 4 step H.
  eapply bframe_trans; [|eapply (zseq_inv (bframe _)); [apply bframe_refl| |exact H]]; [repeat split|].
  intros t v t' Ht E3. eapply bframe_trans; [exact Ht|]. eapply product_step_frame, E3.
Qed.

(** The pairs stored in a block, oldest first. *)
Definition bfgs_pairs (b : bblock) : res (list (list (Z * num) * list (Z * num))) :=
  rmapM (fun v => s <- arr_get (bb_s b) (bb_idx b v) ;; y <- arr_get (bb_y b) (bb_idx b v) ;;
                  Ok (vent s, vent y)) (zseq (bb_begin b) (bb_curr b)).

(** Requests to a block. *)
Inductive qop := QPush (s y : vec) | QReset.
Definition bfgs_op (z : num) (b : bblock) (o : qop) : res bblock :=
  match o with QPush s y => bfgs_block_push z b s y | QReset => Ok (bfgs_block_reset b) end.

(** Specification: the pairs since the last reset, newest first. *)
Definition hist_op (h : list (list (Z * num) * list (Z * num))) (o : qop) :=
  match o with QPush s y => (vent s, vent y) :: h | QReset => [] end.
Definition history (ops : list qop) := fold_left hist_op ops [].

Definition bring (b : bblock) (h : list (list (Z * num) * list (Z * num))) : Prop :=
  ringm (map vent (bb_s b)) (bb_num b) (bb_len b) (bb_curr b) (map fst h) /\
  ringm (map vent (bb_y b)) (bb_num b) (bb_len b) (bb_curr b) (map snd h).

Lemma map_set_nth {A B} (f : A -> B) l i a : map f (set_nth l i a) = set_nth (map f l) i (f a).
Proof. revert i; induction l as [|b l IH]; intros [|i]; cbn; auto. now rewrite IH. Qed.

Lemma arr_set_inv {A} (l : list A) i a l' : arr_set l i a = Ok l' -> l' = set_nth l (Z.to_nat i) a /\ 0 <= i < len l.
Proof.
  unfold arr_set. destruct (Z.leb_spec 0 i), (Z.ltb_spec i (len l)); cbn [andb]; intros E; inv E. auto.
Qed.

Lemma bfgs_op_ring z b o b' h : bring b h -> bfgs_op z b o = Ok b' -> bring b' (hist_op h o).
Proof.
  intros [H1 H2] E. destruct o as [s y|]; cbn [bfgs_op hist_op] in *.
  - unfold bfgs_block_push in E. do 7 step E. apply compute_products_frame in E.
    destruct E as (_ & Fs & Fy & _ & _ & Fn & Fl & Fc & _). cbn [bb_s bb_y bb_num bb_len bb_curr] in *.
    apply vec_copy_inv in E1 as (E1 & _). apply vec_copy_inv in E4 as (E4 & _).
    apply arr_set_inv in E2 as [-> _]. apply arr_set_inv in E5 as [-> _].
    unfold bring. rewrite Fs, Fy, Fn, Fl, Fc, !map_set_nth, E1, E4. cbn [map fst snd].
    destruct (ringm_push _ _ _ _ _ (vent s) H1) as (d1 & _ & -> & R1).
    destruct (ringm_push _ _ _ _ _ (vent y) H2) as (d2 & _ & -> & R2).
    split; [exact R1|exact R2].
  - inv E. split; cbn [bb_s bb_y bb_num bb_len bb_curr bfgs_block_reset map].
    + eapply ringm_reset, H1.
    + eapply ringm_reset, H2.
Qed.

Lemma nth_error_map_inv {A B} (f : A -> B) l n b : nth_error (map f l) n = Some b -> exists a, nth_error l n = Some a /\ f a = b.
Proof. rewrite nth_error_map. destruct (nth_error l n); cbn; intros E; inv E. eauto. Qed.

Lemma arr_get_map {A B} (f : A -> B) l i : arr_get (map f l) i = rmap f (arr_get l i).
Proof. unfold arr_get. destruct (0 <=? i); [|reflexivity]. rewrite nth_error_map. destruct (nth_error l (Z.to_nat i)); reflexivity. Qed.

Lemma rev_firstn_S {A} (h : list A) k a : nth_error h k = Some a -> rev (firstn (S k) h) = a :: rev (firstn k h).
Proof.
  revert h; induction k as [|k IH]; intros [|x h] E; cbn [nth_error] in E; try discriminate.
  - inv E. reflexivity.
  - cbn [firstn rev] in *. rewrite (IH h E). reflexivity.
Qed.

Lemma read_rings (ds dy : list vec) n l curr h :
  ringm (map vent ds) n l curr (map fst h) -> ringm (map vent dy) n l curr (map snd h) ->
  rmapM (fun v => s <- arr_get ds (data_index n l v) ;; y <- arr_get dy (data_index n l v) ;;
                  Ok (vent s, vent y)) (zseq (curr - l + 1) curr) = Ok (rev (firstn (Z.to_nat n) h)).
Proof.
  intros H1 H2. assert (Hl : 0 <= l <= n /\ l = Z.min n (len h)).
  { destruct H1 as (? & ? & Hl & _). rewrite map_length in Hl. lia. }
  assert (G : forall k, 0 <= Z.of_nat k <= l ->
     rmapM (fun v => s <- arr_get ds (data_index n l v) ;; y <- arr_get dy (data_index n l v) ;;
                  Ok (vent s, vent y)) (zseq (curr - Z.of_nat k + 1) curr) = Ok (rev (firstn k h))).
  { induction k as [|k IH]; intros Hk.
    - rewrite zseq_nil by lia. reflexivity.
    - rewrite zseq_cons by lia. cbn [rmapM].
      replace (curr - Z.of_nat (S k) + 1 + 1) with (curr - Z.of_nat k + 1) by lia.
      rewrite IH by lia. clear IH. replace (curr - Z.of_nat (S k) + 1) with (curr - Z.of_nat k) by lia.
      destruct (ringm_get _ _ _ _ _ (Z.of_nat k) H1) as (s & Es & G1); [lia|].
      destruct (ringm_get _ _ _ _ _ (Z.of_nat k) H2) as (y & Ey & G2); [lia|].
      rewrite arr_get_map in G1, G2. apply rmap_ok in G1 as (vs & -> & ->). apply rmap_ok in G2 as (vy & -> & ->).
      cbn [rbind]. rewrite Nat2Z.id in Es, Ey.
      apply nth_error_map_inv in Es as ([a1 a2] & Ea & Es). apply nth_error_map_inv in Ey as (c & Ec & Ey).
      assert (c = (a1, a2)) as -> by congruence. cbn [fst snd] in *. subst a1 a2.
      rewrite (rev_firstn_S h k (vent vs, vent vy)) by exact Ea. reflexivity. }
  replace (curr - l + 1) with (curr - Z.of_nat (Z.to_nat l) + 1) by lia. rewrite G by lia. f_equal. f_equal.
  destruct Hl as [_ ->]. destruct (Z.le_ge_cases n (len h)).
  - f_equal. lia.
  - rewrite !firstn_all2; [reflexivity|lia|lia].
Qed.

Lemma bring_create dim nu damped sized junk b : bblock_create dim nu damped sized junk = Ok b -> bring b [].
Proof.
  unfold bblock_create. intros H. step H. step H. apply check_ok in E0. apply Z.ltb_lt in E0. inv H.
  split; apply ringm_empty; cbn [bb_s bb_y bb_num]; auto; rewrite map_length, repeat_length; lia.
Qed.

Lemma bfgs_run_pairs z dim nu damped sized junk ops b0 b :
  bblock_create dim nu damped sized junk = Ok b0 -> rfold (bfgs_op z) b0 ops = Ok b ->
  bfgs_pairs b = Ok (rev (firstn (Z.to_nat nu) (history ops))) /\ bring b (history ops).
Proof.
  intros H0 H. pose proof (bring_create _ _ _ _ _ _ H0) as R0.
  assert (HN : bb_num b0 = nu) by (unfold bblock_create in H0; step H0; step H0; inv H0; reflexivity).
  unfold history. generalize (@nil (list (Z * num) * list (Z * num))), R0. clear R0. intros h R0.
  clear H0. revert b0 h H HN R0. induction ops as [|o ops IH]; intros b0 h H HN R0; cbn [rfold fold_left] in *.
  - inv H. split; [|exact R0]. unfold bfgs_pairs, bb_idx, bb_begin. destruct R0 as [R1 R2]. exact (read_rings _ _ _ _ _ _ R1 R2).
  - step H. rename u into b1.
    assert (HN1 : bb_num b1 = bb_num b0).
    { destruct o; cbn [bfgs_op] in E.
      - unfold bfgs_block_push in E. do 7 step E. apply compute_products_frame in E.
        destruct E as (_ & _ & _ & _ & _ & Fn & _). exact Fn.
      - inv E. reflexivity. }
    apply (IH b1 (hist_op h o)); auto; [congruence|]. eapply bfgs_op_ring; eauto.
Qed.

(** ** SR1 *)
Definition sframe (b b' : sblock) : Prop :=
  sb_dim b' = sb_dim b /\ sb_s b' = sb_s b /\ sb_y b' = sb_y b /\
  sb_num b' = sb_num b /\ sb_len b' = sb_len b /\ sb_curr b' = sb_curr b.
Lemma sframe_refl b : sframe b b. Proof. repeat split. Qed.
Lemma sframe_trans a b c : sframe a b -> sframe b c -> sframe a c.
Proof. unfold sframe. intuition congruence. Qed.
Lemma inner_step_frame z b v b' : sr1_inner_step z b v = Ok b' -> sframe b b' /\ sb_scale b' = sb_scale b.
Proof. unfold sr1_inner_step. intros H. do 11 step H. inv H. repeat split. Qed.
Lemma inner_products_frame z b b' : sr1_compute_inner_products z b = Ok b' -> sframe b b'.
Proof.
  unfold sr1_compute_inner_products. intros H. do 4 step H.
  eapply sframe_trans; [|eapply (zseq_inv (sframe _)); [apply sframe_refl| |exact H]]; [repeat split|].
  intros t v t' Ht E3. eapply sframe_trans; [exact Ht|]. eapply inner_step_frame, E3.
Qed.

Definition sr1_pairs (b : sblock) : res (list (list (Z * num) * list (Z * num))) :=
  rmapM (fun v => s <- arr_get (sb_s b) (sb_idx b v) ;; y <- arr_get (sb_y b) (sb_idx b v) ;;
                  Ok (vent s, vent y)) (zseq (sb_begin b) (sb_curr b)).
Definition sr1_op (z : num) (b : sblock) (o : qop) : res sblock :=
  match o with QPush s y => sr1_block_push z b s y | QReset => Ok (sr1_block_reset b) end.
Definition sring (b : sblock) (h : list (list (Z * num) * list (Z * num))) : Prop :=
  ringm (map vent (sb_s b)) (sb_num b) (sb_len b) (sb_curr b) (map fst h) /\
  ringm (map vent (sb_y b)) (sb_num b) (sb_len b) (sb_curr b) (map snd h).

Lemma sr1_op_ring z b o b' h : sring b h -> sr1_op z b o = Ok b' -> sring b' (hist_op h o) /\ sb_num b' = sb_num b.
Proof.
  intros [H1 H2] E. destruct o as [s y|]; cbn [sr1_op hist_op] in *.
  - unfold sr1_block_push in E. do 6 step E. apply inner_products_frame in E.
    destruct E as (_ & Fs & Fy & Fn & Fl & Fc). cbn [sb_s sb_y sb_num sb_len sb_curr] in *.
    apply vec_copy_inv in E1 as (E1 & _). apply vec_copy_inv in E4 as (E4 & _).
    apply arr_set_inv in E2 as [-> _]. apply arr_set_inv in E5 as [-> _].
    unfold sring. rewrite Fs, Fy, Fn, Fl, Fc, !map_set_nth, E1, E4. cbn [map fst snd].
    destruct (ringm_push _ _ _ _ _ (vent s) H1) as (d1 & _ & -> & R1).
    destruct (ringm_push _ _ _ _ _ (vent y) H2) as (d2 & _ & -> & R2).
    split; [|reflexivity]. split; [exact R1|exact R2].
  - inv E. split; [|reflexivity]. split; cbn [sb_s sb_y sb_num sb_len sb_curr sr1_block_reset map].
    + eapply ringm_reset, H1.
    + eapply ringm_reset, H2.
Qed.

Lemma sring_create dim nu junk b : sblock_create dim nu junk = Ok b -> sring b [].
Proof.
  unfold sblock_create. intros H. step H. step H. apply check_ok in E0. apply Z.ltb_lt in E0. inv H.
  split; apply ringm_empty; cbn [sb_s sb_y sb_num]; auto; rewrite map_length, repeat_length; lia.
Qed.

Lemma sr1_run_pairs z dim nu junk ops b0 b :
  sblock_create dim nu junk = Ok b0 -> rfold (sr1_op z) b0 ops = Ok b ->
  sr1_pairs b = Ok (rev (firstn (Z.to_nat nu) (history ops))) /\ sring b (history ops).
Proof.
  intros H0 H. pose proof (sring_create _ _ _ _ H0) as R0.
  assert (HN : sb_num b0 = nu) by (unfold sblock_create in H0; step H0; step H0; inv H0; reflexivity).
  unfold history. generalize (@nil (list (Z * num) * list (Z * num))), R0. clear R0. intros h R0.
  clear H0. revert b0 h H HN R0. induction ops as [|o ops IH]; intros b0 h H HN R0; cbn [rfold fold_left] in *.
  - inv H. split; [|exact R0]. unfold sr1_pairs, sb_idx, sb_begin. destruct R0 as [R1 R2].
    exact (read_rings _ _ _ _ _ _ R1 R2).
  - step H. destruct (sr1_op_ring _ _ _ _ _ R0 E) as [R1 HN1].
    apply (IH u (hist_op h o)); auto; congruence.
Qed.
End Gen.
