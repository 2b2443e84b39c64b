(** Facts about the constraint violation loops of Feas.v. *)
From Coq Require Import Reals Lra.
From Verif Require Import Base Num Cmp Sparse Vec VecFacts Order OrdArith Mat MatFacts MatFacts2 WorkingSet Feas.
Local Open Scope Z_scope.

(** Loops over a sorted list of indices are loops over the whole range when the
    body does nothing for the other indices. *)
Lemma sorted_as_filter d idxs : sorted_in 0 d idxs ->
  idxs = filter (fun i => existsb (Z.eqb i) idxs) (zrange d).
Proof.
  intros Hs. apply sorted_in_ext with (lo := 0) (hi := d).
  - exact Hs.
  - apply sorted_filter. apply zrange_sorted.
  - intros i. rewrite filter_In, zrange_In, existsb_In. split; [|tauto].
    intros Hi. split; auto. eapply sorted_in_In; eauto.
Qed.

Lemma fold_left_filter {A S} (f : S -> A -> S) (P : A -> bool) l s :
  (forall a t, In a l -> P a = false -> f t a = t) -> fold_left f (filter P l) s = fold_left f l s.
Proof.
  revert s; induction l as [|a l IH]; intros s H; [reflexivity|]. cbn [filter fold_left].
  destruct (P a) eqn:E.
  - cbn [fold_left]. apply IH. intros; apply H; auto. now right.
  - rewrite H by (auto; now left). apply IH. intros; apply H; auto. now right.
Qed.

Lemma fold_left_sparse {S} (f : S -> Z -> S) d idxs s : sorted_in 0 d idxs ->
  (forall i t, 0 <= i < d -> ~ In i idxs -> f t i = t) -> fold_left f idxs s = fold_left f (zrange d) s.
Proof.
  intros Hs H. rewrite (sorted_as_filter d idxs Hs) at 1. apply fold_left_filter.
  intros i t Hi E. apply H; [now apply zrange_In|]. intros Hin. apply existsb_In in Hin. congruence.
Qed.

Lemma fold_left_map {A B S} (f : S -> B -> S) (g : A -> B) l s :
  fold_left f (map g l) s = fold_left (fun t a => f t (g a)) l s.
Proof. revert s; induction l as [|a l IH]; intros s; [reflexivity|]. cbn [map fold_left]. apply IH. Qed.

Lemma fold_left_ext {A S} (f g : S -> A -> S) l s :
  (forall a t, In a l -> f t a = g t a) -> fold_left f l s = fold_left g l s.
Proof.
  revert s; induction l as [|a l IH]; intros s H; [reflexivity|]. cbn [fold_left].
  rewrite H by now left. apply IH. intros; apply H; now right.
Qed.

(** An invariant relative to the indices already visited. *)
Lemma fold_zrange_inv {S} (I : Z -> S -> Prop) (f : S -> Z -> S) d s : 0 <= d -> I 0 s ->
  (forall i t, 0 <= i < d -> I i t -> I (i + 1) (f t i)) -> I d (fold_left f (zrange d) s).
Proof.
  intros Hd H0 Hstep.
  assert (G : forall n, 0 <= n -> n <= d -> I n (fold_left f (zrange n) s)).
  { apply (natlike_ind (fun n => n <= d -> I n (fold_left f (zrange n) s))).
    - intros _. exact H0.
    - intros k Hk IH Hle. rewrite <- Z.add_1_r, zrange_succ, fold_left_app by lia. cbn [fold_left].
      apply Hstep; [lia|]. apply IH. lia. }
  apply G; lia.
Qed.

Section FeasGen.
Context {N : Num}.

Definition trip (c l u : vec) (i : Z) : num * num * num := (dense c i, dense l i, dense u i).

Lemma feas_rows_spec c l u : wf c -> wf l -> wf u -> vdim l = vdim c -> vdim u = vdim c ->
  exists idxs, sorted_in 0 (vdim c) idxs
    /\ feas_rows c l u = Ok (map (fun i => (i, trip c l u i)) idxs)
    /\ (forall i, ~ In i idxs -> trip c l u i = (n0, n0, n0))
    /\ len idxs <= vnnz c + vnnz l + vnnz u.
Proof.
  intros (Hd1 & H1 & _) (Hd2 & H2 & _) (Hd3 & H3 & _) E2 E3. rewrite E2 in H2. rewrite E3 in H3.
  destruct (align3 (vdim c) (vent c) (vent l) (vent u) H1 H2 H3) as (idxs & Hs & Hm & He & Hl).
  exists idxs. split; [exact Hs|]. split; [|split].
  - unfold feas_rows. rewrite He. cbn [rbind]. rewrite map_map. cbn [fst snd].
    f_equal.
  - intros i Hi. unfold trip, dense. rewrite Hm in Hi.
    rewrite !(proj2 (get_None _ _)) by tauto. reflexivity.
  - unfold vnnz. lia.
Qed.

(** Push loops *)
Lemma rows_push {T} (body : vec -> Z * T -> res vec) (F : Z -> T) (P : Z -> bool) (g : Z -> num) r idxs :
  sorted_in 0 (vdim r) idxs -> 0 <= vdim r -> vent r = [] -> len idxs <= vcap r ->
  (forall v i, In i idxs -> body v (i, F i) = if P i then vec_push v i (g i) else Ok v) ->
  (forall i, 0 <= i < vdim r -> ~ In i idxs -> P i = false) ->
  exists z, rfold body r (map (fun i => (i, F i)) idxs) = Ok z /\ wf z /\ vdim z = vdim r
    /\ forall i, 0 <= i < vdim r -> dense z i = if P i then g i else n0.
Proof.
  intros Hs Hd He Hl Hb HP.
  assert (E : rfold body r (map (fun i => (i, F i)) idxs)
            = push_all r (map (fun i => (i, g i)) (filter P idxs))).
  { clear -Hb. revert r; induction idxs as [|i idxs IH]; intros r; [reflexivity|].
    cbn [map rfold filter]. rewrite Hb by now left. destruct (P i).
    - cbn [map]. unfold push_all. cbn [rfold fst snd]. destruct (vec_push r i (g i)); cbn [rbind]; auto.
      apply IH. intros; apply Hb; now right.
    - cbn [rbind]. apply IH. intros; apply Hb; now right. }
  rewrite E. assert (Hf : sorted_in 0 (vdim r) (filter P idxs)) by now apply sorted_filter.
  pose proof (filter_length_le P idxs).
  rewrite push_all_ok; rewrite ?He; cbn [app].
  - eexists. split; [reflexivity|]. unfold wf. cbn [vdim vcap vent]. rewrite map_length.
    split; [repeat split; auto; [now apply sorted_map_pair|lia]|]. split; [reflexivity|].
    intros i Hi. unfold dense. cbn [vent]. rewrite (get_map_filter P g 0 (vdim r)) by auto.
    destruct (existsb (Z.eqb i) idxs) eqn:Ex; cbn [andb].
    + destruct (P i); reflexivity.
    + rewrite HP; auto. intros Hin. apply existsb_In in Hin. congruence.
  - now apply sorted_map_pair.
  - unfold vnnz. rewrite He, map_length. cbn [length]. lia.
Qed.

Lemma prepare_result r d n : wf r -> 0 <= d -> 0 <= n ->
  exists r1, vec_resize (vec_clear r) d = Ok r1 /\
  exists r2, vec_reserve r1 n = Ok r2 /\ vdim r2 = d /\ vent r2 = [] /\ n <= vcap r2.
Proof.
  intros Hw Hd Hn. destruct (vec_resize_spec (vec_clear r) d) as (r1 & E1 & W1 & D1 & _); auto using wf_clear.
  exists r1. split; [exact E1|].
  destruct (vec_reserve_spec r1 n W1 Hn) as (r2 & E2 & W2 & D2 & V2 & C2).
  exists r2. split; [exact E2|]. split; [congruence|]. split; [|exact C2].
  rewrite V2. unfold vec_resize in E1. destruct (0 <=? d); [|discriminate]. cbn in E1.
  injection E1 as <-. cbn [vent]. destruct (d <? vdim r); reflexivity.
Qed.

(** The skip test reads the constraint state. *)
Definition skipped (w : option wset) (i : Z) : bool :=
  match w with None => false | Some w => active (nth (Z.to_nat i) (wcst w) Inactive) end.

Definition ws_fits (w : option wset) (d : Z) : Prop :=
  match w with None => True | Some w => wnc w = d /\ len (wcst w) = d end.

Lemma ws_skip_spec w d i : ws_fits w d -> 0 <= i < d -> ws_skip w i = Ok (skipped w i).
Proof.
  intros H Hi. destruct w as [w|]; [|reflexivity]. destruct H as [E1 E2].
  unfold ws_skip, ws_cons_state, skipped. rewrite E1. destruct (Z.ltb_spec i d); [|lia]. cbn [check rbind].
  unfold arr_get. destruct (Z.leb_spec 0 i); [|lia]. 
  rewrite nth_error_nth' with (d := Inactive) by lia. reflexivity.
Qed.
End FeasGen.

Section FeasOrd.
Context {N : Num} {O : Ord N} {A : OrdArith N}.
Local Open Scope R_scope.

Lemma upper_viol_eq c u : nn c -> nn u -> upper_viol c u = if nltb u c then nsub c u else n0.
Proof.
  intros Hc Hu. unfold upper_viol, nmax. destruct (nltb u c) eqn:E.
  - apply ltb_iff in E; auto. destruct (sub_lt c u Hc Hu E) as [Hn Hp].
    assert (nltb n0 (nsub c u) = true) as -> by (apply ltb_iff; auto using nn_0; rewrite val_0; lra). reflexivity.
  - apply ltb_false_iff in E; auto. rewrite (sub_ge c u); auto.
Qed.

Lemma upper_viol_pos c u : nn c -> nn u -> nltb n0 (upper_viol c u) = nltb u c.
Proof.
  intros Hc Hu. rewrite upper_viol_eq by auto. destruct (nltb u c) eqn:E; [|apply lt00].
  apply ltb_iff in E; auto. destruct (sub_lt c u Hc Hu E) as [Hn Hp].
  apply ltb_iff; auto using nn_0. rewrite val_0. lra.
Qed.

Lemma lower_viol_eq c l : nn c -> nn l -> lower_viol c l = if nltb c l then nsub l c else n0.
Proof. intros. apply (upper_viol_eq l c); auto. Qed.
Lemma lower_viol_pos c l : nn c -> nn l -> nltb n0 (lower_viol c l) = nltb c l.
Proof. intros. apply (upper_viol_pos l c); auto. Qed.

Lemma eq00 : neqb n0 n0 = true.
Proof. apply eqb_iff; auto using nn_0. Qed.

Definition no_nan (v : vec) : Prop := forall i, (0 <= i < vdim v)%Z -> nn (dense v i).

(** The amount by which a value leaves an interval. *)
Definition violation (c l u : num) : num :=
  if nltb u c then nsub c u else if nltb c l then nsub l c else n0.

Lemma violation_00 : violation n0 n0 n0 = n0.
Proof. unfold violation. now rewrite lt00. Qed.

Lemma violation_nn c l u : nn c -> nn l -> nn u -> nn (violation c l u) /\ 0 <= val (violation c l u)
  /\ (val (violation c l u) = 0 <-> val l <= val c <= val u).
Proof.
  intros Hc Hl Hu. unfold violation. destruct (nltb u c) eqn:E1; [|destruct (nltb c l) eqn:E2].
  - apply ltb_iff in E1; auto. destruct (sub_lt c u Hc Hu E1). split; [auto|]. split; [lra|]. split; intros; lra.
  - apply ltb_iff in E2; auto. destruct (sub_lt l c Hl Hc E2). split; [auto|]. split; [lra|]. split; intros; lra.
  - apply ltb_false_iff in E1; auto. apply ltb_false_iff in E2; auto. rewrite val_0. split; [apply nn_0|]. split; [lra|].
    split; intros; lra.
Qed.

Section Loops.
Variables (nc : Z) (c l u : vec).
Hypotheses (Wc : wf c) (Wl : wf l) (Wu : wf u) (Dc : vdim c = nc) (Dl : vdim l = nc) (Du : vdim u = nc).
Hypotheses (Nc : no_nan c) (Nl : no_nan l) (Nu : no_nan u).

Definition viol_at (i : Z) : num := violation (dense c i) (dense l i) (dense u i).

Lemma nn_at i : (0 <= i < nc)%Z -> nn (dense c i) /\ nn (dense l i) /\ nn (dense u i).
Proof. intros H. split; [|split]; [apply Nc|apply Nl|apply Nu]; lia. Qed.

Lemma rows_nc : exists idxs, sorted_in 0 nc idxs
    /\ feas_rows c l u = Ok (map (fun i => (i, trip c l u i)) idxs)
    /\ (forall i, ~ In i idxs -> dense c i = n0 /\ dense l i = n0 /\ dense u i = n0)
    /\ (len idxs <= vnnz c + vnnz l + vnnz u)%Z.
Proof.
  destruct (feas_rows_spec c l u) as (idxs & H1 & H2 & H3 & H4); auto; try congruence.
  exists idxs. rewrite Dc in H1. split; [auto|]. split; [auto|]. split; [|auto].
  intros i Hi. specialize (H3 i Hi). unfold trip in H3. inversion H3; auto.
Qed.

Lemma dims_ok : (vdim c =? nc)%Z = true /\ (vdim c =? vdim l)%Z = true /\ (vdim c =? vdim u)%Z = true.
Proof. rewrite Dc, Dl, Du, Z.eqb_refl. auto. Qed.

(** Both scalar loops only look at the violation of each constraint. *)
Lemma max_violation_dense :
  max_violation nc c l u
  = Ok (fold_left (fun m i => if nltb n0 (viol_at i) then nmax (viol_at i) m else m) (zrange nc) n0).
Proof.
  unfold max_violation. destruct dims_ok as (-> & -> & ->). cbn [check rbind].
  destruct rows_nc as (idxs & Hs & -> & H0 & _). cbn [rbind]. f_equal.
  rewrite fold_left_map. rewrite <- (fold_left_sparse _ nc idxs); auto.
  - apply fold_left_ext. intros i t Hi. unfold trip, viol_at, violation.
    assert (Hr : (0 <= i < nc)%Z) by (eapply sorted_in_In; eauto).
    destruct (nn_at i Hr) as (Hc & Hl & Hu).
    rewrite upper_viol_pos, lower_viol_pos by auto. rewrite upper_viol_eq, lower_viol_eq by auto.
    destruct (nltb (dense u i) (dense c i)) eqn:E1.
    + apply ltb_iff in E1; auto. destruct (sub_lt _ _ Hc Hu E1).
      assert (nltb n0 (nsub (dense c i) (dense u i)) = true) as -> by (apply ltb_iff; auto using nn_0; rewrite val_0; lra).
      reflexivity.
    + destruct (nltb (dense c i) (dense l i)) eqn:E2; [|now rewrite lt00].
      apply ltb_iff in E2; auto. destruct (sub_lt _ _ Hl Hc E2).
      assert (nltb n0 (nsub (dense l i) (dense c i)) = true) as -> by (apply ltb_iff; auto using nn_0; rewrite val_0; lra).
      reflexivity.
  - intros i t Hi Hn. destruct (H0 i Hn) as (E1 & E2 & E3). unfold viol_at. rewrite E1, E2, E3, violation_00, lt00. reflexivity.
Qed.

Lemma total_violation_dense :
  total_violation nc c l u
  = Ok (fold_left (fun m i => if nltb n0 (viol_at i) then nadd m (viol_at i) else m) (zrange nc) n0).
Proof.
  unfold total_violation. destruct dims_ok as (-> & -> & ->). cbn [check rbind].
  destruct rows_nc as (idxs & Hs & -> & H0 & _). cbn [rbind]. f_equal.
  rewrite fold_left_map. rewrite <- (fold_left_sparse _ nc idxs); auto.
  - apply fold_left_ext. intros i t Hi. unfold trip, viol_at, violation.
    assert (Hr : (0 <= i < nc)%Z) by (eapply sorted_in_In; eauto).
    destruct (nn_at i Hr) as (Hc & Hl & Hu).
    rewrite upper_viol_pos, lower_viol_pos by auto. rewrite upper_viol_eq, lower_viol_eq by auto.
    destruct (nltb (dense u i) (dense c i)) eqn:E1.
    + apply ltb_iff in E1; auto. destruct (sub_lt _ _ Hc Hu E1).
      assert (nltb n0 (nsub (dense c i) (dense u i)) = true) as -> by (apply ltb_iff; auto using nn_0; rewrite val_0; lra).
      reflexivity.
    + destruct (nltb (dense c i) (dense l i)) eqn:E2; [|now rewrite lt00].
      apply ltb_iff in E2; auto. destruct (sub_lt _ _ Hl Hc E2).
      assert (nltb n0 (nsub (dense l i) (dense c i)) = true) as -> by (apply ltb_iff; auto using nn_0; rewrite val_0; lra).
      reflexivity.
  - intros i t Hi Hn. destruct (H0 i Hn) as (E1 & E2 & E3). unfold viol_at. rewrite E1, E2, E3, violation_00, lt00. reflexivity.
Qed.

Lemma nc_nonneg : (0 <= nc)%Z. Proof. destruct Wc as [H _]. lia. Qed.

Lemma viol_at_nn i : (0 <= i < nc)%Z -> nn (viol_at i) /\ 0 <= val (viol_at i)
  /\ (val (viol_at i) = 0 <-> val (dense l i) <= val (dense c i) <= val (dense u i)).
Proof. intros Hi. destruct (nn_at i Hi) as (? & ? & ?). apply violation_nn; auto. Qed.

(** Specification of the pair of scalars. *)
Lemma violations_spec : exists m t,
  max_violation nc c l u = Ok m /\ total_violation nc c l u = Ok t /\ nn m /\ nn t
  /\ (forall i, (0 <= i < nc)%Z -> val (viol_at i) <= val m)
  /\ (val m = 0 \/ exists i, (0 <= i < nc)%Z /\ m = viol_at i)
  /\ 0 <= val m <= val t
  /\ (val t = 0 -> val m = 0)
  /\ (val m = 0 <-> forall i, (0 <= i < nc)%Z -> val (dense l i) <= val (dense c i) <= val (dense u i))
  /\ (val t = 0 <-> forall i, (0 <= i < nc)%Z -> val (dense l i) <= val (dense c i) <= val (dense u i)).
Proof.
  set (fm := fun m i => if nltb n0 (viol_at i) then nmax (viol_at i) m else m).
  set (ft := fun m i => if nltb n0 (viol_at i) then nadd m (viol_at i) else m).
  exists (fold_left fm (zrange nc) n0), (fold_left ft (zrange nc) n0).
  split; [apply max_violation_dense|]. split; [apply total_violation_dense|].
  assert (HM : (fun k m => nn m /\ 0 <= val m /\ (forall i, (0 <= i < k)%Z -> val (viol_at i) <= val m)
     /\ (val m = 0 \/ exists i, (0 <= i < k)%Z /\ m = viol_at i)) nc (fold_left fm (zrange nc) n0)).
  { apply fold_zrange_inv; [apply nc_nonneg| |].
    - split; [apply nn_0|]. rewrite val_0. split; [lra|]. split; [intros; lia|now left].
    - intros k m Hk (Hn & H0 & Hb & Ha). destruct (viol_at_nn k Hk) as (Vn & V0 & _). unfold fm.
      destruct (nltb n0 (viol_at k)) eqn:E.
      + split; [now apply nn_max|]. rewrite val_max by auto. split; [eapply Rle_trans; [exact H0|apply Rmax_r]|]. split.
        * intros i Hi. destruct (Z.eq_dec i k) as [->|]; [apply Rmax_l|]. eapply Rle_trans; [apply Hb; lia|apply Rmax_r].
        * unfold nmax. destruct (nltb m (viol_at k)) eqn:E2.
          -- right. exists k. split; [lia|reflexivity].
          -- apply ltb_false_iff in E2; auto. rewrite Rmax_right by lra.
             destruct Ha as [Ha|(i & Hi & Ha)]; [now left|]. right. exists i. split; [lia|exact Ha].
      + apply ltb_false_iff in E; auto using nn_0. rewrite val_0 in E. split; [auto|]. split; [auto|]. split.
        * intros i Hi. destruct (Z.eq_dec i k) as [->|]; [lra|]. apply Hb; lia.
        * destruct Ha as [Ha|(i & Hi & Ha)]; [now left|]. right. exists i. split; [lia|exact Ha]. }
  assert (HT : (fun k m => nn m /\ 0 <= val m /\ (forall i, (0 <= i < k)%Z -> val (viol_at i) <= val m)
     /\ ((forall i, (0 <= i < k)%Z -> val (viol_at i) = 0) -> val m = 0)) nc (fold_left ft (zrange nc) n0)).
  { apply fold_zrange_inv; [apply nc_nonneg| |].
    - split; [apply nn_0|]. rewrite val_0. split; [lra|]. split; [intros; lia|auto].
    - intros k m Hk (Hn & H0 & Hb & Hz). destruct (viol_at_nn k Hk) as (Vn & V0 & _). unfold ft.
      destruct (nltb n0 (viol_at k)) eqn:E.
      + apply ltb_iff in E; auto using nn_0. rewrite val_0 in E.
        destruct (add_ge m (viol_at k)) as (An & A1 & A2); auto. split; [auto|]. split; [lra|]. split.
        * intros i Hi. destruct (Z.eq_dec i k) as [->|]; [lra|]. specialize (Hb i). lapply Hb; [lra|lia].
        * intros Hall. specialize (Hall k). lapply Hall; [lra|lia].
      + apply ltb_false_iff in E; auto using nn_0. rewrite val_0 in E. split; [auto|]. split; [auto|]. split.
        * intros i Hi. destruct (Z.eq_dec i k) as [->|]; [lra|]. apply Hb; lia.
        * intros Hall. apply Hz. intros i Hi. apply Hall. lia. }
  cbn beta in HM, HT. destruct HM as (M1 & M2 & M3 & M4), HT as (T1 & T2 & T3 & T4).
  set (m := fold_left fm (zrange nc) n0) in *. set (t := fold_left ft (zrange nc) n0) in *.
  assert (Hmt : val m <= val t). { destruct M4 as [->|(i & Hi & ->)]; auto. }
  assert (Hfeas : (forall i, (0 <= i < nc)%Z -> val (viol_at i) = 0) <->
                  (forall i, (0 <= i < nc)%Z -> val (dense l i) <= val (dense c i) <= val (dense u i))).
  { split; intros H i Hi; apply (viol_at_nn i Hi); auto. }
  split; [auto|]. split; [auto|]. split; [auto|]. split; [auto|]. split; [lra|]. split; [lra|]. split.
  - rewrite <- Hfeas. split.
    + intros E i Hi. specialize (M3 i Hi). destruct (viol_at_nn i Hi) as (_ & V0 & _). lra.
    + intros H. destruct M4 as [->|(i & Hi & ->)]; auto.
  - rewrite <- Hfeas. split; [|exact T4].
    intros E i Hi. specialize (T3 i Hi). destruct (viol_at_nn i Hi) as (_ & V0 & _). lra.
Qed.

(** The list of violated constraints *)
Lemma violated_constraints_spec :
  violated_constraints c l u
  = Ok (filter (fun i => nltb (dense u i) (dense c i) || nltb (dense c i) (dense l i)) (zrange nc)).
Proof.
  unfold violated_constraints. destruct rows_nc as (idxs & Hs & -> & H0 & _). cbn [rbind]. f_equal.
  apply sorted_in_ext with (lo := 0%Z) (hi := nc).
  - apply sorted_in_filter_keys. rewrite map_map. cbn [fst]. now rewrite map_id.
  - apply sorted_filter, zrange_sorted.
  - intros i. rewrite in_map_iff, filter_In, zrange_In. split.
    + intros ([j t] & E & Hin). cbn [fst] in E. subst j. apply filter_In in Hin. destruct Hin as [Hin Hv].
      apply in_map_iff in Hin. destruct Hin as (j & Ej & Hj). injection Ej as -> <-.
      assert (Hr : (0 <= i < nc)%Z) by (eapply sorted_in_In; eauto).
      destruct (nn_at i Hr) as (Hc & Hl & Hu). unfold trip in Hv. rewrite upper_viol_pos, lower_viol_pos in Hv by auto. auto.
    + intros [Hr Hv]. destruct (nn_at i Hr) as (Hc & Hl & Hu).
      exists (i, trip c l u i). split; [reflexivity|]. apply filter_In. split.
      * apply in_map_iff. exists i. split; [reflexivity|].
        destruct (in_dec Z.eq_dec i idxs) as [|Hn]; auto. destruct (H0 i Hn) as (E1 & E2 & E3).
        rewrite E1, E2, E3, lt00 in Hv. discriminate.
      * unfold trip. now rewrite upper_viol_pos, lower_viol_pos by auto.
Qed.

(** The vector valued functions *)
Lemma idx_cap idxs : sorted_in 0 nc idxs -> (len idxs <= vnnz c + vnnz l + vnnz u)%Z ->
  (len idxs <= Z.min (vnnz l + vnnz u + vnnz c) nc)%Z.
Proof. intros Hs Hl. pose proof (sorted_in_length _ _ _ Hs). pose proof nc_nonneg. lia. Qed.

Lemma violation_values_spec r : wf r ->
  exists z, violation_values nc c l u r = Ok z /\ wf z /\ vdim z = nc
    /\ forall i, (0 <= i < nc)%Z -> dense z i =
        if nltb (dense u i) (dense c i) then nsub (dense c i) (dense u i)
        else if nltb (dense c i) (dense l i) then nsub (dense c i) (dense l i) else n0.
Proof.
  intros Wr. unfold violation_values. destruct dims_ok as (-> & -> & ->). cbn [check rbind].
  destruct rows_nc as (idxs & Hs & Hrows & H0 & Hlen).
  pose proof nc_nonneg. pose proof (idx_cap idxs Hs Hlen).
  destruct (prepare_result r (vdim c) (Z.min (vnnz l + vnnz u + vnnz c) nc)) as (r1 & -> & r2 & E2 & D2 & V2 & C2);
    [auto|lia|unfold vnnz in *; lia|]. cbn [rbind]. rewrite E2, Hrows. cbn [rbind].
  destruct (rows_push (fun (r : vec) '(i, (cv, l0, u0)) =>
     if nltb n0 (upper_viol cv u0) then vec_push r i (nsub cv u0)
     else if nltb n0 (lower_viol cv l0) then vec_push r i (nsub cv l0) else Ok r)
     (trip c l u)
     (fun i => nltb (dense u i) (dense c i) || nltb (dense c i) (dense l i))
     (fun i => if nltb (dense u i) (dense c i) then nsub (dense c i) (dense u i) else nsub (dense c i) (dense l i)) r2 idxs)
    as (z & Ez & Wz & Dz & Hz).
  - rewrite D2, Dc. exact Hs.
  - lia.
  - exact V2.
  - lia.
  - intros v i Hi. assert (Hr : (0 <= i < nc)%Z) by (eapply sorted_in_In; eauto).
    destruct (nn_at i Hr) as (Hc & Hl & Hu). unfold trip. rewrite upper_viol_pos, lower_viol_pos by auto.
    destruct (nltb (dense u i) (dense c i)), (nltb (dense c i) (dense l i)); reflexivity.
  - intros i _ Hn. destruct (H0 i Hn) as (-> & -> & ->). now rewrite lt00.
  - exists z. split; [exact Ez|]. split; [exact Wz|]. split; [lia|]. rewrite D2, Dc in Hz. intros i Hi. rewrite Hz by auto.
    destruct (nltb (dense u i) (dense c i)), (nltb (dense c i) (dense l i)); reflexivity.
Qed.

Lemma violated_multipliers_spec r w : wf r -> vdim r = nc -> ws_fits w nc ->
  exists z, violated_multipliers nc c l u r w = Ok z /\ wf z /\ vdim z = nc
    /\ forall i, (0 <= i < nc)%Z -> dense z i =
        if skipped w i then n0 else
        if nltb (dense u i) (dense c i) then n1
        else if nltb (dense c i) (dense l i) then nlit (-1) 1 else n0.
Proof.
  intros Wr Dr Hw. unfold violated_multipliers. pose proof nc_nonneg.
  destruct (vec_reserve_spec (vec_clear r) nc) as (r2 & -> & W2 & D2 & V2 & C2); auto using wf_clear. cbn [rbind].
  cbn [vec_clear vdim vent] in D2, V2. rewrite D2, Dr, Dc, Dl, Du, Z.eqb_refl. cbn [check rbind].
  destruct rows_nc as (idxs & Hs & Hrows & H0 & Hlen). rewrite Hrows. cbn [rbind].
  pose proof (sorted_in_length _ _ _ Hs).
  destruct (rows_push (fun (r : vec) '(i, (cv, l0, u0)) =>
     sk <- ws_skip w i;;
     if (sk : bool) then Ok r else
     if nltb n0 (upper_viol cv u0) then vec_push r i n1
     else if nltb n0 (lower_viol cv l0) then vec_push r i (nlit (-1) 1) else Ok r)
     (trip c l u)
     (fun i => negb (skipped w i) && (nltb (dense u i) (dense c i) || nltb (dense c i) (dense l i)))
     (fun i => if nltb (dense u i) (dense c i) then n1 else nlit (-1) 1) r2 idxs)
    as (z & Ez & Wz & Dz & Hz).
  - rewrite D2, Dr. exact Hs.
  - lia.
  - exact V2.
  - lia.
  - intros v i Hi. assert (Hr : (0 <= i < nc)%Z) by (eapply sorted_in_In; eauto).
    destruct (nn_at i Hr) as (Hc & Hl & Hu). unfold trip. rewrite (ws_skip_spec w nc) by auto. cbn [rbind].
    rewrite upper_viol_pos, lower_viol_pos by auto.
    destruct (skipped w i), (nltb (dense u i) (dense c i)), (nltb (dense c i) (dense l i)); reflexivity.
  - intros i _ Hn. destruct (H0 i Hn) as (-> & -> & ->). now rewrite lt00, andb_false_r.
  - exists z. split; [exact Ez|]. split; [exact Wz|]. split; [lia|]. rewrite D2, Dr in Hz. intros i Hi. rewrite Hz by auto.
    destruct (skipped w i), (nltb (dense u i) (dense c i)), (nltb (dense c i) (dense l i)); reflexivity.
Qed.

Lemma feasibility_residuals_spec r w sg : wf r -> ws_fits w nc ->
  (forall i, (0 <= i < nc)%Z -> val (dense l i) <= val (dense u i)) ->
  exists z, feasibility_residuals nc c l u r w sg = Ok z /\ wf z /\ vdim z = nc
    /\ forall i, (0 <= i < nc)%Z -> dense z i =
        if skipped w i then n0 else
        if nltb (dense u i) (dense c i) then nsub (dense c i) (dense u i)
        else if nltb (dense c i) (dense l i)
             then (if sg then nopp (nsub (dense l i) (dense c i)) else nsub (dense l i) (dense c i)) else n0.
Proof.
  intros Wr Hw Hlu. unfold feasibility_residuals. destruct dims_ok as (-> & -> & ->). cbn [check rbind].
  destruct rows_nc as (idxs & Hs & Hrows & H0 & Hlen).
  pose proof nc_nonneg. pose proof (idx_cap idxs Hs Hlen).
  destruct (prepare_result r (vdim c) (Z.min (vnnz l + vnnz u + vnnz c) nc)) as (r1 & -> & r2 & E2 & D2 & V2 & C2);
    [auto|lia|unfold vnnz in *; lia|]. cbn [rbind]. rewrite E2, Hrows. cbn [rbind].
  match goal with |- context [rfold ?B r2] =>
  destruct (rows_push B (trip c l u)
     (fun i => negb (skipped w i) && (nltb (dense u i) (dense c i) || nltb (dense c i) (dense l i)))
     (fun i => if nltb (dense u i) (dense c i) then nsub (dense c i) (dense u i)
               else if sg then nopp (nsub (dense l i) (dense c i)) else nsub (dense l i) (dense c i)) r2 idxs)
    as (z & Ez & Wz & Dz & Hz) end.
  - rewrite D2, Dc. exact Hs.
  - lia.
  - exact V2.
  - lia.
  - intros v i Hi. assert (Hr : (0 <= i < nc)%Z) by (eapply sorted_in_In; eauto).
    destruct (nn_at i Hr) as (Hc & Hl & Hu). unfold trip. rewrite (ws_skip_spec w nc) by auto. cbn [rbind].
    destruct (skipped w i); [reflexivity|]. specialize (Hlu i Hr). cbn [negb andb].
    rewrite upper_viol_eq, lower_viol_eq by auto.
    destruct (nltb (dense u i) (dense c i)) eqn:E1.
    + apply ltb_iff in E1; auto.
      assert (E3 : nltb (dense c i) (dense l i) = false) by (apply ltb_false_iff; auto; lra). rewrite E3.
      destruct (sub_lt _ _ Hc Hu E1) as [Hn Hp].
      assert (E4 : neqb (nsub (dense c i) (dense u i)) n0 = false).
      { destruct (neqb (nsub (dense c i) (dense u i)) n0) eqn:E; auto. apply eqb_iff in E; auto using nn_0. rewrite val_0 in E. lra. }
      rewrite eq00, orb_true_r. cbn [check rbind orb]. rewrite E4. cbn [negb].
      assert (E5 : nmax n0 (nsub (dense c i) (dense u i)) = nsub (dense c i) (dense u i)).
      { unfold nmax. rewrite (proj2 (ltb_false_iff (nsub (dense c i) (dense u i)) n0 Hn nn_0)); auto. rewrite val_0. lra. }
      rewrite E5. destruct sg; rewrite E4; reflexivity.
    + rewrite eq00. cbn [check rbind orb negb].
      destruct (nltb (dense c i) (dense l i)) eqn:E2'.
      * apply ltb_iff in E2'; auto. destruct (sub_lt _ _ Hl Hc E2') as [Hn Hp].
        assert (E4 : neqb (nsub (dense l i) (dense c i)) n0 = false).
        { destruct (neqb (nsub (dense l i) (dense c i)) n0) eqn:E; auto. apply eqb_iff in E; auto using nn_0. rewrite val_0 in E. lra. }
        assert (E5 : nmax (nsub (dense l i) (dense c i)) n0 = nsub (dense l i) (dense c i)).
        { unfold nmax. rewrite (proj2 (ltb_iff n0 (nsub (dense l i) (dense c i)) nn_0 Hn)); auto. rewrite val_0. lra. }
        rewrite E5. assert (E6 : neqb (nopp (nsub (dense l i) (dense c i))) n0 = false).
        { destruct (neqb (nopp (nsub (dense l i) (dense c i))) n0) eqn:E; auto. apply eqb_iff in E; auto using nn_0, nn_opp.
          rewrite val_0, val_opp in E. lra. }
        destruct sg; rewrite ?E4, ?E6; reflexivity.
      * assert (E6 : neqb (nopp n0) n0 = true).
        { apply eqb_iff; auto using nn_0, nn_opp. rewrite val_opp, val_0. lra. }
        unfold nmax. rewrite lt00. destruct sg; rewrite ?E6, ?eq00; reflexivity.
  - intros i _ Hn. destruct (H0 i Hn) as (-> & -> & ->). now rewrite lt00, andb_false_r.
  - exists z. split; [exact Ez|]. split; [exact Wz|]. split; [lia|]. rewrite D2, Dc in Hz. intros i Hi. rewrite Hz by auto.
    destruct (skipped w i), (nltb (dense u i) (dense c i)), (nltb (dense c i) (dense l i)), sg; reflexivity.
Qed.
End Loops.
End FeasOrd.
