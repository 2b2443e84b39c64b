(** The solves of the direct system in exact arithmetic. *)
From Coq Require Import Reals Lra.
From Verif Require Import Base Num Cmp Sparse Vec VecFacts Order VecFacts2 RSum VecReal QnReal Mat MatFacts MatFacts2 MatFacts3 MatFacts4 Arr
  WorkingSet WorkingSetFacts DualEst DualEstFacts SteihaugFacts Gauss AugJac AugJacFacts AugJacMain AugJacReal AugJacRedReal AugJacDir AugJacQR AugJacQRFacts.
Local Open Scope R_scope.

(** Q is an orthogonal matrix of size n. *)
Definition orthogonal (n : Z) (Q : Z -> Z -> R) : Prop :=
  (forall l l', (0 <= l < n)%Z -> (0 <= l' < n)%Z -> sumd n (fun i => Q i l * Q i l') = if (l =? l')%Z then 1 else 0) /\
  (forall i i', (0 <= i < n)%Z -> (0 <= i' < n)%Z -> sumd n (fun l => Q i l * Q i' l) = if (i =? i')%Z then 1 else 0).

(** The callbacks for the matrix [m] compute exactly with the factors Q (n x n) and T (d x d). *)
Definition qr_exact (F : @qr RN) (m : @mat RN) (n d : Z) (Q T : Z -> Z -> R) : Prop :=
  (forall b, vok d b -> exists raw, q_tri F m b = Ok raw /\ Z.of_nat (length raw) = d
     /\ forall l, (0 <= l < d)%Z -> sumd d (fun k => T l k * nth (Z.to_nat k) raw 0) = dense b l) /\
  (forall b, vok d b -> exists raw, q_trit F m b = Ok raw /\ Z.of_nat (length raw) = d
     /\ forall k, (0 <= k < d)%Z -> sumd d (fun l => T l k * nth (Z.to_nat l) raw 0) = dense b k) /\
  (forall b, vok n b -> exists raw, q_orth F m b = Ok raw /\ Z.of_nat (length raw) = n
     /\ forall i, (0 <= i < n)%Z -> nth (Z.to_nat i) raw 0 = sumd n (fun l => Q i l * dense b l)) /\
  (forall b, vok n b -> exists raw, q_ortht F m b = Ok raw /\ Z.of_nat (length raw) = n
     /\ forall l, (0 <= l < n)%Z -> nth (Z.to_nat l) raw 0 = sumd n (fun i => Q i l * dense b i)).

(** The columns [E 0], [E 1], ... of the matrix are those of Q T. *)
Definition factors (n d : Z) (A : Z -> Z -> R) (E : Z -> Z) (Q T : Z -> Z -> R) : Prop :=
  forall i k, (0 <= i < n)%Z -> (0 <= k < d)%Z -> A i (E k) = sumd d (fun l => Q i l * T l k).

(** A QR factorization of the matrix [m] with the columns in the order E. *)
Definition qr_of (F : @qr RN) (E : Z -> Z) (m : @mat RN) : Prop :=
  exists ms Q T, stores m ms /\ orthogonal (mnr m) Q /\ factors (mnr m) (mnc m) (mR ms) E Q T
    /\ (forall l k, (0 <= k < l)%Z -> (l < mnc m)%Z -> T l k = 0) /\ qr_exact F m (mnr m) (mnc m) Q T.

Section Alg.
Variables (n d : Z) (Q T : Z -> Z -> R).
Hypothesis Hd : (0 <= d <= n)%Z.
Hypothesis HQ : orthogonal n Q.

Definition qt (x : Z -> R) (l : Z) : R := sumd n (fun i => Q i l * x i).
Definition qm (v : Z -> R) (i : Z) : R := sumd n (fun l => Q i l * v l).

Lemma sum_part (f : Z -> R) : sumd n (fun l => if (l <? d)%Z then f l else 0) = sumd d f.
Proof.
  replace n with (d + (n - d))%Z by lia. rewrite sumd_add by lia. rewrite (sumd_zero (n - d)).
  - rewrite Rplus_0_r. apply sumd_ext. intros l Hl. destruct (Z.ltb_spec l d); [reflexivity|lia].
  - intros l Hl. destruct (Z.ltb_spec (d + l) d); [lia|reflexivity].
Qed.
Lemma qm_part v i : qm (fun l => if (l <? d)%Z then v l else 0) i = sumd d (fun l => Q i l * v l).
Proof. unfold qm. rewrite <- sum_part. apply sumd_ext. intros l _. destruct (l <? d)%Z; ring. Qed.
Lemma qt_qm v l : (0 <= l < n)%Z -> qt (qm v) l = v l.
Proof.
  intros Hl. unfold qt, qm. rewrite (sumd_ext n _ (fun i => sumd n (fun q => v q * (Q i l * Q i q)))).
  - rewrite sumd_swap. rewrite <- (sumd_delta n l v Hl). apply sumd_ext. intros q Hq. rewrite sumd_scal, (proj1 HQ) by auto. apply Rmult_comm.
  - intros i _. rewrite <- sumd_scal. apply sumd_ext. intros; ring.
Qed.
Lemma qm_qt x i : (0 <= i < n)%Z -> qm (qt x) i = x i.
Proof.
  intros Hi. unfold qt, qm. rewrite (sumd_ext n _ (fun l => sumd n (fun q => x q * (Q i l * Q q l)))).
  - rewrite sumd_swap. rewrite <- (sumd_delta n i x Hi). apply sumd_ext. intros q Hq. rewrite sumd_scal, (proj2 HQ) by auto. apply Rmult_comm.
  - intros l _. rewrite <- sumd_scal. apply sumd_ext. intros; ring.
Qed.
Lemma qt_ext x y l : (forall i, (0 <= i < n)%Z -> x i = y i) -> qt x l = qt y l.
Proof. intros H. apply sumd_ext. intros i Hi. now rewrite H. Qed.
Lemma qm_ext x y l : (forall i, (0 <= i < n)%Z -> x i = y i) -> qm x l = qm y l.
Proof. intros H. apply sumd_ext. intros i Hi. now rewrite H. Qed.

Variables (a : Z -> Z -> R).
Hypothesis HF : forall i k, (0 <= i < n)%Z -> (0 <= k < d)%Z -> a k i = sumd d (fun l => Q i l * T l k).

Lemma row_app x k : (0 <= k < d)%Z -> sumd n (fun i => a k i * x i) = sumd d (fun l => T l k * qt x l).
Proof.
  intros Hk. unfold qt. rewrite (sumd_ext n _ (fun i => sumd d (fun l => T l k * (Q i l * x i)))).
  - rewrite sumd_swap. apply sumd_ext. intros l _. apply sumd_scal.
  - intros i Hi. rewrite HF by auto. rewrite Rmult_comm, <- sumd_scal. apply sumd_ext. intros; ring.
Qed.
Lemma col_app y i : (0 <= i < n)%Z -> sumd d (fun k => a k i * y k) = sumd d (fun l => Q i l * sumd d (fun k => T l k * y k)).
Proof.
  intros Hi. rewrite (sumd_ext d _ (fun k => sumd d (fun l => Q i l * (T l k * y k)))).
  - rewrite sumd_swap. apply sumd_ext. intros l _. apply sumd_scal.
  - intros k Hk. rewrite HF by auto. rewrite Rmult_comm, <- sumd_scal. apply sumd_ext. intros; ring.
Qed.
(** With independent rows the triangular factor is regular. *)
Lemma tri_regular : (forall y, (forall i, (0 <= i < n)%Z -> sumd d (fun k => a k i * y k) = 0) -> forall k, (0 <= k < d)%Z -> y k = 0) -> regular d T.
Proof. intros HI y Hy k Hk. apply HI; [|exact Hk]. intros i Hi. rewrite col_app by exact Hi. apply sumd_zero. intros l Hl. rewrite Hy by exact Hl. ring. Qed.
End Alg.

(** ** The calls *)
Lemma set_raw_ok (sol : rvec) raw : wf sol -> exists v, vec_set_from_raw sol raw (@n0 RN) = Ok v /\ vok (Z.of_nat (length raw)) v
  /\ forall i, (0 <= i < Z.of_nat (length raw))%Z -> dense v i = nth (Z.to_nat i) raw 0.
Proof.
  intros Hw. destruct (fact_solution_ok raw sol 0 (Z.of_nat (length raw)) 0 _ Hw ltac:(lia) ltac:(lia) eq_refl ltac:(lia)) as (v & E & V & G).
  exists v. revert E. unfold fact_solution, part. rewrite Z.add_0_l. rewrite (Z.leb_refl (Z.of_nat (length raw))). destruct (Z.leb_spec 0 0), (Z.leb_spec 0 (Z.of_nat (length raw))); try lia. cbn [andb rbind].
  rewrite Z.sub_0_r, Nat2Z.id. change (Z.to_nat 0) with 0%nat. cbn [skipn]. rewrite firstn_all. rewrite rn_n0. intros E. split; [exact E|]. split; [exact V|].
  intros i Hi. specialize (G i Hi). rewrite Z.add_0_l in G. now apply rounded0.
Qed.

Lemma drop_lt_get d (es : list (Z * R)) : forall lo hi, sorted_in lo hi (keys es) -> sorted_in lo hi (keys (@drop_lt RN d es))
  /\ forall i, get (@drop_lt RN d es) i = if (d <=? i)%Z then get es i else None.
Proof.
  induction es as [|[k x] es IH]; intros lo hi Hs.
  - split; [exact Hs|]. intros i. cbn. destruct (d <=? i)%Z; reflexivity.
  - cbn [drop_lt]. cbn [keys map fst sorted_in] in Hs. destruct Hs as [Hk Hs]. destruct (Z.leb_spec d k) as [H|H].
    + split; [cbn [keys map fst sorted_in]; auto|]. intros i. destruct (Z.leb_spec d i); [reflexivity|]. cbn [get]. destruct (Z.eqb_spec k i); [lia|].
      apply (get_below (k + 1) hi es i); [exact Hs|lia].
    + destruct (IH (k + 1)%Z hi Hs) as [S G]. split; [eapply sorted_in_weaken; [| |exact S]; lia|]. intros i. rewrite G. cbn [get]. destruct (Z.leb_spec d i); [|reflexivity].
      destruct (Z.eqb_spec k i); [lia|reflexivity].
Qed.
Lemma drop_lt_len d (es : list (Z * R)) : (length (@drop_lt RN d es) <= length es)%nat.
Proof. induction es as [|[k x] es IH]; [apply le_n|]. cbn [drop_lt]. destruct (d <=? k)%Z; [apply le_n|cbn [length]; lia]. Qed.

Section Calls.
Variables (F : @qr RN) (j : @djac RN) (n d : Z) (Q T : Z -> Z -> R).
Hypothesis Hd : (0 <= d <= n)%Z.
Hypothesis HJ : dj_ok n j.
Hypothesis Hr : mnr (dj_mat j) = n.
Hypothesis Hc : mnc (dj_mat j) = d.
Hypothesis Hh : dj_held j = Some (dj_mat j).
Hypothesis HE : qr_exact F (dj_mat j) n d Q T.

Definition keeps (j' : @djac RN) : Prop := dj_ok n j' /\ dj_mat j' = dj_mat j /\ dj_held j' = dj_held j /\ dj_wj j' = dj_wj j.
Lemma set_prod_keeps p : vok d p \/ vok n p -> keeps (set_prod j p).
Proof.
  intros Hp. destruct HJ as (_ & _ & J3 & J4 & J5). unfold keeps, dj_ok, set_prod. cbn [dj_prod dj_wj dj_mat dj_held].
  split; [|auto]. split; [destruct Hp as [[H _]|[H _]]; exact H|]. split; [right; destruct Hp as [[_ H]|[_ H]]; lia|]. auto.
Qed.

Lemma dj_min_norm_real rhs sol : vok d rhs -> vok n sol -> exists j' x p, dj_min_norm F j rhs sol = Ok (j', x) /\ keeps j' /\ vok n x
  /\ (forall k, (0 <= k < d)%Z -> sumd d (fun l => T l k * p l) = dense rhs k)
  /\ (forall i, (0 <= i < n)%Z -> dense x i = qm n Q (fun l => if (l <? d)%Z then p l else 0) i).
Proof.
  intros [Wr Dr] [Ws Ds]. destruct HJ as (J1 & J2 & _). destruct HE as (_ & E2 & E3 & _). unfold dj_min_norm. rewrite Hc, Hr, Hh.
  destruct (vec_resize_spec (vec_clear (dj_prod j)) d (wf_clear _ J1) ltac:(lia)) as (p0 & P1 & P2 & P3 & _). rewrite P1. cbn [rbind].
  unfold qr_call. rewrite Dr, P3, Z.eqb_refl. cbn [check rbind]. destruct (E2 rhs (conj Wr Dr)) as (raw & R1 & R2 & R3). rewrite R1. cbn [rbind].
  destruct (set_raw_ok p0 raw P2) as (p1 & S1 & [S2 S3] & S4). rewrite S1. cbn [rbind]. rewrite R2 in S3, S4.
  destruct (vec_resize_spec p1 n S2 ltac:(lia)) as (p2 & W1 & W2 & W3 & W4). rewrite W1. cbn [rbind]. rewrite W3, Z.eqb_refl, Ds, Z.eqb_refl. cbn [check rbind].
  destruct (E3 p2 (conj W2 W3)) as (raw2 & U1 & U2 & U3). rewrite U1. cbn [rbind].
  destruct (set_raw_ok sol raw2 Ws) as (x & X1 & X2 & X3). rewrite X1. cbn [rbind]. rewrite U2 in X2, X3.
  exists (set_prod j p2), x, (fun l => nth (Z.to_nat l) raw 0). split; [reflexivity|]. split; [apply set_prod_keeps; right; split; auto|]. split; [exact X2|]. split; [exact R3|].
  intros i Hi. rewrite X3, U3 by exact Hi. unfold qm. apply sumd_ext. intros l Hl. f_equal.
  transitivity (dense p1 l).
  - unfold dense. rewrite W4. destruct (Z.ltb_spec l n); [reflexivity|lia].
  - destruct (Z.ltb_spec l d); [apply S4; lia|apply dense_range; [exact S2|lia]].
Qed.

Lemma dj_lsq_real b sol : vok n b -> vok d sol -> exists j' y, dj_lsq F j b sol = Ok (j', y) /\ keeps j' /\ vok d y
  /\ (forall l, (0 <= l < d)%Z -> sumd d (fun k => T l k * dense y k) = qt n Q (dense b) l).
Proof.
  intros [Wr Dr] [Ws Ds]. destruct HJ as (J1 & J2 & _). destruct HE as (E1 & _ & _ & E4). unfold dj_lsq. rewrite Hc, Hr, Hh, Dr, Z.eqb_refl. cbn [check rbind].
  destruct (vec_resize_spec (dj_prod j) n J1 ltac:(lia)) as (p0 & P1 & P2 & P3 & _). rewrite P1. cbn [rbind].
  unfold qr_call. rewrite Dr, P3, Z.eqb_refl. cbn [check rbind]. destruct (E4 b (conj Wr Dr)) as (raw & R1 & R2 & R3). rewrite R1. cbn [rbind].
  destruct (set_raw_ok p0 raw P2) as (p1 & S1 & [S2 S3] & S4). rewrite S1. cbn [rbind]. rewrite R2 in S3, S4.
  destruct (vec_resize_spec p1 d S2 ltac:(lia)) as (p2 & W1 & W2 & W3 & W4). rewrite W1. cbn [rbind]. rewrite W3, Z.eqb_refl, Ds, Z.eqb_refl. cbn [check rbind].
  destruct (E1 p2 (conj W2 W3)) as (raw2 & U1 & U2 & U3). rewrite U1. cbn [rbind].
  destruct (set_raw_ok sol raw2 Ws) as (y & X1 & X2 & X3). rewrite X1. cbn [rbind]. rewrite U2 in X2, X3.
  exists (set_prod j p2), y. split; [reflexivity|]. split; [apply set_prod_keeps; left; split; auto|]. split; [exact X2|].
  intros l Hl. rewrite (sumd_ext d _ (fun k => T l k * nth (Z.to_nat k) raw2 0)) by (intros k Hk; now rewrite X3). rewrite U3 by exact Hl.
  unfold qt. rewrite <- R3 by lia. rewrite <- S4 by lia. unfold dense. rewrite W4. destruct (Z.ltb_spec l d); [reflexivity|lia].
Qed.

Lemma dj_project_real b sol : vok n b -> vok n sol -> exists j' x, dj_project F j b sol = Ok (j', x) /\ keeps j' /\ vok n x
  /\ (forall i, (0 <= i < n)%Z -> dense x i = qm n Q (fun l => if (l <? d)%Z then 0 else qt n Q (dense b) l) i).
Proof.
  intros [Wr Dr] [Ws Ds]. destruct HJ as (J1 & J2 & _). destruct HE as (_ & _ & E3 & E4). unfold dj_project. rewrite Hc, Hr, Hh. cbv zeta.
  unfold qr_call. cbn [vdim]. rewrite Dr, Z.eqb_refl. cbn [check rbind]. destruct (E4 b (conj Wr Dr)) as (raw & R1 & R2 & R3). rewrite R1. cbn [rbind].
  destruct (set_raw_ok (@mkvec RN n (vcap (dj_prod j)) (vent (dj_prod j))) raw) as (p1 & S1 & [S2 S3] & S4).
  { destruct J1 as (K1 & K2 & K3). split; cbn [vdim vent vcap]; [lia|]. split; [|exact K3]. destruct J2 as [->|J2]; [exact Logic.I|]. eapply sorted_in_weaken; [| |exact K2]; lia. }
  rewrite S1. cbn [rbind vdim]. rewrite R2 in S3, S4. rewrite S3, Z.eqb_refl, Ds, Z.eqb_refl. cbn [check rbind].
  set (p2 := @mkvec RN n (vcap p1) (drop_lt d (vent p1))). destruct S2 as (V1 & V2 & V3). destruct (drop_lt_get d (vent p1) _ _ V2) as [D1 D2].
  assert (Vp : vok n p2). { split; [|reflexivity]. split; [cbn; lia|]. cbn [p2 vdim vent vcap]. split; [rewrite <- S3; exact D1|]. pose proof (drop_lt_len d (vent p1)). unfold num in *. cbn in *. lia. }
  destruct (E3 p2 Vp) as (raw2 & U1 & U2 & U3). rewrite U1. cbn [rbind].
  destruct (set_raw_ok sol raw2 Ws) as (x & X1 & X2 & X3). rewrite X1. cbn [rbind]. rewrite U2 in X2, X3.
  exists (set_prod j p2), x. split; [reflexivity|]. split; [apply set_prod_keeps; auto|]. split; [exact X2|].
  intros i Hi. rewrite X3, U3 by exact Hi. unfold qm. apply sumd_ext. intros l Hl. f_equal. unfold dense at 1. cbn [p2 vent]. rewrite D2.
  destruct (Z.leb_spec d l), (Z.ltb_spec l d); try lia.
  - change (oval (get (vent p1) l)) with (dense p1 l). rewrite S4 by lia. apply R3. lia.
  - apply oval_rn.
Qed.
End Calls.

(** ** The solves for the rows of the working set *)
Definition bijective (d : Z) (E E' : Z -> Z) : Prop :=
  forall k, (0 <= k < d)%Z -> (0 <= E k < d)%Z /\ (0 <= E' k < d)%Z /\ E (E' k) = k /\ E' (E k) = k.

Lemma sumd_perm d E E' f : bijective d E E' -> sumd d (fun k => f (E k)) = sumd d f.
Proof.
  intros HB. rewrite (sumd_ext d (fun k => f (E k)) (fun k => sumd d (fun m => (if (E k =? m)%Z then 1 else 0) * f m))).
  - rewrite sumd_swap. apply sumd_ext. intros m Hm. destruct (HB m Hm) as (_ & B2 & B3 & _).
    transitivity (sumd d (fun k => (if (E' m =? k)%Z then 1 else 0) * f m)); [|exact (sumd_delta d (E' m) (fun _ => f m) B2)]. apply sumd_ext. intros k Hk. destruct (HB k Hk) as (_ & _ & _ & B4).
    destruct (Z.eqb_spec (E k) m) as [e|e], (Z.eqb_spec (E' m) k) as [e'|e']; try reflexivity; exfalso.
    + apply e'. rewrite <- e. exact B4.
    + apply e. rewrite <- e'. exact B3.
  - intros k Hk. symmetry. apply sumd_delta. apply (HB k Hk).
Qed.

Section Rows.
Variables (F : @qr RN) (E E' : Z -> Z) (w : wset) (cs : list (list (Z * R))) (j : @djac RN).
Hypothesis C : consistent w.
Hypothesis HI : rows_independent w cs.
Hypothesis HJ : dj_current F w cs j.
Hypothesis HB : bijective (ws_size w) E E'.
Hypothesis HF : qr_of F E (dj_mat j).
Let n := wnv w.
Let d := ws_size w.

Lemma rows_setup : exists Q T, (0 <= d <= n)%Z /\ orthogonal n Q /\ qr_exact F (dj_mat j) n d Q T
  /\ mnr (dj_mat j) = n /\ mnc (dj_mat j) = d /\ dj_ok n j /\ dj_held j = Some (dj_mat j)
  /\ (forall i k, (0 <= i < n)%Z -> (0 <= k < d)%Z -> wrow w cs (E k) i = sumd d (fun l => Q i l * T l k)) /\ regular d T.
Proof.
  destruct HJ as (J1 & J2 & (R1 & R2 & ms & S & G) & _ & Hd). destruct HF as (ms' & Q & T & S' & HQ & HA & _ & HX). rewrite R1 in HQ. rewrite R1, R2 in HA, HX.
  pose proof (nv0 w C) as (N1 & _ & N2 & _). rewrite (stores_unique _ _ _ S' S) in HA. exists Q, T. fold n d in R1, R2, HQ, HA, HX, G, Hd, J1. split; [unfold d, n in *; lia|].
  assert (HFa : forall i k, (0 <= i < n)%Z -> (0 <= k < d)%Z -> wrow w cs (E k) i = sumd d (fun l => Q i l * T l k)).
  { intros i k Hi Hk. rewrite <- (HA i k Hi Hk). rewrite mR_get, G; [reflexivity|apply (HB k Hk)|exact Hi]. }
  repeat (split; [assumption|]). apply (tri_regular n d Q T (fun k i => wrow w cs (E k) i) HFa).
  intros y Hy k Hk. destruct (HB k Hk) as (B1 & B2 & B3 & B4). rewrite <- B4. apply (HI (fun m => y (E' m))); [|exact B1].
  intros i Hi. fold d. rewrite <- (Hy i Hi). rewrite <- (sumd_perm d E E' (fun m => wrow w cs m i * y (E' m)) HB). apply sumd_ext. intros q Hq. now rewrite (proj2 (proj2 (proj2 (HB q Hq)))).
Qed.

Lemma col_rows y i Q T : (0 <= i < n)%Z -> (forall i k, (0 <= i < n)%Z -> (0 <= k < d)%Z -> wrow w cs (E k) i = sumd d (fun l => Q i l * T l k)) ->
  Atapp w cs (fun m => y (E' m)) i = sumd d (fun l => Q i l * sumd d (fun k => T l k * y k)).
Proof.
  intros Hi HFa. rewrite <- (col_app n d Q T (fun k i => wrow w cs (E k) i) HFa y i Hi). unfold Atapp. fold d.
  rewrite <- (sumd_perm d E E' (fun m => wrow w cs m i * y (E' m)) HB). apply sumd_ext. intros q Hq. now rewrite (proj2 (proj2 (proj2 (HB q Hq)))).
Qed.

Lemma keeps_current j' : keeps j n j' -> dj_current F w cs j'.
Proof. intros (K1 & K2 & K3 & K4). destruct HJ as (J1 & J2 & J3 & J4 & J5). unfold dj_current. rewrite K2, K3. auto. Qed.

Lemma rows_min_norm rhs sol : vok d rhs -> vok n sol -> exists j' x y, dj_min_norm F j rhs sol = Ok (j', x) /\ dj_current F w cs j' /\ vok n x
  /\ (forall i, (0 <= i < n)%Z -> dense x i = Atapp w cs y i) /\ (forall k, (0 <= k < d)%Z -> Aapp w cs (dense x) (E k) = dense rhs k).
Proof.
  intros Vr Vs. destruct rows_setup as (Q & T & Hd & HQ & HX & R1 & R2 & J1 & J2 & HFa & HT).
  destruct (dj_min_norm_real F j n d Q T Hd J1 R1 R2 J2 HX rhs sol Vr Vs) as (j' & x & p & E1 & K & Vx & Hp & Hx).
  exists j', x, (fun m => gauss (Z.to_nat d) T p (E' m)). split; [exact E1|]. split; [now apply keeps_current|]. split; [exact Vx|]. split.
  - intros i Hi. rewrite Hx by exact Hi. rewrite (qm_part n d Q Hd p i). rewrite (col_rows (gauss (Z.to_nat d) T p) i Q T Hi HFa). apply sumd_ext. intros l Hl.
    now rewrite (gauss_ok d T p ltac:(lia) HT l Hl).
  - intros k Hk. rewrite <- (Hp k Hk). unfold Aapp. fold n. rewrite (row_app n d Q T (fun k i => wrow w cs (E k) i) HFa (dense x) k Hk).
    apply sumd_ext. intros l Hl. f_equal. rewrite (qt_ext n Q (dense x) _ l Hx). rewrite (qt_qm n Q HQ) by lia. destruct (Z.ltb_spec l d); [reflexivity|lia].
Qed.

Lemma rows_lsq b sol : vok n b -> vok d sol -> exists j' y, dj_lsq F j b sol = Ok (j', y) /\ dj_current F w cs j' /\ vok d y
  /\ (forall k, (0 <= k < d)%Z -> Aapp w cs (fun i => dense b i - Atapp w cs (fun m => dense y (E' m)) i) k = 0).
Proof.
  intros Vb Vs. destruct rows_setup as (Q & T & Hd & HQ & HX & R1 & R2 & J1 & J2 & HFa & HT).
  destruct (dj_lsq_real F j n d Q T Hd J1 R1 R2 J2 HX b sol Vb Vs) as (j' & y & E1 & K & Vy & Hy).
  exists j', y. split; [exact E1|]. split; [now apply keeps_current|]. split; [exact Vy|].
  intros k0 Hk0. destruct (HB k0 Hk0) as (_ & B2 & B3 & _). rewrite <- B3. set (k := E' k0) in *. rename B2 into Hk.
  unfold Aapp. fold n. rewrite (row_app n d Q T (fun k i => wrow w cs (E k) i) HFa (fun i => dense b i - Atapp w cs (fun m => dense y (E' m)) i) k Hk).
  apply sumd_zero. intros l Hl. replace (qt n Q _ l) with (qt n Q (dense b) l - qt n Q (qm n Q (fun q => if (q <? d)%Z then qt n Q (dense b) q else 0)) l).
  - rewrite (qt_qm n Q HQ) by lia. destruct (Z.ltb_spec l d); [ring|lia].
  - unfold qt at 1 2 4. unfold Rminus at 1. rewrite <- (Rmult_1_l (sumd n (fun i => Q i l * qm n Q _ i))), Ropp_mult_distr_l, <- sumd_scal, <- sumd_plus.
    apply sumd_ext. intros i Hi. rewrite (col_rows (dense y) i Q T Hi HFa). rewrite (qm_part n d Q Hd). rewrite (sumd_ext d (fun l0 => Q i l0 * sumd d (fun k1 => T l0 k1 * dense y k1)) (fun l0 => Q i l0 * qt n Q (dense b) l0)); [ring|].
    intros q Hq. now rewrite Hy.
Qed.

Lemma rows_project b sol : vok n b -> vok n sol -> exists j' x, dj_project F j b sol = Ok (j', x) /\ dj_current F w cs j' /\ vok n x
  /\ (forall i, (0 <= i < n)%Z -> dense x i = nullproj w cs (dense b) i).
Proof.
  intros Vb Vs. destruct rows_setup as (Q & T & Hd & HQ & HX & R1 & R2 & J1 & J2 & HFa & HT).
  destruct (dj_project_real F j n d Q T Hd J1 R1 R2 J2 HX b sol Vb Vs) as (j' & x & E1 & K & Vx & Hx).
  exists j', x. split; [exact E1|]. split; [now apply keeps_current|]. split; [exact Vx|].
  set (y := gauss (Z.to_nat d) T (qt n Q (dense b))).
  apply (nullproj_unique w cs C HI (dense x) (fun m => y (E' m)) (dense b)).
  - intros i Hi. rewrite (col_rows y i Q T Hi HFa), (Hx i Hi).
    rewrite (sumd_ext d _ (fun l => Q i l * qt n Q (dense b) l)) by (intros l Hl; unfold y; now rewrite (gauss_ok d T _ ltac:(lia) HT l Hl)).
    rewrite <- (qm_part n d Q Hd (qt n Q (dense b)) i). transitivity (qm n Q (qt n Q (dense b)) i); [|exact (qm_qt n Q HQ (dense b) i Hi)]. unfold qm. rewrite <- sumd_plus. apply sumd_ext. intros l Hl.
    destruct (l <? d)%Z; ring.
  - intros k0 Hk0. destruct (HB k0 Hk0) as (_ & B2 & B3 & _). rewrite <- B3. set (k := E' k0) in *. rename B2 into Hk.
    unfold Aapp. fold n. rewrite (row_app n d Q T (fun k i => wrow w cs (E k) i) HFa (dense x) k Hk). apply sumd_zero. intros l Hl.
    rewrite (qt_ext n Q (dense x) _ l Hx). rewrite (qt_qm n Q HQ) by lia. destruct (Z.ltb_spec l d); [ring|lia].
Qed.
End Rows.

(** ** Exact callbacks for given factors *)
Definition exact_qr (n d : Z) (Q T : Z -> Z -> R) : @qr RN :=
  @mkqr RN (fun _ => Ok tt)
    (fun _ b => Ok (map (gauss (Z.to_nat d) T (dense b)) (zrange d)))
    (fun _ b => Ok (map (gauss (Z.to_nat d) (fun k l => T l k) (dense b)) (zrange d)))
    (fun _ b => Ok (map (fun i => sumd n (fun l => Q i l * dense b l)) (zrange n)))
    (fun _ b => Ok (map (fun l => sumd n (fun i => Q i l * dense b i)) (zrange n))).

Lemma nth_map_z (f : Z -> R) n i : (0 <= i < n)%Z -> nth (Z.to_nat i) (map f (zrange n)) 0 = f i.
Proof. intros Hi. apply nth_error_nth. rewrite nth_error_map, zrange_nth by lia. cbn. f_equal. f_equal. lia. Qed.

Lemma regular_trans d T : (0 <= d)%Z -> regular d T -> regular d (fun k l => T l k).
Proof.
  intros Hd HT x Hx. set (v := gauss (Z.to_nat d) T x).
  assert (H0 : dotd d x x = 0).
  { unfold dotd. transitivity (sumd d (fun l => sumd d (fun k => v k * (T l k * x l)))).
    - apply sumd_ext. intros l Hl. rewrite <- (gauss_ok d T x Hd HT l Hl) at 1. rewrite Rmult_comm, <- sumd_scal. apply sumd_ext. intros k _. unfold v. ring.
    - rewrite sumd_swap. apply sumd_zero. intros k Hk. rewrite sumd_scal, Hx by exact Hk. ring. }
  exact (proj1 (dotd_zero d x) H0).
Qed.

Lemma exact_qr_ok n d Q T m : (0 <= d)%Z -> (0 <= n)%Z -> regular d T -> qr_exact (exact_qr n d Q T) m n d Q T.
Proof.
  intros Hd Hn HT.
  assert (HL : forall (f : Z -> R) q, (0 <= q)%Z -> Z.of_nat (length (map f (zrange q))) = q) by (intros; rewrite map_length, zrange_length; lia).
  split; [|split; [|split]]; intros b Vb; eexists; (split; [reflexivity|]); (split; [now apply HL|]).
  - intros l Hl. rewrite <- (gauss_ok d T (dense b) Hd HT l Hl). apply sumd_ext. intros k Hk. now rewrite nth_map_z.
  - intros k Hk. rewrite <- (gauss_ok d (fun k l => T l k) (dense b) Hd (regular_trans d T Hd HT) k Hk). apply sumd_ext. intros l Hl. now rewrite nth_map_z.
  - intros i Hi. now rewrite nth_map_z.
  - intros i Hi. now rewrite nth_map_z.
Qed.
