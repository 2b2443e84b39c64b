(** C84: the derivative check. *)
From Coq Require Import Reals Lra FunctionalExtensionality.
From Verif Require Import Base Num Cmp Sparse Vec VecFacts VecFacts2 RSum VecReal Mat MatFacts MatFacts2 MatFacts4 PreprocReal QnReal Flags DerivCheck.
From Verif Require AugJacReal.
Local Open Scope R_scope.

(** ** Specification *)
(** Equality up to the relative tolerance *)
Definition close (tol a b : R) : Prop := Rabs (a - b) <= tol * Rmax (Rmax (Rabs a) (Rabs b)) 1.
Definition unitv (k : Z) : Z -> R := fun i => if (i =? k)%Z then 1 else 0.
Definition shift (x : Z -> R) (j : Z) (h : R) : Z -> R := fun i => if (i =? j)%Z then x i + h else x i.
Definition vec_is (d : Z) (f : Z -> R) (v : rvec) : Prop := vok d v /\ forall i, (0 <= i < d)%Z -> dense v i = f i.
Definition mat_is (m n : Z) (A : Z -> Z -> R) (M : @mat RN) : Prop :=
  exists cs, stores M cs /\ mnr M = m /\ mnc M = n /\ forall i j, (0 <= i < m)%Z -> (0 <= j < n)%Z -> mR cs i j = A i j.

(** What the user supplies: objective, gradient, constraints, Jacobian, Hessian products [H x mu d], rejected points *)
Record user := mkuser {
  uF : (Z -> R) -> R; uG : (Z -> R) -> Z -> R; uC : (Z -> R) -> Z -> R; uJ : (Z -> R) -> Z -> Z -> R;
  uH : (Z -> R) -> (Z -> R) -> (Z -> R) -> Z -> R; uRej : (Z -> R) -> bool }.

Record prob_ok (u : user) (P : @dprob RN) : Prop := {
  po_n : (0 <= dp_n P)%Z; po_m : (0 <= dp_m P)%Z;
  po_set : forall x, vok (dp_n P) x -> dp_set P x = Ok (uRej u (dense x));
  po_obj : forall x, vok (dp_n P) x -> dp_obj P x = Ok (uF u (dense x));
  po_grad : forall x, vok (dp_n P) x -> exists v, dp_grad P x = Ok v /\ vec_is (dp_n P) (uG u (dense x)) v;
  po_cons : forall x, vok (dp_n P) x -> exists v, dp_cons P x = Ok v /\ vec_is (dp_m P) (uC u (dense x)) v;
  po_jac : forall x, vok (dp_n P) x -> exists M, dp_jac P x = Ok M /\ mat_is (dp_m P) (dp_n P) (uJ u (dense x)) M;
  po_hess : forall x d mu, vok (dp_n P) x -> vok (dp_n P) d -> vok (dp_m P) mu ->
    exists v, dp_hess P x d mu = Ok v /\ vec_is (dp_n P) (uH u (dense x) (dense mu) (dense d)) v }.
(** The iterate stores the values of its point, which is not rejected. *)
Record iter_ok (u : user) (P : @dprob RN) (it : @diter RN) : Prop := {
  io_x : vok (dp_n P) (di_x it);
  io_acc : uRej u (dense (di_x it)) = false;
  io_obj : di_obj it = uF u (dense (di_x it));
  io_grad : vec_is (dp_n P) (uG u (dense (di_x it))) (di_grad it);
  io_cons : vec_is (dp_m P) (uC u (dense (di_x it))) (di_cons it);
  io_jac : mat_is (dp_m P) (dp_n P) (uJ u (dense (di_x it))) (di_jac it);
  io_duals : vok (dp_m P) (di_duals it) }.

Section Spec.
Variables (u : user) (n m : Z) (base tol : R) (f : Z) (x la : Z -> R).
Definition step_of (j : Z) : R := Rmax (Rabs (x j)) 1 * base.
(** Gradient of the Lagrangean *)
Definition lagr (z : Z -> R) (k : Z) : R := uG u z k + sumd m (fun i => uJ u z i k * la i).
Definition asked (k : Z) : Prop := Z.testbit f k = true.
(** All comparisons asked for in direction [j] *)
Definition fits (j : Z) : Prop :=
  let h := step_of j in let y := shift x j h in
  (asked 0 -> close tol (uG u x j) ((uF u y - uF u x) / h)) /\
  (asked 1 -> forall i, (0 <= i < m)%Z -> close tol (uJ u x i j) ((uC u y i - uC u x i) / h)) /\
  (asked 3 -> forall k, (0 <= k < n)%Z -> close tol (uH u y (fun _ => 0) (unitv j) k) ((uG u y k - uG u x k) / h)) /\
  (asked 4 -> forall i k, (0 <= i < m)%Z -> (0 <= k < n)%Z ->
     close tol (uH u y (unitv i) (unitv j) k - uH u y (fun _ => 0) (unitv j) k) ((uJ u y i k - uJ u x i k) / h)) /\
  (asked 2 -> forall k, (0 <= k < n)%Z -> close tol (uH u y la (unitv j) k) ((lagr y k - lagr x k) / h)).
Definition skipped (j : Z) : Prop := uRej u (shift x j (step_of j)) = true.
Definition all_fit : Prop := forall j, (0 <= j < n)%Z -> skipped j \/ fits j.
End Spec.

(** ** Proofs *)
Lemma upto_in k i : In i (upto k) <-> (0 <= i < k)%Z.
Proof.
  unfold upto. rewrite in_map_iff. split.
  - intros (a & <- & H). apply in_seq in H. lia.
  - intros H. exists (Z.to_nat i). split; [lia|]. apply in_seq. lia.
Qed.
Lemma rfold_and (P : Z -> Prop) (g : bool -> Z -> res bool) l ok :
  (forall b i, In i l -> exists b', g b i = Ok b' /\ (b' = true <-> b = true /\ P i)) ->
  exists b, rfold g ok l = Ok b /\ (b = true <-> ok = true /\ forall i, In i l -> P i).
Proof.
  revert ok. induction l as [|a l IH]; intros ok H; cbn [rfold].
  - exists ok. split; [reflexivity|]. split; [intros ->; split; [reflexivity|intros i []]|tauto].
  - destruct (H ok a (or_introl eq_refl)) as (b & -> & Hb). cbn [rbind].
    destruct (IH b) as (b' & -> & Hb'); [intros; apply H; now right|]. exists b'. split; [reflexivity|].
    rewrite Hb', Hb. split.
    + intros [[H1 H2] H3]. split; [exact H1|]. intros i [<-|Hi]; auto.
    + intros [H1 H2]. split; [split; [exact H1|apply H2; now left]|]. intros; apply H2; now right.
Qed.
Lemma is_eq_close (a b tol : R) : @is_eq RN a b tol = true <-> close tol a b.
Proof.
  unfold is_eq, close, rel_diff. rewrite rn_leb, rn_abs, !rn_max, !rn_abs, rn_n1.
  set (c := Rmax (Rmax (Rabs a) (Rabs b)) 1). assert (Hc : 1 <= c) by apply Rmax_r.
  change (@ndiv RN (@nsub RN a b) c) with ((a - b) / c).
  unfold Rdiv. rewrite Rabs_mult, (Rabs_pos_eq (/ c)) by (left; apply Rinv_0_lt_compat; lra).
  assert (E : Rabs (a - b) = Rabs (a - b) * / c * c) by (field; lra). split; intros H.
  - rewrite E. apply Rmult_le_compat_r; [lra|exact H].
  - apply (Rmult_le_reg_r c); [lra|]. rewrite <- E. exact H.
Qed.
Lemma and_close (b : bool) (a c tol : R) : (b && @is_eq RN a c tol)%bool = true <-> b = true /\ close tol a c.
Proof. rewrite andb_true_iff, is_eq_close. reflexivity. Qed.
Lemma room_ok d : (0 <= d)%Z -> vok d (@room RN d).
Proof. intros H. unfold room. split; [|reflexivity]. split; [exact H|]. split; [exact I|cbn; lia]. Qed.
Lemma empty_ok d c : (0 <= d)%Z -> (0 <= c)%Z -> vok d (@mkvec RN d c []) /\ dense (@mkvec RN d c []) = fun _ => 0.
Proof.
  intros H Hc. split; [split; [|reflexivity]; split; [exact H|]; split; [exact I|cbn; lia]|].
  apply functional_extensionality. intros i. unfold dense. cbn [vent get]. now rewrite oval_rn.
Qed.
Lemma unit_dir_ok d j (a : R) : (0 <= j < d)%Z -> exists e, @unit_dir RN d j a = Ok e /\ vok d e /\ dense e = (fun i => if (i =? j)%Z then a else 0).
Proof.
  intros H. unfold unit_dir, vec_push. cbn [vnnz vcap vdim vent last_idx length].
  destruct (Z.ltb_spec j d); [|lia]. destruct (Z.leb_spec 0 j); [|lia]. cbn.
  eexists. split; [reflexivity|]. split.
  - split; [|reflexivity]. split; [cbn; lia|]. split; [cbn; lia|cbn; lia].
  - apply functional_extensionality. intros i. unfold dense. cbn [vent get]. rewrite (Z.eqb_sym j i).
    destruct (i =? j)%Z; rewrite oval_rn; reflexivity.
Qed.

Section Proofs.
Variables (u : user) (P : @dprob RN) (S : @dset RN) (f : Z) (it : @diter RN).
Hypothesis HP : prob_ok u P.
Hypothesis HI : iter_ok u P it.
Hypothesis HZ : ds_zero S = 0.
Hypothesis HB : 0 < ds_base S.
Let n := dp_n P.
Let m := dp_m P.
Let x := dense (di_x it).
Let la := dense (di_duals it).
Let h := step_of (ds_base S) x.
Let Y (j : Z) := shift x j (h j).

Lemma h_pos j : 0 < h j.
Proof. unfold h, step_of. apply Rmult_lt_0_compat; [|exact HB]. pose proof (Rmax_r (Rabs (x j)) 1). lra. Qed.

Lemma check_point_ok j : (0 <= j < n)%Z -> exists y, check_point P S (di_x it) j = Ok (y, h j) /\ vok n y /\ dense y = Y j.
Proof.
  intros Hj. destruct (io_x _ _ _ HI) as [Wx Dx]. unfold check_point, perturbation.
  rewrite vec_value_at_spec by (rewrite Dx; apply Hj). cbn [rbind]. rewrite rn_max, rn_abs, rn_n1.
  change (@nmul RN (Rmax (Rabs (dense (di_x it) j)) 1) (ds_base S)) with (h j).
  fold n. destruct (unit_dir_ok n j (h j) Hj) as (e & -> & He & De). cbn [rbind].
  unfold vec_add. rewrite HZ, !rn_n1.
  destruct (add_scaled_fun n (di_x it) e (room n) 1 1 (io_x _ _ _ HI) He) as (y & Ey & Hy & Dy); [cbn; lia|].
  exists y. fold n. rewrite Ey. cbn [rbind]. split; [reflexivity|]. split; [exact Hy|]. rewrite Dy, De.
  apply functional_extensionality. intros i. unfold Y, shift, x. destruct (i =? j)%Z; req; lra.
Qed.

(** A product with the transposed Jacobian *)
Lemma trans_ok A M v : mat_is m n A M -> vok m v ->
  exists r, mat_mult_vec_trans M v (ds_zero S) (room n) = Ok r /\ vok n r /\ forall k, (0 <= k < n)%Z -> dense r k = sumd m (fun i => A i k * dense v i).
Proof.
  intros (cs & Hs & Hr & Hc & HA) [Wv Dv]. destruct (room_ok n (po_n _ _ HP)) as [Wr Dr]. rewrite HZ.
  destruct (mult_vec_trans_real M cs v (room n) Hs Wv) as (r & E & W & D & Hg); [congruence|exact Wr|congruence|].
  exists r. split; [exact E|]. split; [split; congruence|]. intros k Hk. rewrite Hg by congruence. rewrite Hr. apply sumd_ext.
  intros i Hi. now rewrite HA.
Qed.
Lemma row_ok A M i : mat_is m n A M -> (0 <= i < m)%Z ->
  exists e r, @unit_dir RN m i n1 = Ok e /\ mat_mult_vec_trans M e (ds_zero S) (room n) = Ok r /\ vok n r /\ forall k, (0 <= k < n)%Z -> dense r k = A i k.
Proof.
  intros HA Hi. rewrite rn_n1. destruct (unit_dir_ok m i 1 Hi) as (e & Ee & He & De).
  destruct (trans_ok A M e HA He) as (r & Er & Hr & Dr). exists e, r. repeat (split; [assumption|]).
  intros k Hk. rewrite Dr by exact Hk. rewrite <- (AugJacReal.sumd_delta m i (fun i => A i k) Hi). apply sumd_ext.
  intros q Hq. rewrite De, (Z.eqb_sym q i). req. apply Rmult_comm.
Qed.

Lemma first_obj_ok j : (0 <= j < n)%Z ->
  exists b, check_first_obj S it (uF u (Y j)) j (h j) = Ok b /\ (b = true <-> close (ds_tol S) (uG u x j) ((uF u (Y j) - uF u x) / h j)).
Proof.
  intros Hj. destruct (io_grad _ _ _ HI) as [[Wg Dg] Hg]. unfold check_first_obj.
  rewrite vec_value_at_spec by (rewrite Dg; apply Hj). cbn [rbind]. eexists. split; [reflexivity|].
  rewrite (io_obj _ _ _ HI), Hg by exact Hj. apply is_eq_close.
Qed.
Lemma mat_at A M i j : mat_is m n A M -> (0 <= i < m)%Z -> (0 <= j < n)%Z -> mat_value_at M i j = Ok (A i j : @num RN).
Proof.
  intros (cs & Hs & Hr & Hc & HA) Hi Hj. rewrite <- HA by assumption.
  destruct (stores_col M cs j Hs) as (c & E1 & _ & _); [congruence|].
  rewrite (mat_value_at_spec M cs i j c Hs) by (auto; try rewrite Hr; try rewrite Hc; lia). unfold mR, mdense, mget. now rewrite (nth_error_nth cs (Z.to_nat j) [] E1).
Qed.
Lemma first_cons_ok c j : (0 <= j < n)%Z -> vec_is m (uC u (Y j)) c ->
  exists b, check_first_cons P S it c j (h j) = Ok b
    /\ (b = true <-> forall i, (0 <= i < m)%Z -> close (ds_tol S) (uJ u x i j) ((uC u (Y j) i - uC u x i) / h j)).
Proof.
  intros Hj [[Wc Dc] Hc]. destruct (io_cons _ _ _ HI) as [[W0 D0] H0]. unfold check_first_cons. fold m.
  edestruct (rfold_and (fun i => close (ds_tol S) (uJ u x i j) ((uC u (Y j) i - uC u x i) / h j))) as (b & E & Hb);
    [|exists b; split; [exact E|]; rewrite Hb; setoid_rewrite upto_in; tauto].
  intros b i Hi. apply upto_in in Hi. cbv beta. rewrite (mat_at _ _ i j (io_jac _ _ _ HI) Hi Hj). cbn [rbind].
  rewrite !vec_value_at_spec by (rewrite ?D0, ?Dc; apply Hi). cbn [rbind]. eexists. split; [reflexivity|].
  rewrite H0, Hc by exact Hi. apply and_close.
Qed.
Lemma quotient (a b : R) j : 1 / h j * (-1 * a + 1 * b) = (b - a) / h j.
Proof. field. apply Rgt_not_eq, h_pos. Qed.

Lemma second_obj_ok g hf H j : vec_is n (uG u (Y j)) g -> vec_is n H hf ->
  exists b, check_second_obj P S it g hf (h j) = Ok b
    /\ (b = true <-> forall k, (0 <= k < n)%Z -> close (ds_tol S) (H k) ((uG u (Y j) k - uG u x k) / h j)).
Proof.
  intros [Vg Hg] [Vh Hh]. destruct (io_grad _ _ _ HI) as [V0 H0]. unfold check_second_obj. fold n. rewrite rn_lit1, rn_n1, rn_n0.
  destruct (add_scaled_fun n (di_grad it) g (room n) (-1) 1 V0 Vg) as (z & Ez & Vz & Dz); [cbn; lia|].
  change (IZR (-1)) with (-1). rewrite Ez. cbn [rbind].
  destruct (scale_fun n z (1 / h j) Vz) as [[Ws Ds] Fs].
  change (@ndiv RN 1 (h j)) with (1 / h j).
  edestruct (rfold_and (fun k => close (ds_tol S) (H k) ((uG u (Y j) k - uG u x k) / h j))) as (b & E & Hb);
    [|exists b; split; [exact E|]; rewrite Hb; setoid_rewrite upto_in; tauto].
  intros b k Hk. apply upto_in in Hk. cbv beta. destruct (unit_dir_ok n k 1 Hk) as (e & -> & Ve & De). cbn [rbind].
  rewrite (dot_fun n e hf Ve Vh). cbn [rbind]. rewrite vec_value_at_spec by (rewrite Ds; apply Hk). cbn [rbind].
  eexists. split; [reflexivity|].
  replace (dotd n (dense e) (dense hf)) with (H k).
  - assert (Q : (dense (vec_scale z (1 / h j : @num RN)) k : R) = (uG u (Y j) k - uG u x k) / h j).
    { rewrite Fs, Dz, Hg, H0 by exact Hk. apply quotient. }
    rewrite Q. apply and_close.
  - rewrite <- Hh by exact Hk. rewrite <- (AugJacReal.sumd_delta n k (dense hf) Hk). apply sumd_ext. intros i _. rewrite De, (Z.eqb_sym i k). reflexivity.
Qed.

Lemma diff1 (a b : R) : 1 * a + -1 * b = a - b.
Proof. lra. Qed.
Lemma plus1 (a b : R) : 1 * a + 1 * b = a + b.
Proof. lra. Qed.
Lemma rmapM_nth {A} (g : Z -> res A) (Q : Z -> A -> Prop) l :
  (forall i, In i l -> exists a, g i = Ok a /\ Q i a) -> exists r, rmapM g l = Ok r /\ forall k i, nth_error l k = Some i -> exists a, nth_error r k = Some a /\ Q i a.
Proof.
  induction l as [|i l IH]; intros H; cbn [rmapM].
  - exists []. split; [reflexivity|]. intros [|k] i E; discriminate.
  - destruct (H i (or_introl eq_refl)) as (a & -> & Ha). destruct IH as (r & -> & Hr); [intros; apply H; now right|].
    cbn [rbind]. exists (a :: r). split; [reflexivity|]. intros [|k] i' E; cbn in *; [inv E; eauto|eauto].
Qed.
Lemma nth_upto k i : (0 <= i < k)%Z -> nth_error (upto k) (Z.to_nat i) = Some i.
Proof.
  intros H. unfold upto. rewrite nth_error_map, (nth_error_nth' _ 0%nat) by (rewrite seq_length; lia).
  rewrite seq_nth by lia. cbn. f_equal. lia.
Qed.
Lemma cons_products_ok p e hf H0 : vok n p -> vok n e -> vec_is n H0 hf ->
  exists l, cons_products P S p e hf = Ok l /\ forall i, (0 <= i < m)%Z ->
    exists v, nth_error l (Z.to_nat i) = Some v /\ vec_is n (fun k => uH u (dense p) (unitv i) (dense e) k - H0 k) v.
Proof.
  intros Vp Ve [Vh Hh]. unfold cons_products.
  destruct (rmapM_nth (fun k => u0 <- unit_dir (dp_m P) k n1 ;; q <- dp_hess P p e u0 ;;
      vec_add_scaled q hf n1 (nlit (-1) 1) (ds_zero S) (room (dp_n P)))
    (fun i v => vec_is n (fun k => uH u (dense p) (unitv i) (dense e) k - H0 k) v) (upto m)) as (r & E & Hr).
  - intros i Hi. apply upto_in in Hi. rewrite rn_n1. fold m. destruct (unit_dir_ok m i 1 Hi) as (w & -> & Vw & Dw). cbn [rbind].
    destruct (po_hess _ _ HP p e w Vp Ve Vw) as (q & -> & Vq & Hq). cbn [rbind]. rewrite HZ, rn_lit1. fold n.
    destruct (add_scaled_fun n q hf (room n) 1 (-1) Vq Vh) as (z & Ez & Vz & Dz); [cbn; lia|].
    exists z. split; [exact Ez|]. split; [exact Vz|]. intros k Hk. rewrite Dz. req. rewrite Hq, Hh by exact Hk. rewrite Dw.
    exact (diff1 _ _).
  - exists r. split; [exact E|]. intros i Hi. exact (Hr _ _ (nth_upto m i Hi)).
Qed.

Lemma second_cons_ok J hc (D : Z -> Z -> R) j : mat_is m n (uJ u (Y j)) J ->
  (forall i, (0 <= i < m)%Z -> exists v, nth_error hc (Z.to_nat i) = Some v /\ vec_is n (D i) v) ->
  exists b, check_second_cons P S it J hc (h j) = Ok b
    /\ (b = true <-> forall i k, (0 <= i < m)%Z -> (0 <= k < n)%Z -> close (ds_tol S) (D i k) ((uJ u (Y j) i k - uJ u x i k) / h j)).
Proof.
  intros HJ Hhc. unfold check_second_cons. fold m n.
  edestruct (rfold_and (fun i => forall k, (0 <= k < n)%Z -> close (ds_tol S) (D i k) ((uJ u (Y j) i k - uJ u x i k) / h j))) as (b & E & Hb);
    [|exists b; split; [exact E|]; rewrite Hb; setoid_rewrite upto_in; split; [intros [_ H] i k Hi Hk; now apply H|intros H; split; [reflexivity|intros i Hi k Hk; now apply H]]].
  intros b i Hi. apply upto_in in Hi. cbv beta. destruct (Hhc i Hi) as (v & Ev & [Wv Dv] & Hv). rewrite Ev. cbn [given rbind].
  destruct (row_ok _ _ i (io_jac _ _ _ HI) Hi) as (e & r0 & Ee & E0 & V0 & D0).
  destruct (row_ok _ _ i HJ Hi) as (e' & r1 & Ee' & E1 & V1 & D1).
  rewrite Ee in Ee'. injection Ee' as <-. rewrite Ee. cbn [rbind]. rewrite E0. cbn [rbind]. rewrite E1. cbn [rbind]. rewrite HZ, rn_lit1, rn_n1.
  destruct (add_scaled_fun n r1 r0 (room n) 1 (-1) V1 V0) as (z & Ez & Vz & Dz); [cbn; lia|]. rewrite Ez. cbn [rbind].
  destruct (scale_fun n z (1 / h j) Vz) as [[Ws Ds] Fs]. change (@ndiv RN 1 (h j)) with (1 / h j).
  edestruct (rfold_and (fun k => close (ds_tol S) (D i k) ((uJ u (Y j) i k - uJ u x i k) / h j))) as (b' & E' & Hb');
    [|exists b'; split; [exact E'|]; rewrite Hb'; setoid_rewrite upto_in; reflexivity].
  intros b0 k Hk. apply upto_in in Hk. cbv beta. rewrite !vec_value_at_spec by (rewrite ?Ds, ?Dv; apply Hk). cbn [rbind].
  eexists. split; [reflexivity|]. assert (Q : (dense (vec_scale z (1 / h j : @num RN)) k : R) = (uJ u (Y j) i k - uJ u x i k) / h j).
  { rewrite Fs, Dz, D0, D1 by exact Hk. rewrite <- quotient. fold x. apply Rmult_eq_compat_l. apply Rplus_comm. }
  rewrite Q, Hv by exact Hk. apply and_close.
Qed.

Lemma combined_ok z g J : vec_is n (uG u z) g -> mat_is m n (uJ u z) J ->
  exists v, combined_grad P S (di_duals it) g J = Ok v /\ vec_is n (lagr u m la z) v.
Proof.
  intros [Vg Hg] HJ. unfold combined_grad. fold n. destruct (trans_ok _ _ _ HJ (io_duals _ _ _ HI)) as (r & -> & Vr & Dr). cbn [rbind].
  unfold vec_add. rewrite HZ, rn_n1. destruct (add_scaled_fun n g r (room n) 1 1 Vg Vr) as (v & Ev & Vv & Dv); [cbn; lia|].
  exists v. split; [exact Ev|]. split; [exact Vv|]. intros k Hk. rewrite Dv. req. rewrite Hg, Dr by exact Hk. exact (plus1 _ _).
Qed.
Lemma simple_ok g J hl H j : (0 <= j < n)%Z -> vec_is n (uG u (Y j)) g -> mat_is m n (uJ u (Y j)) J -> vec_is n H hl ->
  exists b, check_second_simple P S it g J hl j = Ok b
    /\ (b = true <-> forall k, (0 <= k < n)%Z -> close (ds_tol S) (H k) ((lagr u m la (Y j) k - lagr u m la x k) / h j)).
Proof.
  intros Hj Hg HJ [[Wh Dh] Hh]. unfold check_second_simple. fold n.
  destruct (combined_ok x _ _ (io_grad _ _ _ HI) (io_jac _ _ _ HI)) as (a & -> & Va & Da). cbn [rbind].
  destruct (check_point_ok j Hj) as (y & -> & _ & _). cbn [rbind snd].
  destruct (combined_ok (Y j) g J Hg HJ) as (c & -> & Vc & Dc). cbn [rbind]. rewrite rn_lit1, rn_n1, rn_n0.
  destruct (add_scaled_fun n a c (room n) (-1) 1 Va Vc) as (z & Ez & Vz & Dz); [cbn; lia|]. rewrite Ez. cbn [rbind].
  destruct (scale_fun n z (1 / h j) Vz) as [[Ws Ds] Fs]. change (@ndiv RN 1 (h j)) with (1 / h j).
  edestruct (rfold_and (fun k => close (ds_tol S) (H k) ((lagr u m la (Y j) k - lagr u m la x k) / h j))) as (b & E & Hb);
    [|exists b; split; [exact E|]; rewrite Hb; setoid_rewrite upto_in; tauto].
  intros b k Hk. apply upto_in in Hk. cbv beta. rewrite !vec_value_at_spec by (rewrite ?Ds, ?Dh; apply Hk). cbn [rbind].
  eexists. split; [reflexivity|]. assert (Q : (dense (vec_scale z (1 / h j : @num RN)) k : R) = (lagr u m la (Y j) k - lagr u m la x k) / h j).
  { rewrite Fs, Dz, Da, Dc by exact Hk. apply quotient. }
  rewrite Q, Hh by exact Hk. apply and_close.
Qed.

Lemma asked_flag k : (0 <= k)%Z -> has_flags f (2 ^ k) = true <-> asked f k.
Proof.
  intros Hk. unfold has_flags, asked. rewrite negb_true_iff, Z.eqb_neq. split.
  - intros H. destruct (Z.testbit f k) eqn:E; [reflexivity|]. exfalso. apply H. apply Z.bits_inj'. intros q Hq.
    rewrite Z.land_spec, Z.bits_0, Z.pow2_bits_eqb by lia. destruct (Z.eqb_spec k q); [subst; now rewrite E|apply andb_false_r].
  - intros H E. assert (Z.testbit (Z.land f (2 ^ k)) k = false) by (rewrite E; apply Z.bits_0).
    rewrite Z.land_spec, H, Z.pow2_bits_true in H0 by lia. discriminate.
Qed.
Lemma skip_ok (b : bool) r (Q : Prop) : (b = true -> exists c, r = Ok c /\ (c = true <-> Q)) ->
  exists c, skip_unless b r = Ok c /\ (c = true <-> (b = true -> Q)).
Proof.
  intros H. destruct b; cbn [skip_unless].
  - destruct (H eq_refl) as (c & -> & Hc). exists c. split; [reflexivity|]. rewrite Hc. tauto.
  - exists true. split; [reflexivity|]. split; [intros _ E; discriminate|reflexivity].
Qed.
Lemma need_ok {A} (b : bool) (r : res A) (Q : A -> Prop) : (b = true -> exists a, r = Ok a /\ Q a) ->
  exists o, need b r = Ok o /\ (b = true -> exists a, o = Some a /\ Q a).
Proof.
  intros H. destruct b; cbn [need].
  - destruct (H eq_refl) as (a & -> & Ha). cbn [rbind]. exists (Some a). split; [reflexivity|]. eauto.
  - exists None. split; [reflexivity|discriminate].
Qed.

Lemma check_deriv_ok p j : (0 <= j < n)%Z -> vok n p -> dense p = Y j ->
  exists b, check_deriv P S f it p j (h j) = Ok b /\ (b = true <-> fits u n m (ds_base S) (ds_tol S) f x la j).
Proof.
  intros Hj Vp Dp. unfold check_deriv, hess_products. rewrite rn_n1. fold n m.
  destruct (unit_dir_ok n j 1 Hj) as (e & -> & Ve & De). cbn [rbind]. change (fun i : Z => if (i =? j)%Z then 1 else 0) with (unitv j) in De.
  destruct (empty_ok m 1 (po_m _ _ HP) ltac:(lia)) as [V0 D0].
  destruct (po_hess _ _ HP p e _ Vp Ve V0) as (hf & Ehf & Hhf). rewrite Dp, De, D0 in Hhf.
  destruct (po_hess _ _ HP p e _ Vp Ve (io_duals _ _ _ HI)) as (hl & Ehl & Hhl). rewrite Dp, De in Hhl. fold la in Hhl.
  destruct (cons_products_ok p e hf _ Vp Ve Hhf) as (hc & Ehc & Hhc). rewrite Dp, De in Hhc.
  destruct (po_grad _ _ HP p Vp) as (g & Eg & Hg). rewrite Dp in Hg.
  destruct (po_cons _ _ HP p Vp) as (c & Ec & Hc). rewrite Dp in Hc.
  destruct (po_jac _ _ HP p Vp) as (J & EJ & HJ). rewrite Dp in HJ.
  destruct (need_ok (second_cons f || second_obj f) (dp_hess P p e (mkvec m 1 [])) (fun v => v = hf)) as (o1 & -> & H1); [eauto|]. cbn [rbind].
  destruct (need_ok (second_cons f) (h0 <- given o1 ;; cons_products P S p e h0) (fun v => v = hc)) as (o2 & -> & H2).
  { intros Hs. destruct H1 as (? & -> & ->); [now rewrite Hs|]. cbn [given rbind]. eauto. }
  cbn [rbind]. destruct (need_ok (second_simple f) (dp_hess P p e (di_duals it)) (fun v => v = hl)) as (o3 & -> & H3); [eauto|]. cbn [rbind].
  unfold eval_point. rewrite Eg, Ec, EJ.
  destruct (need_ok (first_obj f) (dp_obj P p) (fun v => v = uF u (Y j))) as (o4 & -> & H4); [intros _; exists (uF u (Y j)); split; [rewrite (po_obj _ _ HP p Vp), Dp; reflexivity|reflexivity]|]. cbn [rbind].
  destruct (need_ok (second_obj f || second_simple f) (Ok g) (fun v => v = g)) as (o5 & -> & H5); [eauto|]. cbn [rbind].
  destruct (need_ok (first_cons f) (Ok c) (fun v => v = c)) as (o6 & -> & H6); [eauto|]. cbn [rbind].
  destruct (need_ok (second_cons f || second_simple f) (Ok J) (fun v => v = J)) as (o7 & -> & H7); [eauto|]. cbn [rbind].
  edestruct (skip_ok (first_obj f) (o <- given o4 ;; check_first_obj S it o j (h j))) as (b1 & -> & B1).
  { intros Hs. destruct (H4 Hs) as (? & -> & ->). cbn [given rbind]. exact (first_obj_ok j Hj). }
  cbn [rbind]. edestruct (skip_ok (first_cons f) (c0 <- given o6 ;; check_first_cons P S it c0 j (h j))) as (b2 & -> & B2).
  { intros Hs. destruct (H6 Hs) as (? & -> & ->). cbn [given rbind]. exact (first_cons_ok c j Hj Hc). }
  cbn [rbind]. edestruct (skip_ok (second_obj f) (g0 <- given o5 ;; hf0 <- given o1 ;; check_second_obj P S it g0 hf0 (h j))) as (b3 & -> & B3).
  { intros Hs. destruct H5 as (? & -> & ->); [now rewrite Hs|]. destruct H1 as (? & -> & ->); [rewrite Hs; apply orb_true_r|].
    cbn [given rbind]. exact (second_obj_ok g hf _ j Hg Hhf). }
  cbn [rbind]. edestruct (skip_ok (second_cons f) (J0 <- given o7 ;; hc0 <- given o2 ;; check_second_cons P S it J0 hc0 (h j))) as (b4 & -> & B4).
  { intros Hs. destruct H7 as (? & -> & ->); [now rewrite Hs|]. destruct (H2 Hs) as (? & -> & ->).
    cbn [given rbind]. exact (second_cons_ok J hc _ j HJ Hhc). }
  cbn [rbind]. edestruct (skip_ok (second_simple f) (g0 <- given o5 ;; J0 <- given o7 ;; hl0 <- given o3 ;; check_second_simple P S it g0 J0 hl0 j)) as (b5 & -> & B5).
  { intros Hs. destruct H5 as (? & -> & ->); [rewrite Hs; apply orb_true_r|]. destruct H7 as (? & -> & ->); [rewrite Hs; apply orb_true_r|].
    destruct (H3 Hs) as (? & -> & ->). cbn [given rbind]. exact (simple_ok g J hl _ j Hj Hg HJ Hhl). }
  cbn [rbind]. eexists. split; [reflexivity|]. rewrite !andb_true_iff, B1, B2, B3, B4, B5.
  unfold first_obj, first_cons, second_obj, second_cons, second_simple.
  rewrite (asked_flag 0), (asked_flag 1), (asked_flag 3), (asked_flag 4), (asked_flag 2) by lia.
  unfold fits. fold (h j). fold (Y j). cbn beta zeta. tauto.
Qed.

Lemma loop_ok l s : (forall j, In j l -> (0 <= j < n)%Z) ->
  exists b, rfold (check_var P S f it) s l = Ok (b, match l with [] => snd s | _ => di_x it end)
    /\ (b = true <-> fst s = true /\ forall j, In j l -> skipped u (ds_base S) x j \/ fits u n m (ds_base S) (ds_tol S) f x la j).
Proof.
  revert s. induction l as [|j l IH]; intros s Hl; cbn [rfold].
  - exists (fst s). destruct s. split; [reflexivity|]. cbn. split; [intros ->; split; [reflexivity|intros ? []]|tauto].
  - assert (Hj : (0 <= j < n)%Z) by (apply Hl; now left).
    assert (E : exists b, check_var P S f it s j = Ok ((fst s && b)%bool, di_x it)
        /\ (b = true <-> skipped u (ds_base S) x j \/ fits u n m (ds_base S) (ds_tol S) f x la j)).
    { unfold check_var. destruct (check_point_ok j Hj) as (y & -> & Vy & Dy). cbn [rbind fst snd].
      rewrite (po_set _ _ HP y Vy), Dy. cbn [rbind]. rewrite (po_set _ _ HP _ (io_x _ _ _ HI)), (io_acc _ _ _ HI).
      unfold skipped. fold (h j). fold (Y j). destruct (uRej u (Y j)) eqn:Er.
      - cbn [rbind]. exists true. split; [reflexivity|]. tauto.
      - destruct (check_deriv_ok y j Hj Vy Dy) as (b & -> & Hb). cbn [rbind]. exists b. split; [reflexivity|]. rewrite Hb. split; [tauto|intros [|]; [discriminate|assumption]]. }
    destruct E as (b & -> & Hb). cbn [rbind]. destruct (IH ((fst s && b)%bool, di_x it)) as (b' & Eb & Hb'); [intros; apply Hl; now right|].
    exists b'. rewrite Eb. split; [destruct l; reflexivity|]. rewrite Hb'. cbn [fst]. rewrite andb_true_iff, Hb. split.
    + intros [[H1 H2] H3]. split; [exact H1|]. intros i [<-|Hi]; auto.
    + intros [H1 H2]. split; [split; [exact H1|apply H2; now left]|]. intros; apply H2; now right.
Qed.
End Proofs.

(** ** C84 *)
(** The check succeeds if and only if all comparisons asked for hold at the points that are not rejected. *)
Theorem C84_check : forall u P S f it p, prob_ok u P -> iter_ok u P it -> ds_zero S = 0 -> 0 < ds_base S -> f <> 0%Z ->
  let fit := all_fit u (dp_n P) (dp_m P) (ds_base S) (ds_tol S) f (dense (di_x it)) (dense (di_duals it)) in
  (fit /\ exists q, deriv_check P S f it p = Ok q) \/ (~ fit /\ deriv_check P S f it p = Err EInvalidDeriv).
Proof.
  intros u P S f it p HP HI HZ HB Hf fit. unfold deriv_check, deriv_loop. destruct (Z.eqb_spec f 0); [contradiction|].
  destruct (loop_ok u P S f it HP HI HZ HB (upto (dp_n P)) (true, p)) as (b & -> & Hb); [intros j; apply upto_in|]. cbn [rbind fst snd].
  assert (Hb' : b = true <-> fit). { rewrite Hb. unfold fit, all_fit. setoid_rewrite upto_in. cbn. tauto. }
  destruct b; [left|right]; (split; [|eauto]); [now apply Hb'|]. intros H. apply Hb' in H. discriminate.
Qed.
Print Assumptions C84_check.

(** Whether or not the derivatives are valid, the problem is at the iterate afterwards. *)
Theorem C84_restored : forall u P S f it p, prob_ok u P -> iter_ok u P it -> ds_zero S = 0 -> 0 < ds_base S ->
  exists b, deriv_loop P S f it p = Ok (b, if (dp_n P =? 0)%Z then p else di_x it).
Proof.
  intros u P S f it p HP HI HZ HB. unfold deriv_loop.
  destruct (loop_ok u P S f it HP HI HZ HB (upto (dp_n P)) (true, p)) as (b & -> & _); [intros j; apply upto_in|].
  exists b. pose proof (po_n _ _ HP). destruct (Z.eqb_spec (dp_n P) 0) as [->|Hn]; [reflexivity|].
  destruct (upto (dp_n P)) eqn:E; [|reflexivity]. assert (In 0%Z []) as []. rewrite <- E. apply upto_in. lia.
Qed.
Print Assumptions C84_restored.

(** An accepted entry of the gradient is, up to the tolerance, the derivative at a point between the iterate and the perturbed point. *)
Theorem C84_mean_value : forall u P S f it p q j D, prob_ok u P -> iter_ok u P it -> ds_zero S = 0 -> 0 < ds_base S ->
  asked f 0 -> (0 <= j < dp_n P)%Z -> deriv_check P S f it p = Ok q ->
  let x := dense (di_x it) in let h := step_of (ds_base S) x j in
  uRej u (shift x j h) = false ->
  (forall t, 0 <= t <= h -> derivable_pt_lim (fun t => uF u (shift x j t)) t (D t)) ->
  exists t, 0 < t < h /\ close (ds_tol S) (uG u x j) (D t).
Proof.
  intros u P S f it p q j D HP HI HZ HB Ha Hj E x h Hr HD.
  assert (Hf : f <> 0%Z). { intros ->. unfold asked in Ha. rewrite Z.bits_0 in Ha. discriminate. }
  destruct (C84_check u P S f it p HP HI HZ HB Hf) as [[H _]|[_ H]]; [|congruence].
  assert (Hh : 0 < h) by exact (h_pos S it HB j).
  destruct (H j Hj) as [Hs|[H1 _]]; [unfold skipped in Hs; fold x h in Hs; congruence|]. specialize (H1 Ha). fold x h in H1.
  destruct (MVT_cor2 (fun t => uF u (shift x j t)) D 0 h Hh HD) as (t & Et & Ht). exists t. split; [exact Ht|].
  assert (E0 : shift x j 0 = x). { apply functional_extensionality. intros i. unfold shift. destruct (i =? j)%Z; lra. }
  cbv beta in Et. rewrite E0 in Et. rewrite Et in H1. replace (D t * (h - 0) / h) with (D t) in H1 by (field; lra). exact H1.
Qed.
Print Assumptions C84_mean_value.

Lemma close_refl tol a b : 0 <= tol -> a = b -> close tol a b.
Proof.
  intros Ht ->. unfold close. rewrite Rminus_diag_eq, Rabs_R0 by reflexivity. apply Rmult_le_pos; [exact Ht|].
  pose proof (Rmax_r (Rmax (Rabs b) (Rabs b)) 1). lra.
Qed.
Lemma sumd_shift n a x j h : (0 <= j < n)%Z -> sumd n (fun l => a l * shift x j h l) = sumd n (fun l => a l * x l) + h * a j.
Proof.
  intros Hj. rewrite <- (AugJacReal.sumd_delta n j a Hj). rewrite <- sumd_scal, <- sumd_plus. apply sumd_ext. intros i _.
  unfold shift. rewrite (Z.eqb_sym j i). destruct (i =? j)%Z; ring.
Qed.
Lemma sumd_unitv n a j : (0 <= j < n)%Z -> sumd n (fun l => a l * unitv j l) = a j.
Proof.
  intros Hj. rewrite <- (AugJacReal.sumd_delta n j a Hj). apply sumd_ext. intros i _. unfold unitv. rewrite (Z.eqb_sym j i). ring.
Qed.

(** Right derivatives are accepted where differences are exact: first derivatives of affine functions,
    second derivatives of quadratic ones. *)
Theorem C84_accepts : forall u P S f it p a b a0 b0 g Q B A, prob_ok u P -> iter_ok u P it -> ds_zero S = 0 -> 0 < ds_base S -> 0 <= ds_tol S ->
  let n := dp_n P in let m := dp_m P in
  (asked f 0 -> forall z, uF u z = a0 + sumd n (fun l => a l * z l) /\ forall k, uG u z k = a k) ->
  (asked f 1 -> forall z i, uC u z i = b0 i + sumd n (fun l => b i l * z l) /\ forall k, uJ u z i k = b i k) ->
  (asked f 2 \/ asked f 3 \/ asked f 4 -> forall z,
    (forall k, uG u z k = g k + sumd n (fun l => Q k l * z l)) /\
    (forall i k, uJ u z i k = B i k + sumd n (fun l => A i k l * z l)) /\
    (forall mu d k, uH u z mu d k = sumd n (fun l => Q k l * d l) + sumd m (fun i => mu i * sumd n (fun l => A i k l * d l)))) ->
  exists q, deriv_check P S f it p = Ok q.
Proof.
  intros u P S f it p a b a0 b0 g Q B A HP HI HZ HB HT n m H0 H1 H2.
  destruct (Z.eq_dec f 0) as [->|Hf]; [unfold deriv_check; cbn; eauto|].
  destruct (C84_check u P S f it p HP HI HZ HB Hf) as [[_ H]|[H _]]; [exact H|]. exfalso. apply H. intros j Hj. right.
  assert (Hh : step_of (ds_base S) (dense (di_x it)) j <> 0) by exact (Rgt_not_eq _ _ (h_pos S it HB j)).
  unfold fits. fold n m in Hj |- *. set (x := dense (di_x it)) in *. set (h := step_of (ds_base S) x j) in *. cbv zeta. fold h.
  split; [|split; [|split; [|split]]].
  - intros Ha. apply close_refl; [exact HT|]. destruct (H0 Ha (shift x j h)) as [-> _], (H0 Ha x) as [-> ->].
    rewrite sumd_shift by exact Hj. field. exact Hh.
  - intros Ha i Hi. apply close_refl; [exact HT|]. destruct (H1 Ha (shift x j h) i) as [-> _], (H1 Ha x i) as [-> ->].
    rewrite sumd_shift by exact Hj. field. exact Hh.
  - intros Ha k Hk. apply close_refl; [exact HT|]. destruct (H2 ltac:(tauto) (shift x j h)) as (-> & _ & ->), (H2 ltac:(tauto) x) as (-> & _).
    rewrite sumd_shift, sumd_unitv by exact Hj. rewrite (sumd_zero m) by (intros; ring). field. exact Hh.
  - intros Ha i k Hi Hk. apply close_refl; [exact HT|]. destruct (H2 ltac:(tauto) (shift x j h)) as (_ & -> & HH), (H2 ltac:(tauto) x) as (_ & -> & _).
    rewrite !HH, !sumd_shift, !sumd_unitv by exact Hj. rewrite (sumd_zero m (fun i => 0 * _)) by (intros; ring).
    rewrite (sumd_ext m _ (fun q => A q k j * unitv i q)) by (intros; rewrite sumd_unitv by exact Hj; ring). rewrite sumd_unitv by exact Hi. field. exact Hh.
  - intros Ha k Hk. apply close_refl; [exact HT|]. unfold lagr. destruct (H2 ltac:(tauto) (shift x j h)) as (-> & HJ & ->), (H2 ltac:(tauto) x) as (-> & HJ' & _).
    rewrite sumd_shift, sumd_unitv by exact Hj.
    rewrite (sumd_ext m (fun i => uJ u (shift x j h) i k * _) (fun i => uJ u x i k * dense (di_duals it) i + h * (dense (di_duals it) i * A i k j))).
    2:{ intros i Hi. rewrite HJ, HJ', sumd_shift by exact Hj. ring. }
    rewrite sumd_plus, sumd_scal. rewrite (sumd_ext m (fun i => _ * sumd n _) (fun i => dense (di_duals it) i * A i k j)) by (intros; rewrite sumd_unitv by exact Hj; reflexivity).
    field. exact Hh.
Qed.
Print Assumptions C84_accepts.

(** ** One variable, one constraint *)
Definition one_vec (a : R) : rvec := mkvec 1 1 [(0%Z, a)].
Definition one_mat (a : R) : @mat RN := mkmat 1 1 1 1 [0%Z; 1%Z] [(0%Z, a)].
Definition one_prob (u : user) : @dprob RN :=
  @mkdprob RN 1 1 (fun x => Ok (uRej u (dense x))) (fun x => Ok (uF u (dense x))) (fun x => Ok (one_vec (uG u (dense x) 0%Z)))
    (fun x => Ok (one_vec (uC u (dense x) 0%Z))) (fun x => Ok (one_mat (uJ u (dense x) 0%Z 0%Z)))
    (fun x d mu => Ok (one_vec (uH u (dense x) (dense mu) (dense d) 0%Z))).
Definition one_iter (u : user) (a la : R) : @diter RN :=
  let x := dense (one_vec a) in
  @mkditer RN (one_vec a) (uF u x) (one_vec (uG u x 0%Z)) (one_vec (uC u x 0%Z)) (one_mat (uJ u x 0%Z 0%Z)) (one_vec la).
Lemma one_vec_ok f a : a = f 0%Z -> vec_is 1 f (one_vec a).
Proof.
  intros ->. split; [split; [|reflexivity]; split; [cbn; lia|]; split; cbn; lia|]. intros i Hi. replace i with 0%Z by lia.
  unfold dense. cbn. reflexivity.
Qed.
Lemma one_mat_ok A a : a = A 0%Z 0%Z -> mat_is 1 1 A (one_mat a).
Proof.
  intros ->. exists [[(0%Z, A 0%Z 0%Z)]]. split; [|split; [reflexivity|split; [reflexivity|]]].
  - split; [|reflexivity]. split; [cbn; lia|]. split; [cbn; lia|]. split.
    + intros [|[|k]] Hk; cbn in *; try reflexivity; lia.
    + split; [reflexivity|]. split; [exists []; reflexivity|]. split; [cbn; lia|]. constructor; [cbn; lia|constructor].
  - intros i j Hi Hj. replace i with 0%Z by lia. replace j with 0%Z by lia. reflexivity.
Qed.
Lemma one_prob_ok u : prob_ok u (one_prob u).
Proof.
  split; cbn; try lia; intros; try reflexivity; eexists; (split; [reflexivity|]); try (now apply one_vec_ok); now apply one_mat_ok.
Qed.
Lemma one_iter_ok u a la : uRej u (dense (one_vec a)) = false -> iter_ok u (one_prob u) (one_iter u a la).
Proof.
  intros H. split; cbn; auto; try (now apply one_vec_ok); try (now apply one_mat_ok).
  - apply (one_vec_ok (fun _ => a)). reflexivity.
  - apply (one_vec_ok (fun _ => la)). reflexivity.
Qed.
Definition one_set : @dset RN := @mkdset RN (1 / 100) (1 / 10) 0.
Lemma one_x a : dense (one_vec a) 0%Z = a. Proof. reflexivity. Qed.

(** The quadratic problem x^2/2 with x^2: all second derivatives are accepted; a wrong gradient is found. *)
Definition good : user := mkuser (fun z => z 0%Z * z 0%Z / 2) (fun z _ => z 0%Z) (fun z _ => z 0%Z * z 0%Z) (fun z _ _ => 2 * z 0%Z)
  (fun z mu d _ => d 0%Z + 2 * mu 0%Z * d 0%Z) (fun _ => false).
Definition bad : user := mkuser (fun z => z 0%Z) (fun z _ => 3) (fun _ _ => 0) (fun _ _ _ => 0) (fun _ _ _ _ => 0) (fun _ => false).
Lemma sumd1 g : sumd 1 g = g 0%Z.
Proof.
  rewrite <- (AugJacReal.sumd_delta 1 0 g) by lia. apply sumd_ext. intros i Hi. replace i with 0%Z by lia. cbn [Z.eqb]. ring.
Qed.
Example C84_example :
  (exists q, deriv_check (one_prob good) one_set 28 (one_iter good 3 5) (one_vec 3) = Ok q)
  /\ deriv_check (one_prob bad) one_set 1 (one_iter bad 3 5) (one_vec 3) = Err EInvalidDeriv.
Proof.
  split.
  - apply (C84_accepts good (one_prob good) one_set 28 (one_iter good 3 5) (one_vec 3) (fun _ => 0) (fun _ _ => 0) 0 (fun _ => 0)
      (fun _ => 0) (fun _ _ => 1) (fun _ _ => 0) (fun _ _ _ => 2)); try (cbn; lra); try (intros H; discriminate H).
    + apply one_prob_ok.
    + now apply one_iter_ok.
    + intros _ z. cbn [one_prob dp_n dp_m good uG uJ uH]. split; [|split]; intros; rewrite ?sumd1; ring.
  - destruct (C84_check bad (one_prob bad) one_set 1 (one_iter bad 3 5) (one_vec 3)) as [[H _]|[_ H]]; try exact H; try (cbn; lra); try discriminate.
    + apply one_prob_ok.
    + now apply one_iter_ok.
    + exfalso. destruct (H 0%Z) as [Hs|[H1 _]]; [cbn; lia|discriminate Hs|]. specialize (H1 eq_refl).
      cbn [bad uF uG] in H1. set (y := dense (di_x (one_iter bad 3 5))) in *. change (ds_base one_set) with (1 / 100) in H1. change (ds_tol one_set) with (1 / 10) in H1.
      assert (Hy : y 0%Z = 3) by reflexivity. set (h := step_of (1 / 100) y 0) in *.
      assert (Hh : 0 < h) by (unfold h, step_of; pose proof (Rmax_r (Rabs (y 0%Z)) 1); lra).
      unfold shift in H1. cbn [Z.eqb] in H1. replace ((y 0%Z + h - y 0%Z) / h) with 1 in H1 by (field; lra).
      unfold close in H1. rewrite (Rabs_pos_eq (3 - 1)), (Rabs_pos_eq 3), (Rabs_pos_eq 1) in H1 by lra.
      rewrite (Rmax_left 3 1), (Rmax_left 3 1) in H1 by lra. lra.
Qed.

(** The products of the Hessian are taken at the perturbed points only: at the iterate itself they may be anything. *)
Theorem C84_iterate_refuted : exists u P S it, prob_ok u P /\ iter_ok u P it /\ ds_zero S = 0 /\ 0 < ds_base S /\ 0 <= ds_tol S < 1
  /\ (forall z k, uG u z k = 0) /\ (forall z i k, uJ u z i k = 0)
  /\ (forall mu, uH u (dense (di_x it)) mu (unitv 0) 0%Z = 5)
  /\ exists q, deriv_check P S 28 it (di_x it) = Ok q.
Proof.
  set (u := mkuser (fun _ => 0) (fun _ _ => 0) (fun _ _ => 0) (fun _ _ _ => 0) (fun z _ _ _ => if Req_EM_T (z 0%Z) 3 then 5 else 0) (fun _ => false)).
  exists u, (one_prob u), one_set, (one_iter u 3 5). pose proof (one_prob_ok u) as HP. assert (HI : iter_ok u (one_prob u) (one_iter u 3 5)) by now apply one_iter_ok.
  split; [exact HP|]. split; [exact HI|]. split; [reflexivity|]. split; [cbn; lra|]. split; [cbn; lra|]. split; [reflexivity|]. split; [reflexivity|].
  split. { intros mu. cbn [u uH]. change (dense (di_x (one_iter u 3 5)) 0%Z) with 3. destruct (Req_EM_T 3 3); [reflexivity|contradiction]. }
  destruct (C84_check u (one_prob u) one_set 28 (one_iter u 3 5) (one_vec 3) HP HI eq_refl) as [[_ H]|[H _]]; [cbn; lra|discriminate|exact H|].
  exfalso. apply H. intros j Hj. cbn in Hj. replace j with 0%Z by lia. right.
  set (y := dense (di_x (one_iter u 3 5))). change (ds_base one_set) with (1 / 100). change (ds_tol one_set) with (1 / 10).
  unfold fits. set (h := step_of (1 / 100) y 0). cbv zeta.
  assert (Hh : 0 < h) by (unfold h, step_of; pose proof (Rmax_r (Rabs (y 0%Z)) 1); lra).
  assert (HH : forall mu d k, uH u (shift y 0 h) mu d k = 0).
  { intros. cbn [u uH]. unfold shift. cbn [Z.eqb]. change (y 0%Z) with 3. destruct (Req_EM_T (3 + h) 3); [lra|reflexivity]. }
  split; [intros Ha; discriminate Ha|]. split; [intros Ha; discriminate Ha|]. unfold lagr. cbn [u uG uJ].
  split; [|split]; intros; rewrite ?HH; apply close_refl; try lra; try (field; lra).
Qed.
Print Assumptions C84_iterate_refuted.

(** Directions in which the perturbed point is rejected are not checked: a wrong gradient is accepted. *)
Theorem C84_rejected_refuted : exists u P S it, prob_ok u P /\ iter_ok u P it /\ ds_zero S = 0 /\ 0 < ds_base S /\ 0 <= ds_tol S < 1
  /\ (forall z, uF u z = z 0%Z) /\ (forall z, uG u z 0%Z = 100)
  /\ exists q, deriv_check P S 1 it (di_x it) = Ok q.
Proof.
  set (u := mkuser (fun z => z 0%Z) (fun _ _ => 100) (fun _ _ => 0) (fun _ _ _ => 0) (fun _ _ _ _ => 0) (fun z => if Req_EM_T (z 0%Z) 3 then false else true)).
  assert (Hr : uRej u (dense (one_vec 3)) = false). { cbn [u uRej]. change (dense (one_vec 3) 0%Z) with 3. destruct (Req_EM_T 3 3); [reflexivity|contradiction]. }
  exists u, (one_prob u), one_set, (one_iter u 3 5). pose proof (one_prob_ok u) as HP. pose proof (one_iter_ok u 3 5 Hr) as HI.
  split; [exact HP|]. split; [exact HI|]. split; [reflexivity|]. split; [cbn; lra|]. split; [cbn; lra|]. split; [reflexivity|]. split; [reflexivity|].
  destruct (C84_check u (one_prob u) one_set 1 (one_iter u 3 5) (one_vec 3) HP HI eq_refl) as [[_ H]|[H _]]; [cbn; lra|discriminate|exact H|].
  exfalso. apply H. intros j Hj. cbn in Hj. replace j with 0%Z by lia. left. unfold skipped.
  set (y := dense (di_x (one_iter u 3 5))). change (ds_base one_set) with (1 / 100). set (h := step_of (1 / 100) y 0).
  assert (Hh : 0 < h) by (unfold h, step_of; pose proof (Rmax_r (Rabs (y 0%Z)) 1); lra).
  cbn [u uRej]. unfold shift. cbn [Z.eqb]. change (y 0%Z) with 3. destruct (Req_EM_T (3 + h) 3); [lra|reflexivity].
Qed.
Print Assumptions C84_rejected_refuted.

(** The hypotheses of [C84_mean_value] hold for the objective 2 x; the problem is at the iterate afterwards. *)
Definition lin : user := mkuser (fun z => 2 * z 0%Z) (fun _ _ => 2) (fun _ _ => 0) (fun _ _ _ => 0) (fun _ _ _ _ => 0) (fun _ => false).
Example C84_example_mean :
  (exists q t, deriv_check (one_prob lin) one_set 1 (one_iter lin 3 5) (one_vec 4) = Ok q
     /\ 0 < t < step_of (1 / 100) (dense (one_vec 3)) 0%Z /\ close (1 / 10) 2 2)
  /\ exists b, deriv_loop (one_prob bad) one_set 1 (one_iter bad 3 5) (one_vec 4) = Ok (b, one_vec 3).
Proof.
  split.
  - assert (HI : iter_ok lin (one_prob lin) (one_iter lin 3 5)) by now apply one_iter_ok.
    destruct (C84_accepts lin (one_prob lin) one_set 1 (one_iter lin 3 5) (one_vec 4) (fun _ => 2) (fun _ _ => 0) 0 (fun _ => 0)
      (fun _ => 0) (fun _ _ => 0) (fun _ _ => 0) (fun _ _ _ => 0)) as (q & Eq); try (cbn; lra); try exact HI; try (intros H; discriminate H); try apply one_prob_ok.
    + intros _ z. cbn [one_prob dp_n lin uF uG]. rewrite sumd1. split; [ring|reflexivity].
    + intros [H|[H|H]]; discriminate H.
    + destruct (C84_mean_value lin (one_prob lin) one_set 1 (one_iter lin 3 5) (one_vec 4) q 0 (fun _ => 2) (one_prob_ok lin) HI) as (t & Ht & Hc);
        try exact Eq; try reflexivity; try (cbn; lra); try (cbn; lia).
      * intros t _. cbn [lin uF]. unfold shift. cbn [Z.eqb]. change (dense (di_x (one_iter lin 3 5)) 0%Z) with 3.
        assert (Hd : derivable_pt_lim (mult_real_fct 2 (plus_fct (fct_cte 3) id)) t (2 * (0 + 1))).
        { apply derivable_pt_lim_scal, derivable_pt_lim_plus; [apply derivable_pt_lim_const|apply derivable_pt_lim_id]. }
        replace (2 * (0 + 1)) with 2 in Hd by ring. exact Hd.
      * exists q, t. split; [exact Eq|]. split; [exact Ht|exact Hc].
  - apply (C84_restored bad (one_prob bad) one_set 1 (one_iter bad 3 5) (one_vec 4)); [apply one_prob_ok|now apply one_iter_ok|reflexivity|cbn; lra].
Qed.

(** If the iterate itself is rejected when the problem is set back, the check reports an internal error. *)
Definition accepting (u : user) : user := mkuser (uF u) (uG u) (uC u) (uJ u) (uH u) (fun _ => false).
Theorem C84_lost : forall u P S f it p, prob_ok u P -> iter_ok (accepting u) P it -> uRej u (dense (di_x it)) = true ->
  ds_zero S = 0 -> 0 < ds_base S -> f <> 0%Z -> (0 < dp_n P)%Z -> deriv_check P S f it p = Err EInternal.
Proof.
  intros u P S f it p HP HI Hr HZ HB Hf Hn.
  set (P0 := @mkdprob RN (dp_n P) (dp_m P) (fun _ => Ok false) (dp_obj P) (dp_grad P) (dp_cons P) (dp_jac P) (dp_hess P)).
  assert (HP0 : prob_ok (accepting u) P0) by (destruct HP; split; cbn; auto).
  assert (HI0 : iter_ok (accepting u) P0 it) by (destruct HI; split; cbn; auto).
  unfold deriv_check, deriv_loop. destruct (Z.eqb_spec f 0); [contradiction|].
  assert (Hu : exists l, upto (dp_n P) = 0%Z :: l).
  { unfold upto. destruct (Z.to_nat (dp_n P)) eqn:E; [lia|]. eexists. reflexivity. }
  destruct Hu as (l & ->). cbn [rfold]. unfold check_var at 1. pose proof (conj (Z.le_refl 0) Hn : (0 <= 0 < dp_n P0)%Z) as Hj.
  destruct (check_point_ok (accepting u) P0 S it HI0 HZ 0%Z Hj) as (y & Ey & Vy & Dy). change (check_point P0 S (di_x it) 0) with (check_point P S (di_x it) 0) in Ey.
  rewrite Ey. cbn [rbind fst snd]. rewrite (po_set _ _ HP y Vy), (po_set _ _ HP _ (io_x _ _ _ HI)), Hr. cbn [rbind].
  destruct (uRej u (dense y)); [reflexivity|].
  destruct (check_deriv_ok _ P0 S f it HP0 HI0 HZ HB y 0%Z Hj Vy Dy) as (b & Eb & _).
  match goal with |- context [check_deriv P S f it y 0%Z ?h] => change (check_deriv P0 S f it y 0%Z h) with (check_deriv P S f it y 0%Z h) in Eb end.
  rewrite Eb. reflexivity.
Qed.
Print Assumptions C84_lost.
Example C84_example_lost : let u := mkuser (uF good) (uG good) (uC good) (uJ good) (uH good) (fun _ => true) in
  deriv_check (one_prob u) one_set 31 (one_iter u 3 5) (one_vec 3) = Err EInternal.
Proof.
  intros u. apply (C84_lost u); try reflexivity; try (cbn; lra); try discriminate; [apply one_prob_ok|].
  destruct (one_iter_ok (accepting u) 3 5 eq_refl). split; assumption.
Qed.
