(** The systems over the reals: solutions of smallest norm, least squares multipliers and
    projections from a factorization that solves regular systems. *)
From Coq Require Import Reals Lra.
From Verif Require Import Base Num Cmp Sparse Vec VecFacts Order VecFacts2 RSum VecReal QnReal Mat MatFacts MatFacts2 MatFacts3 MatFacts4 Arr
  WorkingSet WorkingSetFacts DualEst DualEstFacts Steihaug SteihaugFacts LineSearch LineSearchFacts WorkingStep WorkingStepReal Gauss AugJac AugJacFacts AugJacUpper AugJacMain.
Local Open Scope R_scope.

Definition oR (o : option R) : R := match o with Some x => x | None => 0 end.

(** The matrix of a system; of a lower triangular part the symmetric completion. *)
Definition sysmat (lower : bool) (ms : list (list (Z * R))) (i j : Z) : R :=
  if lower then (if (j <=? i)%Z then mR ms i j else mR ms j i) else mR ms i j.

(** A factorization that accepts and solves all regular systems. *)
Definition factorizes (F : @fact RN) : Prop := forall m ms, stores m ms -> mnr m = mnc m ->
  regular (mnc m) (sysmat (f_lower F) ms) ->
  f_set F m = Ok tt /\
  forall rhs, vok (mnc m) rhs -> exists raw, f_solve F m rhs = Ok raw /\ Z.of_nat (length raw) = mnc m
    /\ forall i, (0 <= i < mnc m)%Z -> sumd (mnc m) (fun j => sysmat (f_lower F) ms i j * nth (Z.to_nat j) raw 0) = dense rhs i.

(** Entry [j] of row [k] of the working set. *)
Definition wrow (w : wset) (cs : list (list (Z * R))) (k j : Z) : R := oR (@row_entry RN w cs k j).
Definition rows_independent (w : wset) (cs : list (list (Z * R))) : Prop :=
  forall y, (forall j, (0 <= j < wnv w)%Z -> sumd (ws_size w) (fun k => wrow w cs k j * y k) = 0) ->
    forall k, (0 <= k < ws_size w)%Z -> y k = 0.

Definition Aapp w cs (x : Z -> R) (k : Z) : R := sumd (wnv w) (fun j => wrow w cs k j * x j).
Definition Atapp w cs (y : Z -> R) (j : Z) : R := sumd (ws_size w) (fun k => wrow w cs k j * y k).

Lemma adjoint w cs x y : sumd (ws_size w) (fun k => Aapp w cs x k * y k) = sumd (wnv w) (fun j => x j * Atapp w cs y j).
Proof.
  unfold Aapp, Atapp.
  transitivity (sumd (ws_size w) (fun k => sumd (wnv w) (fun j => wrow w cs k j * x j * y k))).
  - apply sumd_ext. intros k _. rewrite Rmult_comm, <- sumd_scal. apply sumd_ext. intros; ring.
  - rewrite sumd_swap. apply sumd_ext. intros j _. rewrite <- sumd_scal. apply sumd_ext. intros; ring.
Qed.

Lemma mR_get cs i j : mR cs i j = oR (mget cs i j).
Proof. unfold mR, mdense, mget. destruct (get _ _); cbn; [reflexivity|apply rn_n0]. Qed.

Lemma sumd_delta d k (f : Z -> R) : (0 <= k < d)%Z -> sumd d (fun j => (if (k =? j)%Z then 1 else 0) * f j) = f k.
Proof.
  intros Hk. rewrite <- (rsum_delta (Z.to_nat d) k (f k)) by lia. apply sumd_ext. intros j Hj. destruct (Z.eqb_spec k j) as [->|]; ring.
Qed.

(** The system is regular exactly if the rows are linearly independent. *)
Lemma rows_regular w cs M : consistent w -> let n := wnv w in let d := (wnv w + ws_size w)%Z in
  (forall x, (forall i, (0 <= i < n)%Z -> sumd d (fun j => M i j * x j) = x i + Atapp w cs (fun k => x (n + k)%Z) i) /\
             (forall k, (0 <= k < ws_size w)%Z -> sumd d (fun j => M (n + k)%Z j * x j) = Aapp w cs x k)) ->
  (regular d M <-> rows_independent w cs).
Proof.
  intros C n d HM. pose proof (nv0 w C) as (N1 & _ & N2 & _). split.
  - intros HR y Hy k Hk.
    set (x := fun i => if (i <? n)%Z then 0 else y (i - n)%Z).
    assert (Hx1 : forall i, (0 <= i < n)%Z -> x i = 0) by (intros i Hi; unfold x; destruct (Z.ltb_spec i n); [reflexivity|lia]).
    assert (Hx2 : forall k, (0 <= k)%Z -> x (n + k)%Z = y k) by (intros l Hl; unfold x; destruct (Z.ltb_spec (n + l) n); [lia|f_equal; lia]).
    rewrite <- Hx2 by lia. apply HR; [|unfold d, n; lia]. intros i Hi. destruct (HM x) as [S1 S2].
    destruct (Z.lt_ge_cases i n) as [Hin|Hin].
    + rewrite S1, Hx1 by lia. rewrite Rplus_0_l. unfold Atapp. rewrite <- (Hy i) by (unfold n in *; lia). apply sumd_ext. intros l Hl. now rewrite Hx2 by lia.
    + replace i with (n + (i - n))%Z by lia. rewrite S2 by (unfold d, n in *; lia). unfold Aapp. apply sumd_zero. intros j Hj. rewrite Hx1 by (unfold n in *; lia). ring.
  - intros HI x Hx. destruct (HM x) as [S1 S2].
    assert (E1 : forall i, (0 <= i < n)%Z -> x i + Atapp w cs (fun k => x (n + k)%Z) i = 0).
    { intros i Hi. rewrite <- S1 by auto. apply Hx. unfold d, n in *. lia. }
    assert (E2 : forall k, (0 <= k < ws_size w)%Z -> Aapp w cs x k = 0).
    { intros k Hk. rewrite <- S2 by auto. apply Hx. unfold d, n in *. lia. }
    assert (Hz : sumd n (fun i => x i * x i) = 0).
    { rewrite (sumd_ext n _ (fun i => (-1) * (x i * Atapp w cs (fun k => x (n + k)%Z) i))).
      - pose proof (adjoint w cs x (fun k => x (n + k)%Z)) as Had. fold n in Had. rewrite sumd_scal, <- Had, sumd_zero; [ring|]. intros k Hk. rewrite E2 by auto. ring.
      - intros i Hi. specialize (E1 i Hi). replace (x i * x i) with (x i * (x i + Atapp w cs (fun k => x (n + k)%Z) i) + -1 * (x i * Atapp w cs (fun k => x (n + k)%Z) i)) by ring.
        rewrite E1. ring. }
    assert (Hx0 : forall i, (0 <= i < n)%Z -> x i = 0).
    { intros i Hi. assert (x i * x i = 0). { apply (sumd_nonneg_zero n (fun i => x i * x i)); auto. intros k _. pose proof (Rle_0_sqr (x k)). unfold Rsqr in H. lra. } nra. }
    intros i Hi. destruct (Z.lt_ge_cases i n) as [Hin|Hin]; [apply Hx0; lia|].
    replace i with (n + (i - n))%Z by lia. apply (HI (fun k => x (n + k)%Z)); [|unfold d, n in *; lia].
    intros j Hj. specialize (E1 j Hj). rewrite Hx0 in E1 by auto. unfold Atapp in E1. lra.
Qed.
Section Sys.
Variables (w : wset) (cs : list (list (Z * R))) (lower : bool) (m : @mat RN).
Hypothesis C : consistent w.
Hypothesis HA : @augmented RN w cs lower m.
Let n := wnv w.
Let d := (wnv w + ws_size w)%Z.

(** The rows of the system. *)
Lemma sys_rows ms x : stores m ms ->
  (forall i, (0 <= i < n)%Z -> sumd d (fun j => sysmat lower ms i j * x j) = x i + Atapp w cs (fun k => x (n + k)%Z) i) /\
  (forall k, (0 <= k < ws_size w)%Z -> sumd d (fun j => sysmat lower ms (n + k) j * x j) = Aapp w cs x k).
Proof.
  intros HS. destruct HA as (R1 & R2 & ms' & HS' & P1 & P2 & P3 & P4). rewrite (stores_unique m ms ms' HS HS'). clear HS ms.
  pose proof (nv0 w C) as (N1 & _ & N2 & _). fold n in P1, P2, P3, P4.
  assert (Q1 : forall i j, (0 <= i < n)%Z -> (0 <= j < n)%Z -> sysmat lower ms' i j = if (i =? j)%Z then 1 else 0).
  { intros i j Hi Hj. unfold sysmat. rewrite !mR_get, !P1, (Z.eqb_sym j i) by auto. destruct (i =? j)%Z, lower, (j <=? i)%Z; cbn [oR]; auto; apply rn_n1. }
  assert (Q2 : forall k j, (0 <= k < ws_size w)%Z -> (0 <= j < n)%Z -> sysmat lower ms' (n + k) j = wrow w cs k j /\ sysmat lower ms' j (n + k) = wrow w cs k j).
  { intros k j Hk Hj. unfold sysmat. rewrite !mR_get, P2, P3 by auto. destruct (Z.leb_spec j (n + k)), (Z.leb_spec (n + k) j); try lia. destruct lower; auto. }
  assert (Q3 : forall k l, (0 <= k < ws_size w)%Z -> (0 <= l < ws_size w)%Z -> sysmat lower ms' (n + k) (n + l) = 0).
  { intros k l Hk Hl. unfold sysmat. rewrite !mR_get, !P4 by auto. destruct lower, (n + l <=? n + k)%Z; reflexivity. }
  split.
  - intros i Hi. unfold d. fold n. rewrite sumd_add by lia. f_equal.
    + rewrite <- (sumd_delta n i x Hi). apply sumd_ext. intros j Hj. now rewrite Q1.
    + unfold Atapp. apply sumd_ext. intros k Hk. now rewrite (proj2 (Q2 k i Hk Hi)).
  - intros k Hk. unfold d. fold n. rewrite sumd_add by lia. rewrite (sumd_zero (ws_size w)).
    + rewrite Rplus_0_r. unfold Aapp. apply sumd_ext. intros j Hj. now rewrite (proj1 (Q2 k j Hk Hj)).
    + intros l Hl. rewrite Q3 by auto. ring.
Qed.

Lemma sys_regular ms : stores m ms -> (regular d (sysmat lower ms) <-> rows_independent w cs).
Proof. intros HS. apply rows_regular; [exact C|]. intros x. now apply sys_rows. Qed.
End Sys.

(** Rows and the conditions of the working set. *)
Lemma fits_rows w jac J cs x r : consistent w -> stores jac cs -> (forall p i, J p i = sumd (wnv w) (fun j => mR cs i j * p j)) ->
  (fits w J x r <-> forall k, (0 <= k < ws_size w)%Z -> Aapp w cs x k = r k).
Proof.
  intros C HS HJ.
  assert (HV : forall k, (0 <= k < ws_size w)%Z -> (cont w k < wnv w)%Z -> Aapp w cs x k = x (cont w k)).
  { intros k Hk Hc. destruct (cont_cases w C k Hk) as [[Hr _]|[Hr _]]; [|lia]. unfold Aapp. rewrite <- (sumd_delta (wnv w) (cont w k) x Hr). apply sumd_ext.
    intros j Hj. unfold wrow, row_entry. rewrite (cont_ok w C k Hk). destruct (Z.ltb_spec (cont w k) (wnv w)); [|lia]. destruct (cont w k =? j)%Z; cbn [oR]; rewrite ?rn_n1; reflexivity. }
  assert (HC : forall k, (0 <= k < ws_size w)%Z -> (wnv w <= cont w k)%Z -> Aapp w cs x k = J x (cont w k - wnv w)%Z).
  { intros k Hk Hc. unfold Aapp. rewrite HJ. apply sumd_ext. intros j Hj. unfold wrow, row_entry. rewrite (cont_ok w C k Hk).
    destruct (Z.ltb_spec (cont w k) (wnv w)); [lia|]. now rewrite mR_get. }
  split.
  - intros [F1 F2] k Hk. destruct (cont_cases w C k Hk) as [[Hr Hi]|[Hr Hi]].
    + rewrite HV by lia. apply (F1 (cont w k) k); auto. unfold none. lia.
    + rewrite HC by lia. apply (F2 (cont w k - wnv w)%Z k); auto; [lia|unfold none; lia].
  - intros F. split.
    + intros j k Hj Ek Hk. destruct (vix_ok w C j Hj) as (E & _). rewrite E in Ek. injection Ek as <-.
      destruct (vix_cont w C j Hj Hk) as [R1 R2]. rewrite <- (F _ R1), HV by (rewrite ?R2; lia). now rewrite R2.
    + intros i k Hi Ek Hk. destruct (cix_ok w C i Hi) as (E & _). rewrite E in Ek. injection Ek as <-.
      destruct (cix_cont w C i Hi Hk) as [R1 R2]. rewrite <- (F _ R1), HC by (rewrite ?R2; lia). rewrite R2. f_equal. lia.
Qed.

(** ** The right hand sides *)
Lemma shift_ok c d (v : rvec) : (0 <= d)%Z -> vok c v -> vok (c + d) (shift_vec d v) /\
  (forall i, (i < d)%Z -> dense (shift_vec d v) i = 0) /\ (forall k, (0 <= k)%Z -> dense (shift_vec d v) (d + k) = dense v k).
Proof.
  intros Hd [(H1 & H2 & H3) D]. subst c. unfold shift_vec.
  assert (HG : forall (es : list (Z * R)) i, get (map (fun e => (fst e + d, snd e)%Z) es) i = get es (i - d)).
  { induction es as [|[k x] es IH]; intros i; [reflexivity|]. cbn [map get fst snd]. rewrite IH.
    destruct (Z.eqb_spec (k + d) i), (Z.eqb_spec k (i - d)); try lia; reflexivity. }
  assert (HSo : forall (es : list (Z * R)) lo hi, sorted_in lo hi (keys es) -> sorted_in (lo + d) (hi + d) (keys (map (fun e => (fst e + d, snd e)%Z) es))).
  { induction es as [|[k x] es IH]; intros lo hi Hs; [exact I|]. cbn [keys map fst snd sorted_in] in *. destruct Hs as [Hk Hs]. split; [lia|].
    replace (k + d + 1)%Z with (k + 1 + d)%Z by lia. now apply IH. }
  split; [split; [|reflexivity]|split].
  - split; cbn [vdim vent vcap]; [lia|]. split; [|rewrite map_length; exact H3].
    eapply sorted_in_weaken; [| |apply (HSo (vent v) 0%Z (vdim v) H2)]; lia.
  - intros i Hi. transitivity (@oval RN None); [|apply rn_n0]. unfold dense. apply f_equal. cbn [vent].
    exact (eq_trans (HG (vent v) i) (get_below 0 (vdim v) (vent v) (i - d) H2 ltac:(lia))).
  - intros k Hk. unfold dense. cbn [vent]. rewrite HG. replace (d + k - d)%Z with k by lia. reflexivity.
Qed.
Lemma shift_back d (v : rvec) : shift_vec (- d) (shift_vec d v) = v.
Proof.
  destruct v as [dim cap es]. unfold shift_vec. cbn [vdim vcap vent]. f_equal; [lia|]. rewrite map_map. rewrite <- (map_id es) at 2. apply map_ext.
  intros [k x]. cbn [fst snd]. f_equal. lia.
Qed.
Lemma extend_ok c d (v : rvec) : (0 <= c)%Z -> (0 <= d)%Z -> vok c v -> exists v', vec_resize v (c + d) = Ok v' /\ vok (c + d) v'
  /\ (forall i, (i < c)%Z -> dense v' i = dense v i) /\ (forall k, (0 <= k)%Z -> dense v' (c + k) = 0) /\ vec_resize v' c = Ok v.
Proof.
  intros Hc Hd [HW D]. destruct (vec_resize_spec v (c + d) HW ltac:(lia)) as (v' & E & W' & D' & G). exists v'. split; [exact E|]. split; [split; auto|].
  assert (Ev : v' = mkvec (c + d) (vcap v) (vent v)).
  { revert E. unfold vec_resize. destruct (Z.leb_spec 0 (c + d)); [|lia]. cbn [check rbind]. destruct (Z.ltb_spec (c + d) (vdim v)); [lia|]. congruence. }
  destruct HW as (H1 & H2 & H3). split; [|split].
  - intros i Hi. unfold dense. rewrite Ev. reflexivity.
  - intros k Hk. transitivity (@oval RN None); [|apply rn_n0]. unfold dense. apply f_equal. rewrite Ev. cbn [vent].
    apply get_None. intros Hin. apply (sorted_in_In _ _ _ _ H2) in Hin. lia.
  - rewrite Ev. unfold vec_resize. cbn [vdim vcap vent]. destruct (Z.leb_spec 0 c); [|lia]. cbn [check rbind]. destruct v as [dv cv ev]. cbn [vdim vcap vent] in *. subst dv. do 2 f_equal.
    destruct (Z.ltb_spec c (c + d)); [|reflexivity]. rewrite (drop_ge_rev_filter c 0 c) by exact H2.
    clear -H2. assert (Hi : forall i, In i (keys ev) -> (i < c)%Z) by (intros i Hi; apply (sorted_in_In _ _ _ _ H2) in Hi; lia). clear H2. revert Hi.
    induction ev as [|[k x] es IH]; intros Hi; [reflexivity|]. cbn [filter fst]. destruct (Z.ltb_spec k c).
    + f_equal. apply IH. intros i Hin. apply Hi. now right.
    + exfalso. specialize (Hi k (or_introl eq_refl)). lia.
Qed.

(** Extraction of a part of the solution: components below the tolerance are dropped. *)
Definition rounded (eps c u : R) : Prop := (Rabs u <= eps -> c = 0) /\ (eps < Rabs u -> c = u).
Lemma rounded_zero eps c u : c = 0 -> @is_zero RN u eps = true -> rounded eps c u.
Proof. intros Hc H. apply rn_is_zero in H. split; intros; [exact Hc|lra]. Qed.
Lemma rounded_keep eps u : @is_zero RN u eps = false -> rounded eps u u.
Proof. intros H. split; [intros H'; apply rn_is_zero in H'; congruence|reflexivity]. Qed.
Lemma fact_solution_ok raw (sol : rvec) b c eps d : wf sol -> (0 <= b)%Z -> (0 <= c)%Z -> Z.of_nat (length raw) = d -> (b + c <= d)%Z ->
  exists v, @fact_solution RN raw sol b (b + c) eps = Ok v /\ vok c v
    /\ forall i, (0 <= i < c)%Z -> rounded eps (dense v i) (nth (Z.to_nat (b + i)) raw 0).
Proof.
  intros Hw Hb Hc Hl Hd. unfold fact_solution, part. destruct (Z.leb_spec 0 b), (Z.leb_spec b (b + c)), (Z.leb_spec (b + c) (Z.of_nat (length raw))); try lia.
  cbn [andb rbind]. replace (b + c - b)%Z with c by lia.
  set (p := firstn (Z.to_nat c) (skipn (Z.to_nat b) raw)).
  assert (Lp : length p = Z.to_nat c) by (unfold p; rewrite firstn_length, skipn_length; lia).
  destruct (vec_set_from_raw_spec sol p eps Hw) as (v & E & W & D & G). exists v. split; [exact E|]. split; [split; [exact W|lia]|].
  intros i Hi. assert (Hp : nth_error p (Z.to_nat i) = Some (nth (Z.to_nat (b + i)) raw 0)).
  { transitivity (nth_error raw (Z.to_nat (b + i))).
    - unfold p. rewrite Z2Nat.inj_add by lia.
      assert (Hf : forall k (l : list R) q, (k < q)%nat -> nth_error (firstn q l) k = nth_error l k).
      { clear. induction k as [|k IH]; intros [|x l] [|q] H; try lia; try reflexivity. cbn [firstn nth_error]. apply IH. lia. }
      rewrite Hf by lia. clear. generalize (Z.to_nat i) as k. intros k. revert raw. induction (Z.to_nat b) as [|q IH]; intros [|x l]; cbn [skipn plus nth_error]; auto.
      destruct k; reflexivity.
    - apply nth_error_nth'. lia. }
  unfold dense. rewrite G by lia. rewrite Hp. destruct (@is_zero RN (nth (Z.to_nat (b + i)) raw 0) eps) eqn:Ez; cbn [oval].
  - apply rounded_zero; [apply rn_n0|exact Ez].
  - apply rounded_keep. exact Ez.
Qed.
Lemma rounded0 c u : rounded 0 c u -> c = u.
Proof. intros [H1 H2]. destruct (Req_dec u 0) as [->|Hu]; [apply H1; rewrite Rabs_R0; lra|]. apply H2, Rabs_pos_lt, Hu. Qed.

Section Solve.
Variables (F : @fact RN) (w : wset) (nc : Z) (cs : list (list (Z * R))) (j : @sjac RN).
Hypothesis HF : factorizes F.
Hypothesis C : consistent w.
Hypothesis HI : rows_independent w cs.
Hypothesis HJ : sj_current (wnv w) nc F w cs j.
Let n := wnv w.
Let d := (wnv w + ws_size w)%Z.

Lemma held_ok rhs : vok d rhs -> exists raw, held_solve F (sj_held j) rhs = Ok raw /\ Z.of_nat (length raw) = d
  /\ let x := fun i => nth (Z.to_nat i) raw 0 in
     (forall i, (0 <= i < n)%Z -> x i + Atapp w cs (fun k => x (n + k)%Z) i = dense rhs i)
     /\ (forall k, (0 <= k < ws_size w)%Z -> Aapp w cs x k = dense rhs (n + k)).
Proof.
  intros Hr. destruct HJ as (_ & _ & m & Hm & HA). pose proof HA as (R1 & R2 & ms & HS & _). fold d in R1, R2.
  pose proof (nv0 w C) as (N1 & _ & N2 & _).
  destruct (HF m ms HS ltac:(congruence)) as [_ Hs]. { rewrite R2. apply (sys_regular w cs (f_lower F) m C HA ms HS). exact HI. }
  rewrite R2 in Hs. destruct (Hs rhs Hr) as (raw & E & L & HR). exists raw. unfold held_solve. rewrite Hm. split; [exact E|]. split; [exact L|]. cbv zeta.
  destruct (sys_rows w cs (f_lower F) m C HA ms (fun i => nth (Z.to_nat i) raw 0) HS) as [S1 S2]. fold n d in S1, S2. split.
  - intros i Hi. rewrite <- S1 by auto. apply HR. unfold d, n in *. lia.
  - intros k Hk. rewrite <- S2 by auto. apply HR. unfold d, n in *. lia.
Qed.

Lemma sj_min_norm_real zeps rhs sol : vok (ws_size w) rhs -> vok n sol ->
  exists x u y, sj_min_norm F j zeps rhs sol = Ok (rhs, x) /\ vok n x /\ (forall i, (0 <= i < n)%Z -> rounded zeps (dense x i) (u i))
    /\ (forall i, (0 <= i < n)%Z -> u i + Atapp w cs y i = 0) /\ (forall k, (0 <= k < ws_size w)%Z -> Aapp w cs u k = dense rhs k).
Proof.
  intros Hr [Ws Ds]. pose proof (nv0 w C) as (N1 & _ & N2 & _). destruct HJ as ((J1 & _) & _). unfold sj_min_norm. rewrite J1. fold n. rewrite Ds, Z.eqb_refl. cbn [check rbind].
  destruct (shift_ok (ws_size w) n rhs N1 Hr) as (V & S1 & S2). rewrite Z.add_comm in V.
  destruct (held_ok _ V) as (raw & E & L & X1 & X2). rewrite E. cbn [rbind].
  destruct (fact_solution_ok raw sol 0 n zeps d Ws ltac:(lia) N1 L ltac:(unfold d, n; lia)) as (v & Ev & Vv & G). rewrite Z.add_0_l in Ev. rewrite Ev. cbn [rbind].
  rewrite shift_back. exists v, (fun i => nth (Z.to_nat i) raw 0), (fun k => nth (Z.to_nat (n + k)) raw 0). split; [reflexivity|]. split; [exact Vv|].
  split; [intros i Hi; apply (G i Hi)|]. split.
  - intros i Hi. rewrite X1 by auto. apply S1. lia.
  - intros k Hk. rewrite X2 by auto. apply S2. lia.
Qed.

Lemma sj_lsq_real zeps rhs sol : vok n rhs -> vok (ws_size w) sol ->
  exists v u y, sj_lsq F j zeps rhs sol = Ok (rhs, v) /\ vok (ws_size w) v /\ (forall k, (0 <= k < ws_size w)%Z -> rounded zeps (dense v k) (y k))
    /\ (forall i, (0 <= i < n)%Z -> u i + Atapp w cs y i = dense rhs i) /\ (forall k, (0 <= k < ws_size w)%Z -> Aapp w cs u k = 0).
Proof.
  intros Hr [Ws Ds]. pose proof (nv0 w C) as (N1 & _ & N2 & _). destruct HJ as ((J1 & _) & J2 & _). unfold sj_lsq. rewrite J1, J2. fold n. rewrite (proj2 Hr), Z.eqb_refl. cbn [check rbind].
  destruct (extend_ok n (ws_size w) rhs N1 ltac:(lia) Hr) as (r' & Er & Vr & E1 & E2 & E3). rewrite Er. cbn [rbind].
  destruct (held_ok _ Vr) as (raw & E & L & X1 & X2). rewrite E. cbn [rbind]. rewrite Ds, Z.eqb_refl. cbn [check rbind].
  destruct (fact_solution_ok raw sol n (ws_size w) zeps d Ws N1 ltac:(lia) L ltac:(unfold d, n; lia)) as (v & Ev & Vv & G). rewrite Ev. cbn [rbind].
  rewrite E3. cbn [rbind]. exists v, (fun i => nth (Z.to_nat i) raw 0), (fun k => nth (Z.to_nat (n + k)) raw 0). split; [reflexivity|]. split; [exact Vv|].
  split; [exact G|]. split.
  - intros i Hi. rewrite X1 by auto. apply E1. lia.
  - intros k Hk. rewrite X2 by auto. apply E2. lia.
Qed.

Lemma sj_project_real zeps rhs sol : vok n rhs -> vok n sol ->
  exists v u y, sj_project F j zeps rhs sol = Ok (rhs, v) /\ vok n v /\ (forall i, (0 <= i < n)%Z -> rounded zeps (dense v i) (u i))
    /\ (forall i, (0 <= i < n)%Z -> u i + Atapp w cs y i = dense rhs i) /\ (forall k, (0 <= k < ws_size w)%Z -> Aapp w cs u k = 0).
Proof.
  intros Hr [Ws Ds]. pose proof (nv0 w C) as (N1 & _ & N2 & _). destruct HJ as ((J1 & _) & J2 & _). unfold sj_project. rewrite J1, J2. fold n. rewrite (proj2 Hr), Z.eqb_refl. cbn [check rbind].
  destruct (extend_ok n (ws_size w) rhs N1 ltac:(lia) Hr) as (r' & Er & Vr & E1 & E2 & E3). rewrite Er. cbn [rbind].
  destruct (held_ok _ Vr) as (raw & E & L & X1 & X2). rewrite E. cbn [rbind]. rewrite Ds, Z.eqb_refl. cbn [check rbind].
  destruct (fact_solution_ok raw sol 0 n zeps d Ws ltac:(lia) N1 L ltac:(unfold d, n; lia)) as (v & Ev & Vv & G). rewrite Z.add_0_l in Ev. rewrite Ev. cbn [rbind].
  rewrite E3. cbn [rbind]. exists v, (fun i => nth (Z.to_nat i) raw 0), (fun k => nth (Z.to_nat (n + k)) raw 0). split; [reflexivity|]. split; [exact Vv|].
  split; [intros i Hi; apply (G i Hi)|]. split.
  - intros i Hi. rewrite X1 by auto. apply E1. lia.
  - intros k Hk. rewrite X2 by auto. apply E2. lia.
Qed.
End Solve.

(** ** Consequences for exact solutions *)
Section Exact.
Variables (w : wset) (cs : list (list (Z * R))).

(** The range of the transposed matrix is orthogonal to the null space. *)
Lemma orth y z : (forall k, (0 <= k < ws_size w)%Z -> Aapp w cs z k = 0) -> dotd (wnv w) (Atapp w cs y) z = 0.
Proof.
  intros Hz. rewrite dotd_sym. unfold dotd. rewrite <- adjoint. apply sumd_zero. intros k Hk. rewrite Hz by auto. ring.
Qed.
Lemma min_norm_orth u y z : (forall i, (0 <= i < wnv w)%Z -> u i + Atapp w cs y i = 0) ->
  (forall k, (0 <= k < ws_size w)%Z -> Aapp w cs z k = 0) -> dotd (wnv w) u z = 0.
Proof.
  intros Hu Hz. rewrite (dotd_ext _ u (fun i => (-1) * Atapp w cs y i + 0 * 0) z z); [|intros i Hi; specialize (Hu i Hi); lra|auto].
  rewrite (dotd_lin _ (-1) 0 (Atapp w cs y) (fun _ => 0)). rewrite orth by exact Hz. ring_simplify. reflexivity.
Qed.

Definition dist (n : Z) (f g : Z -> R) : R := dotd n (fun i => f i - g i) (fun i => f i - g i).

Lemma pythagoras n f g h : dotd n (fun i => f i - g i) (fun i => g i - h i) = 0 -> dist n f h = dist n f g + dist n g h.
Proof.
  intros H. unfold dist. assert (E : dotd n (fun i => f i - h i) (fun i => f i - h i)
    = dotd n (fun i => f i - g i) (fun i => f i - g i) + 2 * dotd n (fun i => f i - g i) (fun i => g i - h i) + dotd n (fun i => g i - h i) (fun i => g i - h i)).
  { unfold dotd. rewrite <- sumd_scal, <- !sumd_plus. apply sumd_ext. intros. ring. }
  rewrite E, H. ring.
Qed.

Lemma Atapp_minus y y' i : Atapp w cs y' i - Atapp w cs y i = Atapp w cs (fun k => y' k - y k) i.
Proof.
  unfold Atapp. rewrite (sumd_ext _ (fun k => wrow w cs k i * (y' k - y k)) (fun k => wrow w cs k i * y' k + (-1) * (wrow w cs k i * y k))) by (intros; ring).
  rewrite sumd_plus, sumd_scal. ring.
Qed.
Lemma Aapp_minus x x' k : Aapp w cs x' k - Aapp w cs x k = Aapp w cs (fun j => x' j - x j) k.
Proof.
  unfold Aapp. rewrite (sumd_ext _ (fun j => wrow w cs k j * (x' j - x j)) (fun j => wrow w cs k j * x' j + (-1) * (wrow w cs k j * x j))) by (intros; ring).
  rewrite sumd_plus, sumd_scal. ring.
Qed.

Lemma lsq_best u y b : (forall i, (0 <= i < wnv w)%Z -> u i + Atapp w cs y i = b i) -> (forall k, (0 <= k < ws_size w)%Z -> Aapp w cs u k = 0) ->
  forall y', dist (wnv w) (Atapp w cs y) b <= dist (wnv w) (Atapp w cs y') b.
Proof.
  intros Hu H0 y'. assert (E : dist (wnv w) (Atapp w cs y') b = dist (wnv w) (Atapp w cs y') (Atapp w cs y) + dist (wnv w) (Atapp w cs y) b).
  { apply pythagoras. rewrite (dotd_ext _ _ (Atapp w cs (fun k => y' k - y k)) _ (fun i => -1 * u i + 0 * 0)).
    - rewrite dotd_sym. rewrite (dotd_lin _ (-1) 0 u (fun _ => 0)). rewrite (dotd_sym _ u), orth by exact H0. ring_simplify. reflexivity.
    - intros i _. apply Atapp_minus.
    - intros i Hi. specialize (Hu i Hi). lra. }
  rewrite E. pose proof (dotd_nonneg (wnv w) (fun i => Atapp w cs y' i - Atapp w cs y i)). unfold dist in *. lra.
Qed.

Lemma proj_best u y b : (forall i, (0 <= i < wnv w)%Z -> u i + Atapp w cs y i = b i) -> (forall k, (0 <= k < ws_size w)%Z -> Aapp w cs u k = 0) ->
  forall z, (forall k, (0 <= k < ws_size w)%Z -> Aapp w cs z k = 0) -> dist (wnv w) u b <= dist (wnv w) z b.
Proof.
  intros Hu H0 z Hz. assert (E : dist (wnv w) z b = dist (wnv w) z u + dist (wnv w) u b).
  { apply pythagoras. rewrite (dotd_ext _ _ (fun i => z i - u i) _ (fun i => -1 * Atapp w cs y i + 0 * 0)); [|auto|intros i Hi; specialize (Hu i Hi); lra].
    rewrite dotd_sym. rewrite (dotd_lin _ (-1) 0 (Atapp w cs y) (fun _ => 0)). rewrite orth; [ring_simplify; reflexivity|].
    intros k Hk. rewrite <- Aapp_minus, Hz, H0 by auto. ring. }
  rewrite E. pose proof (dotd_nonneg (wnv w) (fun i => z i - u i)). unfold dist in *. lra.
Qed.

(** The orthogonal projection onto the null space. *)
Definition augmat (i j : Z) : R :=
  let n := wnv w in
  if (i <? n)%Z then (if (j <? n)%Z then (if (i =? j)%Z then 1 else 0) else wrow w cs (j - n) i)
  else (if (j <? n)%Z then wrow w cs (i - n) j else 0).
Definition nullproj (x : Z -> R) : Z -> R :=
  gauss (Z.to_nat (wnv w + ws_size w)) augmat (fun i => if (i <? wnv w)%Z then x i else 0).

Hypothesis C : consistent w.
Hypothesis HI : rows_independent w cs.
Let n := wnv w.
Let d := (wnv w + ws_size w)%Z.

Lemma augmat_rows x :
  (forall i, (0 <= i < n)%Z -> sumd d (fun j => augmat i j * x j) = x i + Atapp w cs (fun k => x (n + k)%Z) i) /\
  (forall k, (0 <= k < ws_size w)%Z -> sumd d (fun j => augmat (n + k) j * x j) = Aapp w cs x k).
Proof.
  pose proof (nv0 w C) as (N1 & _ & N2 & _). split.
  - intros i Hi. unfold d. fold n. rewrite sumd_add by lia. f_equal.
    + rewrite <- (sumd_delta n i x Hi). apply sumd_ext. intros j Hj. unfold augmat. fold n. destruct (Z.ltb_spec i n), (Z.ltb_spec j n); try lia. reflexivity.
    + unfold Atapp. apply sumd_ext. intros k Hk. unfold augmat. fold n. destruct (Z.ltb_spec i n), (Z.ltb_spec (n + k) n); try lia. do 2 f_equal. lia.
  - intros k Hk. unfold d. fold n. rewrite sumd_add by lia. rewrite (sumd_zero (ws_size w)).
    + rewrite Rplus_0_r. unfold Aapp. apply sumd_ext. intros j Hj. unfold augmat. fold n.
      destruct (Z.ltb_spec (n + k) n), (Z.ltb_spec j n); try (unfold n in *; lia). do 2 f_equal. lia.
    + intros l Hl. unfold augmat. fold n. destruct (Z.ltb_spec (n + k) n), (Z.ltb_spec (n + l) n); try lia. ring.
Qed.
Lemma nullproj_split x : exists y,
  (forall i, (0 <= i < n)%Z -> nullproj x i + Atapp w cs y i = x i) /\ (forall k, (0 <= k < ws_size w)%Z -> Aapp w cs (nullproj x) k = 0).
Proof.
  pose proof (nv0 w C) as (N1 & _ & N2 & _). destruct (augmat_rows (nullproj x)) as [R1 R2].
  assert (HR : regular d augmat) by (exact (proj2 (rows_regular w cs augmat C augmat_rows) HI)).
  assert (HG : forall i, (0 <= i < d)%Z -> sumd d (fun j => augmat i j * nullproj x j) = (if (i <? n)%Z then x i else 0)).
  { intros i Hi. unfold nullproj. fold n d. apply (gauss_ok d augmat (fun i => if (i <? n)%Z then x i else 0)); auto. unfold d, n in *. lia. }
  exists (fun k => nullproj x (n + k)%Z). split.
  - intros i Hi. rewrite <- R1 by auto. rewrite HG by (unfold d, n in *; lia). destruct (Z.ltb_spec i n); [reflexivity|lia].
  - intros k Hk. rewrite <- R2 by auto. rewrite HG by (unfold d, n in *; lia). destruct (Z.ltb_spec (n + k) n); [lia|reflexivity].
Qed.
(** The decomposition is unique. *)
Lemma split_unique u y u' y' b : (forall i, (0 <= i < n)%Z -> u i + Atapp w cs y i = b i) -> (forall k, (0 <= k < ws_size w)%Z -> Aapp w cs u k = 0) ->
  (forall i, (0 <= i < n)%Z -> u' i + Atapp w cs y' i = b i) -> (forall k, (0 <= k < ws_size w)%Z -> Aapp w cs u' k = 0) ->
  forall i, (0 <= i < n)%Z -> u i = u' i.
Proof.
  intros H1 H2 H3 H4.
  assert (Hd : dotd n (fun i => u i - u' i) (fun i => u i - u' i) = 0).
  { apply (min_norm_orth (fun i => u i - u' i) (fun k => y k - y' k)).
    - intros i Hi. rewrite <- Atapp_minus. specialize (H1 i Hi). specialize (H3 i Hi). lra.
    - intros k Hk. rewrite <- Aapp_minus, H2, H4 by auto. ring. }
  intros i Hi. pose proof (proj1 (dotd_zero n _) Hd i Hi) as H. cbn in H. lra.
Qed.
Lemma nullproj_unique u y b : (forall i, (0 <= i < n)%Z -> u i + Atapp w cs y i = b i) -> (forall k, (0 <= k < ws_size w)%Z -> Aapp w cs u k = 0) ->
  forall i, (0 <= i < n)%Z -> u i = nullproj b i.
Proof. intros H1 H2. destruct (nullproj_split b) as (y' & H3 & H4). now apply (split_unique u y (nullproj b) y' b). Qed.

Lemma nullproj_projector : projector n nullproj.
Proof.
  split.
  - intros x y. destruct (nullproj_split x) as (a & A1 & A2). destruct (nullproj_split y) as (b & B1 & B2).
    transitivity (dotd n (nullproj x) (nullproj y)).
    + rewrite (dotd_ext _ (nullproj x) (nullproj x) y (fun i => 1 * nullproj y i + 1 * Atapp w cs b i)); [|auto|intros i Hi; rewrite <- B1 by auto; ring].
      rewrite dotd_sym, dotd_lin. pose proof (orth b (nullproj x) A2) as Ho. fold n in Ho. rewrite Ho, (dotd_sym _ (nullproj y)). ring.
    + rewrite (dotd_ext _ x (fun i => 1 * nullproj x i + 1 * Atapp w cs a i) (nullproj y) (nullproj y)); [|intros i Hi; rewrite <- A1 by auto; ring|auto].
      rewrite dotd_lin. pose proof (orth a (nullproj y) B2) as Ho. fold n in Ho. rewrite Ho. ring.
  - intros x i Hi. symmetry. destruct (nullproj_split x) as (a & A1 & A2).
    apply (nullproj_unique (nullproj x) (fun _ => 0) (nullproj x)); auto. intros k Hk. unfold Atapp. rewrite sumd_zero; [ring|]. intros; ring.
Qed.
(** Vectors kept by the projection are those in the null space. *)
Lemma nullproj_range x : (forall i, (0 <= i < n)%Z -> nullproj x i = x i) <-> forall k, (0 <= k < ws_size w)%Z -> Aapp w cs x k = 0.
Proof.
  destruct (nullproj_split x) as (a & A1 & A2). split.
  - intros H k Hk. rewrite <- (A2 k Hk). unfold Aapp. apply sumd_ext. intros i Hi. now rewrite H.
  - intros H i Hi. symmetry. apply (nullproj_unique x (fun _ => 0) x); auto. intros k Hk. unfold Atapp. rewrite sumd_zero; [ring|]. intros; ring.
Qed.
End Exact.

(** ** An exact factorization *)
Definition entry_of (m : @mat RN) (i j : Z) : R := match @col_entries RN m j with Ok es => oR (get es i) | _ => 0 end.
Definition exact_fact (lower : bool) : @fact RN :=
  mkfact lower (fun _ => Ok tt)
    (fun m rhs => Ok (map (gauss (Z.to_nat (mnc m))
        (fun i j => if lower then (if (j <=? i)%Z then entry_of m i j else entry_of m j i) else entry_of m i j) (dense rhs)) (zrange (mnc m)))).

Lemma entry_of_mR m ms i j : stores m ms -> (0 <= j < mnc m)%Z -> entry_of m i j = mR ms i j.
Proof. intros HS Hj. unfold entry_of. destruct (nth_col m ms j HS Hj) as [-> _]. rewrite mR_get. reflexivity. Qed.

Lemma exact_factorizes lower : factorizes (exact_fact lower).
Proof.
  intros m ms HS Hsq HR. split; [reflexivity|]. intros rhs Hr. eexists. split; [reflexivity|].
  destruct (layout_facts m ms HS) as (_ & Hc & _). split; [rewrite map_length, zrange_length; lia|]. cbn [exact_fact f_lower] in *.
  set (M := fun i j => if lower then (if (j <=? i)%Z then entry_of m i j else entry_of m j i) else entry_of m i j).
  assert (HM : forall i j, (0 <= i < mnc m)%Z -> (0 <= j < mnc m)%Z -> M i j = sysmat lower ms i j).
  { intros i j Hi Hj. unfold M, sysmat. rewrite !(entry_of_mR m ms) by auto. reflexivity. }
  assert (HR' : regular (mnc m) M).
  { intros x Hx. apply HR. intros i Hi. rewrite <- (Hx i Hi). apply sumd_ext. intros j Hj. now rewrite HM. }
  intros i Hi. rewrite <- (gauss_ok (mnc m) M (dense rhs) ltac:(lia) HR' i Hi). apply sumd_ext. intros j Hj. rewrite HM by auto. f_equal.
  rewrite (nth_indep _ 0 (gauss (Z.to_nat (mnc m)) M (dense rhs) 0%Z)) by (rewrite map_length, zrange_length; lia). rewrite map_nth.
  f_equal. apply nth_error_nth. rewrite zrange_nth by lia. f_equal. lia.
Qed.
