(** The reduced system over the reals. *)
From Coq Require Import Reals Lra.
From Verif Require Import Base Num Cmp Sparse Vec VecFacts Order VecFacts2 RSum VecReal QnReal Mat MatFacts MatFacts2 MatFacts3 MatFacts4 Arr
  WorkingSet WorkingSetFacts DualEst DualEstFacts Feas FeasFacts OptFacts Steihaug SteihaugFacts LineSearch LineSearchFacts WorkingStep WorkingStepReal Gauss
  AugJac AugJacFacts AugJacUpper AugJacMain AugJacReal AugJacRed AugJacRed2 AugJacRed3.
Local Open Scope R_scope.

Lemma fold_sum (h : Z -> option R) n a : (0 <= n)%Z ->
  fold_left (fun s j => match h j with Some x => s + x | None => s end) (zrange n) a = a + sumd n (fun j => oR (h j)).
Proof.
  intros Hn. unfold sumd, zrange. induction (Z.to_nat n) as [|k IH]; [cbn; lra|]. rewrite seq_S, map_app, fold_left_app. cbn [plus]. rewrite IH. cbn [map fold_left rsum].
  destruct (h (Z.of_nat k)); cbn [oR]; lra.
Qed.

Lemma row_dot_real w cs k l : consistent w -> @row_dot RN w cs k l = sumd (wnv w) (fun j => wrow w cs k j * wrow w cs l j).
Proof.
  intros C. pose proof (nv0 w C) as (N1 & _). unfold row_dot.
  rewrite (fold_left_ext_in _ (fun s j => match (match @row_entry RN w cs k j, @row_entry RN w cs l j with Some x, Some y => Some (x * y) | _, _ => None end) with Some x => s + x | None => s end)).
  - rewrite (fold_sum (fun j => match @row_entry RN w cs k j, @row_entry RN w cs l j with Some x, Some y => Some (x * y) | _, _ => None end)) by exact N1.
    transitivity (0 + sumd (wnv w) (fun j => wrow w cs k j * wrow w cs l j)); [|apply Rplus_0_l]. f_equal; [apply rn_n0|]. apply sumd_ext. intros j _. unfold wrow.
    destruct (@row_entry RN w cs k j), (@row_entry RN w cs l j); cbn [oR]; ring.
  - intros s j _. destruct (@row_entry RN w cs k j), (@row_entry RN w cs l j); reflexivity.
Qed.

Lemma var_row_dot w cs k : consistent w -> (0 <= k < ws_size w)%Z -> is_var_row w k = true -> sumd (wnv w) (fun j => wrow w cs k j * wrow w cs k j) = 1.
Proof.
  intros C Hk Hv. unfold is_var_row in Hv. rewrite (cont_ok w C k Hk) in Hv. apply Z.ltb_lt in Hv.
  destruct (cont_cases w C k Hk) as [[Hr _]|[Hr _]]; [|lia].
  rewrite <- (sumd_delta (wnv w) (cont w k) (fun _ => 1) Hr). apply sumd_ext. intros j Hj. unfold wrow, row_entry. rewrite (cont_ok w C k Hk).
  destruct (Z.ltb_spec (cont w k) (wnv w)); [|lia]. destruct (cont w k =? j)%Z; cbn [oR]; rewrite ?rn_n1; ring.
Qed.

Section Sys.
Variables (w : wset) (cs : list (list (Z * R))).
Hypothesis C : consistent w.
Let n := wnv w.
Let d := ws_size w.

Lemma AAt y k : sumd d (fun l => sumd n (fun j => wrow w cs k j * wrow w cs l j) * y l) = Aapp w cs (Atapp w cs y) k.
Proof.
  unfold Aapp, Atapp. fold n d. transitivity (sumd d (fun l => sumd n (fun j => wrow w cs k j * wrow w cs l j * y l))).
  - apply sumd_ext. intros l _. rewrite Rmult_comm, <- sumd_scal. apply sumd_ext. intros; ring.
  - rewrite sumd_swap. apply sumd_ext. intros j _. rewrite <- sumd_scal. apply sumd_ext. intros; ring.
Qed.

Lemma AAt_zero y : (forall k, (0 <= k < d)%Z -> Aapp w cs (Atapp w cs y) k = 0) -> forall j, (0 <= j < n)%Z -> Atapp w cs y j = 0.
Proof.
  intros H. assert (Hz : dotd n (Atapp w cs y) (Atapp w cs y) = 0).
  { unfold dotd. pose proof (adjoint w cs (Atapp w cs y) y) as Ha. fold n in Ha. rewrite <- Ha. apply sumd_zero. intros k Hk. rewrite H by auto. ring. }
  exact (proj1 (dotd_zero n _) Hz).
Qed.

Lemma gram_sys lower m ms y k : @gram RN w cs lower m -> stores m ms -> (0 <= k < d)%Z ->
  sumd d (fun l => sysmat lower ms k l * y l) = Aapp w cs (Atapp w cs y) k.
Proof.
  intros (R1 & R2 & ms' & HS' & G) HS Hk. rewrite (stores_unique m ms ms' HS HS'). clear HS ms. rewrite <- AAt. apply sumd_ext. intros l Hl. f_equal.
  assert (Hg : forall a b, (0 <= a < d)%Z -> (0 <= b < d)%Z -> (lower = true -> (b <= a)%Z) -> mR ms' a b = sumd n (fun j => wrow w cs a j * wrow w cs b j)).
  { intros a b Ha Hb Hlow. rewrite mR_get, G by auto. unfold gram_entry. destruct lower; cbn [andb].
    - specialize (Hlow eq_refl). destruct (Z.ltb_spec a b); [lia|]. cbn [oR]. destruct (Z.eqb_spec a b) as [->|]; cbn [andb].
      + destruct (is_var_row w b) eqn:Ev; [|apply row_dot_real; exact C]. symmetry. transitivity 1; [|symmetry; apply rn_n1]. apply var_row_dot; auto.
      + apply row_dot_real. exact C.
    - cbn [oR]. apply row_dot_real. exact C. }
  unfold sysmat. destruct lower; [|apply Hg; auto; discriminate]. destruct (Z.leb_spec l k); [apply Hg; auto|].
  rewrite Hg by (auto; lia). apply sumd_ext. intros; ring.
Qed.

Lemma gram_regular lower m ms : @gram RN w cs lower m -> stores m ms -> (regular d (sysmat lower ms) <-> rows_independent w cs).
Proof.
  intros HG HS. split.
  - intros HR y Hy k Hk. apply HR; [|exact Hk]. intros i Hi. rewrite (gram_sys lower m ms y i HG HS Hi). unfold Aapp. apply sumd_zero.
    intros j Hj. assert (E : Atapp w cs y j = 0) by (exact (Hy j Hj)). rewrite E. ring.
  - intros HI y Hy k Hk. apply HI; [|exact Hk]. intros j Hj. apply (AAt_zero y); [|exact Hj]. intros i Hi. rewrite <- (gram_sys lower m ms y i HG HS Hi). now apply Hy.
Qed.
End Sys.

(** The inner loop of the transposed product *)
Lemma scatter (r : list (Z * R)) v c n f lo : (0 <= lo)%Z -> sorted_in lo n (keys r) -> arr c n f ->
  exists c', rfold (fun cache x => old <- arr_get cache (fst x) ;; arr_set cache (fst x) (@nadd RN old (@nmul RN v (snd x)))) c r = Ok c'
    /\ arr c' n (fun j => f j + v * oR (get r j)).
Proof.
  revert c f lo. induction r as [|[i x] r IH]; intros c f lo Hlo Hs Hc.
  - exists c. split; [reflexivity|]. eapply arr_ext; [exact Hc|]. intros j _. cbn [get oR]. rnum. ring.
  - cbn [keys map fst sorted_in] in Hs. destruct Hs as [Hi Hs]. cbn [rfold fst snd]. rewrite (arr_get_arr c n f i Hc) by lia. cbn [rbind].
    destruct (arr_set_arr c n f i (@nadd RN (f i) (@nmul RN v x)) Hc) as (c1 & E1 & A1); [lia|]. rewrite E1. cbn [rbind].
    destruct (IH c1 _ (i + 1)%Z ltac:(lia) Hs A1) as (c2 & E2 & A2). exists c2. split; [exact E2|]. eapply arr_ext; [exact A2|].
    intros j Hj. unfold upd. cbn [get]. rewrite (Z.eqb_sym i j). destruct (Z.eqb_spec j i) as [->|].
    + rewrite (get_below (i + 1) n r i Hs) by lia. cbn [oR]. rnum. cbn. ring.
    + reflexivity.
Qed.

Section Solve.
Variables (F : @fact RN) (w : wset) (nc : Z) (cs : list (list (Z * R))) (j : @rjac RN).
Hypothesis HF : factorizes F.
Hypothesis C : consistent w.
Hypothesis HI : rows_independent w cs.
Hypothesis HJ : rj_current (wnv w) nc F w cs j.
Let n := wnv w.
Let d := ws_size w.

Lemma srow_dense k i : (0 <= i < n)%Z -> oR (get (@srow RN w cs k) i) = wrow w cs k i.
Proof. intros Hi. unfold wrow. f_equal. now apply srow_get. Qed.

Lemma rj_held_ok rhs : vok d rhs -> exists raw, held_solve F (rj_held j) rhs = Ok raw /\ Z.of_nat (length raw) = d
  /\ forall k, (0 <= k < d)%Z -> Aapp w cs (Atapp w cs (fun l => nth (Z.to_nat l) raw 0)) k = dense rhs k.
Proof.
  intros Hr. destruct HJ as (_ & _ & _ & m & Hm & HG). pose proof HG as (R1 & R2 & ms & HS & _). fold d in R1, R2.
  destruct (HF m ms HS ltac:(congruence)) as [_ Hs]. { rewrite R2. apply (gram_regular w cs C (f_lower F) m ms HG HS). exact HI. }
  rewrite R2 in Hs. destruct (Hs rhs Hr) as (raw & E & L & HR). exists raw. unfold held_solve. rewrite Hm. split; [exact E|]. split; [exact L|].
  intros k Hk. rewrite <- HR by exact Hk. symmetry. exact (gram_sys w cs C (f_lower F) m ms (fun l => nth (Z.to_nat l) raw 0) k HG HS Hk).
Qed.

Lemma rj_product_real v : vok n v -> exists p, rj_product j v (rj_rhs j) = Ok p /\ vok d p /\ forall k, (0 <= k < d)%Z -> dense p k = Aapp w cs (dense v) k.
Proof.
  intros [Wv Dv]. pose proof (nv0 w C) as (N1 & _ & N2 & _). pose proof HJ as ((O1 & O2 & O3 & O4 & O5 & O6) & S1 & S2 & _).
  pose proof (rhs_dim _ _ _ _ _ _ C HJ) as Dr. unfold rj_product. rewrite S1. fold d.
  destruct O3 as (W1 & W2 & W3).
  assert (Hclear : wf (vec_clear (rj_rhs j))). { unfold vec_clear, wf. cbn [vdim vent vcap keys map length sorted_in]. repeat split; auto. lia. }
  destruct (vec_reserve_spec (vec_clear (rj_rhs j)) d Hclear) as (p0 & E0 & P0 & D0 & V0 & K0); [unfold d; lia|]. rewrite E0. cbn [rbind].
  set (dl := fun row => @dot_loop RN (length (@srow RN w cs row) + length (vent v)) (@srow RN w cs row) (vent v) n0).
  set (h := fun row => if meets_row (@srow RN w cs row) (vent v) then Some (dl row) else None).
  match goal with |- context [rfold ?f p0 _] =>
    destruct (zrange_loop (fun row p => vdim p = d /\ (d <= vcap p)%Z /\ vent p = olist h (zrange row)) f d p0) as (p & E & D & K & V) end.
  - unfold d. lia.
  - rewrite D0, V0. cbn [vec_clear vdim vent]. split; [unfold d; congruence|]. split; [exact K0|reflexivity].
  - intros row p Hrow (D & K & V). rewrite S2 by exact Hrow. cbn [rbind]. rewrite zrange_succ by lia. unfold olist at 1. rewrite map_app, concat_app. fold (olist h (zrange row)). cbn [map concat]. rewrite app_nil_r.
    fold (dl row). unfold h at 2. destruct (meets_row (@srow RN w cs row) (vent v)).
    + rewrite vec_push_ok.
      * eexists. split; [reflexivity|]. cbn [vdim vcap vent]. rewrite V. auto.
      * unfold vnnz. rewrite V. pose proof (olist_sorted h (zrange row) 0 row (zrange_sorted row)) as Hs. apply sorted_in_length in Hs. rewrite map_length in Hs. lia.
      * rewrite V, D. apply sorted_in_app. pose proof (olist_sorted h (zrange row) 0 row (zrange_sorted row)) as Hs. split.
        -- eapply sorted_in_weaken; [| |exact Hs]; lia.
        -- cbn [sorted_in]. split; [|exact I]. unfold keys. destruct (rev (map fst (olist h (zrange row)))) as [|i l] eqn:Er; [lia|].
           assert (Hin : In i (map fst (olist h (zrange row)))) by (apply in_rev; rewrite Er; now left). apply (sorted_in_In _ _ _ _ Hs) in Hin. lia.
    + eexists. split; [reflexivity|]. rewrite app_nil_r. auto.
  - exists p. split; [exact E|]. split.
    + split; [|exact D]. unfold wf. rewrite D, V. split; [unfold d; lia|]. pose proof (olist_sorted h (zrange d) 0 d (zrange_sorted d)) as Hs. split; [exact Hs|].
      apply sorted_in_length in Hs. rewrite map_length in Hs. unfold d in *. lia.
    + intros k Hk. unfold dense at 1. rewrite V, (olist_get h (zrange d) 0 d) by apply zrange_sorted. rewrite existsb_zrange.
      destruct (Z.leb_spec 0 k), (Z.ltb_spec k d); try lia. cbn [andb]. rewrite oval_rn.
      destruct Wv as (V1 & V2 & V3).
      assert (Hdl : dl k = Aapp w cs (dense v) k).
      { unfold dl. rewrite (dot_loop_sum _ _ _ _ 0 0 n); [|apply le_n|apply srow_sorted|rewrite <- Dv; exact V2]. rewrite rn_n0, Rplus_0_l.
        rewrite (esum_dense _ _ 0 (Z.to_nat n)); [|rewrite Z2Nat.id by (unfold n; lia); apply srow_sorted|lia]. unfold Aapp, sumd. fold n. apply rsum_ext. intros i Hi.
        rewrite <- srow_dense by lia. unfold dense. rewrite oval_rn. rnum. destruct (@get R (@srow RN w cs k) i); cbn [oR]; ring. }
      unfold h. destruct (meets_row (@srow RN w cs k) (vent v)) eqn:Em; [exact Hdl|]. rewrite <- Hdl. unfold dl.
      rewrite (dot_loop_sum _ _ _ _ 0 0 n); [|apply le_n|apply srow_sorted|rewrite <- Dv; exact V2]. rewrite rn_n0, Rplus_0_l.
      assert (Hz : forall l : list (Z * R), (forall i x, In (i, x) l -> get (vent v) i = None) -> esum l (fun i x => x * match get (vent v) i with Some y => y | None => 0 end) = 0).
      { induction l as [|[i x] l IH]; intros Hl; [reflexivity|]. cbn [esum]. rewrite (Hl i x) by now left. rewrite IH; [ring|]. intros; eapply Hl; right; eassumption. }
      rewrite Hz; [reflexivity|]. intros i x Hin. apply get_None. intros Hk'. unfold meets_row in Em.
      assert (existsb (fun e => existsb (fun f => (fst e =? fst f)%Z) (vent v)) (@srow RN w cs k) = true); [|congruence].
      apply existsb_exists. exists (i, x). split; [exact Hin|]. unfold keys in Hk'. apply in_map_iff in Hk' as (e & Ee & He). apply existsb_exists. exists e. split; [exact He|].
      cbn [fst]. apply Z.eqb_eq. auto.
Qed.

Lemma rj_trans_real y : vok d y -> exists c, rj_trans_product j y = Ok c /\ arr c n (Atapp w cs (dense y)).
Proof.
  intros [(Y1 & Y2 & Y3) Dy]. pose proof (nv0 w C) as (N1 & _ & N2 & _). pose proof HJ as ((O1 & _) & S1 & S2 & _). unfold rj_trans_product. rewrite O1. fold n.
  assert (G : forall (es : list (Z * R)) c f lo, (0 <= lo)%Z -> sorted_in lo d (keys es) -> arr c n f -> exists c',
     rfold (fun cache e => r <- sys_row (rj_counts j) (rj_sys j) (fst e) ;;
       rfold (fun cache x => old <- arr_get cache (fst x) ;; arr_set cache (fst x) (@nadd RN old (@nmul RN (snd e) (snd x)))) cache r) c es = Ok c'
     /\ arr c' n (fun i => f i + esum es (fun k x => wrow w cs k i * x))).
  { induction es as [|[k x] es IH]; intros c f lo Hlo Hs Hc.
    - exists c. split; [reflexivity|]. eapply arr_ext; [exact Hc|]. intros; cbn [esum]. rnum. ring.
    - cbn [keys map fst sorted_in] in Hs. destruct Hs as [Hk Hs]. cbn [rfold fst snd]. rewrite S2 by (unfold d in *; lia). cbn [rbind].
      destruct (scatter (@srow RN w cs k) x c n f 0 ltac:(lia)) as (c1 & E1 & A1); [apply srow_sorted|exact Hc|]. rewrite E1. cbn [rbind].
      destruct (IH c1 _ (k + 1)%Z ltac:(lia) Hs A1) as (c2 & E2 & A2). exists c2. split; [exact E2|]. eapply arr_ext; [exact A2|].
      intros i Hi. cbn [esum]. rewrite srow_dense by exact Hi. rnum. ring. }
  destruct (G (vent y) (repeat (@n0 RN) (Z.to_nat n)) (fun _ => @n0 RN) 0%Z ltac:(lia)) as (c & E & A).
  - rewrite <- Dy. exact Y2.
  - apply arr_repeat.
  - exists c. split; [exact E|]. eapply arr_ext; [exact A|]. intros i Hi.
    transitivity (0 + esum (vent y) (fun k x => wrow w cs k i * x)); [f_equal; apply rn_n0|]. rewrite Rplus_0_l.
    rewrite (esum_vec y (fun k x => wrow w cs k i * x)); [|now repeat split|intros; ring]. rewrite Dy. reflexivity.
Qed.

Lemma from_raw_real (v : rvec) c f eps : wf v -> arr c n f -> exists v', @vec_set_from_raw RN v c eps = Ok v' /\ vok n v' /\ forall i, (0 <= i < n)%Z -> rounded eps (dense v' i) (f i).
Proof.
  intros Wv [Hl Hc]. pose proof (nv0 w C) as (N1 & _). destruct (vec_set_from_raw_spec v c eps Wv) as (v' & E & W & D & G). exists v'. split; [exact E|].
  split; [split; [exact W|unfold n in *; lia]|]. intros i Hi. unfold dense. rewrite G, Hc by lia. destruct (@is_zero RN (f i) eps) eqn:Ez; cbn [oval].
  - apply rounded_zero; [apply rn_n0|exact Ez].
  - apply rounded_keep. exact Ez.
Qed.

Lemma rj_min_norm_real zeps rhs sol : vok d rhs -> wf sol ->
  exists j' x y y0, rj_min_norm F j zeps rhs sol = Ok (j', x) /\ rj_current n nc F w cs j' /\ vok n x
    /\ (forall i, (0 <= i < n)%Z -> rounded zeps (dense x i) (Atapp w cs y i))
    /\ (forall k, (0 <= k < d)%Z -> rounded zeps (y k) (y0 k))
    /\ (forall k, (0 <= k < d)%Z -> Aapp w cs (Atapp w cs y0) k = dense rhs k).
Proof.
  intros Hr Ws. pose proof (nv0 w C) as (N1 & _ & N2 & _). pose proof HJ as ((O1 & O2 & O3 & O4 & _) & S1 & _). unfold rj_min_norm.
  destruct (rj_held_ok rhs Hr) as (raw & E & L & X). rewrite E. cbn [rbind]. rewrite S1. fold d.
  destruct (fact_solution_ok raw (rj_rhs j) 0 d zeps d O3 ltac:(lia) ltac:(unfold d; lia) L ltac:(lia)) as (y & Ey & Vy & G). rewrite Z.add_0_l in Ey. rewrite Ey. cbn [rbind].
  destruct (rj_trans_real y Vy) as (c & Ec & Ac). rewrite Ec. cbn [rbind]. destruct (from_raw_real sol c _ zeps Ws Ac) as (x & Ex & Vx & Gx). rewrite Ex. cbn [rbind].
  exists (set_rhs j y (rj_dir j)), x, (dense y), (fun l => nth (Z.to_nat l) raw 0). split; [reflexivity|]. split.
  - apply same_current; auto; try apply Vy; try apply O4. rewrite S1. apply Vy.
  - split; [exact Vx|]. split; [exact Gx|]. split; [intros k Hk; apply (G k Hk)|]. exact X.
Qed.

Lemma rj_lsq_real zeps rhs sol : vok n rhs -> wf sol ->
  exists j' v y0, rj_lsq F j zeps rhs sol = Ok (j', v) /\ rj_current n nc F w cs j' /\ vok d v
    /\ (forall k, (0 <= k < d)%Z -> rounded zeps (dense v k) (y0 k))
    /\ (forall k, (0 <= k < d)%Z -> Aapp w cs (Atapp w cs y0) k = Aapp w cs (dense rhs) k).
Proof.
  intros Hr Ws. pose proof (nv0 w C) as (N1 & _ & N2 & _). pose proof HJ as ((O1 & O2 & O3 & O4 & _) & S1 & _). unfold rj_lsq.
  destruct (rj_product_real rhs Hr) as (p & Ep & Vp & P). rewrite Ep. cbn [rbind].
  destruct (rj_held_ok p Vp) as (raw & E & L & X). rewrite E. cbn [rbind]. rewrite S1. fold d.
  destruct (fact_solution_ok raw sol 0 d zeps d Ws ltac:(lia) ltac:(unfold d; lia) L ltac:(lia)) as (y & Ey & Vy & G). rewrite Z.add_0_l in Ey. rewrite Ey. cbn [rbind].
  exists (set_rhs j p (rj_dir j)), y, (fun l => nth (Z.to_nat l) raw 0). split; [reflexivity|]. split.
  - apply same_current; auto; try apply Vp; try apply O4. rewrite S1. apply Vp.
  - split; [exact Vy|]. split; [intros k Hk; apply (G k Hk)|]. intros k Hk. rewrite X, P by exact Hk. reflexivity.
Qed.

Lemma rj_project_real zeps rhs sol : vok n rhs -> (0 <= vcap sol)%Z ->
  exists j' x g y y0, rj_project F j zeps rhs sol = Ok (j', x) /\ rj_current n nc F w cs j' /\ vok n x
    /\ (forall i, (0 <= i < n)%Z -> rounded zeps (dense x i) (dense rhs i - g i))
    /\ (forall i, (0 <= i < n)%Z -> rounded zeps (g i) (Atapp w cs y i))
    /\ (forall k, (0 <= k < d)%Z -> rounded zeps (y k) (y0 k))
    /\ (forall k, (0 <= k < d)%Z -> Aapp w cs (Atapp w cs y0) k = Aapp w cs (dense rhs) k).
Proof.
  intros Hr Ks. pose proof (nv0 w C) as (N1 & _ & N2 & _). pose proof HJ as ((O1 & O2 & O3 & O4 & _) & S1 & _). unfold rj_project.
  destruct (rj_product_real rhs Hr) as (p & Ep & Vp & P). rewrite Ep. cbn [rbind].
  destruct (rj_held_ok p Vp) as (raw & E & L & X). rewrite E. cbn [rbind]. rewrite S1. fold d.
  destruct (fact_solution_ok raw p 0 d zeps d (proj1 Vp) ltac:(lia) ltac:(unfold d; lia) L ltac:(lia)) as (y & Ey & Vy & G). rewrite Z.add_0_l in Ey. rewrite Ey. cbn [rbind].
  destruct (rj_trans_real y Vy) as (c & Ec & Ac). rewrite Ec. cbn [rbind]. destruct (from_raw_real (rj_dir j) c _ zeps (proj1 O4) Ac) as (x & Ex & Vx & Gx). rewrite Ex. cbn [rbind].
  destruct Hr as [Wr Dr], Vx as [Wx Dx].
  destruct (vec_add_scaled_spec rhs x (@n1 RN) (@nopp RN n1) zeps sol Wr Wx ltac:(congruence) Ks) as (z & Ez & Wz & Dz & Gz). rewrite Ez. cbn [rbind].
  exists (set_rhs j y x), z, (dense x), (dense y), (fun l => nth (Z.to_nat l) raw 0). split; [reflexivity|]. split.
  - apply same_current; auto; try apply Vy. rewrite S1. apply Vy.
  - split; [split; [exact Wz|congruence]|]. split.
    + intros i Hi. assert (Hcomb : @comb_at RN (@n1 RN) (@nopp RN n1) rhs x i = dense rhs i - dense x i).
      { unfold comb_at, dense. rewrite !oval_rn. rnum. destruct (@get R (vent rhs) i), (@get R (vent x) i); rewrite ?rn_n1; cbn; rewrite ?rn_lit1; unfold rn_lit; cbn; lra. }
      unfold dense at 1. rewrite Gz. rewrite Hcomb. unfold dense. rewrite !oval_rn. rnum.
      destruct (@get R (vent rhs) i) as [a|] eqn:Ea, (@get R (vent x) i) as [b|] eqn:Eb.
      4: replace (0 - 0) with 0 by ring; split; reflexivity.
      all: match goal with |- context [is_zero ?t ?e] => destruct (@is_zero RN t e) eqn:Ezz end.
      all: try (apply rounded_keep; exact Ezz). all: apply rounded_zero; [reflexivity|exact Ezz].
    + split; [exact Gx|]. split; [intros k Hk; apply (G k Hk)|]. intros k Hk. rewrite X, P by exact Hk. reflexivity.
Qed.
End Solve.
