(** The working set of standard_cauchy.c:961-1168: independent rows, and the loops that fill it. *)
From Coq Require Import Reals Lra.
From Verif Require Import Base Num Cmp Sparse Vec VecFacts VecFacts2 VecReal RSum Mat MatFacts MatFacts2 MatFacts3 MatFacts4 Arr Gauss PreprocReal QnReal WorkingSet WorkingSetFacts DualEstFacts AugJacFacts AugJacMain AugJacReal AugJacQRReal Cauchy CauchyFacts StdCauchy StdCauchyFacts StdCauchyReal StdCauchyLP StdCauchyReach.
Local Open Scope R_scope.

(** ** Independent rows *)
(** There are at most as many independent rows as columns. *)
Lemma independent_size w cs : (0 <= wnv w)%Z -> rows_independent w cs -> (ws_size w <= wnv w)%Z.
Proof.
  intros Hn HI. destruct (Z_le_gt_dec (ws_size w) (wnv w)) as [H|H]; [exact H|exfalso].
  set (M := fun j k => if (j <? wnv w)%Z then wrow w cs k j else 0).
  assert (HM : regular (ws_size w) M).
  { intros y Hy. apply HI. intros j Hj. specialize (Hy j ltac:(lia)). unfold M in Hy. destruct (Z.ltb_spec j (wnv w)); [|lia]. exact Hy. }
  apply regular_trans in HM; [|lia]. specialize (HM (fun l => if (wnv w =? l)%Z then 1 else 0)).
  assert (Hz : (if (wnv w =? wnv w)%Z then 1 else 0) = 0); [|rewrite Z.eqb_refl in Hz; lra].
  apply HM; [|lia]. intros k Hk. apply sumd_zero. intros l Hl. unfold M. destruct (Z.eqb_spec (wnv w) l); [|apply Rmult_0_r].
  destruct (Z.ltb_spec l (wnv w)); [lia|apply Rmult_0_l].
Qed.

(** Independence in terms of the variables and constraints *)
Lemma independent_items w cs : consistent w ->
  (forall a b, (forall j, (0 <= j < wnv w)%Z -> vstate w j = Inactive -> a j = 0) -> (forall i, (0 <= i < wnc w)%Z -> cstate w i = Inactive -> b i = 0) ->
     (forall j, (0 <= j < wnv w)%Z -> a j + sumd (wnc w) (fun i => mR cs i j * b i) = 0) ->
     (forall j, (0 <= j < wnv w)%Z -> a j = 0) /\ (forall i, (0 <= i < wnc w)%Z -> b i = 0)) ->
  rows_independent w cs.
Proof.
  intros C H y Hy. pose proof (nv0 w C) as (N1 & N2 & N3 & N4).
  set (a := fun j => if (vix w j =? none)%Z then 0 else y (vix w j)). set (b := fun i => if (cix w i =? none)%Z then 0 else y (cix w i)).
  assert (Hrow : forall k j, (0 <= k < ws_size w)%Z -> (0 <= j < wnv w)%Z ->
     wrow w cs k j = (if (vix w j =? k)%Z then 1 else 0) + sumd (wnc w) (fun i => (if (cix w i =? k)%Z then 1 else 0) * mR cs i j)).
  { intros k j Hk Hj. unfold wrow, row_entry. rewrite (cont_ok w C k Hk). destruct (cont_cases w C k Hk) as [[Hc E]|[Hc E]].
    - destruct (Z.ltb_spec (cont w k) (wnv w)); [|lia]. rewrite sumd_zero.
      + destruct (Z.eqb_spec (cont w k) j) as [<-|Hne].
        * rewrite (vix_cont_id w C k Hk) by lia. rewrite Z.eqb_refl. cbn [oR]. rewrite rn_n1. lra.
        * destruct (Z.eqb_spec (vix w j) k) as [He|]; [|cbn [oR]; lra]. exfalso. apply Hne. destruct (vix_cont w C j Hj) as [_ V]; [unfold none; lia|]. now rewrite He in V.
      + intros i Hi. destruct (Z.eqb_spec (cix w i) k) as [He|]; [|apply Rmult_0_l]. destruct (cix_cont w C i Hi) as [_ V]; [unfold none; lia|]. rewrite He in V. lia.
    - destruct (Z.ltb_spec (cont w k) (wnv w)); [lia|]. destruct (Z.eqb_spec (vix w j) k) as [He|].
      { destruct (vix_cont w C j Hj) as [_ V]; [unfold none; lia|]. rewrite He in V. lia. }
      rewrite Rplus_0_l, <- mR_get. rewrite (sumd_ext (wnc w) _ (fun i => (if (cont w k - wnv w =? i)%Z then 1 else 0) * mR cs i j)).
      { rewrite (sumd_delta _ _ (fun i => mR cs i j)) by lia. reflexivity. }
      intros i Hi. f_equal. destruct (Z.eqb_spec (cont w k - wnv w) i) as [<-|Hne].
      + rewrite (cix_cont_id w C k Hk) by lia. now rewrite Z.eqb_refl.
      + destruct (Z.eqb_spec (cix w i) k) as [He|]; [|reflexivity]. exfalso. apply Hne. destruct (cix_cont w C i Hi) as [_ V]; [unfold none; lia|]. rewrite He in V. lia. }
  assert (Hd : forall q, (q = none \/ (0 <= q < ws_size w)%Z) -> sumd (ws_size w) (fun k => (if (q =? k)%Z then 1 else 0) * y k) = if (q =? none)%Z then 0 else y q).
  { intros q [-> |Hq]; [|rewrite sumd_delta by exact Hq; destruct (Z.eqb_spec q none); [unfold none in *; lia|reflexivity]].
    rewrite Z.eqb_refl. apply sumd_zero. intros k Hk. destruct (Z.eqb_spec none k); [unfold none in *; lia|apply Rmult_0_l]. }
  assert (Hvr : forall j, (0 <= j < wnv w)%Z -> vix w j = none \/ (0 <= vix w j < ws_size w)%Z).
  { intros j Hj. destruct (Z.eq_dec (vix w j) none); [now left|right]. now apply (vix_cont w C j Hj). }
  assert (Hcr : forall i, (0 <= i < wnc w)%Z -> cix w i = none \/ (0 <= cix w i < ws_size w)%Z).
  { intros j Hj. destruct (Z.eq_dec (cix w j) none); [now left|right]. now apply (cix_cont w C j Hj). }
  assert (Hab : (forall j, (0 <= j < wnv w)%Z -> a j = 0) /\ (forall i, (0 <= i < wnc w)%Z -> b i = 0)).
  { apply H.
    - intros j Hj Hs. apply (vix_ok w C j Hj) in Hs. unfold a. now rewrite Hs.
    - intros i Hi Hs. apply (cix_ok w C i Hi) in Hs. unfold b. now rewrite Hs.
    - intros j Hj. rewrite <- (Hy j Hj). rewrite (sumd_ext (ws_size w) (fun k => wrow w cs k j * y k) (fun k => (if (vix w j =? k)%Z then 1 else 0) * y k + sumd (wnc w) (fun i => (if (cix w i =? k)%Z then 1 else 0) * mR cs i j * y k))).
      2:{ intros k Hk. rewrite (Hrow k j Hk Hj), Rmult_plus_distr_r. f_equal. rewrite Rmult_comm, <- sumd_scal. apply sumd_ext. intros; ring. }
      rewrite sumd_plus, (Hd _ (Hvr j Hj)). fold (a j). f_equal. rewrite sumd_swap. apply sumd_ext. intros i Hi.
      rewrite (sumd_ext _ _ (fun k => mR cs i j * ((if (cix w i =? k)%Z then 1 else 0) * y k))) by (intros; ring). rewrite sumd_scal, (Hd _ (Hcr i Hi)). reflexivity. }
  intros k Hk. destruct (cont_cases w C k Hk) as [[Hc E]|[Hc E]].
  - pose proof (proj1 Hab (cont w k) Hc) as A. unfold a in A. rewrite (vix_cont_id w C k Hk) in A by lia. destruct (Z.eqb_spec k none); [unfold none in *; lia|exact A].
  - pose proof (proj2 Hab (cont w k - wnv w)%Z ltac:(lia)) as A. unfold b in A. rewrite (cix_cont_id w C k Hk) in A by lia. destruct (Z.eqb_spec k none); [unfold none in *; lia|exact A].
Qed.

(** ** Working sets filled in order *)
Local Open Scope Z_scope.
Definition listed (f : Z -> ast) (k : Z) : list (Z * ast) := map (fun j => (j, f j)) (filter (fun j => active (f j)) (zrange k)).
Lemma listed_succ f k : 0 <= k -> listed f (k + 1) = listed f k ++ (if active (f k) then [(k, f k)] else []).
Proof. intros H. unfold listed. rewrite zrange_succ, filter_app, map_app by exact H. cbn [filter]. destruct (active (f k)); reflexivity. Qed.
Lemma keys_listed f k : keys (listed f k) = filter (fun j => active (f j)) (zrange k).
Proof. unfold listed, keys. rewrite map_map. cbn. apply map_id. Qed.
Lemma In_listed f k j : In j (keys (listed f k)) <-> 0 <= j < k /\ active (f j) = true.
Proof. rewrite keys_listed, filter_In, zrange_In. reflexivity. Qed.
Lemma listed_sorted f k : sorted_in 0 k (keys (listed f k)).
Proof. rewrite keys_listed. apply sorted_filter, zrange_sorted. Qed.
Lemma stf_listed f k j : 0 <= j < k -> stf (listed f k) j = f j.
Proof.
  intros Hj. unfold stf. destruct (active (f j)) eqn:E.
  - assert (In (j, f j) (listed f k)). { unfold listed. apply in_map_iff. exists j. split; [reflexivity|]. apply filter_In. split; [now apply zrange_In|exact E]. }
    now rewrite (In_get 0 k _ _ _ (listed_sorted f k) H).
  - destruct (get (listed f k) j) eqn:G; [|destruct (f j); (discriminate || reflexivity)]. apply get_Some_In, In_keys, In_listed in G. destruct G. congruence.
Qed.
Lemma sorted_lt lo h l : sorted_in lo h l -> forall a b x y, (a < b)%nat -> nth_error l a = Some x -> nth_error l b = Some y -> x < y.
Proof.
  revert lo. induction l as [|z l IH]; intros lo Hs a b x y Hab Ha Hb; [destruct a; discriminate|].
  cbn [sorted_in] in Hs. destruct Hs as [Hz Hs]. destruct b as [|b]; [lia|]. cbn [nth_error] in Hb. destruct a as [|a].
  - injection Ha as <-. apply nth_error_In in Hb. pose proof (sorted_in_In _ _ _ _ Hs Hb). lia.
  - cbn [nth_error] in Ha. apply (IH _ Hs a b); auto. lia.
Qed.
Lemma sorted_items f g nv nc : 0 <= nv -> 0 <= nc -> sorted_in 0 (nv + nc) (items nv (listed f nv) (listed g nc)).
Proof.
  intros Hv Hc. unfold items. apply sorted_in_app. split; [apply (sorted_in_weaken 0 0 nv); try lia; apply listed_sorted|].
  assert (Hm : sorted_in nv (nv + nc) (map (Z.add nv) (keys (listed g nc)))).
  { assert (G : forall l lo h, sorted_in lo h l -> sorted_in (nv + lo) (nv + h) (map (Z.add nv) l)).
    { induction l as [|z l IH]; intros lo h; cbn [map sorted_in]; [trivial|]. intros [H1 H2]. split; [lia|]. replace (nv + z + 1) with (nv + (z + 1)) by lia. now apply IH. }
    specialize (G _ _ _ (listed_sorted g nc)). now rewrite Z.add_0_r in G. }
  apply (sorted_in_weaken nv _ (nv + nc)); try lia; [|exact Hm].
  destruct (rev (keys (listed f nv))) eqn:E; [exact Hv|]. assert (In z (keys (listed f nv))) by (apply in_rev; rewrite E; now left).
  pose proof (sorted_in_In _ _ _ _ (listed_sorted f nv) H). lia.
Qed.
Lemma holds_in_order w f g : holds w (listed f (wnv w)) (listed g (wnc w)) -> in_order w.
Proof.
  intros H k l a b Hk Hl Ea Eb. pose proof (h_nv _ _ _ H) as Hv. pose proof (h_nc _ _ _ H) as Hc.
  assert (Hlen : ws_size w = Z.of_nat (length (items (wnv w) (listed f (wnv w)) (listed g (wnc w))))).
  { rewrite items_len. unfold ws_size. rewrite (h_nav _ _ _ H), (h_nac _ _ _ H). lia. }
  set (its := items _ _ _) in *.
  assert (G : forall q c, 0 <= q < ws_size w -> ws_content w q = Ok c -> nth_error its (Z.to_nat q) = Some c).
  { intros q c Hq E. destruct (nth_error its (Z.to_nat q)) as [c'|] eqn:E'; [|apply nth_error_None in E'; lia].
    pose proof (content_at _ _ _ q c' H ltac:(lia) E') as E2. congruence. }
  apply (sorted_lt 0 (wnv w + wnc w) its) with (a := Z.to_nat k) (b := Z.to_nat l); [now apply sorted_items|lia|apply G; auto; lia|apply G; auto; lia].
Qed.
Lemma holds_states w f g : holds w (listed f (wnv w)) (listed g (wnc w)) ->
  (forall j, 0 <= j < wnv w -> vstate w j = f j) /\ (forall i, 0 <= i < wnc w -> cstate w i = g i).
Proof.
  intros H. split; intros j Hj.
  - unfold vstate, ws_var_state. destruct (Z.ltb_spec j (wnv w)); [|lia]. cbn [check rbind]. rewrite (arr_get_arr _ _ _ j (h_vst _ _ _ H) Hj). now apply stf_listed.
  - unfold cstate, ws_cons_state. destruct (Z.ltb_spec j (wnc w)); [|lia]. cbn [check rbind]. rewrite (arr_get_arr _ _ _ j (h_cst _ _ _ H) Hj). now apply stf_listed.
Qed.
Lemma reset_empty w : 0 <= wnv w -> 0 <= wnc w -> Z.of_nat (length (wcont w)) = wnv w + wnc w -> holds (ws_reset w) [] [].
Proof.
  intros Hv Hc Hl. constructor; cbn [ws_reset wnv wnc wvst wcst wvix wcix wcont wnav wnac length]; auto using fine_nil.
  - apply (arr_repeat Inactive).
  - apply (arr_repeat Inactive).
  - apply (arr_repeat none).
  - apply (arr_repeat none).
  - intros k x. destruct k; discriminate.
  - now rewrite filter_repeat_inactive.
  - now rewrite filter_repeat_inactive.
Qed.
Lemma add_listed_var w f k : holds w (listed f k) [] -> 0 <= k < wnv w ->
  exists w', (if active (f k) then ws_add_var w k (f k) else Ok w) = Ok w' /\ holds w' (listed f (k + 1)) [] /\ wnv w' = wnv w /\ wnc w' = wnc w.
Proof.
  intros H Hk. rewrite listed_succ by lia. destruct (active (f k)) eqn:E.
  - apply (add_var_holds w _ [] k (f k)); auto; [|now apply active_iff]. rewrite In_listed. lia.
  - exists w. rewrite app_nil_r. auto.
Qed.
Lemma add_listed_cons w vs f k : holds w vs (listed f k) -> 0 <= k < wnc w ->
  exists w', (if active (f k) then ws_add_cons w k (f k) else Ok w) = Ok w' /\ holds w' vs (listed f (k + 1)) /\ wnv w' = wnv w /\ wnc w' = wnc w.
Proof.
  intros H Hk. rewrite listed_succ by lia. destruct (active (f k)) eqn:E.
  - apply (add_cons_holds w vs _ k (f k)); auto; [|now apply active_iff]. rewrite In_listed. lia.
  - exists w. rewrite app_nil_r. auto.
Qed.

(** ** Bases of a linear program: as many nonbasic variables and rows as variables, with
    independent unit vectors and rows; equivalently the two statements below. *)
Local Open Scope R_scope.
Record regular_basis (L : @lpi RN) (cs : list (list (Z * R))) (sol : @lpsol RN) : Prop := {
  rb_rows : forall a b, (forall j, (0 <= j < li_nv L)%Z -> nthb (ls_vs sol) j = BBasic -> a j = 0) ->
    (forall i, (0 <= i < li_nc L)%Z -> nthb (ls_cs sol) i = BBasic -> b i = 0) ->
    (forall j, (0 <= j < li_nv L)%Z -> a j + sumd (li_nc L) (fun i => mR cs i j * b i) = 0) ->
    (forall j, (0 <= j < li_nv L)%Z -> a j = 0) /\ (forall i, (0 <= i < li_nc L)%Z -> b i = 0);
  rb_cols : forall x, (forall j, (0 <= j < li_nv L)%Z -> nthb (ls_vs sol) j <> BBasic -> x j = 0) ->
    (forall i, (0 <= i < li_nc L)%Z -> nthb (ls_cs sol) i <> BBasic -> lp_row L cs x i = 0) ->
    forall j, (0 <= j < li_nv L)%Z -> x j = 0 }.

Section Fill.
Variable P : @sprob RN.
Hypothesis HP : prob_ok P.
Variable T : R.
Hypothesis HT : hi <= T <= 2 * hi.
Variable cs0 : list (list (Z * R)).
Variables (it : @siter RN) (cs : list (list (Z * R))) (r : R) (g : option (@vec RN)) (p : R).
Notation n := (sp_nv P).
Notation m := (sp_nc P).
Notation INV s := (inv P T cs0 s (PSolved it cs r g p)).
Notation x := (dense (si_x it)).

(** The states given to variables and constraints *)
Definition var_state (vs : list bstat) (j : Z) : ast :=
  if @is_eq RN (dense (sp_vlb P) j) (dense (sp_vub P) j) (sp_eps P) then ActBoth
  else if bstat_eqb (nthb vs j) BLower && @nltb RN (x j - dense (sp_vlb P) j) r then ActLower
  else if bstat_eqb (nthb vs j) BUpper && @nltb RN (dense (sp_vub P) j - x j) r then ActUpper else Inactive.
Definition slack_state (vs cst : list bstat) (i : Z) : ast :=
  match nthb cst i with
  | BBasic | BZero => Inactive
  | c => if bstat_eqb (nthb vs (n + i)) BLower && bstat_eqb (nthb vs (n + m + i)) BLower then
           if @is_eq RN (dense (sp_clb P) i) (dense (sp_cub P) i) (sp_eps P) then ActBoth else match c with BLower => ActLower | _ => ActUpper end
         else Inactive
  end.
Definition plain_state (cst : list bstat) (i : Z) : ast :=
  match nthb cst i with BBasic | BZero => Inactive | BLower => ActLower | BUpper => ActUpper end.

Lemma get_b (l : list bstat) k j : length l = Z.to_nat k -> (0 <= j < k)%Z -> arr_get l j = Ok (nthb l j).
Proof. intros Hl Hj. apply (arr_get_arr _ _ _ j (arr_of BZero l k Hl) Hj). Qed.

Lemma add_vars_ok s w : INV s -> (forall s1, fetch_base s = Ok s1 -> forall j, (0 <= j < n)%Z -> nthb (fe_vs (sc_fe s1)) j <> BZero) ->
  holds w [] [] -> wnv w = n -> wnc w = m ->
  exists s1 w', fetch_base s = Ok s1 /\ INV s1 /\ fe_dbase (sc_fe s1) = false /\ sc_reduced s1 = sc_reduced s
    /\ add_vars P s (si_x it) w = Ok (s1, w') /\ holds w' (listed (var_state (fe_vs (sc_fe s1))) n) [] /\ wnv w' = n /\ wnc w' = m.
Proof.
  intros HI HZ Hw Wv Wc. destruct (fetch_base_ok P HP T cs0 it cs r g p s HI) as (s1 & E1 & I1 & D1 & (vs1 & cst1 & Es)).
  exists s1. unfold add_vars. rewrite E1. cbn [rbind]. pose proof I1 as (Hz & Hy & _). pose proof (y_iter _ _ _ _ _ _ Hy) as Hit.
  match goal with |- context [rfold ?b ?s0 _] => set (body := b); set (s0' := s0) end.
  destruct (zrange_loop (fun j (t : list (Z * @num RN) * list (Z * @num RN) * list (Z * @num RN) * wset) => let '(lx, ll, lu, w) := t in
      synced j lx (si_x it) /\ synced j ll (sp_vlb P) /\ synced j lu (sp_vub P)
      /\ holds w (listed (var_state (fe_vs (sc_fe s1))) j) [] /\ wnv w = n /\ wnc w = m) body n s0') as (t & E & Ht).
  - apply HP.
  - cbn. split; [apply synced_start|]. split; [apply synced_start|]. split; [apply synced_start|]. auto.
  - intros j [[[lx ll] lu] w1] Hj (S1 & S2 & S3 & H1 & V1 & C1). unfold body.
    rewrite !(synced_head _ _ _ S1), !(synced_head _ _ _ S2), !(synced_head _ _ _ S3) by (apply HP || apply Hit).
    rewrite (get_b _ (n + 2 * m)) by (apply Hz || (pose proof (po_m P HP); lia)). cbn [rbind].
    assert (Hnz : bstat_eqb (nthb (fe_vs (sc_fe s1)) j) BZero = false). { pose proof (HZ s1 E1 j Hj). destruct (nthb _ j); (reflexivity || congruence). }
    rewrite Hnz. cbn [negb check rbind]. rewrite (y_r _ _ _ _ _ _ Hy).
    destruct (add_listed_var w1 (var_state (fe_vs (sc_fe s1))) j H1 ltac:(lia)) as (w2 & E2 & H2 & V2 & C2).
    match goal with |- exists t', rbind ?q _ = _ /\ _ => assert (Eq : q = Ok w2) end.
    { rewrite <- E2. unfold var_state. destruct (is_eq _ _ _); [reflexivity|]. change (@nsub RN) with Rminus. destruct (bstat_eqb _ BLower && _); [reflexivity|]. destruct (bstat_eqb _ BUpper && _); reflexivity. }
    rewrite Eq. cbn [rbind]. eexists. split; [reflexivity|]. cbn. split; [now apply synced_next|]. split; [now apply synced_next|]. split; [now apply synced_next|]. split; [exact H2|]. lia.
  - rewrite E. cbn [rbind]. destruct t as [[[lx ll] lu] w']. destruct Ht as (_ & _ & _ & H1 & V1 & C1). exists w'. repeat (split; [first [reflexivity|assumption|idtac]|]); auto. rewrite Es. reflexivity.
Qed.

Lemma add_cons_ok s w vs : INV s -> fe_dbase (sc_fe s) = false ->
  (forall i, (0 <= i < m)%Z -> nthb (fe_vs (sc_fe s)) (n + i) = BLower \/ nthb (fe_vs (sc_fe s)) (n + m + i) = BLower) ->
  holds w vs [] -> wnv w = n -> wnc w = m ->
  exists w', add_cons P s w = Ok (s, w') /\ holds w' vs (listed (slack_state (fe_vs (sc_fe s)) (fe_cs (sc_fe s))) m) /\ wnv w' = n /\ wnc w' = m.
Proof.
  intros HI D HS Hw Wv Wc. unfold add_cons, fetch_base. rewrite D. cbn [rbind]. pose proof HI as (Hz & Hy & _). pose proof (po_n P HP) as Hn.
  match goal with |- context [rfold ?b ?s0 _] => set (body := b); set (s0' := s0) end.
  destruct (zrange_loop (fun j (t : list (Z * @num RN) * list (Z * @num RN) * wset) => let '(ll, lu, w) := t in
      synced j ll (sp_clb P) /\ synced j lu (sp_cub P)
      /\ holds w vs (listed (slack_state (fe_vs (sc_fe s)) (fe_cs (sc_fe s))) j) /\ wnv w = n /\ wnc w = m) body m s0') as (t & E & Ht).
  - apply HP.
  - cbn. split; [apply synced_start|]. split; [apply synced_start|]. auto.
  - intros i [[ll lu] w1] Hi (S2 & S3 & H1 & V1 & C1). unfold body, cons_state_at.
    rewrite !(synced_head _ _ _ S2), !(synced_head _ _ _ S3) by apply HP.
    rewrite (get_b _ m) by (apply Hz || lia). rewrite !(get_b _ (n + 2 * m)) by (apply Hz || lia). cbn [rbind]. unfold cauchy_cons_state.
    assert (Hc : bstat_eqb (nthb (fe_vs (sc_fe s)) (n + i)) BLower || bstat_eqb (nthb (fe_vs (sc_fe s)) (n + m + i)) BLower = true).
    { destruct (HS i Hi) as [-> | ->]; cbn; [reflexivity|apply orb_true_r]. }
    rewrite Hc. cbn [check rbind].
    destruct (add_listed_cons w1 vs (slack_state (fe_vs (sc_fe s)) (fe_cs (sc_fe s))) i H1 ltac:(lia)) as (w2 & E2 & H2 & V2 & C2).
    assert (Est : forall st, st = slack_state (fe_vs (sc_fe s)) (fe_cs (sc_fe s)) i -> (if active st then ws_add_cons w1 i st else Ok w1) = Ok w2) by (intros st ->; exact E2).
    rewrite Est. { cbn [rbind]. eexists. split; [reflexivity|]. cbn. split; [now apply synced_next|]. split; [now apply synced_next|]. split; [exact H2|]. lia. }
    unfold slack_state. destruct (nthb (fe_cs (sc_fe s)) i); reflexivity.
  - rewrite E. cbn [rbind]. destruct t as [[ll lu] w']. destruct Ht as (_ & _ & H1 & V1 & C1). exists w'. auto.
Qed.

Lemma reduced_set_ok s w : INV s -> sc_reduced s = true -> (forall s1, fetch_base s = Ok s1 -> forall j, (0 <= j < n)%Z -> nthb (fe_vs (sc_fe s1)) j <> BZero) ->
  holds w [] [] -> wnv w = n -> wnc w = m ->
  exists s1 w', fetch_base s = Ok s1 /\ INV s1 /\ fe_dbase (sc_fe s1) = false /\ sc_reduced s1 = true
    /\ reduced_working_set P s (si_x it) w = Ok (s1, w')
    /\ holds w' (listed (var_state (fe_vs (sc_fe s1))) n) (listed (plain_state (fe_cs (sc_fe s1))) m) /\ wnv w' = n /\ wnc w' = m.
Proof.
  intros HI Rd HZ Hw Wv Wc. pose proof (po_n P HP) as Hn. pose proof (po_m P HP) as Hm.
  destruct (add_vars_ok s w HI HZ Hw Wv Wc) as (s0 & w0 & E0 & I0 & D0 & R0 & _).
  assert (HZ0 : forall s1, fetch_base s0 = Ok s1 -> forall j, (0 <= j < n)%Z -> nthb (fe_vs (sc_fe s1)) j <> BZero).
  { intros s1. unfold fetch_base at 1. rewrite D0. intros [= <-]. now apply HZ. }
  destruct (add_vars_ok s0 w I0 HZ0 Hw Wv Wc) as (s1 & w1 & E1 & I1 & D1 & R1 & A1 & H1 & V1 & C1).
  assert (s1 = s0) as -> by (unfold fetch_base in E1; rewrite D0 in E1; congruence).
  unfold reduced_working_set. rewrite E0. cbn [rbind]. rewrite A1. cbn [rbind fst snd].
  pose proof I0 as (Hz & Hy & sol & Hv & [[Rf _]|[_ (L & sol' & Hq)]]); [congruence|].
  match goal with |- context [rfold ?b _ _] => set (body := b) end.
  destruct (zrange_loop (fun i w => holds w (listed (var_state (fe_vs (sc_fe s0))) n) (listed (plain_state (fe_cs (sc_fe s0))) i) /\ wnv w = n /\ wnc w = m) body m w1) as (w2 & E & H2 & V2 & C2).
  - exact Hm.
  - auto.
  - intros i w2 Hi (H2 & V2 & C2). unfold body.
    destruct (add_listed_cons w2 _ (plain_state (fe_cs (sc_fe s0))) i H2 ltac:(lia)) as (w3 & E3 & H3 & V3 & C3).
    exists w3. split; [|split; [exact H3|lia]]. rewrite <- E3. rewrite (get_b _ m) by (apply Hz || lia). cbn [rbind]. unfold plain_state.
    assert (Gx : forall q, (n <= q < n + 2 * m)%Z -> arr_get (fe_x (sc_fe s0)) q = Ok 0).
    { intros q Hq'. rewrite (arr_get_arr _ _ _ q (@arr_of (@num RN) 0 _ _ (z_x _ _ _ Hz))) by lia. f_equal. exact (q_x0 _ _ _ _ _ _ _ _ _ _ Hq q Hq'). }
    assert (Z0 : @neqb RN 0 n0 = true) by (apply rn_eqb; now rewrite rn_n0).
    destruct (nthb (fe_cs (sc_fe s0)) i); try reflexivity; rewrite !Gx by lia; cbn [rbind]; rewrite Z0; reflexivity.
  - rewrite E. cbn [rbind]. exists s0, w2. rewrite <- Rd. repeat (split; [first [reflexivity|assumption]|]). assumption.
Qed.
End Fill.
