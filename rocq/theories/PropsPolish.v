(** Property C44: polishing. *)
From Verif Require Import Base Num Cmp Sparse Vec VecFacts Order VecFacts2 Mat MatFacts Arr WorkingSet WorkingSetFacts Polish PropsVec.
Local Open Scope Z_scope.

(** ** Cursors *)
Section Cursor.
Context {N : Num}.
Definition behind (j : Z) (l k : list (Z * num)) : Prop := exists m, m <= j /\ k = seek m l.
Lemma seek_seek m j l : m <= j -> seek j (seek m l) = seek j l.
Proof.
  intros H. induction l as [|[i v] l IH]; [reflexivity|]. cbn [seek]. destruct (Z.ltb_spec i m).
  - rewrite IH. destruct (Z.ltb_spec i j); [reflexivity|lia].
  - reflexivity.
Qed.
Lemma seek_low m (l : list (Z * num)) lo hi : sorted_in lo hi (keys l) -> m <= lo -> seek m l = l.
Proof. destruct l as [|[i v] l]; [reflexivity|]. cbn. intros (H & _) Hm. destruct (Z.ltb_spec i m); [lia|reflexivity]. Qed.
Lemma behind_seek j l k : behind j l k -> seek j k = seek j l.
Proof. intros (m & H & ->). now apply seek_seek. Qed.
Lemma behind_next j l k : behind j l k -> behind (j + 1) l k.
Proof. intros (m & H & ->). exists m. split; [lia|reflexivity]. Qed.
Lemma behind_here j l k : behind j l k -> behind (j + 1) l (seek j k).
Proof. intros H. rewrite (behind_seek _ _ _ H). exists j. split; [lia|reflexivity]. Qed.
Lemma behind_start l lo hi : sorted_in lo hi (keys l) -> behind lo l l.
Proof. intros H. exists lo. split; [lia|]. symmetry. eapply seek_low; eauto. lia. Qed.
Lemma seek_get j (l : list (Z * num)) lo hi : sorted_in lo hi (keys l) -> head_val j (seek j l) = get l j.
Proof.
  revert lo. induction l as [|[i v] l IH]; intros lo; [reflexivity|]. cbn [keys map fst sorted_in seek get]. intros (H & Hs).
  destruct (Z.ltb_spec i j).
  - destruct (Z.eqb_spec i j); [lia|]. eapply IH; eauto.
  - cbn [head_val]. destruct (Z.eqb_spec i j); [reflexivity|]. symmetry. apply get_None. intros Hi.
    apply (sorted_in_In _ _ _ _ Hs) in Hi. lia.
Qed.
Lemma behind_get j l k hi : behind j l k -> sorted_in 0 hi (keys l) -> head_val j (seek j k) = get l j.
Proof. intros H Hs. rewrite (behind_seek _ _ _ H). eapply seek_get; eauto. Qed.
End Cursor.

(** ** One range *)
Definition reach (nv nc : Z) (w : wset) : Prop := exists ops, rfold wstep (ws_create nv nc) ops = Ok w.
Lemma reach_holds nv nc w : 0 <= nv -> 0 <= nc -> reach nv nc w -> exists vs cs, holds w vs cs /\ wnv w = nv /\ wnc w = nc.
Proof.
  intros Hv Hc (ops & E). destruct (wrun_holds nv nc ops Hv Hc (ws_create nv nc) ([], []) (create_holds nv nc Hv Hc) eq_refl eq_refl w E) as (H & D1 & D2). eauto.
Qed.
Lemma reach_step nv nc w o w' : reach nv nc w -> wstep w o = Ok w' -> reach nv nc w'.
Proof. intros (ops & E) E'. exists (ops ++ [o]). rewrite rfold_app, E. cbn [rbind rfold]. rewrite E'. reflexivity. Qed.

Definition chosen (st : Z -> ast) (keep : Z -> bool) (n : Z) : list (Z * ast) :=
  map (fun j => (j, st j)) (filter (fun j => active (st j) && keep j) (zrange n)).
Definition dropped (st : Z -> ast) (keep : Z -> bool) (n : Z) : Z :=
  len (filter (fun j => active (st j) && negb (keep j)) (zrange n)).
Lemma chosen_get st keep n j : get (chosen st keep n) j = if (0 <=? j) && (j <? n) && (active (st j) && keep j) then Some (st j) else None.
Proof.
  unfold chosen. destruct ((0 <=? j) && (j <? n) && (active (st j) && keep j)) eqn:E.
  - assert (H : In j (filter (fun j => active (st j) && keep j) (zrange n))).
    { apply filter_In. apply andb_true_iff in E as [E1 E2]. split; [apply zrange_In; lia|exact E2]. }
    revert H. generalize (filter (fun j => active (st j) && keep j) (zrange n)). intros l. induction l as [|i l IH]; [contradiction|].
    intros [->|H]; cbn [map get]; [now rewrite Z.eqb_refl|]. destruct (Z.eqb_spec i j) as [->|]; [reflexivity|auto].
  - apply get_None. unfold keys. rewrite map_map. cbn [fst]. rewrite map_id. intros H. apply filter_In in H as [H1 H2]. apply zrange_In in H1.
    rewrite H2 in E. lia.
Qed.
Lemma chosen_snoc st keep n : 0 <= n -> chosen st keep (n + 1) = chosen st keep n ++ (if active (st n) && keep n then [(n, st n)] else []).
Proof. intros H. unfold chosen. rewrite zrange_succ, filter_app, map_app by lia. cbn [filter]. destruct (active (st n) && keep n); reflexivity. Qed.
Lemma dropped_snoc st keep n : 0 <= n -> dropped st keep (n + 1) = dropped st keep n + (if active (st n) && negb (keep n) then 1 else 0).
Proof. intros H. unfold dropped. rewrite zrange_succ, filter_app, app_length by lia. cbn [filter]. destruct (active (st n) && negb (keep n)); cbn [length]; lia. Qed.

(** The general scheme of both loops. *)
Lemma range_loop {A} (I : Z -> A -> Prop) (P : list (Z * ast) -> wset -> Prop) (body : wset * A * Z -> Z -> res (wset * A * Z)) (st : Z -> ast) (keep : Z -> bool) n cons t a :
  0 <= n -> I 0 a -> P [] t ->
  (forall t l j s, P l t -> 0 <= j < n -> ~ In j (keys l) -> s <> Inactive -> exists t', ws_add t j cons s = Ok t' /\ P (l ++ [(j, s)]) t') ->
  (forall j t a r, 0 <= j < n -> I j a -> exists a', I (j + 1) a' /\
     body (t, a, r) j = if active (st j) then (if keep j then t' <- ws_add t j cons (st j) ;; Ok (t', a', r) else Ok (t, a', r + 1)) else Ok (t, a', r)) ->
  exists t' a', rfold body (t, a, 0) (zrange n) = Ok (t', a', dropped st keep n) /\ P (chosen st keep n) t'.
Proof.
  intros Hn HI HP Hadd Hb.
  destruct (zrange_loop (fun (j : Z) (s : wset * A * Z) => I j (snd (fst s)) /\ P (chosen st keep j) (fst (fst s)) /\ snd s = dropped st keep j) body n (t, a, 0)) as (s' & E & H).
  - exact Hn.
  - cbn [fst snd]. auto.
  - intros j [[t1 a1] r1] Hj (H1 & H2 & H3). cbn [fst snd] in *. destruct (Hb j t1 a1 r1 Hj H1) as (a' & Ha & ->).
    rewrite chosen_snoc, dropped_snoc by lia. destruct (active (st j)) eqn:Ea; cbn [andb].
    + destruct (keep j) eqn:Ek; cbn [negb].
      * destruct (Hadd t1 (chosen st keep j) j (st j) H2 Hj) as (t' & Et & Ht).
        { intros Hi. apply get_None in Hi; [exact Hi|]. rewrite chosen_get. destruct (Z.ltb_spec j j); [lia|]. now rewrite andb_false_r. }
        { intros E. rewrite E in Ea. discriminate. }
        rewrite Et. cbn [rbind]. eexists. split; [reflexivity|]. cbn [fst snd]. repeat split; auto; lia.
      * eexists. split; [reflexivity|]. cbn [fst snd]. rewrite app_nil_r. repeat split; auto; lia.
    + eexists. split; [reflexivity|]. cbn [fst snd]. rewrite app_nil_r. repeat split; auto; lia.
  - destruct s' as [[t' a'] r']. cbn [fst snd] in H. destruct H as (_ & H2 & ->). eauto.
Qed.

Section Ranges.
Context {N : Num}.
(** An item is kept if it has a multiplier... *)
Definition has_entry (d : vec) (j : Z) : bool := match get (vent d) j with Some _ => true | None => false end.
(** ...or, for the second type, if the value is at one of the bounds. *)
Definition at_bound (eps : num) (lb x ub : vec) (j : Z) : bool := is_eq (dense lb j) (dense x j) eps || is_eq (dense x j) (dense ub j) eps.

Variables (src : wset) (st : Z -> ast) (cons : bool) (n : Z) (P : list (Z * ast) -> wset -> Prop) (t : wset) (dual : vec).
Hypothesis Hdim : vdim dual = n.
Hypothesis Hwf : wf dual.
Hypothesis Hst : forall j, 0 <= j < n -> ws_state src cons j = Ok (st j).
Hypothesis HP : P [] t.
Hypothesis Hadd : forall t l j s, P l t -> 0 <= j < n -> ~ In j (keys l) -> s <> Inactive -> exists t', ws_add t j cons s = Ok t' /\ P (l ++ [(j, s)]) t'.

Lemma zero_range_spec : exists t', polish_zero_dual_range src t dual cons = Ok (t', dropped st (has_entry dual) n) /\ P (chosen st (has_entry dual) n) t'.
Proof.
  pose proof Hwf as (Hd & Hs & _). unfold polish_zero_dual_range. rewrite Hdim.
  match goal with |- context [rfold ?b _ _] => destruct (range_loop (fun j k => behind j (vent dual) k) P b st (has_entry dual) n cons t (vent dual)) as (t' & a' & E & H) end.
  - lia.
  - eapply behind_start; eauto.
  - exact HP.
  - exact Hadd.
  - intros j t1 k r Hj Hk. rewrite Hst by exact Hj. cbn [rbind]. unfold active. destruct (ast_eqb (st j) Inactive); cbn [negb].
    + exists k. split; [now apply behind_next|reflexivity].
    + exists (seek j k). split; [now apply behind_here|]. rewrite (behind_get _ _ _ _ Hk Hs). unfold has_entry. destruct (get (vent dual) j); reflexivity.
  - rewrite E. cbn [rbind fst snd]. eauto.
Qed.

Variables (lb x ub : vec) (eps : num).
Hypothesis Wlb : sorted_in 0 (vdim lb) (keys (vent lb)).
Hypothesis Wx : sorted_in 0 (vdim x) (keys (vent x)).
Hypothesis Wub : sorted_in 0 (vdim ub) (keys (vent ub)).
Lemma inactive_range_spec : let keep j := has_entry dual j || at_bound eps lb x ub j in
  exists t', polish_inactive_range src t lb x ub dual cons eps = Ok (t', dropped st keep n) /\ P (chosen st keep n) t'.
Proof.
  intros keep. pose proof Hwf as (Hd & Hs & _). unfold polish_inactive_range. rewrite Hdim.
  match goal with |- context [rfold ?b _ _] => destruct (range_loop (fun j k => behind j (vent dual) (fst (fst (fst k))) /\ behind j (vent lb) (snd (fst (fst k))) /\
     behind j (vent ub) (snd (fst k)) /\ behind j (vent x) (snd k)) P b st keep n cons t (vent dual, vent lb, vent ub, vent x)) as (t' & a' & E & H) end.
  - lia.
  - cbn [fst snd]. repeat split; eapply behind_start; eauto.
  - exact HP.
  - exact Hadd.
  - intros j t1 [[[kd kl] ku] kp] r Hj (K1 & K2 & K3 & K4). cbn [fst snd] in *. rewrite Hst by exact Hj. cbn [rbind]. unfold active. destruct (ast_eqb (st j) Inactive); cbn [negb].
    + eexists. split; [|reflexivity]. cbn [fst snd]. auto using behind_next.
    + unfold keep, has_entry. rewrite (behind_get _ _ _ _ K1 Hs). destruct (get (vent dual) j); cbn [orb].
      * eexists. split; [|reflexivity]. cbn [fst snd]. auto using behind_next, behind_here.
      * exists (seek j kd, seek j kl, seek j ku, seek j kp). split; [cbn [fst snd]; auto using behind_here|].
        unfold here. rewrite (behind_get _ _ _ _ K2 Wlb), (behind_get _ _ _ _ K3 Wub), (behind_get _ _ _ _ K4 Wx).
        unfold at_bound, dense. destruct (is_eq (oval (get (vent lb) j)) _ eps || _); reflexivity.
  - rewrite E. cbn [rbind fst snd]. eauto.
Qed.
End Ranges.

(** ** C44 *)
Definition fits {N : Num} (nv nc : Z) (d : @pdata N) : Prop :=
  (wf (pd_lb d) /\ wf (pd_x d) /\ wf (pd_ub d) /\ wf (pd_vd d) /\ vdim (pd_vd d) = nv) /\
  (wf (pd_clb d) /\ wf (pd_c d) /\ wf (pd_cub d) /\ wf (pd_cd d) /\ vdim (pd_cd d) = nc).
(** Which items survive. *)
Definition kept {N : Num} (t : ptype) (eps : num) (d : pdata) (it : item) : bool :=
  match t, it with
  | PolNone, _ => true
  | PolZeroDual, IVar j => has_entry (pd_vd d) j
  | PolZeroDual, ICons i => has_entry (pd_cd d) i
  | PolInactive, IVar j => has_entry (pd_vd d) j || at_bound eps (pd_lb d) (pd_x d) (pd_ub d) j
  | PolInactive, ICons i => has_entry (pd_cd d) i || at_bound eps (pd_clb d) (pd_c d) (pd_cub d) i
  end.

Lemma polish_holds {N : Num} t eps (d : pdata) nv nc w tg : 0 <= nv -> 0 <= nc -> reach nv nc w -> reach nv nc tg -> fits nv nc d ->
  exists w' tg', polish t eps d w tg = Ok (w', tg') /\ reach nv nc w' /\ reach nv nc tg' /\
    forall it s, in_range w it -> item_state w it = Ok s -> item_state w' it = Ok (if kept t eps d it then s else Inactive).
Proof.
  intros Hv Hc Hw Ht ((L1 & X1 & U1 & D1 & E1) & (L2 & X2 & U2 & D2 & E2)).
  destruct (reach_holds _ _ _ Hv Hc Hw) as (vs & cs & H & Nv & Nc). destruct (reach_holds _ _ _ Hv Hc Ht) as (tvs & tcs & TH & Tv & Tc).
  destruct t.
  { exists w, tg. cbn. repeat split; auto. }
  all: set (P1 := fun l (t : wset) => holds t l [] /\ reach nv nc t /\ wnv t = nv /\ wnc t = nc).
  all: assert (A1 : forall t l j s, P1 l t -> 0 <= j < nv -> ~ In j (keys l) -> s <> Inactive -> exists t', ws_add t j false s = Ok t' /\ P1 (l ++ [(j, s)]) t')
    by (intros t l j s (Ha & Hb & Hn1 & Hn2) Hj Hni Hs; destruct (add_var_holds t l [] j s Ha) as (t' & Et & Ha' & B1 & B2); [lia|auto|auto|auto|];
        exists t'; split; [exact Et|]; split; [exact Ha'|]; split; [apply (reach_step _ _ t (WAdd j false s) t' Hb Et)|lia]).
  all: assert (R1 : P1 [] (ws_reset tg)) by (split; [apply (reset_holds _ _ _ TH)|]; split; [apply (reach_step _ _ tg WReset _ Ht eq_refl)|]; cbn; lia).
  all: assert (S1 : forall j, 0 <= j < nv -> ws_state w false j = Ok (stf vs j))
    by (intros j Hj; unfold ws_state, ws_var_state; rewrite Nv; destruct (Z.ltb_spec j nv); [|lia]; cbn [check rbind]; rewrite <- Nv in Hj; apply (arr_get_arr _ _ _ _ (h_vst _ _ _ H) Hj)).
  all: assert (S2 : forall j, 0 <= j < nc -> ws_state w true j = Ok (stf cs j))
    by (intros j Hj; unfold ws_state, ws_cons_state; rewrite Nc; destruct (Z.ltb_spec j nc); [|lia]; cbn [check rbind]; rewrite <- Nc in Hj; apply (arr_get_arr _ _ _ _ (h_cst _ _ _ H) Hj)).
  all: cbn [polish].
  1: destruct (zero_range_spec w (stf vs) false nv P1 (ws_reset tg) (pd_vd d) E1 D1 S1 R1 A1) as (t1 & -> & (Q1 & Q2 & Q3 & Q4)).
  2: destruct (inactive_range_spec w (stf vs) false nv P1 (ws_reset tg) (pd_vd d) E1 D1 S1 R1 A1 (pd_lb d) (pd_x d) (pd_ub d) eps (proj1 (proj2 L1)) (proj1 (proj2 X1)) (proj1 (proj2 U1))) as (t1 & -> & (Q1 & Q2 & Q3 & Q4)).
  all: cbn [rbind fst]; match type of Q1 with holds _ ?l _ => set (vs' := l) in * end.
  all: set (P2 := fun l (t : wset) => holds t vs' l /\ reach nv nc t /\ wnv t = nv /\ wnc t = nc).
  all: assert (A2 : forall t l j s, P2 l t -> 0 <= j < nc -> ~ In j (keys l) -> s <> Inactive -> exists t', ws_add t j true s = Ok t' /\ P2 (l ++ [(j, s)]) t')
    by (intros t l j s (Ha & Hb & Hn1 & Hn2) Hj Hni Hs; destruct (add_cons_holds t vs' l j s Ha) as (t' & Et & Ha' & B1 & B2); [lia|auto|auto|];
        exists t'; split; [exact Et|]; split; [exact Ha'|]; split; [apply (reach_step _ _ t (WAdd j true s) t' Hb Et)|lia]).
  all: assert (R2 : P2 [] t1) by (split; auto).
  1: destruct (zero_range_spec w (stf cs) true nc P2 t1 (pd_cd d) E2 D2 S2 R2 A2) as (t2 & -> & (Q5 & Q6 & Q7 & Q8)).
  2: destruct (inactive_range_spec w (stf cs) true nc P2 t1 (pd_cd d) E2 D2 S2 R2 A2 (pd_clb d) (pd_c d) (pd_cub d) eps (proj1 (proj2 L2)) (proj1 (proj2 X2)) (proj1 (proj2 U2))) as (t2 & -> & (Q5 & Q6 & Q7 & Q8)).
  all: cbn [rbind fst]; unfold ws_copy; rewrite Q7, Q8, Nv, Nc, !Z.eqb_refl; cbn [check rbind]; exists t2, t2; split; [reflexivity|]; split; [exact Q6|]; split; [exact Q6|].
  all: intros [j|j] s Hr Es; cbn [in_range item_state] in *.
  1, 3: rewrite Nv in Hr; change (ws_var_state w j) with (ws_state w false j) in Es; rewrite S1 in Es by lia; assert (s = stf vs j) as -> by congruence;
        unfold ws_var_state; rewrite Q7; destruct (Z.ltb_spec j nv); [|lia]; cbn [check rbind]; rewrite (arr_get_arr _ _ _ _ (h_vst _ _ _ Q5)) by lia; f_equal;
        unfold stf at 1, vs'; rewrite chosen_get; destruct (Z.leb_spec 0 j); [|lia]; destruct (Z.ltb_spec j nv); [|lia]; cbn [andb kept];
        match goal with |- context [if ?b then stf _ _ else Inactive] => destruct b end; rewrite ?andb_true_r, ?andb_false_r;
        [destruct (active (stf vs j)) eqn:Ea; [reflexivity|destruct (stf vs j); (discriminate || reflexivity)]|reflexivity].
  all: rewrite Nc in Hr; change (ws_cons_state w j) with (ws_state w true j) in Es; rewrite S2 in Es by lia; assert (s = stf cs j) as -> by congruence;
        unfold ws_cons_state; rewrite Q8; destruct (Z.ltb_spec j nc); [|lia]; cbn [check rbind]; rewrite (arr_get_arr _ _ _ _ (h_cst _ _ _ Q5)) by lia; f_equal;
        unfold stf at 1; rewrite chosen_get; destruct (Z.leb_spec 0 j); [|lia]; destruct (Z.ltb_spec j nc); [|lia]; cbn [andb kept];
        match goal with |- context [if ?b then stf _ _ else Inactive] => destruct b end; rewrite ?andb_true_r, ?andb_false_r;
        [destruct (active (stf cs j)) eqn:Ea; [reflexivity|destruct (stf cs j); (discriminate || reflexivity)]|reflexivity].
Qed.

(** Exactly the described items survive, with their states, and the sets remain legal. *)
Theorem C44_kept {N : Num} : forall t eps (d : pdata) nv nc w tg, 0 <= nv -> 0 <= nc -> reach nv nc w -> reach nv nc tg -> fits nv nc d ->
  exists w' tg', polish t eps d w tg = Ok (w', tg') /\ reach nv nc w' /\ reach nv nc tg' /\
    forall it s, in_range w it -> item_state w it = Ok s -> item_state w' it = Ok (if kept t eps d it then s else Inactive).
Proof. intros. now apply polish_holds. Qed.
Print Assumptions C44_kept.

Lemma filter_le {A} (p q : A -> bool) l : (forall x, In x l -> p x = true -> q x = true) -> (length (filter p l) <= length (filter q l))%nat.
Proof.
  induction l as [|x l IH]; intros H; cbn [filter]; [lia|]. assert (IH' := IH (fun y Hy => H y (or_intror Hy))).
  destruct (p x) eqn:E; [rewrite (H x (or_introl eq_refl) E); cbn [length]; lia|]. destruct (q x); cbn [length]; lia.
Qed.
Lemma count_le (f g : Z -> ast) n l1 l2 : arr l1 n f -> arr l2 n g -> (forall j, 0 <= j < n -> active (f j) = true -> active (g j) = true) ->
  (length (filter active l1) <= length (filter active l2))%nat.
Proof.
  intros H1 H2 H. rewrite (arr_map _ _ _ H1), (arr_map _ _ _ H2).
  assert (F : forall h l, length (filter active (map h l)) = length (filter (fun j : Z => active (h j)) l)).
  { intros h. induction l as [|j l IH]; [reflexivity|]. cbn [map filter]. destruct (active (h j)); cbn [length]; congruence. }
  rewrite !F. apply filter_le. intros j Hj. apply zrange_In in Hj. auto.
Qed.

(** The set is valid, contained in the previous one, and supports the multipliers if the previous
    one did. *)
Theorem C44_polish {N : Num} : forall t eps (d : pdata) nv nc w tg, 0 <= nv -> 0 <= nc -> reach nv nc w -> reach nv nc tg -> fits nv nc d ->
  exists w' tg', polish t eps d w tg = Ok (w', tg') /\ consistent w' /\
    (ws_valid w = Ok true -> ws_valid w' = Ok true) /\
    (forall it s, in_range w it -> item_state w it = Ok s -> item_state w' it = Ok s \/ item_state w' it = Ok Inactive) /\
    (supports_vars_dual w (pd_vd d) = Ok true -> supports_vars_dual w' (pd_vd d) = Ok true) /\
    (supports_cons_dual w (pd_cd d) = Ok true -> supports_cons_dual w' (pd_cd d) = Ok true) /\
    (t = PolNone -> w' = w /\ tg' = tg).
Proof.
  intros t eps d nv nc w tg Hv Hc Hw Ht Hf. destruct (polish_holds t eps d nv nc w tg Hv Hc Hw Ht Hf) as (w' & tg' & E & R' & _ & K).
  exists w', tg'. split; [exact E|].
  destruct (reach_holds _ _ _ Hv Hc Hw) as (vs & cs & H & Nv & Nc). destruct (reach_holds _ _ _ Hv Hc R') as (vs' & cs' & H' & Nv' & Nc').
  assert (KV : forall j, 0 <= j < nv -> stf vs' j = if kept t eps d (IVar j) then stf vs j else Inactive).
  { intros j Hj. specialize (K (IVar j) (stf vs j)). cbn [in_range item_state] in K. unfold ws_var_state in K. rewrite Nv, Nv' in K.
    destruct (Z.ltb_spec j nv); [|lia]. cbn [check rbind] in K. rewrite (arr_get_arr _ _ _ _ (h_vst _ _ _ H)), (arr_get_arr _ _ _ _ (h_vst _ _ _ H')) in K by lia.
    specialize (K Hj eq_refl). congruence. }
  assert (KC : forall j, 0 <= j < nc -> stf cs' j = if kept t eps d (ICons j) then stf cs j else Inactive).
  { intros j Hj. specialize (K (ICons j) (stf cs j)). cbn [in_range item_state] in K. unfold ws_cons_state in K. rewrite Nc, Nc' in K.
    destruct (Z.ltb_spec j nc); [|lia]. cbn [check rbind] in K. rewrite (arr_get_arr _ _ _ _ (h_cst _ _ _ H)), (arr_get_arr _ _ _ _ (h_cst _ _ _ H')) in K by lia.
    specialize (K Hj eq_refl). congruence. }
  split; [exact (holds_consistent _ _ _ H')|]. split.
  { intros V. apply (holds_valid w' vs' cs' H'). rewrite Nv'.
    assert (S : ws_size w <= nv).
    { unfold ws_valid in V. destruct (wnav w <=? ws_size w); [|discriminate]. destruct (wnac w <=? ws_size w); [|discriminate]. cbn [check rbind] in V.
      destruct (Z.leb_spec (ws_size w) (wnv w)); [lia|discriminate]. }
    unfold ws_size in *. rewrite (h_nav _ _ _ H), (h_nac _ _ _ H), <- (h_cntv _ _ _ H), <- (h_cntc _ _ _ H) in S.
    rewrite (h_nav _ _ _ H'), (h_nac _ _ _ H'), <- (h_cntv _ _ _ H'), <- (h_cntc _ _ _ H').
    pose proof (h_vst _ _ _ H) as a1. pose proof (h_vst _ _ _ H') as a2. pose proof (h_cst _ _ _ H) as a3. pose proof (h_cst _ _ _ H') as a4.
    rewrite Nv in a1. rewrite Nv' in a2. rewrite Nc in a3. rewrite Nc' in a4.
    assert (length (filter active (wvst w')) <= length (filter active (wvst w)))%nat
      by (apply (count_le _ _ _ _ _ a2 a1); intros j Hj; rewrite KV by exact Hj; destruct kept; [auto|discriminate]).
    assert (length (filter active (wcst w')) <= length (filter active (wcst w)))%nat
      by (apply (count_le _ _ _ _ _ a4 a3); intros j Hj; rewrite KC by exact Hj; destruct kept; [auto|discriminate]).
    lia. }
  split. { intros it s Hr Es. rewrite (K it s Hr Es). destruct kept; auto. }
  destruct Hf as ((L1 & X1 & U1 & D1 & E1) & (L2 & X2 & U2 & D2 & E2)).
  assert (SR : forall (dual : vec) n l l' f f' keep, wf dual -> vdim dual = n -> arr l n f -> arr l' n f' ->
     (forall j, 0 <= j < n -> f' j = if (keep j : bool) then f j else Inactive) -> (forall j, has_entry dual j = true -> keep j = true) ->
     supports_range dual l = Ok true -> supports_range dual l' = Ok true).
  { intros dual n l l' f f' keep Wd Dd A A' Kf Kh S. assert (Ll : len l = vdim dual) by (destruct A as [A _]; destruct Wd; lia).
    assert (Ll' : len l' = vdim dual) by (destruct A' as [A' _]; destruct Wd; lia).
    destruct (supports_range_spec dual l Wd Ll) as (r & Er & Hr). destruct (supports_range_spec dual l' Wd Ll') as (r' & Er' & Hr').
    assert (r = true) as -> by congruence. rewrite Er'. f_equal. apply Hr'. intros i x Hg. destruct (proj1 Hr eq_refl i x Hg) as (s & Es & Ss).
    assert (Hi : 0 <= i < n). { destruct Wd as (_ & Hs & _). pose proof (sorted_in_In _ _ _ _ Hs (In_keys _ _ _ (get_Some_In _ _ _ Hg))). lia. }
    exists s. split; [|exact Ss]. destruct A as [_ A], A' as [_ A']. rewrite A' by exact Hi. rewrite A in Es by exact Hi. rewrite Kf by exact Hi.
    rewrite (Kh i) by (unfold has_entry; now rewrite Hg). exact Es. }
  split.
  { unfold supports_vars_dual. rewrite Nv, Nv', E1, Z.eqb_refl. cbn [check rbind]. pose proof (h_vst _ _ _ H) as a1. pose proof (h_vst _ _ _ H') as a2. rewrite Nv in a1. rewrite Nv' in a2.
    apply (SR _ _ _ _ _ _ (fun j => kept t eps d (IVar j)) D1 E1 a1 a2 KV). intros j Hj. destruct t; cbn [kept]; rewrite ?Hj; reflexivity. }
  split.
  { unfold supports_cons_dual. rewrite Nc, Nc', E2, Z.eqb_refl. cbn [check rbind]. pose proof (h_cst _ _ _ H) as a1. pose proof (h_cst _ _ _ H') as a2. rewrite Nc in a1. rewrite Nc' in a2.
    apply (SR _ _ _ _ _ _ (fun j => kept t eps d (ICons j)) D2 E2 a1 a2 KC). intros j Hj. destruct t; cbn [kept]; rewrite ?Hj; reflexivity. }
  intros ->. cbn in E. split; congruence.
Qed.
Print Assumptions C44_polish.

(** Polishing twice changes nothing more. *)
Theorem C44_idempotent {N : Num} : forall t eps (d : pdata) nv nc w tg w1 tg1, 0 <= nv -> 0 <= nc -> reach nv nc w -> reach nv nc tg -> fits nv nc d ->
  polish t eps d w tg = Ok (w1, tg1) -> exists w2 tg2, polish t eps d w1 tg1 = Ok (w2, tg2) /\ forall it, in_range w it -> item_state w2 it = item_state w1 it.
Proof.
  intros t eps d nv nc w tg w1 tg1 Hv Hc Hw Ht Hf E. destruct (polish_holds t eps d nv nc w tg Hv Hc Hw Ht Hf) as (w' & tg' & E' & R1 & R2 & K).
  assert (w' = w1) by congruence. assert (tg' = tg1) by congruence. subst w' tg'.
  destruct (polish_holds t eps d nv nc w1 tg1 Hv Hc R1 R2 Hf) as (w2 & tg2 & E2 & _ & _ & K2). exists w2, tg2. split; [exact E2|].
  destruct (reach_holds _ _ _ Hv Hc Hw) as (vs & cs & H & Nv & Nc). destruct (reach_holds _ _ _ Hv Hc R1) as (vs' & cs' & H' & Nv' & Nc').
  intros it Hr. destruct (cs_total _ (holds_consistent _ _ _ H) it Hr) as (s & k & Es & _). specialize (K it s Hr Es).
  assert (Hr' : in_range w1 it) by (destruct it; cbn [in_range] in *; lia). rewrite (K2 it _ Hr' K), K. destruct (kept t eps d it); reflexivity.
Qed.
Print Assumptions C44_idempotent.

(** Variables 0 (at its lower bound, without multiplier), 1 (with multiplier), 3 (between its
    bounds, without multiplier) and constraint 0 are in the working set. *)
Definition pol_data : @pdata F64 :=
  mkpd (ve 4 [(1, -2)]) (ve 4 [(1, 1); (3, 2)]) (ve 4 [(0, 5); (1, 7); (2, 9); (3, 9)]) (ve 4 [(1, 2)])
       (ve 2 [(0, 1)]) (ve 2 [(0, 1); (1, 4)]) (ve 2 [(0, 3)]) (ve 2 []).
Definition pol_set : res wset := rfold wstep (ws_create 4 2) [WAdd 0 false ActLower; WAdd 3 false ActUpper; WAdd 1 false ActUpper; WAdd 0 true ActLower].
Definition pol_run (t : ptype) : res (list ast * list ast * res bool) :=
  w <- pol_set ;; r <- polish t (nlit 1 1000000) pol_data w (ws_create 4 2) ;; Ok (wvst (fst r), wcst (fst r), ws_valid (fst r)).
Example C44_example :
  pol_run PolZeroDual = Ok ([Inactive; ActUpper; Inactive; Inactive], [Inactive; Inactive], Ok true) /\
  pol_run PolInactive = Ok ([ActLower; ActUpper; Inactive; Inactive], [ActLower; Inactive], Ok true) /\
  pol_run PolNone = Ok ([ActLower; ActUpper; Inactive; ActUpper], [ActLower; Inactive], Ok true).
Proof. vm_compute. auto. Qed.
