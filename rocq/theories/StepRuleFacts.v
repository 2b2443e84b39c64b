(** Facts about the step rules. *)
From Coq Require Import Reals Lra Psatz.
From Verif Require Import Base Num Cmp Sparse Vec VecFacts VecFacts2 Mat MatFacts Order RSum VecReal Ring StepRule.
Local Open Scope Z_scope.

(** The visible window, oldest first, of a history (newest first). *)
Definition window {A} (n : Z) (h : list A) : list A := rev (firstn (Z.to_nat n) h).

(** The reference: the earliest entry of maximal merit, with everything after it. *)
Definition is_ref {N : Num} {O : Ord N} (w w1 : list (num * num)) (m r : num) (w2 : list (num * num)) : Prop :=
  w = w1 ++ (m, r) :: w2 /\ (forall e, In e w1 -> (val (fst e) < val m)%R) /\ (forall e, In e w2 -> (val (fst e) <= val m)%R).

Lemma zseq_cons a b : a <= b -> zseq a b = a :: zseq (a + 1) b.
Proof.
  intros H. unfold zseq. replace (b - a + 1) with (Z.of_nat (S (Z.to_nat (b - a)))) by lia.
  replace (b - (a + 1) + 1) with (Z.of_nat (Z.to_nat (b - a))) by lia. unfold zrange. rewrite !Nat2Z.id.
  cbn [seq map]. f_equal; [lia|]. rewrite <- seq_shift, !map_map. apply map_ext. intros x. lia.
Qed.
Lemma zseq_nil a b : b < a -> zseq a b = [].
Proof. intros H. unfold zseq, zrange. replace (Z.to_nat (b - a + 1)) with O by lia. reflexivity. Qed.

Lemma nth_error_firstn {A} (l : list A) k m : (k < m)%nat -> nth_error (firstn m l) k = nth_error l k.
Proof.
  revert k m; induction l as [|a l IH]; intros k m H; [now rewrite firstn_nil|].
  destruct m as [|m]; [lia|]. rewrite firstn_cons. destruct k as [|k]; [reflexivity|]. cbn [nth_error]. apply IH. lia.
Qed.

Section Ring.
Context {A : Type}.
Variables (data : list A) (n l curr : Z) (h : list A).
Hypothesis Hr : ring data n l curr h.
Let w := window n h.
Let b := curr - l + 1.

Lemma window_length : len w = l.
Proof. destruct Hr as (Hn & Hd & Hl & _). unfold w, window. rewrite rev_length, firstn_length. lia. Qed.

Lemma window_read i : b <= i <= curr -> exists a, nth_error w (Z.to_nat (i - b)) = Some a /\ arr_get data (data_index n l i) = Ok a.
Proof.
  intros Hi. destruct (ring_get _ _ _ _ _ i Hr) as (a & H1 & H2); [unfold b in Hi; lia|].
  exists a. split; [|exact H2]. pose proof window_length as Hw.
  assert (Hl : l = Z.min n (len h)) by (destruct Hr as (_ & _ & ? & _); auto).
  unfold w, window in *. rewrite rev_length in Hw.
  assert (Hk : (Z.to_nat (i - b) < length (firstn (Z.to_nat n) h))%nat) by lia.
  rewrite (nth_error_nth' _ a) by (rewrite rev_length; exact Hk).
  rewrite rev_nth by exact Hk. f_equal.
  assert (Hx : (length (firstn (Z.to_nat n) h) - S (Z.to_nat (i - b)) = Z.to_nat (curr - i))%nat) by lia.
  rewrite Hx. apply nth_error_nth. rewrite <- H1. apply nth_error_firstn. lia.
Qed.
End Ring.

(** A loop over the indices of a suffix of the window is a loop over that suffix. *)
Lemma window_loop {A S} (data : list A) n l curr h (f : S -> Z -> A -> S) s pre suf :
  ring data n l curr h -> window n h = pre ++ suf ->
  rfold (fun s i => e <- arr_get data (data_index n l i) ;; Ok (f s i e)) s (zseq (curr - l + 1 + len pre) curr)
  = Ok (fold_left (fun s ie => f s (fst ie) (snd ie)) (enum_from (curr - l + 1 + len pre) suf) s).
Proof.
  intros Hr. revert pre s. induction suf as [|a suf IH]; intros pre s Hw.
  - pose proof (window_length _ _ _ _ _ Hr) as L. rewrite Hw, app_nil_r in L. rewrite zseq_nil by lia. reflexivity.
  - pose proof (window_length _ _ _ _ _ Hr) as L. rewrite Hw, app_length in L. cbn [length] in L.
    rewrite zseq_cons by lia. cbn [rfold enum_from fold_left fst snd].
    destruct (window_read _ _ _ _ _ Hr (curr - l + 1 + len pre)) as (x & H1 & H2); [lia|].
    rewrite Hw in H1. rewrite nth_error_app2 in H1 by lia.
    replace (Z.to_nat (curr - l + 1 + len pre - (curr - l + 1)) - length pre)%nat with O in H1 by lia.
    cbn [nth_error] in H1. injection H1 as <-. rewrite H2. cbn [rbind].
    specialize (IH (pre ++ [a]) (f s (curr - l + 1 + len pre) a)).
    rewrite app_length in IH. cbn [length] in IH.
    replace (curr - l + 1 + Z.of_nat (length pre + 1)) with (curr - l + 1 + len pre + 1) in IH by lia.
    apply IH. rewrite Hw, <- app_assoc. reflexivity.
Qed.

Section Ref.
Context {N : Num} {O : Ord N}.
Local Notation step b := (fun s (ie : Z * (num * num)) => if nltb (snd s) (fst (snd ie)) then (fst ie, fst (snd ie)) else s) (only parsing).

Lemma ref_fold b (w : list (num * num)) j m0 : nn m0 -> (forall e, In e w -> nn (fst e)) ->
  let s := fold_left (step b) (enum_from b w) (j, m0) in
  (s = (j, m0) /\ forall e, In e w -> (val (fst e) <= val m0)%R)
  \/ (exists w1 m r w2, is_ref w w1 m r w2 /\ s = (b + len w1, m) /\ (val m0 < val m)%R).
Proof.
  revert b j m0; induction w as [|[m r] w IH]; intros b j m0 Hm Hn; cbn [enum_from fold_left fst snd]; cbv zeta.
  - left. split; [reflexivity|]. intros e [].
  - assert (Hnm : nn m) by (apply (Hn (m, r)); now left).
    assert (Hnw : forall e, In e w -> nn (fst e)) by (intros e He; apply Hn; now right).
    destruct (nltb m0 m) eqn:E.
    + apply ltb_iff in E; auto. destruct (IH (b + 1) b m Hnm Hnw) as [[Es Hle]|(w1 & m' & r' & w2 & (Hw & H1 & H2) & Es & Hlt)].
      * right. exists [], m, r, w. split; [|split].
        -- split; [reflexivity|]. split; [intros e []|exact Hle].
        -- rewrite Es. cbn [length]. f_equal. lia.
        -- exact E.
      * right. exists ((m, r) :: w1), m', r', w2. split; [|split].
        -- split; [rewrite Hw; reflexivity|]. split; [|exact H2]. intros e [<-|He]; [exact Hlt|auto].
        -- rewrite Es. cbn [length]. f_equal. lia.
        -- lra.
    + apply ltb_false_iff in E; auto. destruct (IH (b + 1) j m0 Hm Hnw) as [[Es Hle]|(w1 & m' & r' & w2 & (Hw & H1 & H2) & Es & Hlt)].
      * left. split; [exact Es|]. intros e [<-|He]; [exact E|auto].
      * right. exists ((m, r) :: w1), m', r', w2. split; [|split].
        -- split; [rewrite Hw; reflexivity|]. split; [|exact H2]. intros e [<-|He]; [cbn [fst]; lra|auto].
        -- rewrite Es. cbn [length]. f_equal. lia.
        -- exact Hlt.
Qed.

Lemma is_ref_unique w w1 m r w2 w1' m' r' w2' : is_ref w w1 m r w2 -> is_ref w w1' m' r' w2' ->
  w1 = w1' /\ m = m' /\ r = r' /\ w2 = w2'.
Proof.
  intros (E & A1 & A2) (E' & B1 & B2). rewrite E in E'. clear E.
  revert w1' E' B1. induction w1 as [|e w1 IH]; intros [|e' w1'] E' B1; cbn [app] in E'.
  - injection E' as <- <- <-. auto.
  - injection E' as <- ->. exfalso. pose proof (B1 (m, r) (or_introl eq_refl)). pose proof (A2 (m', r') ltac:(apply in_or_app; right; now left)).
    cbn [fst] in *. lra.
  - injection E' as -> <-. exfalso. pose proof (A1 (m', r') (or_introl eq_refl)). pose proof (B2 (m, r) ltac:(apply in_or_app; right; now left)).
    cbn [fst] in *. lra.
  - injection E' as <- E'. destruct (IH (fun x Hx => A1 x (or_intror Hx)) w1' E' (fun x Hx => B1 x (or_intror Hx))) as (-> & -> & -> & ->). auto.
Qed.

Definition wholds (r : wrule) (h : list (num * num)) : Prop := ring (w_data r) (w_num r) (w_len r) (w_curr r) h.

(** What the window rule computes, in terms of the window. *)
Lemma window_ratio_spec r h iterate exact mr :
  wholds r h -> let w := window (w_num r) h in
  (forall e, In e w -> nltb (nopp sleqp_infinity) (fst e) = true) ->
  (w = [] -> window_ratio r iterate exact mr = Ok (ndiv (nsub iterate exact) mr))
  /\ (w <> [] -> exists w1 m d w2, is_ref w w1 m d w2 /\     window_ratio r iterate exact mr =
      Ok (if nltb m exact then ndiv (nsub iterate exact) mr
          else ndiv (nsub m exact) (nadd (fold_left nadd (map snd ((m, d) :: w2)) n0) mr))).
Proof.
  intros Hr w Hinf. pose proof (window_length _ _ _ _ _ Hr) as L. fold w in L. unfold window_ratio. split.
  - intros E. rewrite E in L. cbn [length] in L. rewrite <- L. reflexivity.
  - intros Hne. destruct w as [|e0 w'] eqn:Ew; [congruence|]. cbn [length] in L.
    destruct (Z.eqb_spec (w_len r) 0); [lia|].
    assert (Hnn : forall e, In e (e0 :: w') -> nn (fst e)).
    { intros e He. destruct (nn_dec (fst e)) as [H|H]; auto. apply Hinf in He. destruct (nan_ltb (fst e) (nopp sleqp_infinity) H); congruence. }
    assert (Hni : nn (nopp sleqp_infinity)).
    { destruct (nn_dec (nopp sleqp_infinity)) as [H|H]; auto. pose proof (Hinf e0 (or_introl eq_refl)).
      destruct (nan_ltb _ (fst e0) H); congruence. }
    assert (Hidx : exists w1 m d w2, is_ref (e0 :: w') w1 m d w2 /\ window_ref_index r = Ok (w_begin r + len w1)).
    { unfold window_ref_index. rewrite (proj2 (Z.ltb_lt 0 (w_len r))) by lia. cbn [check rbind].
      pose proof (window_loop (w_data r) (w_num r) (w_len r) (w_curr r) h
                   (fun s i e => if nltb (snd s) (fst e) then (i, fst e) else s) (0, nopp sleqp_infinity) [] (e0 :: w') Hr Ew) as HL.
      cbn [length] in HL. rewrite Z.add_0_r in HL. unfold w_read, w_begin. rewrite HL. cbn [rbind].
      destruct (ref_fold (w_curr r - w_len r + 1) (e0 :: w') 0 (nopp sleqp_infinity) Hni Hnn) as [[_ Hle]|(w1 & m & d & w2 & Href & Es & _)].
      - exfalso. pose proof (Hle e0 (or_introl eq_refl)) as H. pose proof (Hinf e0 (or_introl eq_refl)) as H'.
        apply ltb_iff in H'; auto; [lra|]. apply Hnn. now left.
      - exists w1, m, d, w2. split; [exact Href|]. f_equal.
        change (fst (fold_left (fun s (ie : Z * (num * num)) => if nltb (snd s) (fst (snd ie)) then (fst ie, fst (snd ie)) else s) (enum_from (w_curr r - w_len r + 1) (e0 :: w')) (0, nopp sleqp_infinity)) = w_curr r - w_len r + 1 + len w1).
        rewrite Es. reflexivity. }
    destruct Hidx as (w1 & m & d & w2 & Href & Hix). exists w1, m, d, w2. split; [exact Href|].
    rewrite Hix. cbn [rbind]. destruct Href as (Hw & _ & _).
    assert (Lw : len (e0 :: w') = len w1 + 1 + len w2). { rewrite Hw, app_length. cbn [length]. lia. }
    cbn [length] in Lw.
    destruct (window_read _ _ _ _ _ Hr (w_begin r + len w1)) as (e & H1 & H2); [unfold w_begin; lia|].
    change (window (w_num r) h) with w in H1. rewrite Ew, Hw in H1. unfold w_begin in H1. rewrite nth_error_app2 in H1 by lia.
    replace (Z.to_nat (w_curr r - w_len r + 1 + len w1 - (w_curr r - w_len r + 1)) - length w1)%nat with 0%nat in H1 by lia.
    cbn [nth_error] in H1. injection H1 as <-. unfold w_read at 1. rewrite H2. cbn [rbind fst snd].
    destruct (nltb m exact); [reflexivity|].
    rewrite (proj2 (Z.leb_le (w_begin r) _)) by lia. rewrite (proj2 (Z.leb_le _ (w_curr r))) by (unfold w_begin; lia).
    cbn [andb check rbind].
    assert (Ew' : window (w_num r) h = w1 ++ (m, d) :: w2) by (change (window (w_num r) h) with w; now rewrite Ew, Hw).
    pose proof (window_loop (w_data r) (w_num r) (w_len r) (w_curr r) h (fun s _ e => nadd s (snd e)) n0 w1 ((m, d) :: w2) Hr Ew') as HL.
    unfold w_read. unfold w_begin at 1. rewrite HL. cbn [rbind]. f_equal. f_equal. f_equal.
    clear. generalize ((m, d) :: w2), (w_curr r - w_len r + 1 + len w1), (@n0 N). intros q.
    induction q as [|e q IH]; intros b s; cbn [enum_from fold_left map fst snd]; [reflexivity|]. apply IH.
Qed.

Lemma window_add_spec eps r h iterate mr : wholds r h ->
  (w_num r = 0 \/ is_geq mr n0 eps = true) ->
  exists r', window_add eps r iterate mr = Ok r' /\ w_num r' = w_num r /\ wholds r' ((iterate, mr) :: h).
Proof.
  intros Hr Hg. unfold window_add. destruct (Z.eqb_spec (w_num r) 0) as [E|E].
  - exists r. split; [reflexivity|]. split; [reflexivity|].
    destruct Hr as (Hn & Hd & Hl & Hc & H). split; [exact Hn|]. split; [exact Hd|].
    cbn [length]. split; [lia|]. split; [rewrite E in *; exact Hc|]. intros k Hk. lia.
  - destruct Hg as [Hg|Hg]; [congruence|]. rewrite Hg. cbn [check rbind].
    destruct (ring_push _ _ _ _ _ (iterate, mr) Hr) as (data' & H1 & H2).
    { destruct Hr as (Hn & _). lia. }
    rewrite H1. cbn [rbind]. eexists. split; [reflexivity|]. split; [reflexivity|]. exact H2.
Qed.
End Ref.

(** ** Exact arithmetic: level sets *)
Local Open Scope R_scope.

Definition reps : R := 10 / 2 ^ 52.
Lemma reps_pos : 0 < reps.
Proof. unfold reps. apply Rdiv_lt_0_compat; [lra|apply pow_lt; lra]. Qed.
Lemma rn_ratio_eps : (@ratio_eps RN : R) = reps.
Proof. unfold ratio_eps, reps. rewrite rn_lit_eq. f_equal. rewrite pow_IZR. reflexivity. Qed.

Lemma rn_nsub (x y : R) : @nsub RN x y = x - y. Proof. reflexivity. Qed.
Lemma rn_nadd (x y : R) : @nadd RN x y = x + y. Proof. reflexivity. Qed.
Lemma rn_ndiv (x y : R) : @ndiv RN x y = x / y. Proof. reflexivity. Qed.

Ltac rops := try change (@nsub RN) with Rminus in *; try change (@nadd RN) with Rplus in *; try change (@ndiv RN) with Rdiv in *;
  try change (@nmul RN) with Rmult in *; try change (@nopp RN) with Ropp in *; rnum.

Lemma rn_is_geq_pos (x eps : R) : 0 <= eps -> 0 <= x -> @is_geq RN x n0 eps = true.
Proof.
  intros He Hx. unfold is_geq. apply rn_leb. unfold rel_diff. rewrite !rn_n0, !rn_n1, !rn_max, !rn_abs. rops. apply Rle_trans with 0; [lra|].
  apply Rmult_le_pos; [rnum; lra|]. apply Rlt_le, Rinv_0_lt_compat.
  eapply Rlt_le_trans; [|apply Rmax_r]. rnum; lra.
Qed.

Lemma div_ge_pos (a b t : R) : 0 < b -> 0 < t -> t <= a / b -> t * b <= a.
Proof.
  intros Hb Ht H. apply (Rmult_le_compat_r b) in H; [|lra]. unfold Rdiv in H. rewrite Rmult_assoc, Rinv_l in H by lra. lra.
Qed.

Lemma current_ratio_dec (it ex md t : R) : 0 < it - md -> 0 < t -> t <= @current_ratio RN it ex md -> ex <= it.
Proof.
  intros Hm Ht. unfold current_ratio. cbv zeta. rops.
  destruct (neqb (it - ex) (it - md)) eqn:E.
  - apply rn_eqb in E. intros _. lra.
  - intros H. apply div_ge_pos in H; [|lra|lra]. pose proof (Rmult_lt_0_compat _ _ Ht Hm). lra.
Qed.

Lemma rmax_ge a b t : t <= Rmax a b -> t <= a \/ t <= b.
Proof. unfold Rmax. destruct (Rle_dec a b); auto. Qed.

(** *** Window *)
Definition wstep (eps thr : R) (s : @wrule RN * R) (st : R * R) : res (@wrule RN * R) :=
  match @window_apply RN eps thr (fst s) (snd s) (fst st) (snd s - snd st) with
  | Ok (r, acc, _) => Ok (r, if acc then fst st else snd s)
  | Err c => Err c
  | Trap => Trap
  end.

Definition big100 : R := IZR (10 ^ 100).
Lemma rn_infinity : (@sleqp_infinity RN : R) = big100.
Proof. unfold sleqp_infinity. rewrite rn_lit1. reflexivity. Qed.

Definition winv (M : R) (s : @wrule RN * R) : Prop :=
  exists h, wholds (fst s) h /\ snd s <= M /\ - big100 < snd s /\
  (forall e, In e h -> - big100 < fst e <= M /\ 0 < snd e).

Lemma In_window {A} n (h : list A) e : In e (window n h) -> In e h.
Proof.
  unfold window. rewrite <- in_rev. intros H. rewrite <- (firstn_skipn (Z.to_nat n) h). apply in_or_app. now left.
Qed.

Lemma wstep_inv eps thr M s st : 0 <= eps -> 0 < thr -> winv M s -> 0 < snd st -> - big100 < fst st ->
  exists s', wstep eps thr s st = Ok s' /\ winv M s' /\ (snd s' = snd s \/ snd s' = fst st).
Proof.
  intros He Ht (h & Hr & HM & HB & Hh) Hp Hl. destruct s as [r it]. destruct st as [ex mr]. cbn [fst snd] in *.
  unfold wstep, window_apply. cbn [fst snd]. cbv zeta. rops. replace (it - (it - mr)) with mr by lra.
  assert (Hinf : forall e, In e (window (w_num r) h) -> nltb (nopp (@sleqp_infinity RN)) (fst e) = true).
  { intros e He'. apply In_window, Hh in He'. apply rn_ltb. pose proof rn_infinity as Ei. change (@nopp RN (@sleqp_infinity RN)) with (- (@sleqp_infinity RN : R)). rewrite Ei. lra. }
  destruct (window_ratio_spec r h it ex mr Hr Hinf) as [W1 W2].
  assert (Hrat : exists q, window_ratio r it ex mr = Ok q /\ forall t, 0 < t -> t <= q -> ex <= M).
  { destruct (window (w_num r) h) as [|e0 w'] eqn:Ew.
    - exists ((it - ex) / mr). split; [apply W1; exact Ew|]. intros t Htp H. apply div_ge_pos in H; try lra.
      pose proof (Rmult_lt_0_compat _ _ Htp Hp). lra.
    - destruct W2 as (w1 & m & d & w2 & (Hw & _ & _) & E); [intros F; pose proof (eq_trans (eq_sym Ew) F); discriminate|].
      destruct (nltb m ex) eqn:El.
      + exists ((it - ex) / mr). split; [exact E|]. intros t Htp H. apply div_ge_pos in H; try lra.
        pose proof (Rmult_lt_0_compat _ _ Htp Hp). lra.
      + eexists. split; [exact E|]. intros t Htp H. apply rn_ltb_false in El.
        assert (Hin : In (m, d) h).
        { apply (@In_window (@num RN * @num RN) (w_num r)). rewrite Hw.
          apply in_or_app. right. now left. }
        apply Hh in Hin. cbn [fst] in Hin. rnum. lra. }
  destruct Hrat as (q & Eq & Hq). rewrite Eq. cbn [rbind]. rewrite rn_max.
  destruct (nleb thr (Rmax (@current_ratio RN it ex (it - mr)) q)) eqn:Ea.
  - assert (Hex : ex <= M).
    { apply rn_leb in Ea. apply rmax_ge in Ea. destruct Ea as [Ea|Ea].
      - apply current_ratio_dec in Ea; lra.
      - exact (Hq thr Ht Ea). }
    destruct (window_add_spec eps r h it mr Hr) as (r' & E' & _ & Hr'); [right; apply rn_is_geq_pos; lra|].
    rewrite E'. cbn [rbind]. eexists. split; [reflexivity|]. split; [|now right].
    exists ((it, mr) :: h). cbn [fst snd]. split; [exact Hr'|]. split; [exact Hex|]. split; [exact Hl|].
    intros e [<-|Hin]; [cbn [fst snd]; lra|auto].
  - eexists. split; [reflexivity|]. split; [|now left]. exists h. cbn [fst snd]. auto.
Qed.

Lemma wrun_level eps thr n junk it0 steps : 0 <= eps -> 0 < thr -> (0 <= n)%Z -> len junk = n -> - big100 < it0 ->
  (forall st, In st steps -> 0 < snd st /\ - big100 < fst st) ->
  exists r it, rfold (wstep eps thr) (mkwr n 0 (-1) junk, it0) steps = Ok (r, it) /\ it <= it0.
Proof.
  intros He Ht Hn Hj Hi Hs.
  assert (G : forall s, winv it0 s -> exists s', rfold (wstep eps thr) s steps = Ok s' /\ winv it0 s').
  { clear Hj Hn Hi. induction steps as [|st steps IH]; intros s Hw; cbn [rfold]; [eauto|].
    destruct (Hs st (or_introl eq_refl)) as [H1 H2].
    destruct (wstep_inv eps thr it0 s st He Ht Hw H1 H2) as (s' & E & Hw' & _). rewrite E. cbn [rbind].
    apply IH; auto. intros st' Hin. apply Hs. now right. }
  destruct (G (mkwr n 0 (-1) junk, it0)) as ([r it] & E & (h & _ & H & _)).
  - exists []. cbn [fst snd]. split; [now apply ring_empty|]. split; [lra|]. split; [exact Hi|]. intros e [].
  - exists r, it. split; [exact E|exact H].
Qed.

(** *** Minimum step rule *)
Definition mstep (thr : R) (s : @mrule RN * R) (st : R * R) : res (@mrule RN * R) :=
  match @minstep_apply RN thr (fst s) (snd s) (fst st) (snd s - snd st) with
  | Ok (r, acc, _) => Ok (r, if acc then fst st else snd s)
  | Err c => Err c
  | Trap => Trap
  end.

Definition minv (M : R) (r : @mrule RN) : Prop :=
  m_init r = true -> m_ref r <= M /\ m_max r <= M /\ m_min r <= m_max r /\ 0 <= m_sum_ref r /\ 0 <= m_sum_max r.

Lemma mstep_inv thr M r it st : 0 < thr -> minv M r -> it <= M -> 0 < snd st ->
  exists r' it', mstep thr (r, it) st = Ok (r', it') /\ minv M r' /\ it' <= M.
Proof.
  intros Ht Hr HM Hp. destruct st as [ex mr]. cbn [fst snd] in *. unfold mstep, minstep_apply. cbn [fst snd]. cbv zeta.
  rops. replace (it - (it - mr)) with mr by lra.
  assert (H1 : exists r1, minstep_start r it = Ok r1 /\ m_init r1 = true /\ minv M r1).
  { unfold minstep_start. destruct (m_init r) eqn:Ei.
    - destruct (Hr Ei) as (A1 & A2 & A3 & A4 & A5). rewrite (proj2 (rn_leb (m_min r) (m_max r)) A3). cbn [check rbind].
      exists r. split; [reflexivity|]. split; [exact Ei|]. exact Hr.
    - eexists. split; [reflexivity|]. split; [reflexivity|]. intros _. cbn [m_ref m_max m_min m_sum_ref m_sum_max].
      rewrite rn_n0. rnum. lra. }
  destruct H1 as (r1 & E1 & Ei & Hr1). rewrite E1. cbn [rbind]. destruct (Hr1 Ei) as (A1 & A2 & A3 & A4 & A5).
  rewrite rn_max. rops.
  destruct (nleb thr (Rmax (@current_ratio RN it ex (it - mr)) ((m_ref r1 - ex) / (m_sum_ref r1 + mr)))) eqn:Ea.
  - assert (Hex : ex <= M).
    { apply rn_leb in Ea. apply rmax_ge in Ea. destruct Ea as [Ea|Ea].
      - apply current_ratio_dec in Ea; lra.
      - apply div_ge_pos in Ea; [|rnum; lra|exact Ht]. pose proof (Rmult_le_pos thr (m_sum_ref r1 + mr)). rnum. lra. }
    eexists _, _. split; [reflexivity|]. split; [|exact Hex]. intros _.
    unfold minstep_accept. cbv zeta. cbn [m_ref m_max m_min m_sum_ref m_sum_max]. rewrite rn_n0. rops.
    destruct (nltb it (m_min r1)) eqn:E2; [apply rn_ltb in E2|apply rn_ltb_false in E2].
    + assert (nltb it it = false) as -> by (apply rn_ltb_false; rnum; lra).
      destruct (0 =? m_limit r1)%Z; rnum; lra.
    + destruct (nltb (m_max r1) it) eqn:E3; [apply rn_ltb in E3|apply rn_ltb_false in E3];
        destruct (_ =? m_limit r1)%Z; rnum; lra.
  - eexists _, _. split; [reflexivity|]. split; [exact Hr1|exact HM].
Qed.

Lemma mrun_level thr limit r0 it0 steps : 0 < thr -> (forall st, In st steps -> 0 < snd st) ->
  m_init r0 = false -> m_limit r0 = limit ->
  exists r it, rfold (mstep thr) (r0, it0) steps = Ok (r, it) /\ it <= it0.
Proof.
  intros Ht Hs Hi _.
  assert (G : forall r it, minv it0 r -> it <= it0 -> exists r' it', rfold (mstep thr) (r, it) steps = Ok (r', it') /\ it' <= it0).
  { clear Hi. induction steps as [|st steps IH]; intros r it Hr Hit; cbn [rfold]; [eauto|].
    destruct (mstep_inv thr it0 r it st Ht Hr Hit) as (r' & it' & E & Hr' & Hit'); [apply Hs; now left|].
    rewrite E. cbn [rbind]. apply IH; auto. intros st' Hin. apply Hs. now right. }
  apply G; [|lra]. intros E. congruence.
Qed.
