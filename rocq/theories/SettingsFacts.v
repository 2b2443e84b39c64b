(** Facts about settings, enums and settings files. *)
From Verif Require Import Base Num Cmp Sparse Vec VecFacts VecFacts2 Mat MatFacts Arr Settings.
Local Open Scope Z_scope.
Local Open Scope list_scope.

(** ** Enums *)
Lemma enum_member_iff es v : enum_member es v = true <-> In v (map snd es).
Proof.
  induction es as [|[n w] es IH]; cbn [enum_member map snd In]; [split; [discriminate|tauto]|].
  destruct (Z.eqb_spec w v); [tauto|]. rewrite IH. tauto.
Qed.

Definition lor_all (l : list Z) : Z := fold_right Z.lor 0 l.
Definition single_bit (z : Z) : Prop := z = 0 \/ exists k, 0 <= k /\ z = 2 ^ k.

Lemma lor_all_testbit l k : Z.testbit (lor_all l) k = true <-> exists z, In z l /\ Z.testbit z k = true.
Proof.
  induction l as [|z l IH]; cbn [lor_all fold_right].
  - rewrite Z.bits_0. split; [discriminate|intros (z & [] & _)].
  - fold (lor_all l). rewrite Z.lor_spec, orb_true_iff, IH. split.
    + intros [H|(y & Hy & H)]; [exists z|exists y]; cbn; auto.
    + intros (y & [<-|Hy] & H); eauto.
Qed.

Lemma land_single v e : single_bit e -> Z.land v e = 0 \/ Z.land v e = e.
Proof.
  intros [->|(k & Hk & ->)]; [left; apply Z.land_0_r|].
  destruct (Z.testbit v k) eqn:Hb.
  - right. apply Z.bits_inj'. intros n Hn. rewrite Z.land_spec, Z.pow2_bits_eqb by lia.
    destruct (Z.eqb_spec k n); [subst; now rewrite Hb|apply andb_false_r].
  - left. apply Z.bits_inj'. intros n Hn. rewrite Z.land_spec, Z.pow2_bits_eqb, Z.bits_0 by lia.
    destruct (Z.eqb_spec k n); [subst; now rewrite Hb|apply andb_false_r].
Qed.

Lemma flags_fold_filter (es : list (string * Z)) v acc :
  fold_left (fun a e => if Z.land v (snd e) =? 0 then a else Z.lor a (snd e)) es acc =
  Z.lor acc (lor_all (filter (fun w => negb (Z.land v w =? 0)) (map snd es))).
Proof.
  revert acc; induction es as [|[n w] es IH]; intros acc; cbn [fold_left map filter snd lor_all fold_right];
    [now rewrite Z.lor_0_r|].
  rewrite IH. destruct (Z.land v w =? 0); cbn [negb lor_all fold_right]; [reflexivity|].
  now rewrite Z.lor_assoc.
Qed.

Lemma flags_member_iff es v : Forall (fun e => single_bit (snd e)) es ->
  (flags_member es v = true <-> exists sub, incl sub (map snd es) /\ v = lor_all sub).
Proof.
  intros Hs. unfold flags_member, flags_value. rewrite flags_fold_filter, Z.lor_0_l, Z.eqb_eq.
  set (fl := filter _ _). split.
  - intros H. exists fl. split; [|exact H]. intros z Hz. now apply filter_In in Hz.
  - intros (sub & Hsub & Hv).
    assert (Hin : forall w, In w fl -> Z.land v w = w).
    { intros w Hw. apply filter_In in Hw as [Hw Hb].
      assert (single_bit w) as Hw1.
      { apply in_map_iff in Hw as (e & <- & He). rewrite Forall_forall in Hs. auto. }
      destruct (land_single v w Hw1) as [E|E]; auto. rewrite E in Hb. discriminate. }
    apply Z.bits_inj'. intros k Hk.
    assert (forall b c : bool, (b = true <-> c = true) -> b = c) as Hbc by (intros [] [] ?; intuition congruence).
    apply Hbc. rewrite (lor_all_testbit fl). split.
    + intros Hb. pose proof Hb as Hb'. rewrite Hv in Hb. apply lor_all_testbit in Hb as (z & Hz & Hzk).
      exists z. split; auto. apply filter_In. split; [now apply Hsub|].
      destruct (Z.eqb_spec (Z.land v z) 0) as [E|E]; auto.
      assert (Z.testbit (Z.land v z) k = true) by (now rewrite Z.land_spec, Hb', Hzk).
      rewrite E, Z.bits_0 in H. discriminate.
    + intros (z & Hz & Hzk). rewrite <- (Hin z Hz), Z.land_spec in Hzk. apply andb_true_iff in Hzk. tauto.
Qed.

Lemma flags_land es v : Forall (fun e => single_bit (snd e)) es ->
  flags_value es v = Z.land v (lor_all (map snd es)).
Proof.
  intros H. unfold flags_value. rewrite flags_fold_filter, Z.lor_0_l.
  induction H as [|[n w] es Hw H IH]; cbn [map filter snd lor_all fold_right]; [now rewrite Z.land_0_r|].
  fold (lor_all (map snd es)). rewrite Z.land_lor_distr_r, <- IH. cbn [snd] in Hw.
  destruct (land_single v w Hw) as [E|E]; rewrite E.
  - rewrite Z.eqb_refl. cbn [negb]. now rewrite Z.lor_0_l.
  - destruct (Z.eqb_spec w 0) as [->|Hne]; cbn [negb lor_all fold_right]; [now rewrite Z.lor_0_l|reflexivity].
Qed.

Lemma find_entry_some es n v : find_entry es n = Some v -> In (n, v) es.
Proof.
  induction es as [|[m w] es IH]; cbn [find_entry]; [discriminate|].
  destruct (String.eqb_spec m n) as [->|E]; [intros [= ->]; now left|right; auto].
Qed.
Lemma find_entry_in es n v : NoDup (map fst es) -> In (n, v) es -> find_entry es n = Some v.
Proof.
  induction es as [|[m w] es IH]; cbn [find_entry map fst]; [intros _ []|].
  intros Hnd [E|Hin].
  - injection E as -> ->. now rewrite String.eqb_refl.
  - inversion Hnd as [|? ? Hni Hnd']; subst. destruct (String.eqb_spec m n) as [->|E]; [|auto].
    destruct Hni. apply in_map_iff. now exists (n, v).
Qed.
Lemma find_entry_none es n : find_entry es n = None <-> ~ In n (map fst es).
Proof.
  induction es as [|[m w] es IH]; cbn [find_entry map fst In]; [tauto|].
  destruct (String.eqb_spec m n) as [->|E]; [split; [discriminate|tauto]|]. rewrite IH. tauto.
Qed.

(** *** The number of enumerators of each enum of pub_types.h:51-196 that is the type
    of an enum option, in the order of pub_settings.h:13-28; for the flag enum
    SLEQP_DERIV_CHECK the number of combinations of its five flags; [None] for the two
    options whose values are those of <fenv.h>. *)
Definition enum_count : list (option Z) :=
  [Some 32; Some 4; Some 3; None; None; Some 2; Some 4; Some 3; Some 3; Some 2; Some 3; Some 2; Some 4].
Definition enum_ok (i v : Z) : Prop :=
  exists c, nth_error enum_count (Z.to_nat i) = Some c /\ match c with None => True | Some n => 0 <= v < n end.

Lemma in_small (l : list Z) n v : l = zrange n -> (In v l <-> 0 <= v < n).
Proof. intros ->. apply zrange_In. Qed.

Lemma deriv_flags v : flags_member (en_entries deriv_check_enum) v = true <-> 0 <= v < 32.
Proof.
  unfold flags_member. rewrite flags_land.
  - change (lor_all _) with (Z.ones 5). rewrite Z.land_ones, Z.eqb_eq by lia. change (2 ^ 5) with 32.
    split; intros H; [rewrite H; apply Z.mod_pos_bound; lia|now rewrite Z.mod_small].
  - apply Forall_forall; intros e He; cbn [en_entries deriv_check_enum In] in He; repeat destruct He as [<-|He]; try contradiction; cbn [snd]; first [now left | right; (exists 0 + exists 1 + exists 2 + exists 3 + exists 4); split; [lia|reflexivity]].
Qed.

Lemma valid_member_spec o v : 0 <= o < num_enum ->
  exists b, valid_member o v = Ok b /\ (b = true <-> enum_ok o v).
Proof.
  intros Ho. unfold num_enum in Ho.
  assert (H : o = 0 \/ o = 1 \/ o = 2 \/ o = 3 \/ o = 4 \/ o = 5 \/ o = 6 \/ o = 7 \/ o = 8 \/ o = 9 \/
              o = 10 \/ o = 11 \/ o = 12) by lia.
  repeat (destruct H as [->|H]); [..|subst o];
  (eexists; split; [cbv [valid_member get_enum Z.eqb Pos.eqb orb rbind]; reflexivity|]);
  unfold enum_ok; cbv [Z.to_nat Pos.to_nat Pos.iter_op Nat.add nth_error enum_count];
  match goal with |- true = true <-> _ => split; [intros _; exists None; auto|auto] | _ => idtac end;
  match goal with |- _ <-> (exists c, Some (Some ?n) = Some c /\ _) =>
    transitivity (0 <= v < n);
      [|split; [intros Hv; exists (Some n); auto|intros (c & [= <-] & Hc); exact Hc]] end;
  first [exact (deriv_flags v)
        |unfold sleqp_enum_member; match goal with |- context [en_flags ?e] => change (en_flags e) with false end;
         cbv iota; rewrite enum_member_iff; apply in_small; reflexivity].
Qed.

(** ** Setters *)
Inductive opt := OE (i : Z) | OI (i : Z) | OB (i : Z) | OR (i : Z).
Definition opt_eqb (a b : opt) : bool :=
  match a, b with
  | OE i, OE j | OI i, OI j | OB i, OB j | OR i, OR j => i =? j
  | _, _ => false
  end.
Lemma opt_eqb_spec a b : reflect (a = b) (opt_eqb a b).
Proof.
  destruct a, b; cbn; try (constructor; discriminate);
  match goal with |- reflect _ (?i =? ?j) => destruct (Z.eqb_spec i j); constructor; congruence end.
Qed.
Definition opt_num (o : opt) : Z :=
  match o with OE _ => num_enum | OI _ => num_int | OB _ => num_bool | OR _ => num_real end.
Definition opt_idx (o : opt) : Z := match o with OE i | OI i | OB i | OR i => i end.
Definition opt_ok (o : opt) : Prop := 0 <= opt_idx o < opt_num o.

Section S.
Context {A : Type}.
Inductive sval := VZ (z : Z) | VB (b : bool) | VR (a : A).

(** The public getters. *)
Definition view (s : settings A) (o : opt) : res sval :=
  match o with
  | OE i => rmap VZ (enum_value s i)
  | OI i => rmap VZ (int_value s i)
  | OB i => rmap VB (bool_value s i)
  | OR i => rmap VR (real_value s i)
  end.

Definition swf (s : settings A) : Prop :=
  List.length (s_enum s) = 13%nat /\ List.length (s_int s) = 3%nat /\ List.length (s_bool s) = 8%nat /\ List.length (s_real s) = 15%nat.

Lemma opt_valid_iff o n : opt_valid o n = true <-> 0 <= o < n.
Proof. unfold opt_valid. rewrite andb_true_iff, Z.leb_le, Z.ltb_lt. tauto. Qed.

Lemma arr_get_in {B} (l : list B) i : 0 <= i < Z.of_nat (List.length l) -> exists b, arr_get l i = Ok b.
Proof.
  intros Hi. unfold arr_get. rewrite (proj2 (Z.leb_le 0 i)) by lia.
  destruct (nth_error l (Z.to_nat i)) eqn:E; [eauto|]. apply nth_error_None in E. lia.
Qed.

Lemma view_ok s o : swf s -> (opt_ok o <-> exists v, view s o = Ok v).
Proof.
  intros (H1 & H2 & H3 & H4). unfold opt_ok.
  destruct o as [i|i|i|i]; cbn [opt_idx opt_num view]; unfold enum_value, int_value, bool_value, real_value;
  (destruct (opt_valid i _) eqn:Ev;
   [ apply opt_valid_iff in Ev; split; [intros _|auto]; cbn [negb];
     match goal with |- exists v, rmap _ (arr_get ?l i) = _ =>
       destruct (arr_get_in l i) as [b Hb]; [unfold num_enum, num_int, num_bool, num_real in Ev; lia|];
       rewrite Hb; cbn [rmap]; eauto end
   | split; [intros Hi; apply opt_valid_iff in Hi; congruence|intros (v & Hv); discriminate]]).
Qed.

Lemma arr_get_set {B} (l l' : list B) i a j : arr_set l i a = Ok l' ->
  arr_get l' j = if j =? i then Ok a else arr_get l j.
Proof.
  unfold arr_set, arr_get. destruct ((0 <=? i) && (i <? Z.of_nat (List.length l))) eqn:Ev; [|discriminate].
  intros [= <-]. apply andb_true_iff in Ev as [E1 E2]. apply Z.leb_le in E1. apply Z.ltb_lt in E2.
  destruct (Z.eqb_spec j i) as [->|Hne].
  - rewrite (proj2 (Z.leb_le 0 i)) by lia. rewrite set_nth_spec by lia. now rewrite Nat.eqb_refl.
  - destruct (Z.leb_spec 0 j); auto. rewrite set_nth_spec by lia.
    destruct (Nat.eqb_spec (Z.to_nat j) (Z.to_nat i)); [lia|auto].
Qed.
Lemma arr_set_len {B} (l l' : list B) i a : arr_set l i a = Ok l' -> List.length l' = List.length l.
Proof.
  unfold arr_set. destruct (_ && _); [|discriminate]. intros [= <-]. apply set_nth_length.
Qed.

(** What a setter call does to the observable settings. *)
Definition upd_view (s s' : settings A) (o : opt) (v : sval) : Prop :=
  forall o', view s' o' = if opt_eqb o' o then Ok v else view s o'.

Lemma set_upd s o v : swf s -> opt_ok o ->
  (match o, v with OE _, VZ _ | OI _, VZ _ | OB _, VB _ | OR _, VR _ => True | _, _ => False end) ->
  exists s', swf s' /\ upd_view s s' o v /\
   match o, v with
   | OE i, VZ z => store s with_enum (arr_set (s_enum s) i z) = (s', Ok tt)
   | OI i, VZ z => store s with_int (arr_set (s_int s) i z) = (s', Ok tt)
   | OB i, VB z => store s with_bool (arr_set (s_bool s) i z) = (s', Ok tt)
   | OR i, VR z => store s with_real (arr_set (s_real s) i z) = (s', Ok tt)
   | _, _ => False
   end.
Proof.
  intros (H1 & H2 & H3 & H4) Ho Ht. unfold opt_ok in Ho.
  destruct o as [i|i|i|i], v as [z|z|z]; try contradiction; cbn [opt_idx opt_num] in Ho;
  match goal with |- context [store s ?w (arr_set ?l i z)] =>
    destruct (arr_set l i z) as [l'|c|] eqn:E;
      [|unfold arr_set in E; destruct (_ && _); discriminate
       |unfold arr_set in E; destruct ((0 <=? i) && (i <? Z.of_nat (List.length l))) eqn:Ev; [discriminate|];
        apply andb_false_iff in Ev; rewrite Z.leb_gt, Z.ltb_ge in Ev;
        unfold num_enum, num_int, num_bool, num_real in Ho; lia];
      exists (w s l') end;
  (split; [unfold swf; cbn; pose proof (arr_set_len _ _ _ _ E); intuition lia|]; split; [|reflexivity]);
  intros [j|j|j|j]; cbn [view opt_eqb with_enum with_int with_bool with_real s_enum s_int s_bool s_real];
    try reflexivity;
  unfold enum_value, int_value, bool_value, real_value;
  cbn [with_enum with_int with_bool with_real s_enum s_int s_bool s_real];
  rewrite (arr_get_set _ _ _ _ j E); destruct (Z.eqb_spec j i) as [->|Hne]; try reflexivity;
  rewrite (proj2 (opt_valid_iff _ _) Ho); reflexivity.
Qed.

(** *** Setter calls and their meaning *)
Inductive op := SetE (i v : Z) | SetName (i : Z) (name : string) | SetI (i v : Z) | SetB (i : Z) (v : bool) | SetR (i : Z) (v : A).

Definition exec (s : settings A) (p : op) : out A :=
  match p with
  | SetE i v => set_enum_value s i v
  | SetName i n => set_enum_value_from_string s i n
  | SetI i v => set_int_value s i v
  | SetB i v => set_bool_value s i v
  | SetR i v => set_real_value s i v
  end.
Fixpoint run (s : settings A) (ps : list op) : settings A * list (res unit) :=
  match ps with
  | [] => (s, [])
  | p :: ps' => let '(s', r) := exec s p in let '(s'', rs) := run s' ps' in (s'', r :: rs)
  end.

(** [writes p o v]: the call [p] is legal and asks for option [o] to become [v]. *)
Inductive writes : op -> opt -> sval -> Prop :=
| W_enum i v : 0 <= i < 13 -> enum_ok i v -> writes (SetE i v) (OE i) (VZ v)
| W_name i n v e : get_enum i = Ok (Some e) -> In (n, v) (en_entries e) -> writes (SetName i n) (OE i) (VZ v)
| W_int i v : 0 <= i < 3 -> writes (SetI i v) (OI i) (VZ v)
| W_bool i v : 0 <= i < 8 -> writes (SetB i v) (OB i) (VB v)
| W_real i v : 0 <= i < 15 -> writes (SetR i v) (OR i) (VR v).

Lemma get_enum_range i e : get_enum i = Ok e -> 0 <= i < num_enum.
Proof.
  unfold get_enum, num_enum.
  repeat match goal with |- (if ?b then _ else _) = _ -> _ => destruct b eqn:?; [intros _|] end;
  repeat match goal with H : (_ || _) = true |- _ => apply orb_true_iff in H end;
  rewrite ?Z.eqb_eq in *; try lia. discriminate.
Qed.
Lemma get_enum_nodup i e : get_enum i = Ok (Some e) -> NoDup (map fst (en_entries e)) /\ NoDup (map snd (en_entries e)).
Proof.
  unfold get_enum.
  repeat match goal with |- (if ?b then _ else _) = _ -> _ => destruct b end; try discriminate; intros [= <-];
  (split; cbv [map fst snd en_entries deriv_check_enum hess_eval_enum dual_estimation_enum bfgs_sizing_enum tr_solver_enum
     polishing_enum step_rule_enum linesearch_enum parametric_cauchy_enum initial_tr_enum aug_jac_type_enum];
   repeat (constructor; [cbn [In]; intuition discriminate|]); constructor).
Qed.
Lemma get_enum_total i : 0 <= i < num_enum -> exists e, get_enum i = Ok e.
Proof.
  intros Hi. unfold num_enum in Hi. unfold get_enum.
  repeat match goal with |- exists e, (if ?b then _ else _) = _ => destruct b eqn:?; [eauto|] end.
  repeat match goal with H : (_ || _) = false |- _ => apply orb_false_iff in H as [? ?] end.
  rewrite ?Z.eqb_neq in *. lia.
Qed.

Lemma exec_spec s p : swf s ->
  (exists o v s', writes p o v /\ exec s p = (s', Ok tt) /\ swf s' /\ upd_view s s' o v) \/
  ((forall o v, ~ writes p o v) /\ exec s p = (s, Err EIllegalArg)).
Proof.
  intros Hs. destruct p as [i v|i n|i v|i v|i v]; cbn [exec].
  - unfold set_enum_value. destruct (opt_valid i num_enum) eqn:Ev; cbn [negb].
    + apply opt_valid_iff in Ev. destruct (valid_member_spec i v Ev) as (b & Hb & Hiff). rewrite Hb.
      destruct b.
      * left. destruct (set_upd s (OE i) (VZ v) Hs Ev I) as (s' & Hw & Hu & E).
        exists (OE i), (VZ v), s'. split; [constructor; [exact Ev|now apply Hiff]|auto].
      * right. split; auto. intros o w Hw. inversion Hw; subst. match goal with H : enum_ok _ _ |- _ => now apply Hiff in H end.
    + right. split; auto. intros o w Hw. inversion Hw; subst. match goal with H : _ <= _ < _ |- _ => apply opt_valid_iff in H; unfold num_enum in Ev; congruence end.
  - unfold set_enum_value_from_string. destruct (opt_valid i num_enum) eqn:Ev; cbn [negb].
    + apply opt_valid_iff in Ev. destruct (get_enum_total i Ev) as [[e|] He]; rewrite He.
      * destruct (find_entry (en_entries e) n) as [v|] eqn:Ef.
        -- left. destruct (set_upd s (OE i) (VZ v) Hs Ev I) as (s' & Hw & Hu & E).
           exists (OE i), (VZ v), s'. split; [|auto]. eapply W_name; [exact He|]. now apply find_entry_some.
        -- right. split; auto. intros o w Hw. inversion Hw; subst. apply find_entry_none in Ef.
           match goal with H : get_enum i = _, H' : In (n, ?z) _ |- _ => rewrite He in H; injection H as <-; apply Ef; apply in_map_iff; now exists (n, z) end.
      * right. split; auto. intros o w Hw. inversion Hw; subst. congruence.
    + right. split; auto. intros o w Hw. inversion Hw; subst. match goal with H : get_enum i = _ |- _ =>
      apply get_enum_range in H; apply opt_valid_iff in H; congruence end.
  - unfold set_int_value. destruct (opt_valid i num_int) eqn:Ev; cbn [negb].
    + apply opt_valid_iff in Ev. left. destruct (set_upd s (OI i) (VZ v) Hs Ev I) as (s' & Hw & Hu & E).
      exists (OI i), (VZ v), s'. split; [constructor; exact Ev|auto].
    + right. split; auto. intros o w Hw. inversion Hw; subst. match goal with H : _ <= _ < _ |- _ => apply opt_valid_iff in H; unfold num_int in Ev; congruence end.
  - unfold set_bool_value. destruct (opt_valid i num_bool) eqn:Ev; cbn [negb].
    + apply opt_valid_iff in Ev. left. destruct (set_upd s (OB i) (VB v) Hs Ev I) as (s' & Hw & Hu & E).
      exists (OB i), (VB v), s'. split; [constructor; exact Ev|auto].
    + right. split; auto. intros o w Hw. inversion Hw; subst. match goal with H : _ <= _ < _ |- _ => apply opt_valid_iff in H; unfold num_bool in Ev; congruence end.
  - unfold set_real_value. destruct (opt_valid i num_real) eqn:Ev; cbn [negb].
    + apply opt_valid_iff in Ev. left. destruct (set_upd s (OR i) (VR v) Hs Ev I) as (s' & Hw & Hu & E).
      exists (OR i), (VR v), s'. split; [constructor; exact Ev|auto].
    + right. split; auto. intros o w Hw. inversion Hw; subst. match goal with H : _ <= _ < _ |- _ => apply opt_valid_iff in H; unfold num_real in Ev; congruence end.
Qed.

Lemma writes_det p o v o' v' : writes p o v -> writes p o' v' -> o = o' /\ v = v'.
Proof.
  intros H H'. destruct H; inversion H'; subst; auto.
  match goal with H1 : get_enum i = Ok (Some ?a), H2 : get_enum i = Ok (Some ?b) |- _ =>
    rewrite H1 in H2; injection H2 as <-; destruct (get_enum_nodup _ _ H1) as [Hn _] end.
  split; auto. f_equal.
  match goal with Ha : In (n, ?a) _, Hb : In (n, ?b) _ |- _ =>
    pose proof (find_entry_in _ _ _ Hn Ha); pose proof (find_entry_in _ _ _ Hn Hb); congruence end.
Qed.

(** The value of an option after a history: the last legal write to it. *)
Inductive after : list op -> opt -> res sval -> res sval -> Prop :=
| A_nil o v : after [] o v v
| A_hit p ps o v w r : writes p o w -> after ps o (Ok w) r -> after (p :: ps) o v r
| A_miss p ps o v r : (forall w, ~ writes p o w) -> after ps o v r -> after (p :: ps) o v r.

Lemma run_spec ps : forall s, swf s ->
  let '(s', rs) := run s ps in
  swf s' /\ (forall o, after ps o (view s o) (view s' o)) /\
  Forall2 (fun p r => (r = Ok tt /\ exists o v, writes p o v) \/
                      (r = Err EIllegalArg /\ forall o v, ~ writes p o v)) ps rs.
Proof.
  induction ps as [|p ps IH]; intros s Hs; cbn [run].
  - split; auto. split; [intros; constructor|constructor].
  - destruct (exec_spec s p Hs) as [(o & v & s1 & Hw & E & Hs1 & Hu)|[Hn E]]; rewrite E.
    + specialize (IH s1 Hs1). destruct (run s1 ps) as [s' rs]. destruct IH as (Hs' & Ha & Hf).
      split; auto. split; [|constructor; eauto].
      intros o'. specialize (Ha o'). rewrite Hu in Ha.
      destruct (opt_eqb_spec o' o) as [->|Hne].
      * eapply A_hit; eauto.
      * apply A_miss; auto. intros w Hw'. destruct (writes_det _ _ _ _ _ Hw Hw'). congruence.
    + specialize (IH s Hs). destruct (run s ps) as [s' rs]. destruct IH as (Hs' & Ha & Hf).
      split; auto. split; [|constructor; eauto].
      intros o'. apply A_miss; auto.
Qed.

Lemma create_wf reals : List.length reals = 15%nat -> swf (settings_create reals).
Proof. intros H. unfold swf, settings_create. cbn. auto. Qed.

Definition enums_valid (s : settings A) : Prop :=
  forall i, 0 <= i < 13 -> exists v, view s (OE i) = Ok (VZ v) /\ enum_ok i v.

Lemma name_valid i n v e : get_enum i = Ok (Some e) -> In (n, v) (en_entries e) -> enum_ok i v.
Proof.
  intros He Hin. pose proof (get_enum_range _ _ He) as Hi.
  destruct (valid_member_spec i v Hi) as (b & Hb & Hiff). apply Hiff.
  unfold valid_member in Hb. rewrite He in Hb. cbn [rbind] in Hb. injection Hb as <-.
  unfold get_enum in He.
  repeat match goal with H : (if ?b then _ else _) = _ |- _ => destruct b in H end; try discriminate; injection He as <-;
  cbn [en_entries deriv_check_enum hess_eval_enum dual_estimation_enum bfgs_sizing_enum tr_solver_enum
     polishing_enum step_rule_enum linesearch_enum parametric_cauchy_enum initial_tr_enum aug_jac_type_enum In] in Hin;
  repeat destruct Hin as [Hin|Hin]; try contradiction; injection Hin as <- <-; reflexivity.
Qed.

Lemma create_enums_valid reals : enums_valid (settings_create reals).
Proof.
  intros i Hi.
  assert (H : i = 0 \/ i = 1 \/ i = 2 \/ i = 3 \/ i = 4 \/ i = 5 \/ i = 6 \/ i = 7 \/ i = 8 \/ i = 9 \/
              i = 10 \/ i = 11 \/ i = 12) by lia.
  repeat (destruct H as [->|H]); [..|subst i];
  (eexists; split; [reflexivity|]; unfold enum_ok; cbv [Z.to_nat Pos.to_nat Pos.iter_op Nat.add nth_error enum_count];
   eexists; split; [reflexivity|]; cbv beta iota; first [exact I | lia]).
Qed.

Lemma run_enums_valid ps : forall s, swf s -> enums_valid s -> enums_valid (fst (run s ps)).
Proof.
  induction ps as [|p ps IH]; intros s Hs Hv; cbn [run]; [exact Hv|].
  destruct (exec_spec s p Hs) as [(o & v & s1 & Hw & E & Hs1 & Hu)|[Hn E]]; rewrite E.
  - specialize (IH s1 Hs1). destruct (run s1 ps) as [s' rs]. cbn [fst] in *. apply IH.
    intros i Hi. rewrite Hu. destruct (opt_eqb_spec (OE i) o) as [<-|Hne]; [|auto].
    inversion Hw; subst; eauto using name_valid.
  - specialize (IH s Hs Hv). destruct (run s ps) as [s' rs]. exact IH.
Qed.
End S.
Arguments sval A : clear implicits.
Arguments op A : clear implicits.
