(** Facts about settings files. *)
From Verif Require Import Base Num Cmp Sparse Vec VecFacts VecFacts2 Mat MatFacts Arr Settings SettingsFacts.
Local Open Scope Z_scope.
Local Open Scope list_scope.
Local Open Scope char_scope.
Notation length := List.length.

(** ** Specification of settings files *)
Definition space (c : ascii) : Prop := In c [" "; "009"; "010"; "011"; "012"; "013"].
Definition token (t : list ascii) : Prop := t <> [] /\ Forall (fun c => ~ space c) t.
(** [line_assign l k v]: line [l] has the form "key spaces value", possibly followed
    by spaces and anything else, and is not a comment. *)
Definition line_assign (l k v : list ascii) : Prop :=
  exists ws rest, l = k ++ ws ++ v ++ rest /\ token k /\ token v /\ ws <> [] /\ Forall space ws /\
    (match rest with [] => True | c :: _ => space c end) /\ hd_error k <> Some "#".

(** Decimal integer literals. *)
Definition is_digit (c : ascii) : Prop := In c ["0"; "1"; "2"; "3"; "4"; "5"; "6"; "7"; "8"; "9"].
Definition lit_int (v : list ascii) (z : Z) : Prop :=
  exists ds, ds <> [] /\ Forall is_digit ds /\
    ((v = ds /\ z = digits_val ds) \/ (v = "+" :: ds /\ z = digits_val ds) \/ (v = "-" :: ds /\ z = - digits_val ds)).

Definition opt_names (o : opt) : list string :=
  match o with OE _ => enum_names | OI _ => int_names | OB _ => bool_names | OR _ => real_names end.
(** [named o k]: [k] is the name of the option [o] *)
Definition named (o : opt) (k : list ascii) : Prop :=
  opt_ok o /\ nth_error (opt_names o) (Z.to_nat (opt_idx o)) = Some (string_of_list_ascii k).

Definition mentions (o : opt) (l : list ascii) : Prop := exists k v, line_assign l k v /\ named o k.

(** A text file: lines without newlines or NULs that fit into the buffer. *)
Definition line_ok (l : list ascii) : Prop :=
  Forall (fun c => c <> newline /\ c <> nul) l /\ (length l < 1023)%nat.
Definition file_of (ls : list (list ascii)) (last : list ascii) : list ascii :=
  List.concat (map (fun l => l ++ [newline]) ls) ++ last.

(** ** Characters *)
Lemma isspace_iff c : isspace c = true <-> space c.
Proof.
  unfold space. split.
  - destruct c as [[] [] [] [] [] [] [] []]; vm_compute; intros H; try discriminate; tauto.
  - intros H. repeat destruct H as [<-|H]; try reflexivity. contradiction.
Qed.
Lemma isspace_false c : isspace c = false <-> ~ space c.
Proof. rewrite <- isspace_iff. destruct (isspace c); intuition congruence. Qed.
Lemma isdigit_iff c : isdigit c = true <-> is_digit c.
Proof.
  unfold is_digit. split.
  - destruct c as [[] [] [] [] [] [] [] []]; vm_compute; intros H; try discriminate; tauto.
  - intros H. repeat destruct H as [<-|H]; try reflexivity. contradiction.
Qed.

Lemma take_drop {B} (p : B -> bool) l : take_while p l ++ drop_while p l = l.
Proof. induction l as [|c l IH]; cbn; auto. destruct (p c); cbn; [now rewrite IH|auto]. Qed.
Lemma take_all {B} (p : B -> bool) l : Forall (fun c => p c = true) (take_while p l).
Proof. induction l as [|c l IH]; cbn; auto. destruct (p c) eqn:E; auto. Qed.
Lemma drop_head {B} (p : B -> bool) l : match drop_while p l with [] => True | c :: _ => p c = false end.
Proof. induction l as [|c l IH]; cbn; auto. destruct (p c) eqn:E; auto. Qed.
Lemma take_app {B} (p : B -> bool) a b : Forall (fun c => p c = true) a ->
  take_while p (a ++ b) = a ++ take_while p b.
Proof. induction 1 as [|c a Hc Ha IH]; cbn; auto. now rewrite Hc, IH. Qed.
Lemma drop_app {B} (p : B -> bool) a b : Forall (fun c => p c = true) a ->
  drop_while p (a ++ b) = drop_while p b.
Proof. induction 1 as [|c a Hc Ha IH]; cbn; auto. now rewrite Hc, IH. Qed.
Lemma stop {B} (p : B -> bool) b : (match b with [] => True | c :: _ => p c = false end) ->
  take_while p b = [] /\ drop_while p b = b.
Proof. destruct b as [|c b]; cbn; auto. intros ->. auto. Qed.

(** ** Lines *)
Lemma line_assign_snoc p c k v : space c -> (line_assign (p ++ [c]) k v <-> line_assign p k v).
Proof.
  intros Hc. split.
  - intros (ws & rest & E & Hk & Hv & Hw & Hws & Hr & Hh).
    destruct (exists_last (l := rest)) as (rest' & c' & ->).
    + intros ->. rewrite app_nil_r, app_assoc in E. destruct Hv as [Hv1 Hv2].
      destruct (exists_last Hv1) as (v' & c' & ->). rewrite app_assoc in E. apply app_inj_tail in E as [_ <-].
      apply Forall_app in Hv2 as [_ Hv2]. inversion Hv2. tauto.
    + rewrite !app_assoc in E. apply app_inj_tail in E as [-> ->]. rewrite <- !app_assoc.
      exists ws, rest'. repeat (split; [solve [auto]|]). split; auto. destruct rest'; auto.
  - intros (ws & rest & -> & Hk & Hv & Hw & Hws & Hr & Hh).
    exists ws, (rest ++ [c]). rewrite <- !app_assoc. repeat (split; [solve [auto]|]). split; auto.
    destruct rest; auto.
Qed.
Lemma line_assign_app t p k v : Forall space t -> (line_assign (p ++ t) k v <-> line_assign p k v).
Proof.
  revert p. induction t as [|c t IH]; intros p Ht; [rewrite app_nil_r; tauto|].
  inversion Ht; subst. change (c :: t) with ([c] ++ t). rewrite app_assoc, IH; auto. now apply line_assign_snoc.
Qed.

Lemma trim_spec b : exists t, b = trim b ++ t /\ Forall space t /\
  (Forall space b /\ trim b = b \/ exists p c, trim b = p ++ [c] /\ ~ space c).
Proof.
  unfold trim. pose proof (take_drop isspace b) as Hb. pose proof (take_all isspace b) as Ht.
  pose proof (drop_head isspace b) as Hd.
  destruct (drop_while isspace b) as [|c s] eqn:E.
  - exists []. rewrite !app_nil_r in *. split; auto. split; [constructor|]. left. split; auto.
    rewrite <- Hb. eapply Forall_impl; [|exact Ht]. intros a. apply isspace_iff.
  - set (s0 := c :: s) in *.
    pose proof (take_drop isspace (rev s0)) as Hr. pose proof (take_all isspace (rev s0)) as Hrt.
    pose proof (drop_head isspace (rev s0)) as Hrd.
    exists (rev (take_while isspace (rev s0))). split; [|split].
    + rewrite <- app_assoc, <- rev_app_distr, Hr, rev_involutive. now rewrite Hb.
    + apply Forall_rev. eapply Forall_impl; [|exact Hrt]. intros a. apply isspace_iff.
    + right. destruct (drop_while isspace (rev s0)) as [|d r] eqn:Er.
      * exfalso. rewrite app_nil_r in Hr. rewrite Hr in Hrt.
        assert (Hin : In c (rev s0)) by (rewrite <- in_rev; now left).
        rewrite Forall_forall in Hrt. apply Hrt in Hin. congruence.
      * cbn [rev]. exists (take_while isspace b ++ rev r), d. split; [now rewrite app_assoc|].
        now apply isspace_false.
Qed.

Lemma nonspace_true c : nonspace c = true <-> ~ space c.
Proof. unfold nonspace. rewrite negb_true_iff. apply isspace_false. Qed.
Lemma nonspace_false c : nonspace c = false <-> space c.
Proof. unfold nonspace. rewrite negb_false_iff. apply isspace_iff. Qed.

Lemma extract_assign b k v : line_assign b k v -> extract_key_value b = Ok (Some (k, v)).
Proof.
  intros H. destruct (trim_spec b) as (t & Hb & Ht & _). rewrite Hb, line_assign_app in H by exact Ht.
  unfold extract_key_value. destruct H as (ws & rest & -> & Hk & Hv & Hw & Hws & Hr & Hh).
  destruct Hk as [Hk1 Hk2], Hv as [Hv1 Hv2].
  destruct k as [|c k]; [congruence|]. cbn [app].
  destruct (Ascii.eqb_spec c "#") as [->|Hne]; [now destruct Hh|].
  rewrite !app_comm_cons. set (k0 := c :: k) in *.
  assert (Hk0 : Forall (fun c => nonspace c = true) k0) by (eapply Forall_impl; [|exact Hk2]; intros a; apply nonspace_true).
  assert (Hv0 : Forall (fun c => nonspace c = true) v) by (eapply Forall_impl; [|exact Hv2]; intros a; apply nonspace_true).
  assert (Hw0 : Forall (fun c => isspace c = true) ws) by (eapply Forall_impl; [|exact Hws]; intros a; apply isspace_iff).
  rewrite take_app, drop_app by exact Hk0.
  destruct ws as [|d ws]; [congruence|].
  destruct (stop nonspace ((d :: ws) ++ v ++ rest)) as [E1 E2].
  { cbn. inversion Hws; subst. now apply nonspace_false. }
  rewrite E1, E2, app_nil_r. change ((d :: ws) ++ v ++ rest) with (d :: ws ++ v ++ rest).
  change (drop_while isspace (d :: ws ++ v ++ rest)) with (drop_while isspace ((d :: ws) ++ v ++ rest)).
  rewrite drop_app by exact Hw0.
  destruct (stop isspace (v ++ rest)) as [_ E3].
  { destruct v as [|e v]; [congruence|]. cbn. inversion Hv2; subst. now apply isspace_false. }
  rewrite E3, take_app by exact Hv0.
  destruct (stop nonspace rest) as [E4 _].
  { destruct rest; auto. now apply nonspace_false. }
  now rewrite E4, app_nil_r.
Qed.

Lemma extract_inv b k v : extract_key_value b = Ok (Some (k, v)) -> k <> [] -> line_assign b k v.
Proof.
  intros H Hne. destruct (trim_spec b) as (t & Hb & Ht & Hend). rewrite Hb, line_assign_app by exact Ht.
  unfold extract_key_value in H. set (p := trim b) in *. clearbody p.
  destruct p as [|c p']; [discriminate|]. destruct (Ascii.eqb_spec c "#") as [->|Hc]; [discriminate|].
  remember (c :: p') as p eqn:Ep.
  pose proof (take_drop nonspace p) as Hp. pose proof (take_all nonspace p) as Hk.
  pose proof (drop_head nonspace p) as Hd.
  destruct (drop_while nonspace p) as [|d r] eqn:Er; [discriminate|].
  apply (f_equal (fun x => match x with Ok (Some q) => q | _ => (k, v) end)) in H. cbv iota beta in H.
  assert (Hk' : take_while nonspace p = k) by exact (f_equal fst H).
  assert (Hv' : take_while nonspace (drop_while isspace (d :: r)) = v) by exact (f_equal snd H). subst k v.
  pose proof (take_drop isspace (d :: r)) as Hr. pose proof (take_all isspace (d :: r)) as Hws.
  pose proof (drop_head isspace (d :: r)) as Hdh.
  set (q := drop_while isspace (d :: r)) in *.
  exists (take_while isspace (d :: r)), (drop_while nonspace q).
  assert (Hq : q <> []).
  { intros E. destruct Hend as [[Hsp _]|(p0 & c0 & Hp0 & Hc0)].
    - assert (Forall space p) as Hsp' by (rewrite Hb in Hsp; apply Forall_app in Hsp; tauto).
      apply Hne. rewrite Ep. cbn [take_while]. rewrite Ep in Hsp'. inversion Hsp' as [|? ? Hs1 Hs2].
      apply nonspace_false in Hs1. now rewrite Hs1.
    - rewrite E, app_nil_r in Hr. rewrite <- Hr in Hp. rewrite <- Hp in Hp0.
      assert (Hl : last (take_while isspace (d :: r)) c0 = c0).
      { assert (last (take_while nonspace p ++ take_while isspace (d :: r)) c0 = c0) as Hl0
          by (rewrite Hp0; now rewrite last_last).
        rewrite Hr in Hl0 |- *. 
        destruct (exists_last (l := d :: r)) as (u & w & Eu); [discriminate|]. rewrite Eu in Hl0 |- *.
        rewrite app_assoc, last_last in Hl0. now rewrite last_last. }
      destruct (exists_last (l := take_while isspace (d :: r))) as (u & w & Eu); [rewrite Hr; discriminate|].
      rewrite Eu, last_last in Hl. rewrite Eu in Hws. apply Forall_app in Hws as [_ Hws].
      inversion Hws as [|? ? Hs1 Hs2]. apply isspace_iff in Hs1. rewrite Hl in Hs1. tauto. }
  split; [|split; [|split; [|split; [|split; [|split]]]]].
  - rewrite (take_drop nonspace q), Hr. symmetry. exact Hp.
  - split; [exact Hne|]. eapply Forall_impl; [|exact Hk]. intros a; apply nonspace_true.
  - split.
    + destruct q as [|e q]; [congruence|]. cbn [take_while]. apply isspace_false, nonspace_true in Hdh.
      rewrite Hdh. discriminate.
    + eapply Forall_impl; [|exact (take_all nonspace q)]. intros a; apply nonspace_true.
  - cbn [take_while]. apply nonspace_false, isspace_iff in Hd. rewrite Hd. discriminate.
  - eapply Forall_impl; [|exact Hws]. intros a; apply isspace_iff.
  - pose proof (drop_head nonspace q) as Hx. destruct (drop_while nonspace q); auto. now apply nonspace_false.
  - rewrite Ep. cbn [take_while]. destruct (nonspace c); cbn; congruence.
Qed.

Lemma extract_keys_nonspace b k v : extract_key_value b = Ok (Some (k, v)) -> Forall (fun c => ~ space c) k.
Proof.
  unfold extract_key_value. destruct (trim b) as [|c p']; [discriminate|].
  destruct (Ascii.eqb c "#"); [discriminate|]. set (p := c :: p') in *. clearbody p.
  destruct (drop_while nonspace p); [discriminate|]. intros [= <- _].
  eapply Forall_impl; [|exact (take_all nonspace p)]. intros a0; apply nonspace_true.
Qed.

Lemma cstr_id b : Forall (fun c => c <> nul) b -> cstr b = b.
Proof.
  intros H. unfold cstr. rewrite <- (app_nil_r b) at 1. rewrite take_app; [cbn; apply app_nil_r|].
  eapply Forall_impl; [|exact H]. intros c Hc. now apply negb_true_iff, Ascii.eqb_neq.
Qed.

(** ** Splitting into lines *)
Lemma fgets_line l : forall acc n f, Forall (fun c => c <> newline) l -> (length l < n)%nat ->
  fgets_all acc n (l ++ newline :: f) = (rev acc ++ l ++ [newline]) :: fgets_all [] (buf_len - 1) f.
Proof.
  induction l as [|c l IH]; intros acc n f Hl Hn.
  - cbn [app fgets_all]. rewrite Ascii.eqb_refl. reflexivity.
  - inversion Hl; subst. cbn [length] in Hn. cbn [app fgets_all].
    rewrite (proj2 (Ascii.eqb_neq c newline)) by assumption.
    destruct n as [|[|n]]; try lia. rewrite IH by (auto; lia). cbn [rev]. now rewrite <- app_assoc.
Qed.
Lemma fgets_last l : forall acc n, Forall (fun c => c <> newline) l -> (length l < n)%nat ->
  fgets_all acc n l = match rev acc ++ l with [] => [] | b => [b] end.
Proof.
  induction l as [|c l IH]; intros acc n Hl Hn.
  - cbn [fgets_all]. rewrite app_nil_r. destruct acc as [|c acc]; [reflexivity|].
    cbn [rev]. destruct (rev acc ++ [c]) eqn:E; [|auto]. destruct (rev acc); discriminate.
  - inversion Hl; subst. cbn [length] in Hn. cbn [fgets_all].
    rewrite (proj2 (Ascii.eqb_neq c newline)) by assumption.
    destruct n as [|[|n]]; try lia. rewrite IH by (auto; lia). cbn [rev]. now rewrite <- app_assoc.
Qed.
Lemma fgets_file ls last : Forall line_ok ls -> line_ok last ->
  fgets_all [] (buf_len - 1) (file_of ls last) =
  map (fun l => l ++ [newline]) ls ++ match last with [] => [] | _ => [last] end.
Proof.
  intros Hls [Hl1 Hl2]. unfold file_of. induction Hls as [|l ls [H1 H2] Hls IH]; cbn [map List.concat app].
  - rewrite fgets_last; [destruct last; reflexivity| |exact Hl2]. eapply Forall_impl; [|exact Hl1]. cbv beta. intros ? [? ?]; assumption.
  - rewrite <- !app_assoc. cbn [app]. rewrite fgets_line; [| |exact H2].
    + now rewrite IH.
    + eapply Forall_impl; [|exact H1]. cbv beta. intros ? [? ?]; assumption.
Qed.

(** ** Keys *)
Lemma find_name_spec names : NoDup names -> forall i0 key i, 0 <= i0 ->
  (find_name names i0 key = Some i <-> i0 <= i /\ nth_error names (Z.to_nat (i - i0)) = Some key).
Proof.
  induction 1 as [|n names Hni Hnd IH]; intros i0 key i H0; cbn [find_name].
  - split; [discriminate|]. intros [_ H]. destruct (Z.to_nat (i - i0)); discriminate.
  - destruct (String.eqb_spec key n) as [->|E].
    + split; [intros [= ->]; split; [lia|now rewrite Z.sub_diag]|].
      intros [Hi H]. f_equal. destruct (Z.to_nat (i - i0)) as [|m] eqn:Em; [lia|].
      cbn in H. apply nth_error_In in H. contradiction.
    + rewrite IH by lia. split; intros [Hi H].
      * split; [lia|]. replace (i - i0) with (Z.succ (i - (i0 + 1))) by lia. rewrite Z2Nat.inj_succ by lia. exact H.
      * destruct (Z.eq_dec i i0) as [->|Hne]; [rewrite Z.sub_diag in H; cbn in H; congruence|].
        split; [lia|]. replace (i - i0) with (Z.succ (i - (i0 + 1))) in H by lia.
        rewrite Z2Nat.inj_succ in H by lia. exact H.
Qed.

Fixpoint nodupb (l : list string) : bool :=
  match l with [] => true | x :: l' => negb (existsb (String.eqb x) l') && nodupb l' end.
Lemma nodupb_ok l : nodupb l = true -> NoDup l.
Proof.
  induction l as [|x l IH]; cbn [nodupb]; intros H; constructor; apply andb_true_iff in H as [H1 H2]; auto.
  intros Hin. apply negb_true_iff in H1. rewrite <- not_true_iff_false in H1. apply H1.
  apply existsb_exists. exists x. split; auto. apply String.eqb_refl.
Qed.
Lemma nodup_all : NoDup (int_names ++ real_names ++ bool_names ++ enum_names).
Proof. apply nodupb_ok. vm_compute. reflexivity. Qed.
Lemma nodup_app_l {B} (a b : list B) : NoDup (a ++ b) -> NoDup a.
Proof. induction a as [|x a IH]; cbn; intros H; [constructor|]. inversion H; subst. constructor; auto. rewrite in_app_iff in *. tauto. Qed.
Lemma nodup_app_r {B} (a b : list B) : NoDup (a ++ b) -> NoDup b.
Proof. induction a as [|x a IH]; cbn; intros H; [auto|]. inversion H; auto. Qed.
Lemma nodup_app_d {B} (a b : list B) x : NoDup (a ++ b) -> In x a -> In x b -> False.
Proof.
  induction a as [|y a IH]; cbn; intros H Ha Hb; [exact Ha|]. inversion H as [|? ? Hn Hd]; subst.
  destruct Ha as [->|Ha]; auto. apply Hn. rewrite in_app_iff. tauto.
Qed.

Lemma named_find o k : named o k <-> find_name (opt_names o) 0 (string_of_list_ascii k) = Some (opt_idx o).
Proof.
  unfold named. rewrite find_name_spec; [| |lia].
  - rewrite Z.sub_0_r. split; [intros [[H1 H2] H]; auto|]. intros [H1 H]. split; auto. split; auto.
    assert (Hl : (Z.to_nat (opt_idx o) < length (opt_names o))%nat) by (apply nth_error_Some; congruence).
    destruct o; cbn [opt_names opt_num opt_idx] in *; cbv [length enum_names int_names bool_names real_names] in Hl;
      unfold num_enum, num_int, num_bool, num_real; lia.
  - pose proof nodup_all as H.
    destruct o; cbn [opt_names]; eauto using nodup_app_l, nodup_app_r.
Qed.
Lemma find_named (w : Z -> opt) k i : (forall i, opt_names (w i) = opt_names (w 0)) -> (forall i, opt_idx (w i) = i) ->
  find_name (opt_names (w 0)) 0 (string_of_list_ascii k) = Some i -> named (w i) k.
Proof. intros H1 H2 H. apply named_find. now rewrite H1, H2. Qed.

Lemma named_fun o o' k : named o k -> named o' k -> o = o'.
Proof.
  intros H H'. pose proof H as [_ Hn]. pose proof H' as [_ Hn'].
  pose proof nodup_all as Hd. pose proof (nodup_app_r _ _ Hd) as Hd2. pose proof (nodup_app_r _ _ Hd2) as Hd3.
  apply nth_error_In in Hn, Hn'. set (K := string_of_list_ascii k) in *.
  apply named_find in H. apply named_find in H'. fold K in H, H'.
  destruct o, o'; cbn [opt_names opt_idx] in *;
    try (rewrite H in H'; injection H' as ->; reflexivity); exfalso;
  first
   [ refine (nodup_app_d _ _ K Hd _ _); [assumption|rewrite !in_app_iff; tauto]
   | refine (nodup_app_d _ _ K Hd2 _ _); [assumption|rewrite !in_app_iff; tauto]
   | refine (nodup_app_d _ _ K Hd3 _ _); assumption ].
Qed.

(** ** Values *)
Lemma strtol_token v : token v ->
  let '(z, rest) := strtol v in
  (rest = [] -> exists y, lit_int v y /\ z = clamp64 y) /\ (rest <> [] -> forall y, ~ lit_int v y).
Proof.
  intros [Hne Hv]. unfold strtol.
  assert (Hd : drop_while isspace v = v).
  { apply stop. destruct v; auto. inversion Hv; subst. now apply isspace_false. }
  rewrite Hd. destruct v as [|c w]; [congruence|].
  assert (Hplus : is_digit "+" -> False) by (rewrite <- isdigit_iff; discriminate).
  assert (Hminus : is_digit "-" -> False) by (rewrite <- isdigit_iff; discriminate).
  assert (Hlit : forall neg pre b', c :: w = pre ++ b' ->
     (neg = true /\ pre = ["-"] \/ neg = false /\ pre = ["+"] \/
      neg = false /\ pre = [] /\ (match b' with "-" :: _ => False | "+" :: _ => False | _ => True end)) ->
     match take_while isdigit b' with
     | [] => (forall y, ~ lit_int (c :: w) y)
     | ds => (drop_while isdigit b' = [] -> exists y, lit_int (c :: w) y /\
                clamp64 (if neg then - digits_val ds else digits_val ds) = clamp64 y) /\
             (drop_while isdigit b' <> [] -> forall y, ~ lit_int (c :: w) y)
     end).
  { intros neg pre b' E Hpre.
    pose proof (take_drop isdigit b') as Hb. pose proof (take_all isdigit b') as Ht.
    assert (Hnot : take_while isdigit b' = [] \/ drop_while isdigit b' <> [] -> forall y, ~ lit_int (c :: w) y).
    { intros Hbad y (ds & Hds1 & Hds2 & Hcase).
      assert (b' = ds) as ->.
      { rewrite E in Hcase.
        destruct Hpre as [[_ ->]|[[_ ->]|(_ & -> & Hb')]]; destruct Hcase as [[E1 _]|[[E1 _]|[E1 _]]]; cbn in E1.
        all: try (rewrite <- E1 in Hds2; inversion Hds2; subst; tauto).
        all: try discriminate.
        all: try (injection E1 as <-; reflexivity).
        all: try exact E1.
        all: subst b'; exfalso; exact Hb'. }
      assert (Hds3 : Forall (fun c => isdigit c = true) ds) by (eapply Forall_impl; [|exact Hds2]; intros a; apply isdigit_iff).
      rewrite <- (app_nil_r ds), take_app, drop_app in Hbad by exact Hds3. cbn in Hbad. rewrite app_nil_r in Hbad. tauto. }
    destruct (take_while isdigit b') as [|d ds] eqn:Et; [now apply Hnot; left|]. split; [|intros Hr; apply Hnot; auto].
    intros Er. rewrite Er, app_nil_r in Hb. set (D := d :: ds) in *.
    exists (if neg then - digits_val D else digits_val D). split; [|reflexivity].
    exists D. split; [discriminate|]. split; [eapply Forall_impl; [|exact Ht]; intros a; apply isdigit_iff|].
    rewrite E, <- Hb. destruct Hpre as [[-> ->]|[[-> ->]|(-> & -> & _)]]; auto. }
  destruct (Ascii.eqb_spec c "-") as [->|Hm]; [|destruct (Ascii.eqb_spec c "+") as [->|Hp]].
  - specialize (Hlit true ["-"] w eq_refl (or_introl (conj eq_refl eq_refl))).
    destruct (take_while isdigit w); [split; [discriminate|auto]|]. destruct Hlit as [H1 H2].
    split; auto.
  - specialize (Hlit false ["+"] w eq_refl (or_intror (or_introl (conj eq_refl eq_refl)))).
    destruct (take_while isdigit w); [split; [discriminate|auto]|]. destruct Hlit as [H1 H2].
    split; auto.
  - specialize (Hlit false [] (c :: w) eq_refl). 
    assert (Hb : match c :: w with "-" :: _ => False | "+" :: _ => False | _ => True end).
    { clear -Hm Hp. destruct c as [[] [] [] [] [] [] [] []]; try exact I; congruence. }
    specialize (Hlit (or_intror (or_intror (conj eq_refl (conj eq_refl Hb))))).
    destruct (take_while isdigit (c :: w)); [split; [discriminate|auto]|]. destruct Hlit as [H1 H2].
    split; auto.
Qed.

Lemma lit_int_fun v y z : lit_int v y -> lit_int v z -> y = z.
Proof.
  intros (d1 & Hn1 & Hd1 & H1) (d2 & Hn2 & Hd2 & H2).
  assert (Hplus : is_digit "+" -> False) by (rewrite <- isdigit_iff; discriminate).
  assert (Hminus : is_digit "-" -> False) by (rewrite <- isdigit_iff; discriminate).
  destruct H1 as [[-> ->]|[[-> ->]|[-> ->]]]; destruct H2 as [[E ->]|[[E ->]|[E ->]]];
    try discriminate; try congruence;
    try (subst; inversion Hd1; subst; tauto); try (subst; inversion Hd2; subst; tauto).
Qed.

Lemma str_eqb v (t : list ascii) : String.eqb (string_of_list_ascii v) (string_of_list_ascii t) = true <-> v = t.
Proof.
  rewrite String.eqb_eq. split; [|congruence]. intros H. apply (f_equal list_ascii_of_string) in H.
  now rewrite !list_ascii_of_string_of_list_ascii in H.
Qed.

Section F.
Context {A : Type} (strtod : list ascii -> A * list ascii).

(** [parses o v x]: the text [v] denotes the value [x] for option [o] *)
Definition parses (o : opt) (v : list ascii) (x : sval A) : Prop :=
  match o with
  | OI _ => exists z, lit_int v z /\ - 2 ^ 31 <= z < 2 ^ 31 /\ x = VZ z
  | OR _ => exists a, strtod v = (a, []) /\ x = VR a
  | OB _ => (In v [["1"]; ["t"; "r"; "u"; "e"]] /\ x = VB true) \/ (In v [["0"]; ["f"; "a"; "l"; "s"; "e"]] /\ x = VB false)
  | OE i => exists e z, get_enum i = Ok (Some e) /\ In (string_of_list_ascii v, z) (en_entries e) /\ x = VZ z
  end.

Definition assigns (o : opt) (x : sval A) (l : list ascii) : Prop :=
  exists k v, line_assign l k v /\ named o k /\ parses o v x.

(** ** One line *)
Definition kv_result (s : settings A) (k v : list ascii) (s' : settings A) (r : res bool) : Prop :=
  (exists o x, named o k /\ parses o v x /\ r = Ok false /\ upd_view s s' o x) \/
  (exists i z y, named (OI i) k /\ lit_int v z /\ ~ - 2 ^ 31 <= z < 2 ^ 31 /\ r = Ok false /\ upd_view s s' (OI i) (VZ y)) \/
  ((forall o, named o k -> exists i, o = OB i) /\ (forall o x, named o k -> ~ parses o v x) /\ r = Ok false /\ s' = s) \/
  (exists o, named o k /\ (forall x, ~ parses o v x) /\ ~ (exists i, o = OB i) /\ r = Ok true /\ s' = s).

Lemma set_ok o x (s : settings A) : swf s -> opt_ok o ->
  (match o, x with OE i, VZ z => enum_ok i z | OI _, VZ _ | OB _, VB _ | OR _, VR _ => True | _, _ => False end) ->
  exists s', swf s' /\ upd_view s s' o x /\
   match o, x with
   | OE i, VZ z => set_enum_value s i z = (s', Ok tt)
   | OI i, VZ z => set_int_value s i z = (s', Ok tt)
   | OB i, VB z => set_bool_value s i z = (s', Ok tt)
   | OR i, VR z => set_real_value s i z = (s', Ok tt)
   | _, _ => False
   end.
Proof.
  intros Hs Ho Hx. unfold opt_ok in Ho. destruct (set_upd s o x Hs Ho) as (s' & Hw & Hu & E).
  { destruct o, x; tauto. }
  exists s'. split; auto. split; auto.
  destruct o as [i|i|i|i], x as [z|z|z]; try contradiction; cbn [opt_idx opt_num] in Ho;
    unfold set_enum_value, set_int_value, set_bool_value, set_real_value;
    rewrite (proj2 (opt_valid_iff _ _) Ho); cbn [negb]; try exact E.
  destruct (valid_member_spec i z Ho) as (b & -> & Hb). destruct b; [exact E|]. apply Hb in Hx. discriminate.
Qed.

Lemma kv_spec s k v : swf s -> token v ->
  let '(s', r) := set_key_value strtod s k v in swf s' /\ kv_result s k v s' r.
Proof.
  intros Hs Hv. unfold set_key_value.
  set (K := string_of_list_ascii k).
  destruct (find_name int_names 0 K) as [i|] eqn:Ei.
  { assert (Hn : named (OI i) k) by (now apply named_find).
    pose proof (strtol_token v Hv) as Hp. destruct (strtol v) as [z rest]. destruct Hp as [Hp1 Hp2].
    destruct rest as [|c rest].
    - destruct (Hp1 eq_refl) as (y & Hy & ->).
      destruct (set_ok (OI i) (VZ (to_int (clamp64 y))) s Hs (proj1 Hn) I) as (s' & Hs' & Hu & E).
      cbn [ok_unless]. rewrite E. cbn [ok_unless]. split; auto.
      destruct (Z_le_dec (- 2 ^ 31) y) as [H1|H1]; [destruct (Z_lt_dec y (2 ^ 31)) as [H2|H2]|].
      + left. exists (OI i), (VZ y). split; auto. split; [exists y; auto|]. split; auto.
        replace (to_int (clamp64 y)) with y in Hu; auto. unfold to_int, clamp64.
        rewrite Z.min_r, Z.max_r by lia. rewrite Z.mod_small; lia.
      + right; left. exists i, y, (to_int (clamp64 y)). repeat (split; [solve [auto|lia]|]). auto.
      + right; left. exists i, y, (to_int (clamp64 y)). repeat (split; [solve [auto|lia]|]). auto.
    - split; auto. right; right; right. exists (OI i). split; auto. split.
      + intros x (z' & Hz & _). exact (Hp2 ltac:(discriminate) z' Hz).
      + split; auto. intros [? ?]; discriminate. }
  assert (Hni : forall j, ~ named (OI j) k).
  { intros j Hj. apply named_find in Hj. cbn [opt_names] in Hj. fold K in Hj. congruence. }
  unfold set_key_value_real. fold K. destruct (find_name real_names 0 K) as [i|] eqn:Er.
  { assert (Hn : named (OR i) k) by (now apply named_find).
    destruct (strtod v) as [a rest] eqn:Ea. destruct rest as [|c rest].
    - destruct (set_ok (OR i) (VR a) s Hs (proj1 Hn) I) as (s' & Hs' & Hu & E).
      rewrite E. cbn [ok_unless]. split; auto. left. exists (OR i), (VR a). split; auto. split; [exists a; auto|auto].
    - split; auto. right; right; right. exists (OR i). split; auto. split.
      + intros x (a' & Ha & _). congruence.
      + split; auto. intros [? ?]; discriminate. }
  assert (Hnr : forall j, ~ named (OR j) k).
  { intros j Hj. apply named_find in Hj. cbn [opt_names] in Hj. fold K in Hj. congruence. }
  assert (Henum : (forall j x, named (OB j) k -> ~ parses (OB j) v x) ->
    let '(s', r) := set_key_value_enum s K (string_of_list_ascii v) in swf s' /\ kv_result s k v s' r).
  { intros Hb. unfold set_key_value_enum. destruct (find_name enum_names 0 K) as [i|] eqn:Ee.
    - assert (Hn : named (OE i) k) by (now apply named_find).
      destruct (get_enum_total i (proj1 Hn)) as [[e|] He]; rewrite He.
      + destruct (find_entry (en_entries e) (string_of_list_ascii v)) as [z|] eqn:Ef.
        * apply find_entry_some in Ef.
          destruct (set_ok (OE i) (VZ z) s Hs (proj1 Hn)) as (s' & Hs' & Hu & E); [now apply (name_valid i _ _ _ He Ef)|].
          rewrite E. cbn [ok_unless]. split; auto. left. exists (OE i), (VZ z). split; auto.
          split; [exists e, z; auto|auto].
        * split; auto. right; right; right. exists (OE i). split; auto. split; [|split; [intros [? ?]; discriminate|auto]].
          intros x (e' & z & He' & Hin & _). apply find_entry_none in Ef. apply Ef. apply in_map_iff.
          exists (string_of_list_ascii v, z). split; auto. congruence.
      + split; auto. right; right; right. exists (OE i). split; auto. split; [|split; [intros [? ?]; discriminate|auto]].
        intros x (e' & z & He' & _). congruence.
    - split; auto. right; right; left. split; [|split; [|auto]].
      + intros [j|j|j|j] Hj; [|now apply Hni in Hj|eauto|now apply Hnr in Hj].
        apply named_find in Hj. cbn [opt_names] in Hj. fold K in Hj. congruence.
      + intros [j|j|j|j] x Hj; [|now apply Hni in Hj|auto|now apply Hnr in Hj].
        apply named_find in Hj. cbn [opt_names] in Hj. fold K in Hj. congruence. }
  unfold set_key_value_bool. destruct (find_name bool_names 0 K) as [i|] eqn:Eb.
  2:{ apply Henum. intros j x Hj. apply named_find in Hj. cbn [opt_names] in Hj. fold K in Hj. congruence. }
  assert (Hn : named (OB i) k) by (now apply named_find).
  change "1"%string with (string_of_list_ascii ["1"]). change "true"%string with (string_of_list_ascii ["t"; "r"; "u"; "e"]).
  change "0"%string with (string_of_list_ascii ["0"]). change "false"%string with (string_of_list_ascii ["f"; "a"; "l"; "s"; "e"]).
  destruct (_ || _) eqn:E1; [|destruct (_ || _) eqn:E0 in |- *].
  - destruct (set_ok (OB i) (VB true) s Hs (proj1 Hn) I) as (s' & Hs' & Hu & E).
    rewrite E. cbn [ok_unless]. split; auto. left. exists (OB i), (VB true). split; auto. split; [|auto].
    left. split; auto. apply orb_true_iff in E1. rewrite !str_eqb in E1. cbn [In]. intuition auto.
  - destruct (set_ok (OB i) (VB false) s Hs (proj1 Hn) I) as (s' & Hs' & Hu & E).
    rewrite E. cbn [ok_unless]. split; auto. left. exists (OB i), (VB false). split; auto. split; [|auto].
    right. split; auto. apply orb_true_iff in E0. rewrite !str_eqb in E0. cbn [In]. intuition auto.
  - apply Henum. intros j x Hj Hpx.
    assert (F1 : forall b c : bool, b || c = false -> (b = true \/ c = true) -> False) by (intros [] []; intuition discriminate).
    destruct Hpx as [[Hin _]|[Hin _]]; cbn [In] in Hin.
    + apply (F1 _ _ E1). rewrite !str_eqb. intuition auto.
    + apply (F1 _ _ E0). rewrite !str_eqb. intuition auto.
Qed.

Lemma parses_fun o v x y : opt_ok o -> parses o v x -> parses o v y -> x = y.
Proof.
  destruct o as [i|i|i|i]; cbn [parses]; intros Ho.
  - intros (e & z & He & Hz & ->) (e' & z' & He' & Hz' & ->). rewrite He in He'. injection He' as <-.
    destruct (get_enum_nodup _ _ He) as [Hn _].
    pose proof (find_entry_in _ _ _ Hn Hz). pose proof (find_entry_in _ _ _ Hn Hz'). congruence.
  - intros (z & Hz & _ & ->) (z' & Hz' & _ & ->). f_equal. eapply lit_int_fun; eauto.
  - intros [[H1 ->]|[H1 ->]] [[H2 ->]|[H2 ->]]; auto; cbn [In] in *; exfalso;
    repeat (destruct H1 as [<-|H1]; [repeat (destruct H2 as [H2|H2]; [discriminate|]); contradiction|]); contradiction.
  - intros (z & Hz & ->) (z' & Hz' & ->). congruence.
Qed.

(** ** Files *)
Lemma assign_fun l k v k' v' : line_assign l k v -> line_assign l k' v' -> k = k' /\ v = v'.
Proof. intros H H'. apply extract_assign in H, H'. rewrite H in H'. now injection H' as -> ->. Qed.

(** One buffer that holds the line [l], possibly with its newline. *)
Definition holds (b l : list ascii) : Prop := Forall (fun c => c <> nul) b /\ (b = l \/ b = l ++ [newline]).

Lemma holds_assign b l k v : holds b l -> (line_assign b k v <-> line_assign l k v).
Proof.
  intros [_ [->| ->]]; [tauto|]. apply line_assign_snoc. unfold space; cbn; tauto.
Qed.

Lemma key_nonempty k o : named o k -> k <> [].
Proof.
  intros [_ H] ->. cbn in H. apply nth_error_In in H.
  destruct o; cbn [opt_names enum_names int_names bool_names real_names In] in H;
  repeat (destruct H as [H|H]; [discriminate|]); contradiction.
Qed.

Lemma read_lines_spec bs ls : Forall2 holds bs ls -> forall s s', swf s ->
  read_lines strtod s bs = (s', Ok tt) ->
  swf s' /\
  (forall pre l post o x, ls = pre ++ l :: post -> assigns o x l -> (forall l', In l' post -> ~ mentions o l') -> view s' o = Ok x) /\
  (forall o, (forall l, In l ls -> ~ mentions o l) -> view s' o = view s o) /\
  (forall l o, In l ls -> mentions o l ->
     (exists x, assigns o x l) \/ (exists i, o = OB i) \/
     (exists k v z, line_assign l k v /\ named o k /\ lit_int v z /\ ~ - 2 ^ 31 <= z < 2 ^ 31)).
Proof.
  induction 1 as [|b l bs ls Hb Hbs IH]; intros s s' Hs H; cbn [read_lines] in H.
  - injection H as <-. split; auto. split; [|split; auto].
    + intros pre l post o x E. destruct pre; discriminate.
    + intros l o [].
  - rewrite (cstr_id b) in H by exact (proj1 Hb).
    destruct (extract_key_value b) as [[[k v]|]|c|] eqn:Ex; try discriminate.
    + destruct (list_eq_dec ascii_dec k []) as [->|Hk].
      { (* empty key *)
        assert (Hm : forall o, ~ mentions o l).
        { intros o (k & v' & Hla & Hn). apply (holds_assign b l) in Hla; auto. apply extract_assign in Hla.
          rewrite Ex in Hla. injection Hla as <- <-. now apply key_nonempty in Hn. }
        assert (Hsk : set_key_value strtod s [] v = (s, Ok false)) by reflexivity.
        rewrite Hsk in H. destruct (IH s s' Hs H) as (H1 & H2 & H3 & H4). split; auto. split; [|split].
        - intros pre l0 post o x E Ha Hp. destruct pre as [|p pre]; injection E as <- ->.
          + destruct Ha as (k0 & v0 & Hla & Hn & _). exfalso. apply (Hm o). now exists k0, v0.
          + eauto.
        - intros o Ho. apply H3. intros l' Hl'. apply Ho. now right.
        - intros l' o [<-|Hin] Hmo; [now apply Hm in Hmo|eauto]. }
      pose proof (extract_inv _ _ _ Ex Hk) as Hla. apply (holds_assign b l) in Hla; auto.
      assert (Hv : token v) by (destruct Hla as (? & ? & ? & ? & ? & ?); auto).
      pose proof (kv_spec s k v Hs Hv) as Hkv. destruct (set_key_value strtod s k v) as [s1 r].
      destruct Hkv as [Hs1 Hkv].
      assert (Hr : r = Ok false).
      { destruct r as [[]| |]; try discriminate. reflexivity. }
      subst r. destruct (IH s1 s' Hs1 H) as (H1 & H2 & H3 & H4). split; auto.
      assert (Huniq : forall o, mentions o l -> named o k).
      { intros o (k0 & v0 & Hla0 & Hn0). destruct (assign_fun _ _ _ _ _ Hla Hla0) as [<- <-]. exact Hn0. }
      split; [|split].
      * intros pre l0 post o x E Ha Hp. destruct pre as [|p pre]; injection E as <- ->; [|eauto].
        rewrite H3 by exact Hp. destruct Ha as (k0 & v0 & Hla0 & Hn0 & Hp0).
        destruct (assign_fun _ _ _ _ _ Hla Hla0) as [<- <-].
        destruct Hkv as [(o1 & x1 & Hn1 & Hp1 & _ & Hu)|[(i & z & y & Hn1 & Hz & Hr & _ & Hu)|[(Ho & Hpo & _ & ->)|(o1 & Hn1 & Hp1 & _ & [=] & _)]]].
        -- pose proof (named_fun _ _ _ Hn0 Hn1) as <-. rewrite Hu.
           destruct (opt_eqb_spec o o); [|congruence]. f_equal. eapply parses_fun; eauto. exact (proj1 Hn0).
        -- pose proof (named_fun _ _ _ Hn0 Hn1) as ->. destruct Hp0 as (z' & Hz' & Hr' & ->).
           exfalso. apply Hr. now rewrite (lit_int_fun _ _ _ Hz Hz').
        -- now apply Hpo in Hp0.
      * intros o Ho. rewrite H3 by (intros l' Hl'; apply Ho; now right).
        assert (Hno : ~ named o k) by (intros Hn; apply (Ho l); [now left|]; now exists k, v).
        destruct Hkv as [(o1 & x1 & Hn1 & _ & _ & Hu)|[(i & z & y & Hn1 & _ & _ & _ & Hu)|[(_ & _ & _ & ->)|(o1 & _ & _ & _ & [=] & _)]]]; auto.
        -- rewrite Hu. destruct (opt_eqb_spec o o1) as [->|]; [tauto|auto].
        -- rewrite Hu. destruct (opt_eqb_spec o (OI i)) as [->|]; [tauto|auto].
      * intros l' o [<-|Hin] Hmo; [|eauto]. apply Huniq in Hmo.
        destruct Hkv as [(o1 & x1 & Hn1 & Hp1 & _ & Hu)|[(i & z & y & Hn1 & Hz & Hr & _ & Hu)|[(Ho & Hpo & _ & ->)|(o1 & _ & _ & _ & [=] & _)]]].
        -- pose proof (named_fun _ _ _ Hmo Hn1) as <-. left. exists x1, k, v. auto.
        -- right; right. exists k, v, z. auto.
        -- right; left. auto.
    + destruct (IH s s' Hs H) as (H1 & H2 & H3 & H4).
      assert (Hm : forall o, ~ mentions o l).
      { intros o (k & v' & Hla & Hn). apply (holds_assign b l) in Hla; auto. apply extract_assign in Hla. congruence. }
      split; auto. split; [|split].
      * intros pre l0 post o x E Ha Hp. destruct pre as [|p pre]; injection E as <- ->.
        -- destruct Ha as (k0 & v0 & Hla & Hn & _). exfalso. apply (Hm o). now exists k0, v0.
        -- eauto.
      * intros o Ho. apply H3. intros l' Hl'. apply Ho. now right.
      * intros l' o [<-|Hin] Hmo; [now apply Hm in Hmo|eauto].
Qed.

Lemma holds_file ls last : Forall line_ok (ls ++ [last]) ->
  Forall2 holds (fgets_all [] (buf_len - 1) (file_of ls last)) (ls ++ match last with [] => [] | _ => [last] end).
Proof.
  intros H. apply Forall_app in H as [H1 H2]. inversion H2 as [|? ? H3 _]; subst.
  rewrite fgets_file by assumption. apply Forall2_app.
  - clear H2 H3. induction H1 as [|l ls Hl Hls IH]; cbn [map]; constructor; auto.
    split; [|now right]. apply Forall_app. split; [|constructor; [discriminate|constructor]].
    eapply Forall_impl; [|exact (proj1 Hl)]. cbv beta. intros ? [? ?]; assumption.
  - destruct last as [|c l]; constructor; auto. split; [|now left].
    eapply Forall_impl; [|exact (proj1 H3)]. cbv beta. intros ? [? ?]; assumption.
Qed.

Lemma nil_mentions o : ~ mentions o [].
Proof. intros (k & v & (ws & rest & E & [Hk _] & _) & _). destruct k; [congruence|discriminate]. Qed.

Lemma read_file_spec s s' ls last : swf s -> Forall line_ok (ls ++ [last]) ->
  read_file strtod s (Some (file_of ls last)) = (s', Ok tt) ->
  swf s' /\
  (forall pre l post o x, ls ++ [last] = pre ++ l :: post -> assigns o x l ->
     (forall l', In l' post -> ~ mentions o l') -> view s' o = Ok x) /\
  (forall o, (forall l, In l (ls ++ [last]) -> ~ mentions o l) -> view s' o = view s o) /\
  (forall l o, In l (ls ++ [last]) -> mentions o l ->
     (exists x, assigns o x l) \/ (exists i, o = OB i) \/
     (exists k v z, line_assign l k v /\ named o k /\ lit_int v z /\ ~ - 2 ^ 31 <= z < 2 ^ 31)).
Proof.
  intros Hs Hok H. cbn [read_file] in H.
  destruct (read_lines_spec _ _ (holds_file ls last Hok) s s' Hs H) as (H1 & H2 & H3 & H4).
  split; auto. destruct last as [|c last].
  - rewrite app_nil_r in *. split; [|split].
    + intros pre l post o x E Ha Hp. destruct (exists_last (l := l :: post)) as (q & w & Eq); [discriminate|].
      rewrite Eq, app_assoc in E. apply app_inj_tail in E as [-> <-].
      destruct q as [|l0 q].
      * cbn in Eq. injection Eq as -> _. destruct Ha as (k & v & Hla & Hn & _). exfalso. apply (nil_mentions o). now exists k, v.
      * cbn in Eq. injection Eq as <- ->. apply (H2 pre l q o x); auto.
        intros l' Hl'. apply Hp. rewrite in_app_iff. now left.
    + intros o Ho. apply H3. intros l Hl. apply Ho. rewrite in_app_iff. now left.
    + intros l o Hin Hm. rewrite in_app_iff in Hin. destruct Hin as [Hin|[<-|[]]]; [auto|now apply nil_mentions in Hm].
  - split; [|split]; auto.
Qed.

(** *** Well-formed files are accepted *)
Definition blank (l : list ascii) : Prop := Forall space l.
Definition comment (l : list ascii) : Prop := hd_error l = Some "#".

Lemma read_lines_accept bs ls : Forall2 holds bs ls -> forall s, swf s ->
  (forall l, In l ls -> blank l \/ comment l \/ exists o x, assigns o x l) ->
  exists s', read_lines strtod s bs = (s', Ok tt).
Proof.
  induction 1 as [|b l bs ls Hb Hbs IH]; intros s Hs Hall; cbn [read_lines]; [eauto|].
  rewrite (cstr_id b) by exact (proj1 Hb).
  assert (Hrest : forall l0, In l0 ls -> blank l0 \/ comment l0 \/ exists o x, assigns o x l0) by (intros; apply Hall; now right).
  destruct (Hall l (or_introl eq_refl)) as [Hl|[Hl|(o & x & k & v & Hla & Hn & Hp)]].
  - assert (Hbb : blank b).
    { destruct Hb as [_ [->| ->]]; auto. apply Forall_app. split; auto. constructor; [|constructor]. unfold space; cbn; tauto. }
    destruct b as [|c b]; [cbn; apply IH; auto|].
    destruct (extract_key_value (c :: b)) as [[[k v]|]| |] eqn:Ex.
    + assert (k = []) as ->.
      { destruct k as [|d k]; auto. exfalso. apply extract_inv in Ex; [|discriminate].
        destruct Ex as (ws & rest & E & [_ Hk] & _). inversion Hk; subst. cbn in E. injection E as <- _.
        inversion Hbb; subst. tauto. }
      change (set_key_value strtod s [] v) with (s, Ok (A := bool) false). cbv iota beta. auto.
    + auto.
    + exfalso. unfold extract_key_value in Ex. destruct (trim (c :: b)); [discriminate|].
      destruct (Ascii.eqb _ _); [discriminate|]. destruct (drop_while nonspace _); discriminate.
    + exfalso. unfold extract_key_value in Ex. destruct (trim_spec (c :: b)) as (t & Ht1 & Ht2 & [[_ Ht]|(p & d & Hp & Hd)]).
      * rewrite Ht in Ex. destruct (Ascii.eqb c "#"); [discriminate|].
        destruct (stop nonspace (c :: b)) as [_ E]; [inversion Hbb; subst; now apply nonspace_false|]. rewrite E in Ex. discriminate.
      * rewrite Hp in Ht1. unfold blank in Hbb. rewrite Ht1, Forall_app, Forall_app in Hbb. destruct Hbb as [[_ Hbb] _].
        inversion Hbb; subst. tauto.
  - assert (Hbc : exists b', b = "#" :: b').
    { destruct l as [|c l]; [discriminate|]. injection Hl as ->. destruct Hb as [_ [->| ->]]; cbn; eauto. }
    destruct Hbc as (b' & ->).
    assert (Ex : extract_key_value ("#" :: b') = Ok None).
    { unfold extract_key_value, trim. change (drop_while isspace ("#" :: b')) with ("#" :: b').
      change (take_while isspace ("#" :: b')) with (@nil ascii). cbv iota. cbn [app rev].
      assert (exists q, rev (drop_while isspace (rev b' ++ ["#"])) = "#" :: q) as (q & ->); [|reflexivity].
      destruct (Forall_dec (fun c => isspace c = true) (fun c => bool_dec _ _) (rev b')) as [Hf|Hf].
      - rewrite drop_app by exact Hf. exists []. reflexivity.
      - assert (Hgen : forall r, ~ Forall (fun c => isspace c = true) r -> drop_while isspace (r ++ ["#"]) = drop_while isspace r ++ ["#"]).
        { induction r as [|d r IHr]; intros Hr; [destruct Hr; constructor|]. cbn. destruct (isspace d) eqn:Ed; [|reflexivity].
          apply IHr. intros Hr'. apply Hr. constructor; auto. }
        rewrite Hgen, rev_app_distr by exact Hf. cbn. eauto. }
    rewrite Ex. auto.
  - apply (holds_assign b l) in Hla; auto. rewrite (extract_assign _ _ _ Hla).
    assert (Hv : token v) by (destruct Hla as (? & ? & ? & ? & ? & ?); auto).
    pose proof (kv_spec s k v Hs Hv) as Hkv. destruct (set_key_value strtod s k v) as [s1 r].
    destruct Hkv as [Hs1 Hkv].
    destruct Hkv as [(o1 & x1 & Hn1 & Hp1 & -> & Hu)|[(i & z & y & Hn1 & Hz & Hr & -> & Hu)|[(Ho & Hpo & -> & ->)|(o1 & Hn1 & Hp1 & _ & _)]]]; auto.
    exfalso. pose proof (named_fun _ _ _ Hn Hn1) as <-. now apply Hp1 in Hp.
Qed.

Lemma read_file_accept s ls last : swf s -> Forall line_ok (ls ++ [last]) ->
  (forall l, In l (ls ++ [last]) -> blank l \/ comment l \/ exists o x, assigns o x l) ->
  exists s', read_file strtod s (Some (file_of ls last)) = (s', Ok tt).
Proof.
  intros Hs Hok Hall. cbn [read_file]. eapply read_lines_accept; [apply holds_file, Hok|auto|].
  intros l Hl. apply Hall. rewrite in_app_iff in *. destruct Hl as [Hl|Hl]; [auto|]. right.
  destruct last; [destruct Hl|exact Hl].
Qed.

(** *** The augmented Jacobian method cannot be set from a file. *)
Lemma token_value b k v : extract_key_value b = Ok (Some (k, v)) -> k <> [] -> token v.
Proof. intros H Hk. apply extract_inv in H; auto. destruct H as (? & ? & ? & ? & ? & ?). auto. Qed.

Lemma named_aug k : named (OE 12) k -> ~ Forall (fun c => ~ space c) k.
Proof.
  intros [_ H] Hf. cbn in H. injection H as H. apply (f_equal list_ascii_of_string) in H.
  rewrite list_ascii_of_string_of_list_ascii in H. subst k. cbn in Hf. rewrite Forall_forall in Hf.
  apply (Hf " "); [cbn; tauto|]. unfold space; cbn; tauto.
Qed.

Lemma read_lines_aug bs : forall s, swf s ->
  view (fst (read_lines strtod s bs)) (OE 12) = view s (OE 12).
Proof.
  induction bs as [|b bs IH]; intros s Hs; cbn [read_lines]; [reflexivity|].
  destruct (extract_key_value (cstr b)) as [[[k v]|]| |] eqn:Ex; auto.
  destruct (list_eq_dec ascii_dec k []) as [->|Hk].
  { change (set_key_value strtod s [] v) with (s, Ok (A := bool) false). cbv iota beta. auto. }
  pose proof (kv_spec s k v Hs (token_value _ _ _ Ex Hk)) as Hkv. pose proof (extract_keys_nonspace _ _ _ Ex) as Hns.
  destruct (set_key_value strtod s k v) as [s1 r]. destruct Hkv as [Hs1 Hkv].
  assert (Hv1 : view s1 (OE 12) = view s (OE 12)).
  { destruct Hkv as [(o1 & x1 & Hn1 & Hp1 & -> & Hu)|[(i & z & y & Hn1 & Hz & Hr & -> & Hu)|[(Ho & Hpo & -> & ->)|(o1 & Hn1 & Hp1 & _ & _ & ->)]]]; auto.
    - rewrite Hu. destruct (opt_eqb_spec (OE 12) o1) as [<-|]; auto. now apply named_aug in Hn1.
    - now rewrite Hu. }
  rewrite <- Hv1. destruct r as [[]| |]; auto.
Qed.
Lemma read_file_aug s f : swf s -> view (fst (read_file strtod s f)) (OE 12) = view s (OE 12).
Proof. intros Hs. destruct f; cbn [read_file]; [now apply read_lines_aug|reflexivity]. Qed.
End F.
