(** C30, C31, C32: settings, settings files, enums. *)
From Verif Require Import Base Num Cmp Sparse Vec VecFacts VecFacts2 Mat MatFacts Arr Settings SettingsFacts SettingsFile.
Local Open Scope Z_scope.
Local Open Scope list_scope.
Local Open Scope char_scope.

(** ** C30: read-your-writes *)

(** One setter call: either it is legal, succeeds, and afterwards the getter of its
    option returns the value while every other getter is unchanged, or it is illegal,
    reports an illegal argument and leaves the settings as they were. *)
Theorem C30_setter {A} (s : settings A) (p : op A) : swf s ->
  (exists o v s', writes p o v /\ exec s p = (s', Ok tt) /\ swf s' /\
     forall o', view s' o' = if opt_eqb o' o then Ok v else view s o') \/
  ((forall o v, ~ writes p o v) /\ exec s p = (s, Err EIllegalArg)).
Proof. exact (exec_spec s p). Qed.
Print Assumptions C30_setter.

(** Every history of setter calls on fresh settings: the getter of every option
    returns the value of the last legal write to it, or the default. *)
Theorem C30_history {A} (reals : list A) (ps : list (op A)) : List.length reals = 15%nat ->
  let '(s, rs) := run (settings_create reals) ps in
  (forall o, after ps o (view (settings_create reals) o) (view s o)) /\
  Forall2 (fun p r => (r = Ok tt /\ exists o v, writes p o v) \/
                      (r = Err EIllegalArg /\ forall o v, ~ writes p o v)) ps rs.
Proof.
  intros H. pose proof (run_spec ps _ (create_wf reals H)) as R.
  destruct (run (settings_create reals) ps) as [s rs]. exact (proj2 R).
Qed.
Print Assumptions C30_history.

(** No history makes an enum option hold a value outside its C enum. *)
Theorem C30_valid {A} (reals : list A) (ps : list (op A)) : List.length reals = 15%nat ->
  enums_valid (fst (run (settings_create reals) ps)).
Proof. intros H. apply run_enums_valid; [now apply create_wf|apply create_enums_valid]. Qed.
Print Assumptions C30_valid.

(** Getters reject exactly the options that do not exist. *)
Theorem C30_getter {A} (s : settings A) o : swf s ->
  (opt_ok o -> exists v, view s o = Ok v) /\ (~ opt_ok o -> view s o = Err EIllegalArg).
Proof.
  intros Hs. split; [apply (view_ok s o Hs)|]. intros Ho. unfold opt_ok in Ho.
  destruct o; cbn [opt_idx opt_num view] in *; unfold enum_value, int_value, bool_value, real_value;
  (destruct (opt_valid i _) eqn:E; [apply opt_valid_iff in E; tauto|reflexivity]).
Qed.
Print Assumptions C30_getter.

(** The two floating point flag options accept every integer, whether it is a
    combination of <fenv.h> flags (FE_ALL_EXCEPT = 61) or not. *)
Theorem C30_fenv_refuted {A} (s : settings A) : swf s ->
  exists v s', Z.land v 61 <> v /\ set_enum_value s 4 v = (s', Ok tt) /\ view s' (OE 4) = Ok (VZ v).
Proof.
  intros Hs. exists 64. destruct (exec_spec s (SetE 4 64) Hs) as [(o & v & s' & Hw & E & _ & Hu)|[Hn _]].
  - exists s'. split; [discriminate|]. split; [exact E|]. inversion Hw; subst. rewrite Hu. reflexivity.
  - exfalso. apply (Hn (OE 4) (VZ 64)). constructor; [lia|]. exists None. auto.
Qed.
Print Assumptions C30_fenv_refuted.

Example C30_example :
  let '(s, rs) := run (settings_create (repeat 0 15)) [SetE 1 3; SetE 1 7; SetName 9 "Exact"; SetI 2 8; SetB 9 true; SetR 4 17] in
  rs = [Ok tt; Err EIllegalArg; Ok tt; Ok tt; Err EIllegalArg; Ok tt] /\
  view s (OE 1) = Ok (VZ 3) /\ view s (OE 9) = Ok (VZ 0) /\ view s (OI 2) = Ok (VZ 8) /\ view s (OR 4) = Ok (VR 17) /\
  view s (OE 0) = Ok (VZ 0) /\ view s (OB 9) = Err EIllegalArg.
Proof. vm_compute. repeat split. Qed.

(** ** C31: settings files *)

(** A file of lines that fit into the buffer.  If it is read successfully: for every
    option the last line that mentions it took effect, an option that no line
    mentions is unchanged, and every line that mentions an option gives it a proper
    value, unless the option is boolean or the text an integer beyond the range of
    [int].  Missing from the full claim: a line with an unknown key, an improper
    boolean or leading spaces is skipped, an integer beyond [int] wraps around, and a
    line longer than the buffer is cut in two (see the refutations below). *)
Theorem C31_applied_partial {A} (strtod : list ascii -> A * list ascii) (s s' : settings A) ls last :
  swf s -> Forall line_ok (ls ++ [last]) ->
  read_file strtod s (Some (file_of ls last)) = (s', Ok tt) ->
  (forall pre l post o x, ls ++ [last] = pre ++ l :: post -> assigns strtod o x l ->
     (forall l', In l' post -> ~ mentions o l') -> view s' o = Ok x) /\
  (forall o, (forall l, In l (ls ++ [last]) -> ~ mentions o l) -> view s' o = view s o) /\
  (forall l o, In l (ls ++ [last]) -> mentions o l ->
     (exists x, assigns strtod o x l) \/ (exists i, o = OB i) \/
     (exists k v z, line_assign l k v /\ named o k /\ lit_int v z /\ ~ - 2 ^ 31 <= z < 2 ^ 31)).
Proof. intros Hs Hok H. exact (proj2 (read_file_spec strtod s s' ls last Hs Hok H)). Qed.
Print Assumptions C31_applied_partial.

(** A file of blank lines, comments and proper assignments is accepted. *)
Theorem C31_accepted {A} (strtod : list ascii -> A * list ascii) (s : settings A) ls last :
  swf s -> Forall line_ok (ls ++ [last]) ->
  (forall l, In l (ls ++ [last]) -> blank l \/ comment l \/ exists o x, assigns strtod o x l) ->
  exists s', read_file strtod s (Some (file_of ls last)) = (s', Ok tt).
Proof. exact (read_file_accept strtod s ls last). Qed.
Print Assumptions C31_accepted.

Lemma three (l : list Z) : List.length l = 3%nat -> exists a b c, l = [a; b; c].
Proof. destruct l as [|a [|b [|c [|]]]]; try discriminate. eauto. Qed.
Definition txt (s : string) : list ascii := list_ascii_of_string s.

(** A key that names no option is accepted without effect. *)
Theorem C31_unknown_refuted : exists k v,
  (forall o, ~ named o k) /\ line_assign (k ++ [" "] ++ v) k v /\
  forall A (strtod : list ascii -> A * list ascii) s, read_file strtod s (Some (file_of [k ++ [" "] ++ v] [])) = (s, Ok tt).
Proof.
  exists (txt "feas_tolerance"), (txt "1e-8"). split; [|split].
  - intros o H. apply named_find in H. destruct o; vm_compute in H; discriminate.
  - apply extract_inv; [reflexivity|discriminate].
  - intros A strtod s. reflexivity.
Qed.
Print Assumptions C31_unknown_refuted.

(** So is a boolean option with a value that is not a boolean. *)
Theorem C31_bool_refuted : exists l i,
  mentions (OB i) l /\ forall A (strtod : list ascii -> A * list ascii) s,
  (forall x, ~ assigns strtod (OB i) x l) /\ read_file strtod s (Some (file_of [l] [])) = (s, Ok tt).
Proof.
  exists (txt "perform_soc no"), 2. assert (Hla : line_assign (txt "perform_soc no") (txt "perform_soc") (txt "no")) by
    (apply extract_inv; [reflexivity|discriminate]). split; [|intros A strtod s; split].
  - exists (txt "perform_soc"), (txt "no"). split; [exact Hla|]. now apply named_find.
  - intros x (k & v & H & _ & Hp). destruct (assign_fun _ _ _ _ _ Hla H) as [<- <-].
    destruct Hp as [[Hin _]|[Hin _]]; cbn in Hin; intuition discriminate.
  - reflexivity.
Qed.
Print Assumptions C31_bool_refuted.

(** So is a proper assignment preceded by a space. *)
Theorem C31_indent_refuted : exists l o (x : sval nat),
  assigns (fun _ => (0%nat, [])) o x l /\
  forall s, read_file (fun _ => (0%nat, [])) s (Some (file_of [" " :: l] [])) = (s, Ok tt).
Proof.
  exists (txt "max_newton_iterations 7"), (OI 1), (VZ 7). split; [|reflexivity].
  exists (txt "max_newton_iterations"), (txt "7"). split; [apply extract_inv; [reflexivity|discriminate]|].
  split; [now apply named_find|]. exists 7. split; [|split; [lia|reflexivity]].
  exists (txt "7"). split; [discriminate|]. split; [|now left]. apply Forall_cons; [unfold is_digit; cbn; tauto|constructor].
Qed.
Print Assumptions C31_indent_refuted.

(** An integer that does not fit into an [int] is accepted with another value. *)
Theorem C31_wrap_refuted : exists l k v z y,
  line_assign l k v /\ named (OI 2) k /\ lit_int v z /\ z <> y /\
  forall A (strtod : list ascii -> A * list ascii) s, swf s ->
  let '(s', r) := read_file strtod s (Some (file_of [l] [])) in r = Ok tt /\ view s' (OI 2) = Ok (VZ y).
Proof.
  exists (txt "num_threads 4294967300"), (txt "num_threads"), (txt "4294967300"), 4294967300, 4.
  split; [apply extract_inv; [reflexivity|discriminate]|]. split; [now apply named_find|]. split.
  { exists (txt "4294967300"). split; [discriminate|]. split; [|left; split; reflexivity].
    cbn [txt list_ascii_of_string]. repeat (apply Forall_cons; [unfold is_digit; cbn; tauto|]). constructor. }
  split; [discriminate|]. intros A strtod s Hs. destruct s as [e i b r]. destruct Hs as (_ & Hi & _). cbn [s_int] in Hi.
  destruct (three i Hi) as (i0 & i1 & i2 & ->). vm_compute. split; reflexivity.
Qed.
Print Assumptions C31_wrap_refuted.

(** The tail of a comment that does not fit into the buffer is read as a setting. *)
Theorem C31_long_refuted : exists l, comment l /\ Forall (fun c => c <> newline /\ c <> nul) l /\
  forall A (strtod : list ascii -> A * list ascii) s, swf s ->
  let '(s', r) := read_file strtod s (Some (file_of [l] [])) in r = Ok tt /\ view s' (OI 1) = Ok (VZ 7).
Proof.
  exists (repeat "#" 1023 ++ txt "max_newton_iterations 7"). split; [reflexivity|]. split.
  { apply Forall_app. split.
    - apply Forall_forall. intros c Hc. apply repeat_spec in Hc as ->. split; discriminate.
    - cbn [txt list_ascii_of_string]. repeat (apply Forall_cons; [split; discriminate|]). constructor. }
  intros A strtod s Hs. destruct s as [e i b r]. destruct Hs as (_ & Hi & _). cbn [s_int] in Hi.
  destruct (three i Hi) as (i0 & i1 & i2 & ->). vm_compute. split; reflexivity.
Qed.
Print Assumptions C31_long_refuted.

(** No file whatsoever changes the method for the augmented Jacobian: the name of the
    option contains spaces. *)
Theorem C31_augjac_refuted {A} (strtod : list ascii -> A * list ascii) (s : settings A) f : swf s ->
  view (fst (read_file strtod s f)) (OE 12) = view s (OE 12).
Proof. exact (read_file_aug strtod s f). Qed.
Print Assumptions C31_augjac_refuted.

Example C31_example :
  let ls := [txt "# a comment"; txt ""; txt "hess_eval SR1"; txt "lp_resolves false"; txt "num_threads -3  "] in
  Forall line_ok (ls ++ [txt "feas_tol 12"]) /\
  exists s', read_file (fun _ => (5%nat, [])) (settings_create (repeat 0%nat 15)) (Some (file_of ls (txt "feas_tol 12"))) = (s', Ok tt) /\
  view s' (OE 1) = Ok (VZ 1) /\ view s' (OB 7) = Ok (VB false) /\ view s' (OI 2) = Ok (VZ (-3)) /\ view s' (OR 10) = Ok (VR 5%nat).
Proof.
  split.
  - cbn [app]. repeat (apply Forall_cons; [split; [cbn [txt list_ascii_of_string];
      repeat (apply Forall_cons; [split; discriminate|]); constructor|vm_compute; lia]|]). constructor.
  - eexists. split; [vm_compute; reflexivity|]. vm_compute. auto.
Qed.

(** ** C32: enums *)

(** The enums of types.c with the number of values of their C types (for flag enums:
    the number of combinations). *)
Definition enum_table : list (senum * Z) :=
  [(active_enum, 4); (status_enum, 9); (deriv_check_enum, 32); (hess_eval_enum, 4); (bfgs_sizing_enum, 2);
   (steptype_enum, 5); (dual_estimation_enum, 3); (tr_solver_enum, 4); (polishing_enum, 3);
   (parametric_cauchy_enum, 3); (initial_tr_enum, 2); (linesearch_enum, 2); (step_rule_enum, 3); (aug_jac_type_enum, 4)].

(** Names and values of every enum correspond one to one, the lookup of a name
    succeeds exactly on the listed ones, and the accepted values are exactly those of
    the C type. *)
Theorem C32_enums e n : In (e, n) enum_table ->
  NoDup (map fst (en_entries e)) /\ NoDup (map snd (en_entries e)) /\
  (forall name v, find_entry (en_entries e) name = Some v <-> In (name, v) (en_entries e)) /\
  (forall v, sleqp_enum_member e v = true <-> 0 <= v < n) /\
  (en_flags e = false -> forall v, sleqp_enum_member e v = true <-> exists name, find_entry (en_entries e) name = Some v).
Proof.
  intros Hin.
  assert (H1 : NoDup (map fst (en_entries e)) /\ NoDup (map snd (en_entries e))).
  { cbn [enum_table In] in Hin.
    repeat (destruct Hin as [Hin|Hin]; [injection Hin as <- <-; split;
      [apply nodupb_ok; vm_compute; reflexivity
      |cbv [map snd en_entries active_enum status_enum deriv_check_enum hess_eval_enum bfgs_sizing_enum steptype_enum
        dual_estimation_enum tr_solver_enum polishing_enum parametric_cauchy_enum initial_tr_enum linesearch_enum
        step_rule_enum aug_jac_type_enum]; repeat (constructor; [cbn [In]; intuition discriminate|]); constructor]|]).
    contradiction. }
  assert (H2 : forall v, sleqp_enum_member e v = true <-> 0 <= v < n).
  { intros v. cbn [enum_table In] in Hin.
    assert (Hact : sleqp_enum_member active_enum v = true <-> 0 <= v < 4).
    { change (flags_member (en_entries active_enum) v = true <-> 0 <= v < 4).
      unfold flags_member. rewrite flags_land.
      - change (lor_all _) with (Z.ones 2). rewrite Z.land_ones, Z.eqb_eq by lia. change (2 ^ 2) with 4.
        split; intros H; [rewrite H; apply Z.mod_pos_bound; lia|now rewrite Z.mod_small].
      - apply Forall_forall; intros x Hx; cbn [en_entries active_enum In] in Hx; repeat destruct Hx as [<-|Hx];
          try contradiction; cbn [snd]; first [now left | right; (exists 0 + exists 1); split; [lia|reflexivity]]. }
    repeat (destruct Hin as [Hin|Hin]; [injection Hin as <- <-;
      first [exact Hact | exact (deriv_flags v)
            | unfold sleqp_enum_member; match goal with |- context [en_flags ?e] => change (en_flags e) with false end;
              cbv iota; rewrite enum_member_iff; apply in_small; reflexivity]|]).
    contradiction. }
  destruct H1 as [H1a H1b]. split; auto. split; auto.
  assert (H3 : forall name v, find_entry (en_entries e) name = Some v <-> In (name, v) (en_entries e)).
  { intros name v. split; [apply find_entry_some|now apply find_entry_in]. }
  split; auto. split; auto.
  intros Hf v. unfold sleqp_enum_member. rewrite Hf, enum_member_iff, in_map_iff. split.
  - intros ([name w] & <- & Hw). exists name. now apply H3.
  - intros (name & Hn). exists (name, v). split; auto. now apply H3.
Qed.
Print Assumptions C32_enums.

(** Any flag enum whose entries are single flags (or no flag): a value is accepted iff
    it is a union of listed flags. *)
Theorem C32_flags es v : Forall (fun e => single_bit (snd e)) es ->
  (flags_member es v = true <-> exists sub, incl sub (map snd es) /\ v = lor_all sub).
Proof. exact (flags_member_iff es v). Qed.
Print Assumptions C32_flags.

Example C32_example :
  find_entry (en_entries hess_eval_enum) "SR1" = Some 1 /\ find_entry (en_entries hess_eval_enum) "sr1" = None /\
  sleqp_enum_member deriv_check_enum 27 = true /\ sleqp_enum_member deriv_check_enum (-1) = false /\
  sleqp_enum_member status_enum 9 = false.
Proof. vm_compute. repeat split. Qed.
