(** Further theorems added after mutation testing: bookkeeping of the minimum step rule, duals of variables and constraints. *)
From Coq Require Import Reals Lra Lia.
From Flocq Require Import Core BinarySingleNaN.
From Verif Require Import Base Num Cmp Sparse Vec VecFacts Mat MatFacts Order StepRule StepRuleFacts WorkingSet WorkingSetFacts PropsVec PropsWs.
Local Open Scope Z_scope.

(** ** C40: the accepted steps since the last minimum *)

(** [seg] are the accepted steps (merit at the iterate, predicted reduction) since the smallest merit was
    seen, oldest first; the first one is that of the smallest merit.  The largest merit is that of the
    earliest largest element, and the second sum adds the predicted reductions of all later steps. *)
Definition mseg {N : Num} {O : Ord N} (r : @mrule N) (seg : list (num * num)) : Prop :=
  m_init r = true /\ m_count r = Z.of_nat (length seg) - 1
  /\ (forall e, In e seg -> nn (fst e))
  /\ (exists d rest, seg = (m_min r, d) :: rest /\ forall e, In e seg -> (val (m_min r) <= val (fst e))%R)
  /\ exists s1 d s2, seg = s1 ++ (m_max r, d) :: s2
     /\ (forall e, In e s1 -> (val (fst e) < val (m_max r))%R)
     /\ (forall e, In e s2 -> (val (fst e) <= val (m_max r))%R)
     /\ m_sum_max r = fold_left nadd (map snd s2) n0.

Theorem C40_minstep_start {N : Num} {O : Ord N} : forall (r : @mrule N) it, nn it -> m_init r = false ->
  exists r', minstep_start r it = Ok r' /\ mseg r' [(it, n0)] /\ m_ref r' = it /\ m_sum_ref r' = n0 /\ m_limit r' = m_limit r.
Proof.
  intros r it Hit Hi. unfold minstep_start. rewrite Hi. eexists. split; [reflexivity|]. split; [|cbn; auto].
  unfold mseg. cbn [m_init m_count m_min m_max m_sum_max length]. split; [auto|]. split; [reflexivity|].
  split; [intros e [<-|[]]; exact Hit|]. split.
  - exists n0, []. split; [reflexivity|]. intros e [<-|[]]. apply Rle_refl.
  - exists [], n0, []. split; [reflexivity|]. split; [intros e []|]. split; [intros e []|]. reflexivity.
Qed.
Print Assumptions C40_minstep_start.

Theorem C40_minstep_history {N : Num} {O : Ord N} : forall thr (r : @mrule N) seg it ex md r' ratio,
  mseg r seg -> nn it -> minstep_apply thr r it ex md = Ok (r', true, ratio) ->
  let mr := nsub it md in
  let newmin := nltb it (m_min r) in
  mseg r' (if newmin then [(it, mr)] else seg ++ [(it, mr)])
  /\ m_limit r' = m_limit r
  /\ (m_count r' = m_limit r -> m_ref r' = m_max r' /\ m_sum_ref r' = m_sum_max r')
  /\ (m_count r' <> m_limit r -> m_ref r' = m_ref r /\ m_sum_ref r' = if newmin then n0 else nadd (m_sum_ref r) mr).
Proof.
  intros thr r seg it ex md r' ratio (Hi & Hc & Hn & (d0 & rest & Hs & Hmin) & s1 & d & s2 & Es & Hs1 & Hs2 & Hsum) Hit E mr newmin.
  unfold minstep_apply, minstep_start in E. rewrite Hi in E. destruct (nleb (m_min r) (m_max r)); cbn [check rbind] in E; [|discriminate].
  destruct (nleb thr _); [|discriminate]. injection E as <- _. fold mr.
  assert (Nmin : nn (m_min r)) by (rewrite Hs in Hn; apply (Hn (m_min r, d0)); now left).
  assert (Nmax : nn (m_max r)) by (rewrite Es in Hn; apply (Hn (m_max r, d)); apply in_or_app; right; now left).
  unfold minstep_accept. fold newmin. cbv zeta. destruct newmin eqn:En; subst newmin.
  - assert (Hirr : nltb it it = false) by (rewrite (ltb_val it it Hit Hit); apply Rlt_bool_false, Rle_refl). rewrite Hirr.
    split; [|split; [reflexivity|]].
    + unfold mseg. cbn [m_init m_count m_min m_max m_sum_max length]. split; [auto|]. split; [reflexivity|].
      split; [intros e [<-|[]]; exact Hit|]. split.
      * exists mr, []. split; [reflexivity|]. intros e [<-|[]]. apply Rle_refl.
      * exists [], mr, []. split; [reflexivity|]. split; [intros e []|]. split; [intros e []|]. reflexivity.
    + cbn [m_count m_ref m_max m_sum_ref m_sum_max]. destruct (Z.eqb_spec 0 (m_limit r)); split; intros; try congruence; auto.
  - rewrite (ltb_val _ _ Hit Nmin) in En. destruct (Rlt_bool_spec (val it) (val (m_min r))) as [|En']; [discriminate|].
    assert (Hn' : forall e, In e (seg ++ [(it, mr)]) -> nn (fst e)).
    { intros e He. apply in_app_or in He. destruct He as [He|[<-|[]]]; auto. }
    assert (Hmin' : exists d rest, seg ++ [(it, mr)] = (m_min r, d) :: rest /\ forall e, In e (seg ++ [(it, mr)]) -> (val (m_min r) <= val (fst e))%R).
    { exists d0, (rest ++ [(it, mr)]). split; [now rewrite Hs|]. intros e He. apply in_app_or in He. destruct He as [He|[<-|[]]]; auto. }
    destruct (nltb (m_max r) it) eqn:Ex; rewrite (ltb_val _ _ Nmax Hit) in Ex; destruct (Rlt_bool_spec (val (m_max r)) (val it)) as [Hx|Hx]; try discriminate.
    + split; [|split; [reflexivity|]].
      * unfold mseg. cbn [m_init m_count m_min m_max m_sum_max]. split; [auto|]. split; [rewrite app_length; cbn [length]; lia|]. split; [exact Hn'|].
        split; [exact Hmin'|]. exists seg, mr, []. split; [reflexivity|]. split; [|split; [intros e []|reflexivity]].
        intros e He. rewrite Es in He. apply in_app_or in He. destruct He as [He|[<-|He]]; cbn [fst].
        -- specialize (Hs1 e He). lra.
        -- exact Hx.
        -- specialize (Hs2 e He). lra.
      * cbn [m_count m_ref m_max m_sum_ref m_sum_max]. destruct (Z.eqb_spec (m_count r + 1) (m_limit r)); split; intros; try congruence; auto.
    + split; [|split; [reflexivity|]].
      * unfold mseg. cbn [m_init m_count m_min m_max m_sum_max]. split; [auto|]. split; [rewrite app_length; cbn [length]; lia|]. split; [exact Hn'|].
        split; [exact Hmin'|]. exists s1, d, (s2 ++ [(it, mr)]). split; [rewrite Es, <- app_assoc; reflexivity|]. split; [exact Hs1|]. split.
        -- intros e He. apply in_app_or in He. destruct He as [He|[<-|[]]]; auto.
        -- rewrite map_app, fold_left_app, <- Hsum. reflexivity.
      * cbn [m_count m_ref m_max m_sum_ref m_sum_max]. destruct (Z.eqb_spec (m_count r + 1) (m_limit r)); split; intros; try congruence; auto.
Qed.
Print Assumptions C40_minstep_history.

(** A start at 10, accepted at 10 with predicted reduction 5, then at 12: the largest merit moves to 12. *)
Example C40_minstep_history_example :
  let r0 := mkmr false (fz 0) (fz 0) (fz 0) (fz 0) (fz 0) 0 7 in
  match (s <- minstep_apply (fz 0) r0 (fz 10) (fz 5) (fz 5) ;; let '(r, _, _) := s in
         s <- minstep_apply (fz 0) r (fz 12) (fz 8) (fz 8) ;; let '(r, b, _) := s in Ok (r, b)) with
  | Ok (r, b) => (b, m_count r, BinarySingleNaN.B2SF (m_max r : f64), BinarySingleNaN.B2SF (m_sum_max r : f64), BinarySingleNaN.B2SF (m_min r : f64))
  | _ => (false, 0, BinarySingleNaN.B2SF (fz 0), BinarySingleNaN.B2SF (fz 0), BinarySingleNaN.B2SF (fz 0)) end
  = (true, 2, BinarySingleNaN.B2SF (fz 12), BinarySingleNaN.B2SF (fz 0), BinarySingleNaN.B2SF (fz 10)).
Proof. vm_compute. reflexivity. Qed.

(** ** C16: the duals of variables and of constraints are held against their own states *)
Theorem C16_supports_vars {N : Num} : forall w (d : vec), wf d -> vdim d = wnv w -> len (wvst w) = wnv w ->
  exists r, supports_vars_dual w d = Ok r /\
    (r = true <-> forall j x s, get (vent d) j = Some x -> ws_var_state w j = Ok s -> sign_allowed s x).
Proof.
  intros w d Hw Hd Hl. unfold supports_vars_dual. rewrite Hd, Z.eqb_refl. cbn [check rbind].
  destruct (C16_supports d (wvst w) Hw ltac:(lia)) as (r & E & Hr). exists r. split; [exact E|]. rewrite Hr.
  split; intros H j x s Hg Hs; apply (H j x s Hg); pose proof (sorted_in_In _ _ _ _ (proj1 (proj2 Hw)) (In_keys _ _ _ (get_Some_In _ _ _ Hg))) as Hj.
  - unfold ws_var_state in Hs. destruct (j <? wnv w); cbn [check rbind] in Hs; [|discriminate]. apply arr_get_nth in Hs; [exact Hs|lia].
  - unfold ws_var_state. destruct (Z.ltb_spec j (wnv w)); [|lia]. cbn [check rbind]. apply arr_get_nth; [lia|exact Hs].
Qed.
Print Assumptions C16_supports_vars.

Theorem C16_supports_cons {N : Num} : forall w (d : vec), wf d -> vdim d = wnc w -> len (wcst w) = wnc w ->
  exists r, supports_cons_dual w d = Ok r /\
    (r = true <-> forall i x s, get (vent d) i = Some x -> ws_cons_state w i = Ok s -> sign_allowed s x).
Proof.
  intros w d Hw Hd Hl. unfold supports_cons_dual. rewrite Hd, Z.eqb_refl. cbn [check rbind].
  destruct (C16_supports d (wcst w) Hw ltac:(lia)) as (r & E & Hr). exists r. split; [exact E|]. rewrite Hr.
  split; intros H j x s Hg Hs; apply (H j x s Hg); pose proof (sorted_in_In _ _ _ _ (proj1 (proj2 Hw)) (In_keys _ _ _ (get_Some_In _ _ _ Hg))) as Hj.
  - unfold ws_cons_state in Hs. destruct (j <? wnc w); cbn [check rbind] in Hs; [|discriminate]. apply arr_get_nth in Hs; [exact Hs|lia].
  - unfold ws_cons_state. destruct (Z.ltb_spec j (wnc w)); [|lia]. cbn [check rbind]. apply arr_get_nth; [lia|exact Hs].
Qed.
Print Assumptions C16_supports_cons.
