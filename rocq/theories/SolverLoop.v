(** The loops of the problem solvers and of the solver. *)
From Verif Require Import Base Num Cmp Sparse Vec Mat WorkingSet Feas TrustRadius Problem Restoration Solver SolverFacts SolverIter.
Local Open Scope Z_scope.

Section Loop.
Context {N : Num} {W : Type}.
Variable Or : @oracles N W.
Variable cf : @config N.
Notation st := (@st N W).
Notation M := (@M N W).
Notation ev := (@ev N).

(** Any number of iterations of phase [ph], [n] of them counted, ending with status [x]. *)
Record seg (ph : phase) (n : Z) (r : bool) (x : pstatus) (s s' : st) : Prop := {
  sg_phase : s_phase s' = s_phase s;
  sg_status : s_status s' = s_status s;
  sg_iters : s_iters s' = s_iters s;
  sg_primal : s_primal s' = s_primal s;
  sg_rprimal : s_rprimal s' = s_rprimal s;
  sg_timer : s_timer s' = s_timer s;
  sg_pstatus : p_status (ps_of ph s') = x;
  sg_ali : p_ali (ps_of ph s') = p_ali (ps_of ph s);
  sg_other : match ph with Opt => s_rest s' = s_rest s | Rest => exists ab, s_opt s' = ps_abort ab (s_opt s) end;
  sg_rabort : p_abort (s_rest s') = true -> p_abort (s_rest s) = true \/ r = true;
  sg_elapsed : c_elapsed (p_cnt (ps_of ph s')) = c_elapsed (p_cnt (ps_of ph s)) + n;
  sg_iter : c_iter (p_cnt (ps_of ph s')) = c_iter (p_cnt (ps_of ph s)) + n;
  sg_log : exists l, s_log s' = l ++ s_log s /\ Forall (inner ph (s_phase s)) l /\ (ph = Opt -> ord l) /\ n_ev is_count l = n /\
             steps (p_cnt (ps_of ph s')) + n_ev is_drop l = steps (p_cnt (ps_of ph s)) + n /\
             p_abort (s_opt s') = p_abort (s_opt s) || has_abort l }.

Lemma seg_prn ph i n r s s' : prn ph i n n r s s' -> seg ph n r (p_status (ps_of ph s)) s s'.
Proof.
  intros []. constructor; try assumption. destruct pr_log as (l & L & F & O & I & C & D & A). exists l. repeat split; auto.
Qed.
Lemma seg_set ph n r x y s s' : seg ph n r x s s' -> seg ph n r y s (with_ps ph (ps_status y (ps_of ph s')) s').
Proof.
  intros []. constructor; rewrite ?ps_of_with; try assumption; try reflexivity.
  - destruct ph; cbn in *; assumption.
  - destruct ph; cbn in *; assumption.
  - destruct sg_log0 as (l & L & F & O & C & D & A). exists l. repeat split; auto. destruct ph; cbn in *; assumption.
Qed.
Lemma seg_trans ph n1 r1 x1 n2 r2 x2 s1 s2 s3 :
  seg ph n1 r1 x1 s1 s2 -> seg ph n2 r2 x2 s2 s3 -> (ph = Opt -> p_abort (s_opt s2) = false) ->
  seg ph (n1 + n2) (r1 || r2) x2 s1 s3.
Proof.
  intros [] [] HA. constructor; try congruence.
  - destruct ph; [congruence|]. destruct sg_other0 as (ab & E1), sg_other1 as (ab' & E2). rewrite E2, E1. eexists. reflexivity.
  - intros H. rewrite orb_true_iff. destruct (sg_rabort1 H) as [H1|H1]; [destruct (sg_rabort0 H1) as [H2|H2]|]; auto.
  - lia.
  - lia.
  - destruct sg_log0 as (l & L1 & F1 & O1 & C1 & D1 & A1), sg_log1 as (l' & L2 & F2 & O2 & C2 & D2 & A2). exists (l' ++ l).
    rewrite !n_ev_app, has_abort_app, L2, L1, app_assoc, A2, A1. repeat split; try lia.
    + apply Forall_app. split; [rewrite <- sg_phase0|]; assumption.
    + intros E. apply ord_app'; [auto|]. specialize (HA E). rewrite HA in A1. symmetry in A1. now apply orb_false_iff in A1.
    + now rewrite <- orb_assoc, (orb_comm (has_abort l')).
Qed.
Lemma seg_fr ph s s' : fr ph s s' -> seg ph 0 false (p_status (ps_of ph s)) s s'.
Proof. intros H. eapply seg_prn, fr_prn, H. Qed.

(** What holds when a main loop ends. *)
Definition verdict (ph : phase) (lim : Z) (n : Z) (x : pstatus) (s s' : st) : Prop :=
  match x with
  | PUnknown | PRunning => False
  | PIter => lim <> -1 /\ lim <= c_elapsed (p_cnt (ps_of ph s'))
  | PManual => p_abort (ps_of ph s') = true
  | POptimal => exists sl fe sr, residua cf ph (p_it (ps_of ph s')) = Ok (sl, fe, sr) /\
                  is_optimal (cf_feas cf) (cf_slack cf) (cf_stat cf) fe sl sr = true
  | PUnbounded => nleb (it_obj (p_it (ps_of ph s'))) (cf_objlow cf) = true
  | PLocInf => p_ali (ps_of ph s) = true /\ (n = 0 -> exists sl fe sr, residua cf ph (p_it (ps_of ph s)) = Ok (sl, fe, sr) /\
                  nleb fe (cf_feas cf) = false)
  | PTime => True
  | PDeadpoint => nleb (p_lprad (ps_of ph s')) (cf_dead cf) || nleb (p_rad (ps_of ph s')) (cf_dead cf) = true
  end.

Lemma ps_status_same ph x (s : st) : p_it (ps_of ph (with_ps ph (ps_status x (ps_of ph s)) s)) = p_it (ps_of ph s).
Proof. now rewrite ps_of_with. Qed.

Definition loop_post (ph : phase) (lim : Z) (s s' : st) : Prop :=
  exists n r x, seg ph n r x s s' /\ 0 <= n /\ (r = true -> 0 < n) /\ verdict ph lim n x s s'.
Definition loop_err (ph : phase) (fuel : nat) (c : option code) (s s' : st) : Prop :=
  exists n r x, seg ph n r x s s' /\ 0 <= n /\ (r = true -> 0 < n) /\ (c = None -> Z.of_nat fuel <= n).

Lemma seg_w ph (s : st) w : seg ph 0 false (p_status (ps_of ph s)) s (with_w w s).
Proof. apply seg_fr, fr_ua. exists w. auto. Qed.

Lemma seg_w_r ph n r x s s' w : seg ph n r x s s' -> seg ph n r x s (with_w w s').
Proof. intros []. constructor; rewrite ?ps_of_w; try assumption. Qed.

Lemma seg_lost ph n r x s s' c : seg ph n r x s s' -> seg ph n r x s (with_log (ELost ph c) s').
Proof.
  intros []. constructor; rewrite ?ps_of_log; try assumption. destruct sg_log0 as (l & L & F & O & C & D & A). exists (ELost ph c :: l).
  repeat split; auto.
  - cbn. now rewrite L.
  - constructor; [reflexivity|exact F].
  - intros E. change (ELost ph c :: l) with ([ELost ph c] ++ l). apply ord_app; auto.
Qed.

(** The limit is respected at every exit. *)
Definition within (ph : phase) (lim : Z) (s' : st) : Prop := lim = -1 \/ c_elapsed (p_cnt (ps_of ph s')) <= lim.

Lemma ps_loop_spec ph lim fuel : forall s, is_running (p_status (ps_of ph s)) = true -> within ph lim s ->
  wp (ps_loop Or cf fuel ph lim) (fun _ s' => loop_post ph lim s s' /\ within ph lim s')
     (fun c s' => loop_err ph fuel c s s' /\ within ph lim s') s.
Proof.
  induction fuel as [|fuel IH]; intros s Hr Hl; cbn [ps_loop].
  { apply wp_nofuel. split; [|exact Hl]. exists 0, false, (p_status (ps_of ph s)). repeat split; try lia; try discriminate.
    all: apply (seg_fr ph s s), (po_refl _ (fr_preo ph)). }
  assert (WS : forall x s', within ph lim s' -> within ph lim (with_ps ph (ps_status x (ps_of ph s')) s')).
  { intros x s' H. unfold within in *. now rewrite ps_of_with. }
  apply wp_bind, wp_tick. intros t w. set (s1 := with_w w s).
  assert (S1 : seg ph 0 false (p_status (ps_of ph s)) s s1) by apply seg_w.
  assert (P1 : ps_of ph s1 = ps_of ph s) by apply ps_of_w.
  assert (W1 : within ph lim s1) by (unfold within in *; now rewrite P1).
  destruct t.
  { apply wp_modp. split; [|now apply WS]. exists 0, false, PTime. repeat split; try lia; try discriminate.
    all: eapply seg_set; exact S1. }
  apply wp_bind, wp_getp.
  destruct (negb (lim =? -1) && (lim <=? c_elapsed (p_cnt (ps_of ph s1)))) eqn:El.
  { apply wp_modp. split; [|now apply WS]. exists 0, false, PIter. split; [eapply seg_set; exact S1|]. split; [lia|]. split; [discriminate|].
    cbn [verdict]. rewrite ps_of_with. cbn [ps_status p_cnt]. lia. }
  assert (W1' : lim = -1 \/ c_elapsed (p_cnt (ps_of ph s1)) < lim) by lia.
  destruct (p_abort (ps_of ph s1)) eqn:Ea.
  { apply wp_modp. split; [|now apply WS]. exists 0, false, PManual. split; [eapply seg_set; exact S1|]. split; [lia|]. split; [discriminate|].
    cbn [verdict]. rewrite ps_of_with. exact Ea. }
  assert (HA : ph = Opt -> p_abort (s_opt s1) = false) by (intros ->; exact Ea).
  apply wp_bind, wp_try.
  (* what follows an iteration that was not a success *)
  assert (Fail1 : forall c0 c s2, failing ph s1 s2 ->
    wp (bind (match Some c0 with Some EAbortTime => ret true | _ => tick (or_clock Or) end)
        (fun t0 : bool => if t0 then bind (match Some c0 with Some EAbortTime | None => ret tt | Some c => emit (ELost ph c) end) (fun _ => modp ph (ps_status PTime))
                          else raise c))
      (fun _ s' => loop_post ph lim s s' /\ within ph lim s') (fun c s' => loop_err ph (S fuel) c s s' /\ within ph lim s') s2).
  { intros c0 c s2 (i & Hi & HF).
    assert (exists n r, seg ph n r (p_status (ps_of ph s)) s s2 /\ 0 <= n <= 1 /\ (r = true -> 0 < n) /\ within ph lim s2) as (n & r & S2 & Hn & Hrn & W2).
    { rewrite <- P1. destruct HF as [HF|HF].
      - exists 0, false. split; [|split; [lia|split; [discriminate|]]].
        + exact (seg_trans _ _ _ _ _ _ _ _ _ _ S1 (seg_prn _ _ _ _ _ _ HF) HA).
        + pose proof (pr_elapsed _ _ _ _ _ _ _ HF). unfold within in *. lia.
      - exists 1, true. split; [|split; [lia|split; [lia|]]].
        + exact (seg_trans _ _ _ _ _ _ _ _ _ _ S1 (seg_prn _ _ _ _ _ _ HF) HA).
        + pose proof (pr_elapsed _ _ _ _ _ _ _ HF). unfold within in *. lia. }
    assert (forall t0 s3, seg ph n r (p_status (ps_of ph s)) s s3 -> within ph lim s3 ->
      wp (if (t0 : bool) then bind (match Some c0 with Some EAbortTime | None => ret tt | Some c => emit (ELost ph c) end) (fun _ => modp ph (ps_status PTime)) else raise c)
       (fun _ s' => loop_post ph lim s s' /\ within ph lim s') (fun c s' => loop_err ph (S fuel) c s s' /\ within ph lim s') s3) as K.
    { intros t0 s3 S3 W3. destruct t0.
      - assert (forall s4, seg ph n r (p_status (ps_of ph s)) s s4 -> within ph lim s4 ->
          wp (modp ph (ps_status PTime)) (fun _ s' => loop_post ph lim s s' /\ within ph lim s') (fun c s' => loop_err ph (S fuel) c s s' /\ within ph lim s') s4) as K'.
        2: { apply wp_bind. destruct c0; try (apply wp_emit, K'; [now apply seg_lost|unfold within in *; now rewrite ps_of_log]). apply wp_ret, K'; assumption. }
        clear s3 S3 W3. intros s3 S3 W3. apply wp_modp. split; [|now apply WS]. exists n, r, PTime. split; [eapply seg_set; exact S3|]. split; [lia|]. split; [exact Hrn|exact I].
      - apply wp_raise. split; [|exact W3]. exists n, r, (p_status (ps_of ph s)). split; [exact S3|]. split; [lia|]. split; [exact Hrn|discriminate]. }
    apply wp_bind. destruct c0; try (apply wp_tick; intros t0 w0; apply K; [now apply seg_w_r|unfold within in *; now rewrite ps_of_w]).
    apply wp_ret. apply (K true s2); assumption. }
  eapply wp_cons; [apply (nf_wp _ _ _ _ (perform_iteration_nf Or cf ph) (perform_iteration_spec Or cf ph s1))| |].
  2: { intros c s2 (Hc & H2). destruct c as [c|]; [|congruence]. exact (Fail1 c c s2 H2). }
  cbv beta. intros _ s2 (_ & H2). apply wp_bind, wp_tick. intros t w2.
  set (s3 := with_w w2 s2). assert (P3 : ps_of ph s3 = ps_of ph s2) by apply ps_of_w.
  assert (exists n r x, seg ph n r x s s3 /\ 0 <= n <= 1 /\ (r = true -> 0 < n) /\ within ph lim s3 /\
          (is_running x = true -> n = 1) /\ (is_running x = true \/ verdict ph lim n x s s3)) as (n & r & x & S3 & Hn & Hrn & W3 & Hx & Hv).
  { destruct H2 as [(s1' & x & H1 & -> & Hx)|H2].
    - exists 0, false, x. split; [apply seg_w_r; eapply seg_set; exact (seg_trans _ _ _ _ _ _ _ _ _ _ S1 (seg_prn _ _ _ _ _ _ H1) HA)|].
      split; [lia|]. split; [discriminate|]. split; [|split].
      + unfold within in *. rewrite P3, ps_of_with. cbn [ps_status p_cnt]. pose proof (pr_elapsed _ _ _ _ _ _ _ H1). lia.
      + destruct x; try contradiction; discriminate.
      + right. unfold verdict. rewrite P3, ps_of_with. cbn [ps_status p_it]. rewrite P1 in Hx. destruct x; try contradiction.
        * destruct Hx as (-> & Hx). exact Hx.
        * destruct Hx as (Hx & ->). unfold unbounded_test in Hx. now apply andb_true_iff in Hx.
        * destruct Hx as (Ha & Hx). split; [congruence|]. intros _. exact Hx.
    - exists 1, true, (p_status (ps_of ph s)). rewrite <- P1. split; [apply seg_w_r; exact (seg_trans _ _ _ _ _ _ _ _ _ _ S1 (seg_prn _ _ _ _ _ _ H2) HA)|].
      split; [lia|]. split; [lia|]. split; [|split].
      + unfold within in *. rewrite P3. pose proof (pr_elapsed _ _ _ _ _ _ _ H2). lia.
      + auto.
      + left. now rewrite P1. }
  destruct t.
  { apply wp_bind, wp_ret, wp_modp. split; [|now apply WS]. exists n, r, PTime. split; [eapply seg_set; exact S3|]. split; [lia|]. split; [exact Hrn|exact I]. }
  apply wp_bind, wp_getp.
  destruct (nleb (p_lprad (ps_of ph s3)) (cf_dead cf) || nleb (p_rad (ps_of ph s3)) (cf_dead cf)) eqn:Ed.
  { apply wp_modp. split; [|now apply WS]. exists n, r, PDeadpoint. split; [eapply seg_set; exact S3|]. split; [lia|]. split; [exact Hrn|].
    cbn [verdict]. rewrite ps_of_with. exact Ed. }
  pose proof (sg_pstatus _ _ _ _ _ _ S3) as Hst.
  destruct (is_running (p_status (ps_of ph s3))) eqn:Er.
  - specialize (Hx ltac:(congruence)). subst n.
    assert (forall s', (ph = Opt -> p_abort (s_opt s3) = false) -> forall n' r' x', seg ph n' r' x' s3 s' -> seg ph (1 + n') (r || r') x' s s') as K.
    { intros s' HA' n' r' x' S'. exact (seg_trans _ _ _ _ _ _ _ _ _ _ S3 S' HA'). }
    (* the abort flag is tested before the next iteration; if it is set, nothing more happens *)
    destruct (p_abort (ps_of ph s3)) eqn:Ea3.
    + clear K IH Fail1. destruct fuel as [|fuel]; cbn [ps_loop].
      * apply wp_nofuel. split; [|exact W3]. exists 1, r, x. split; [exact S3|]. split; [lia|]. split; [exact Hrn|]. intros _. lia.
      * apply wp_bind, wp_tick. intros t w4. set (s4 := with_w w4 s3). assert (P4 : ps_of ph s4 = ps_of ph s3) by apply ps_of_w.
        assert (S4 : seg ph 1 r x s s4) by now apply seg_w_r.
        assert (W4 : within ph lim s4) by (unfold within in *; now rewrite P4).
        destruct t.
        { apply wp_modp. split; [|now apply WS]. exists 1, r, PTime. split; [eapply seg_set; exact S4|]. split; [lia|]. split; [exact Hrn|exact I]. }
        apply wp_bind, wp_getp.
        destruct (negb (lim =? -1) && (lim <=? c_elapsed (p_cnt (ps_of ph s4)))) eqn:El4.
        { apply wp_modp. split; [|now apply WS]. exists 1, r, PIter. split; [eapply seg_set; exact S4|]. split; [lia|]. split; [exact Hrn|].
          cbn [verdict]. rewrite ps_of_with. cbn [ps_status p_cnt]. lia. }
        rewrite P4, Ea3. apply wp_modp. split; [|now apply WS]. exists 1, r, PManual. split; [eapply seg_set; exact S4|]. split; [lia|]. split; [exact Hrn|].
        cbn [verdict]. rewrite ps_of_with. cbn [ps_status p_abort]. now rewrite P4.
    + assert (HA' : ph = Opt -> p_abort (s_opt s3) = false) by (intros ->; exact Ea3).
      eapply wp_cons; [apply (IH s3 Er W3)| |].
      * intros _ s' ((n' & r' & x' & S' & Hn' & Hr' & V') & W'). split; [|exact W']. exists (1 + n'), (r || r'), x'.
        split; [exact (K s' HA' _ _ _ S')|]. split; [lia|]. split; [lia|].
        unfold verdict in *. destruct x'; auto. destruct V' as (V1 & V2). split; [|lia].
        rewrite <- V1. symmetry. exact (sg_ali _ _ _ _ _ _ S3).
      * intros c s' ((n' & r' & x' & S' & Hn' & Hr' & V') & W'). split; [|exact W']. exists (1 + n'), (r || r'), x'.
        split; [exact (K s' HA' _ _ _ S')|]. split; [lia|]. split; [lia|]. intros Ec. specialize (V' Ec). lia.
  - apply wp_ret. split; [|exact W3]. exists n, r, x. split; [exact S3|]. split; [lia|]. split; [exact Hrn|].
    destruct Hv as [Hv|Hv]; [congruence|exact Hv].
Qed.

(** ** A call of the problem solver *)
Record sol (ph : phase) (lim : Z) (ali : bool) (n : Z) (x : pstatus) (s s' : st) : Prop := {
  so_phase : s_phase s' = s_phase s;
  so_status : s_status s' = s_status s;
  so_iters : s_iters s' = s_iters s;
  so_primal : s_primal s' = s_primal s;
  so_rprimal : s_rprimal s' = s_rprimal s;
  so_timer : s_timer s' = s_timer s;
  so_pstatus : p_status (ps_of ph s') = x;
  so_other : match ph with Opt => s_rest s' = s_rest s | Rest => exists ab, s_opt s' = ps_abort ab (s_opt s) end;
  so_elapsed : c_elapsed (p_cnt (ps_of ph s')) = n;
  so_iter : c_iter (p_cnt (ps_of ph s')) = c_iter (p_cnt (ps_of ph s)) + n;
  so_log : exists l l0, s_log s' = l ++ EStart ph :: l0 ++ s_log s /\ quiet (s_phase s) l0 /\ Forall (inner ph (s_phase s)) l /\
             (ph = Opt -> ord l) /\ n_ev is_count l = n /\ steps (p_cnt (ps_of ph s')) + n_ev is_drop l = n /\
             p_abort (s_opt s') = match ph with Opt => has_abort l | Rest => p_abort (s_opt s) || has_abort l0 || has_abort l end;
  so_verdict : match x with
    | PUnknown | PRunning => False
    | PIter => lim <> -1 /\ n = lim
    | PManual => match ph with Opt => p_abort (s_opt s') = true | Rest => 0 < n end
    | POptimal => exists sl fe sr, residua cf ph (p_it (ps_of ph s')) = Ok (sl, fe, sr) /\
                    is_optimal (cf_feas cf) (cf_slack cf) (cf_stat cf) fe sl sr = true
    | PUnbounded => nleb (it_obj (p_it (ps_of ph s'))) (cf_objlow cf) = true
    | PLocInf => ali = true /\ (n = 0 -> exists sl fe sr, residua cf ph (p_it (ps_of ph s)) = Ok (sl, fe, sr) /\ nleb fe (cf_feas cf) = false)
    | PTime => True
    | PDeadpoint => nleb (p_lprad (ps_of ph s')) (cf_dead cf) || nleb (p_rad (ps_of ph s')) (cf_dead cf) = true
    end }.

Definition counted (n : Z) (s s' : st) : Prop := s_iters s' = s_iters s /\ exists l, s_log s' = l ++ s_log s /\ n_ev is_count l = n.

Lemma quiet_count0 q l : quiet q l -> n_ev is_count l = 0.
Proof. intros H. apply (quiet_counts q l H). Qed.
Lemma fr_counted ph s s' : fr ph s s' -> counted 0 s s'.
Proof. intros []. split; [assumption|]. destruct fr_log as (l & L & Q & _). exists l. split; [exact L|]. eapply quiet_count0; eauto. Qed.

Lemma ps_solve_spec fuel ph lim ali s : lim = -1 \/ 0 <= lim ->
  wp (ps_solve Or cf fuel ph lim ali)
     (fun _ s' => exists n x, sol ph lim ali n x s s' /\ 0 <= n /\ (lim = -1 \/ n <= lim))
     (fun c s' => exists n, counted n s s' /\ 0 <= n /\ (lim = -1 \/ n <= lim) /\ (c = None -> Z.of_nat fuel <= n)) s.
Proof.
  intros Hlim. unfold ps_solve. apply wp_bind, wp_modp. set (s1 := with_ps ph (ps_status PRunning (ps_ali ali (ps_of ph s))) s).
  assert (P1 : ps_of ph s1 = ps_status PRunning (ps_ali ali (ps_of ph s))) by apply ps_of_with.
  assert (E1 : forall s', fr ph s1 s' -> counted 0 s s').
  { intros s' H. destruct (fr_counted _ _ _ H) as (A & B). split; [rewrite A; reflexivity|exact B]. }
  apply wp_bind, wp_getp, wp_bind, wp_lift; intros v _.
  2: { exists 0. split; [apply E1, (po_refl _ (fr_preo ph))|]. repeat split; try lia. discriminate. }
  apply wp_bind. eapply wp_cons; [apply (nf_wp _ _ _ _ (deriv_check_nf Or cf ph) (deriv_check_fs Or cf ph s1))| |]; cbv beta.
  2: { intros c s2 (Hc & H2). exists 0. split; [apply E1, fs_fr, H2|]. repeat split; try lia. congruence. }
  intros _ s2 H2. apply wp_bind, wp_modp, wp_bind, wp_emit.
  set (p3 := ps_step _ _ _). set (s3 := with_log (EStart ph) (with_ps ph p3 s2)).
  assert (P3 : ps_of ph s3 = p3) by (unfold s3; now rewrite ps_of_log, ps_of_with).
  destruct (fs_it ph _ _ H2) as (I2 & _).
  pose proof (fs_fr ph _ _ H2) as H2r. destruct (fr_ps _ _ _ H2r) as (xa & xb & tm & ab & E2).
  assert (I3 : p_it p3 = p_it (ps_of ph s)) by (unfold p3; cbn; rewrite I2, P1; reflexivity).
  assert (C3 : p_cnt p3 = mkcnt (c_iter (p_cnt (ps_of ph s))) 0 0 0 0 0) by (unfold p3; cbn; rewrite E2, P1; reflexivity).
  assert (A3 : p_ali p3 = ali) by (unfold p3; cbn; rewrite E2, P1; reflexivity).
  assert (B3 : p_abort p3 = false) by reflexivity.
  assert (R3 : p_status p3 = PRunning) by reflexivity.
  destruct (fs_log _ _ H2) as (l0 & L0 & Q0 & O0). cbn in L0, O0.
  assert (C0 : n_ev is_count l0 = 0) by (eapply quiet_count0; eauto).
  assert (F3 : s_phase s3 = s_phase s /\ s_status s3 = s_status s /\ s_iters s3 = s_iters s /\ s_primal s3 = s_primal s /\ s_rprimal s3 = s_rprimal s /\
    s_timer s3 = s_timer s /\ s_log s3 = EStart ph :: l0 ++ s_log s /\
    match ph with Opt => s_rest s3 = s_rest s | Rest => s_opt s3 = ps_abort (p_abort (s_opt s) || has_abort l0) (s_opt s) end).
  { destruct H2. cbn in *. repeat split; try assumption; [now rewrite L0|]. destruct ph; cbn in *; assumption. }
  clearbody p3 s3. destruct F3 as (Fph & Fst & Fit & Fpr & Frp & Fti & Flog & Foth).
  apply wp_bind. eapply wp_cons; [apply (ps_loop_spec ph lim fuel s3)| |].
  { now rewrite P3, R3. }
  { unfold within. rewrite P3, C3. cbn. lia. }
  2: { intros c s4 ((n & r & x & S4 & Hn & Hr & Hc) & W4). exists n. split; [|split; [lia|split; [|exact Hc]]].
       - split; [rewrite (sg_iters _ _ _ _ _ _ S4); exact Fit|]. destruct (sg_log _ _ _ _ _ _ S4) as (l & L & _ & _ & C & _).
         exists (l ++ EStart ph :: l0). rewrite L, Flog. split; [now rewrite <- app_assoc|].
         rewrite n_ev_app. change (EStart ph :: l0) with ([EStart ph] ++ l0). rewrite n_ev_app, C0. change (n_ev is_count [EStart ph]) with 0. lia.
       - destruct W4 as [W4|W4]; [auto|]. right. pose proof (sg_elapsed _ _ _ _ _ _ S4). rewrite P3, C3 in H. cbn in H. lia. }
  intros _ s4 ((n & r & x & S4 & Hn & Hr & V) & W4). apply wp_bind, wp_getp, wp_assert. intros Hrun.
  pose proof (sg_elapsed _ _ _ _ _ _ S4) as El. rewrite P3, C3 in El. cbn in El.
  exists n, x. split; [|split; [lia|]].
  2: { unfold within in W4. lia. }
  constructor.
  - rewrite (sg_phase _ _ _ _ _ _ S4). exact Fph.
  - rewrite (sg_status _ _ _ _ _ _ S4). exact Fst.
  - rewrite (sg_iters _ _ _ _ _ _ S4). exact Fit.
  - rewrite (sg_primal _ _ _ _ _ _ S4). exact Fpr.
  - rewrite (sg_rprimal _ _ _ _ _ _ S4). exact Frp.
  - rewrite (sg_timer _ _ _ _ _ _ S4). exact Fti.
  - exact (sg_pstatus _ _ _ _ _ _ S4).
  - pose proof (sg_other _ _ _ _ _ _ S4) as K. destruct ph; [congruence|]. destruct K as (ab' & K). rewrite K, Foth. eexists. reflexivity.
  - lia.
  - rewrite (sg_iter _ _ _ _ _ _ S4), P3, C3. reflexivity.
  - destruct (sg_log _ _ _ _ _ _ S4) as (l & L & F & O & C & D & A). exists l, l0. rewrite P3, C3 in D. cbn in D. rewrite Fph in F.
    repeat split; auto; [now rewrite L, Flog|]. rewrite A. destruct ph.
    + cbn in P3. rewrite P3, B3. reflexivity.
    + rewrite Foth. reflexivity.
  - unfold verdict in V. destruct x; auto.
    + destruct V as (V1 & V2). rewrite P3 in V1, V2. split; [congruence|]. rewrite <- I3. exact V2.
    + unfold within in W4. lia.
    + destruct ph; [exact V|]. cbn in V. destruct (sg_rabort _ _ _ _ _ _ S4 V) as [K|K]; [|auto]. cbn in P3. rewrite P3, B3 in K. discriminate.
Qed.

(** ** Switching the phase *)
Definition silent (s s' : st) : Prop :=
  s_iters s' = s_iters s /\ s_status s' = s_status s /\ s_timer s' = s_timer s /\
  exists l, s_log s' = l ++ s_log s /\ n_ev is_count l = 0 /\ n_ev is_iter l = 0.
Lemma silent_preo : preo silent.
Proof.
  constructor.
  - intros s. repeat split. exists []. repeat split.
  - intros a b c (A1 & A2 & A3 & l & L & C & I) (B1 & B2 & B3 & l' & L' & C' & I'). repeat split; try congruence.
    exists (l' ++ l). rewrite !n_ev_app, L', L, app_assoc. repeat split; lia.
Qed.
Lemma silent_fs s s' : fs s s' -> silent s s'.
Proof. intros []. repeat split; auto. destruct fs_log as (l & L & Q & _). exists l. destruct (quiet_counts _ _ Q) as (I & C & _). auto. Qed.
Lemma silent_fr ph s s' : fr ph s s' -> silent s s'.
Proof. intros []. repeat split; auto. destruct fr_log as (l & L & Q & _). exists l. destruct (quiet_counts _ _ Q) as (I & C & _). auto. Qed.
Lemma silent_same (s s' : st) : s_iters s' = s_iters s -> s_status s' = s_status s -> s_timer s' = s_timer s -> s_log s' = s_log s -> silent s s'.
Proof. intros. repeat split; auto. exists []. repeat split; auto. Qed.

Ltac sil := repeat first [ kstep silent_preo
  | apply kp_ask_func; intros ? ? ?; apply silent_fs, fs_ua; assumption
  | apply kp_modify; intros ?; apply silent_same; reflexivity
  | apply kp_modp; intros ?; apply silent_same; reflexivity
  | apply (kp_weaken fs); [exact silent_fs|first [apply rest_cons_fs | apply rest_jac_fs]]
  | apply kp_emit; intros ?; repeat split; eexists [_]; repeat split ].
Lemma to_restoration_silent : kp silent (to_restoration Or cf).
Proof. unfold to_restoration. sil. Qed.
Lemma to_optimization_silent : kp silent (to_optimization Or cf).
Proof. unfold to_optimization. sil. Qed.
Lemma toggle_silent : kp silent (toggle Or cf).
Proof. unfold toggle. repeat kstep silent_preo; [apply to_restoration_silent|apply to_optimization_silent]. Qed.

Definition flip (ph : phase) : phase := match ph with Opt => Rest | Rest => Opt end.
Lemma wp_any {A} (m : M A) (s : st) : wp m (fun _ _ => True) (fun _ _ => True) s.
Proof. unfold wp. destruct (m s) as [[a|c| |] s']; exact I. Qed.
Lemma toggle_flips s : wp (toggle Or cf) (fun _ s' => s_phase s' = flip (s_phase s)) (fun _ _ => True) s.
Proof.
  unfold toggle. apply wp_bind, wp_get. destruct (s_phase s) eqn:Ep; unfold to_restoration, to_optimization; cbn [flip].
  all: repeat first [ apply wp_bind, wp_modify, wp_emit; reflexivity
    | apply wp_bind; match goal with |- wp _ _ _ _ => eapply wp_cons; [apply wp_any|intros ? ? _|auto] end ].
Qed.

(** ** The loop over phases *)
Definition final_status (s' : st) (remaining : Z) (unlimited : bool) (n : Z) : Prop :=
  match s_status s' with
  | SOptimal => s_phase s' = Opt /\ exists sl fe sr, residua cf Opt (p_it (s_opt s')) = Ok (sl, fe, sr) /\
                  is_optimal (cf_feas cf) (cf_slack cf) (cf_stat cf) fe sl sr = true
  | SUnbounded => s_phase s' = Opt /\ nleb (it_obj (p_it (s_opt s'))) (cf_objlow cf) = true
  | SIter => unlimited = false /\ n = remaining
  | SManual => s_phase s' = Opt /\ p_abort (s_opt s') = true
  | SDeadpoint | STime => True
  | SUnknown | SRunning | SInfeasible => False
  end.

Definition run_post (s s' : st) (remaining : Z) (unlimited : bool) : Prop :=
  exists l n, s_log s' = l ++ s_log s /\ n_ev is_count l = n /\ 0 <= n /\ (unlimited = true \/ n <= remaining) /\
    s_iters s' = s_iters s + n /\ s_timer s' = s_timer s /\ final_status s' remaining unlimited n.
Definition run_err (s s' : st) (remaining : Z) (unlimited : bool) : Prop :=
  exists l n, s_log s' = l ++ s_log s /\ n_ev is_count l = n /\ (unlimited = true \/ n <= remaining).

Lemma run_loop_spec fi fuel : forall s remaining unlimited enable,
  (unlimited = true -> remaining = -1) -> (unlimited = false -> 0 <= remaining) ->
  wp (run_loop Or cf fuel fi remaining unlimited enable)
     (fun _ s' => run_post s s' remaining unlimited) (fun _ s' => run_err s s' remaining unlimited) s.
Proof.
  induction fuel as [|fuel IH]; intros s remaining unlimited enable HU HL; cbn [run_loop].
  { apply wp_nofuel. exists [], 0. repeat split. destruct unlimited; [auto|]. specialize (HL eq_refl). lia. }
  apply wp_bind, wp_assert. intros _.
  assert (R0 : unlimited = true \/ 0 <= remaining) by (destruct unlimited; auto).
  apply wp_bind, wp_tick. intros t w. destruct t.
  { apply wp_modify. exists [], 0. repeat split; try exact R0; cbn; lia. }
  destruct (remaining =? 0) eqn:Er0.
  { apply wp_modify. exists [], 0. repeat split; try exact R0; try (cbn; lia); destruct unlimited; try reflexivity; specialize (HU eq_refl); lia. }
  apply wp_bind, wp_get. set (s0 := with_w w s). cbv zeta. set (ph := s_phase s0).
  apply wp_bind, wp_modp. set (s1 := with_ps ph _ s0).
  assert (F1 : s_log s1 = s_log s /\ s_iters s1 = s_iters s /\ s_timer s1 = s_timer s /\ s_phase s1 = ph) by (repeat split).
  destruct F1 as (L1 & I1 & T1 & Ph1). clearbody s1.
  assert (Hlim : remaining = -1 \/ 0 <= remaining) by (destruct unlimited; auto).
  apply wp_bind. eapply wp_cons; [apply (ps_solve_spec fi ph remaining enable s1 Hlim)| |]; cbv beta.
  2: { intros c s2 (n & (_ & l & L & C) & Hn & Hl & _). exists l, n. rewrite <- L1. repeat split; auto.
       destruct unlimited; [auto|]. specialize (HL eq_refl). lia. }
  intros _ s2 (n & x & S & Hn & Hl).
  assert (Hl' : unlimited = true \/ n <= remaining) by (destruct unlimited; [auto|specialize (HL eq_refl); lia]).
  destruct (so_log _ _ _ _ _ _ _ S) as (la & lb & L & Q & F & _ & C & _ & A).
  set (l := la ++ EStart ph :: lb).
  assert (L2 : s_log s2 = l ++ s_log s) by (rewrite L, L1; unfold l; now rewrite <- app_assoc).
  assert (C2 : n_ev is_count l = n).
  { unfold l. rewrite n_ev_app. change (EStart ph :: lb) with ([EStart ph] ++ lb). rewrite n_ev_app, (quiet_count0 _ _ Q).
    change (n_ev is_count [EStart ph]) with 0. lia. }
  clearbody l. clear L F C Q.
  apply wp_bind, wp_getp. apply wp_bind, wp_assert. intros _. apply wp_bind, wp_assert. intros _.
  apply wp_bind, wp_modify. rewrite (so_elapsed _ _ _ _ _ _ _ S), (so_pstatus _ _ _ _ _ _ _ S).
  set (s3 := with_iters (s_iters s2 + n) s2).
  assert (I3 : s_iters s3 = s_iters s + n) by (cbn; rewrite (so_iters _ _ _ _ _ _ _ S), I1; reflexivity).
  assert (L3 : s_log s3 = l ++ s_log s) by exact L2.
  assert (T3 : s_timer s3 = s_timer s) by (cbn; rewrite (so_timer _ _ _ _ _ _ _ S); exact T1).
  assert (Ph3 : s_phase s3 = ph) by (cbn; rewrite (so_phase _ _ _ _ _ _ _ S); exact Ph1).
  pose proof (so_verdict _ _ _ _ _ _ _ S) as V.
  (* the remaining rounds *)
  assert (Rec : forall s4 en, (exists l', s_log s4 = l' ++ s_log s3 /\ n_ev is_count l' = 0) -> s_iters s4 = s_iters s3 -> s_timer s4 = s_timer s3 ->
    wp (run_loop Or cf fuel fi (if unlimited then remaining else remaining - n) unlimited en)
      (fun _ s' => run_post s s' remaining unlimited) (fun _ s' => run_err s s' remaining unlimited) s4).
  { intros s4 en (l' & L4 & C4) I4 T4. eapply wp_cons; [apply IH| |].
    - destruct unlimited; [auto|discriminate].
    - intros ->. destruct Hl'; [discriminate|lia].
    - intros _ s' (l'' & n'' & L' & C' & Hn' & Hl'' & I' & T' & FS). exists (l'' ++ l' ++ l), (n + n'').
      rewrite L', L4, L3, !n_ev_app, C4, C', C2, I', I4, I3, <- !app_assoc. repeat split; try lia.
      + destruct unlimited; [auto|]. destruct Hl' as [K|K]; [discriminate|]. destruct Hl'' as [K'|K']; [discriminate|]. right. lia.
      + now rewrite T', T4, T3.
      + unfold final_status in *. destruct (s_status s'); auto. destruct FS as (-> & FS). split; [reflexivity|lia].
    - intros c s' (l'' & n'' & L' & C' & Hl''). exists (l'' ++ l' ++ l), (n + n'').
      rewrite L', L4, L3, !n_ev_app, C4, C', C2, <- !app_assoc. repeat split; try lia.
      destruct unlimited; [auto|]. destruct Hl' as [K|K]; [discriminate|]. destruct Hl'' as [K'|K']; [discriminate|]. right. lia. }
  assert (Done1 : forall y, final_status (with_status y s3) remaining unlimited n ->
    wp (modify (with_status y)) (fun _ s' => run_post s s' remaining unlimited) (fun _ s' => run_err s s' remaining unlimited) s3).
  { intros y Hy. apply wp_modify. exists l, n. repeat split; auto. }
  assert (Err1 : forall s4, silent s3 s4 -> run_err s s4 remaining unlimited).
  { intros s4 (_ & _ & _ & l' & L4 & C4 & _). exists (l' ++ l), n. rewrite L4, L3, n_ev_app, C4, C2, <- app_assoc. repeat split; auto. }
  assert (HI : wp (modify (with_status SIter)) (fun _ s' => run_post s s' remaining unlimited) (fun _ s' => run_err s s' remaining unlimited) s3 \/ x <> PIter).
  { destruct x; try (right; discriminate). left. apply Done1. cbn. destruct V as (V1 & V2). destruct unlimited; [specialize (HU eq_refl)|]; [congruence|auto]. }
  destruct x; try contradiction; try (apply Done1; exact I); try (destruct HI as [HI|HI]; [exact HI|congruence]); clear HI.
  - (* optimal *)
    destruct ph eqn:Eph.
    + apply Done1. cbn. split; [exact Ph3|exact V].
    + apply wp_bind. eapply wp_cons; [apply toggle_silent| |]; intros ? s4 S4; [|now apply Err1].
      apply wp_bind. eapply wp_cons; [apply check_feasibility_fr| |]; intros fe s5 S5.
      * pose proof (po_trans _ silent_preo _ _ _ S4 (silent_fr _ _ _ S5)) as (J1 & J2 & J3 & l' & J4 & J5 & _).
        apply Rec; auto. exists l'. auto.
      * apply Err1. exact (po_trans _ silent_preo _ _ _ S4 (silent_fr _ _ _ S5)).
  - (* unbounded *)
    destruct ph eqn:Eph.
    + apply Done1. cbn. split; [exact Ph3|exact V].
    + apply wp_bind. eapply wp_cons; [apply toggle_silent| |]; intros ? s4 S4; [|now apply Err1].
      apply wp_bind, wp_bind, wp_assert. discriminate.
  - (* locally infeasible *)
    destruct ph eqn:Eph.
    + apply wp_bind. eapply (wp_cons _ (fun _ s4 => silent s3 s4) _ (fun _ s4 => silent s3 s4)).
      * destruct enable; [apply toggle_silent|]. apply wp_ret, (po_refl _ silent_preo).
      * intros _ s4 (J1 & J2 & J3 & l' & J4 & J5 & _). apply Rec; auto. exists l'. auto.
      * intros c s4 S4. now apply Err1.
    + apply wp_bind. eapply wp_cons; [apply toggle_silent| |]; intros ? s4 S4; [|now apply Err1].
      apply wp_bind, wp_bind, wp_assert. discriminate.
  - (* aborted *)
    destruct ph eqn:Eph.
    + apply Done1. cbn. split; [exact Ph3|exact V].
    + apply wp_bind. eapply wp_cons; [apply toggle_silent| |]; intros ? s4 S4; [|now apply Err1].
      apply wp_bind, wp_ret. destruct S4 as (J1 & J2 & J3 & l' & J4 & J5 & _). apply Rec; auto. exists l'. auto.
Qed.

(** ** Termination *)
Definition feasible (s : st) : Prop :=
  exists v, max_violation (cf_nc cf) (it_cons (p_it (s_opt s))) (cf_clb cf) (cf_cub cf) = Ok v /\ nleb v (cf_feas cf) = true.
Lemma check_feasibility_sound s : wp (check_feasibility Or cf) (fun b s' => b = true -> feasible s') (fun _ _ => True) s.
Proof.
  unfold check_feasibility. apply wp_bind. eapply wp_cons; [apply wp_any|intros rej s1 _|auto]. destruct rej; [apply wp_ret; discriminate|].
  apply wp_bind, wp_getp, wp_bind, wp_lift; [|auto]. intros v Hv. apply wp_ret. intros Hf. exists v. split; [exact Hv|exact Hf].
Qed.

(** Rounds needed, for each phase. *)
Definition need (s : st) (remaining : Z) (enable : bool) (fuel : nat) : Prop :=
  match s_phase s with
  | Rest => 2 * remaining + 1 <= Z.of_nat fuel
  | Opt => 1 <= Z.of_nat fuel /\ (enable = true -> 2 * remaining + 2 <= Z.of_nat fuel \/ (feasible s /\ 2 * remaining <= Z.of_nat fuel))
  end.

Lemma residua_viol ph i sl fe sr : residua cf ph i = Ok (sl, fe, sr) -> max_violation (ncons cf ph) (it_cons i) (clbs cf ph) (cubs cf ph) = Ok fe.
Proof.
  unfold residua. intros H. apply rbind_ok in H. destruct H as (a & _ & H). apply rbind_ok in H. destruct H as (b & Hb & H).
  apply rbind_ok in H. destruct H as (c & _ & H). assert (b = fe) by congruence. now subst b.
Qed.

Lemma run_loop_terminates fi fuel : forall s remaining enable, 0 <= remaining < Z.of_nat fi -> need s remaining enable fuel ->
  wp (run_loop Or cf fuel fi remaining false enable) (fun _ _ => True) (fun c _ => c <> None) s.
Proof.
  induction fuel as [|fuel IH]; intros s remaining enable HR Hneed; cbn [run_loop].
  { exfalso. unfold need in Hneed. destruct (s_phase s); lia. }
  apply wp_bind, wp_assert. intros _. apply wp_bind, wp_tick. intros t w. destruct t; [now apply wp_modify|].
  destruct (remaining =? 0) eqn:Er0; [now apply wp_modify|].
  apply wp_bind, wp_get. set (s0 := with_w w s). cbv zeta. set (ph := s_phase s0).
  apply wp_bind, wp_modp. set (s1 := with_ps ph _ s0).
  assert (Ph1 : s_phase s1 = s_phase s) by reflexivity.
  assert (It1 : p_it (ps_of ph s1) = p_it (ps_of ph s)) by (unfold s1; rewrite ps_of_with; unfold s0; now rewrite ps_of_w).
  assert (Eph : ph = s_phase s) by reflexivity. clearbody s1 ph. subst ph. set (ph := s_phase s) in *.
  apply wp_bind. eapply wp_cons; [apply (ps_solve_spec fi ph remaining enable s1); lia| |]; cbv beta.
  2: { intros c s2 (n & _ & Hn & Hl & Hc) ->. specialize (Hc eq_refl). lia. }
  intros _ s2 (n & x & S & Hn & Hl). assert (Hl' : n <= remaining) by lia. clear Hl.
  apply wp_bind, wp_getp. apply wp_bind, wp_assert. intros _. apply wp_bind, wp_assert. intros _.
  apply wp_bind, wp_modify. rewrite (so_elapsed _ _ _ _ _ _ _ S), (so_pstatus _ _ _ _ _ _ _ S).
  set (s3 := with_iters (s_iters s2 + n) s2).
  assert (Ph3 : s_phase s3 = ph) by (cbn; rewrite (so_phase _ _ _ _ _ _ _ S); exact Ph1).
  pose proof (so_verdict _ _ _ _ _ _ _ S) as V.
  assert (Tog : forall (Q : unit -> st -> Prop), (forall s4, s_phase s4 = flip ph -> Q tt s4) -> wp (toggle Or cf) Q (fun c _ => c <> None) s3).
  { intros Q HQ. eapply wp_cons; [apply (nf_wp _ _ _ _ (toggle_nf Or cf) (toggle_flips s3))| |]; cbv beta.
    - intros [] s4 H4. apply HQ. congruence.
    - tauto. }
  destruct x; try contradiction; try (now apply wp_modify).
  - (* optimal *)
    unfold need in Hneed. fold ph in Hneed. destruct ph eqn:Ephh; [now apply wp_modify|].
    apply wp_bind, Tog. intros s4 H4. apply wp_bind.
    eapply wp_cons; [apply (nf_wp _ _ _ _ (check_feasibility_nf Or cf)
      (wp_and _ _ _ _ _ _ (check_feasibility_sound s4) (check_feasibility_fr Or cf s4)))| |]; cbv beta.
    + intros b s5 (Hb & H5). apply IH; [lia|]. unfold need. rewrite (fr_phase _ _ _ H5), H4. cbn [flip]. split; [lia|].
      destruct b; [|discriminate]. intros _. right. split; [auto|lia].
    + tauto.
  - (* unbounded *)
    destruct ph eqn:Ephh; [now apply wp_modify|]. apply wp_bind, Tog. intros s4 H4. apply wp_bind, wp_bind, wp_assert. discriminate.
  - (* locally infeasible *)
    unfold need in Hneed. fold ph in Hneed. destruct V as (-> & V). destruct ph eqn:Ephh.
    + apply wp_bind, Tog. intros s4 H4. apply IH; [lia|]. unfold need. rewrite H4. cbn [flip]. destruct Hneed as (_ & Hneed).
      destruct (Hneed eq_refl) as [K|((v & Hv & Hf) & K)]; [lia|].
      destruct (Z.eq_dec n 0) as [->|]; [|lia]. exfalso. destruct (V eq_refl) as (sl & fe & sr & Hres & Hfe).
      apply residua_viol in Hres. rewrite It1 in Hres. cbn in Hres. rewrite Hv in Hres. assert (v = fe) by congruence. congruence.
    + apply wp_bind, Tog. intros s4 H4. apply wp_bind, wp_bind, wp_assert. discriminate.
  - (* aborted *)
    unfold need in Hneed. fold ph in Hneed. destruct ph eqn:Ephh; [now apply wp_modify|].
    apply wp_bind, Tog. intros s4 H4. apply wp_bind, wp_ret. apply IH; [lia|]. unfold need. rewrite H4. cbn [flip]. cbn in V. split; [lia|].
    intros _. left. lia.
Qed.

(** ** The whole call *)
Lemma solver_solve_spec fuel fi lim s : lim = -1 \/ 0 <= lim -> s_status s <> SInfeasible ->
  wp (solver_solve Or cf fuel fi lim)
     (fun _ s' => exists l n, s_log s' = l ++ s_log s /\ n_ev is_count l = n /\ 0 <= n /\ (lim = -1 \/ n <= lim) /\
        s_iters s' = n /\ s_phase s' = Opt /\ s_timer s' = false /\
        match s_status s' with
        | SOptimal => exists sl fe sr, residua cf Opt (p_it (s_opt s')) = Ok (sl, fe, sr) /\
                        is_optimal (cf_feas cf) (cf_slack cf) (cf_stat cf) fe sl sr = true
        | SUnbounded => nleb (it_obj (p_it (s_opt s'))) (cf_objlow cf) = true
        | SIter => lim <> -1 /\ n = lim
        | SManual => p_abort (s_opt s') = true
        | SDeadpoint | STime => True
        | SUnknown | SRunning | SInfeasible => False
        end)
     (fun _ s' => exists l n, s_log s' = l ++ s_log s /\ n_ev is_count l = n /\ (lim = -1 \/ n <= lim)) s.
Proof.
  intros Hlim Hinf. unfold solver_solve. apply wp_bind, wp_get.
  assert (B : forall A (a b : A), match s_status s with SInfeasible => a | _ => b end = b) by (intros; destruct (s_status s); congruence).
  rewrite B. clear B.
  apply wp_bind, wp_assert. intros Ht. apply wp_bind, wp_modify. set (s0 := with_timer true s).
  assert (L0 : s_log s0 = s_log s) by reflexivity.
  assert (Er : forall sx s', silent sx s' -> (exists l n, s_log sx = l ++ s_log s /\ n_ev is_count l = n /\ (lim = -1 \/ n <= lim)) ->
    exists l n, s_log s' = l ++ s_log s /\ n_ev is_count l = n /\ (lim = -1 \/ n <= lim)).
  { intros sx s' (_ & _ & _ & l & L & C & _) (l' & n & L' & C' & Hn).
    exists (l ++ l'), n. rewrite L, L', <- app_assoc, n_ev_app, C, C'. repeat split; auto. }
  apply wp_bind. unfold run_solving_loop.
  apply wp_bind, wp_modify. set (s1 := with_iters 0 s0).
  assert (E1 : exists l n, s_log s1 = l ++ s_log s /\ n_ev is_count l = n /\ (lim = -1 \/ n <= lim)) by (exists [], 0; repeat split; lia).
  apply wp_bind. eapply wp_cons; [apply set_initial_iterate_fr| |]; cbv beta; intros c s2 H2; pose proof (silent_fr _ _ _ H2) as S2; [|now apply (Er s1)].
  apply wp_bind. eapply wp_cons; [apply run_loop_spec| |]; cbv beta; try (intros; lia).
  2: { intros c' s3 (l & n & L & C & Hn). destruct S2 as (_ & _ & _ & l2 & L2 & C2 & _). exists (l ++ l2), n.
       rewrite L, L2, <- app_assoc, n_ev_app, C, C2. repeat split; auto; lia. }
  intros _ s3 (l & n & L & C & Hn & Hl & I3 & T3 & FS).
  assert (E3 : exists l', s_log s3 = l' ++ s_log s /\ n_ev is_count l' = n).
  { destruct S2 as (_ & _ & _ & l2 & L2 & C2 & _). exists (l ++ l2). rewrite L, L2, <- app_assoc, n_ev_app, C, C2. split; [reflexivity|lia]. }
  destruct S2 as (I2 & _ & T2 & _). rewrite I2 in I3. cbn in I3. rewrite T2 in T3. cbn in T3.
  assert (Hl' : lim = -1 \/ n <= lim) by lia.
  assert (E3' : exists l n, s_log s3 = l ++ s_log s /\ n_ev is_count l = n /\ (lim = -1 \/ n <= lim)).
  { destruct E3 as (l' & A & B). exists l', n. auto. }
  apply wp_bind, wp_get, wp_bind, wp_assert. intros _.
  (* back in the optimisation phase *)
  eapply (wp_cons _ (fun _ s4 => silent s3 s4 /\ s_phase s4 = Opt /\ (s_phase s3 = Opt -> s4 = s3)) _ (fun _ s4 => silent s3 s4)).
  { destruct (s_phase s3) eqn:Ep.
    - apply wp_ret. split; [apply (po_refl _ silent_preo)|auto].
    - eapply wp_cons; [apply (wp_and _ _ _ _ _ _ (toggle_silent s3) (toggle_flips s3))| |]; cbv beta; [|tauto].
      intros _ s4 (A & B). rewrite Ep in B. split; [exact A|]. split; [exact B|discriminate]. }
  2: { intros c' s4 S4. now apply (Er s3). }
  intros _ s4 (S4 & Ph4 & Same).
  apply wp_bind. eapply wp_cons; [apply restore_original_fs| |]; cbv beta; intros c' s5 S5; pose proof (po_trans _ silent_preo _ _ _ S4 (silent_fs _ _ S5)) as S5'; [|now apply (Er s3)].
  apply wp_bind, wp_getp, wp_bind, wp_lift; intros v _; [|now apply (Er s3)].
  apply wp_bind, wp_ask; intros ? s6 S6; apply fs_ua in S6; pose proof (po_trans _ silent_preo _ _ _ S5' (silent_fs _ _ S6)) as S6'; [|now apply (Er s3)].
  apply wp_modify.
  pose proof (po_trans _ fs_preo _ _ _ S5 S6) as H46.
  destruct (fs_it Opt _ _ H46) as (It46 & _). cbn in It46.
  destruct S6' as (J1 & J2 & _ & l6 & J4 & J5 & _). destruct E3 as (l3 & A3 & C3).
  exists (l6 ++ l3), n. cbn [with_timer s_log s_iters s_phase s_timer s_status s_opt]. rewrite J4, A3, <- app_assoc, n_ev_app, J5, C3, J1, I3, J2.
  repeat split; try lia.
  - rewrite (fs_phase _ _ H46). exact Ph4.
  - unfold final_status in FS. destruct (s_status s3); auto.
    + destruct FS as (F1 & F2). rewrite It46, (Same F1). exact F2.
    + destruct FS as (F1 & F2). rewrite It46, (Same F1). exact F2.
    + destruct FS as (F1 & F2). split; lia.
    + destruct FS as (F1 & F2). destruct (fs_log _ _ H46) as (l46 & _ & _ & O46). rewrite O46. cbn. rewrite (Same F1), F2. reflexivity.
Qed.

Lemma nf_wp_any {A} (m : M A) (Q : A -> st -> Prop) s : nf m -> (forall a s', Q a s') -> wp m Q (fun c _ => c <> None) s.
Proof. intros Hm HQ. eapply wp_cons; [apply (nf_wp _ _ _ _ Hm (wp_any m s))| |]; cbv beta; [auto|tauto]. Qed.
Lemma run_solving_loop_terminates fuel fi lim s : 0 <= lim < Z.of_nat fi -> 2 * lim + 2 <= Z.of_nat fuel -> s_phase s = Opt ->
  wp (run_solving_loop Or cf fuel fi lim) (fun _ _ => True) (fun c _ => c <> None) s.
Proof.
  intros H1 H2 Hph. unfold run_solving_loop. apply wp_bind, wp_modify, wp_bind.
  eapply wp_cons; [apply (nf_wp _ _ _ _ (set_initial_iterate_nf Or cf) (set_initial_iterate_fr Or cf _))| |]; cbv beta; [|tauto].
  intros _ s2 F2. apply wp_bind. replace (lim =? -1) with false by lia.
  eapply wp_cons; [apply run_loop_terminates| |]; [lia| | |auto].
  { unfold need. rewrite (fr_phase _ _ _ F2). change (s_phase (with_iters 0 s)) with (s_phase s). rewrite Hph. split; [lia|]. intros _. left. lia. }
  intros _ s3 _. apply wp_bind, wp_get, wp_bind, wp_assert. intros _. destruct (s_phase s3); [now apply wp_ret|].
  apply nf_wp_any; [apply toggle_nf|auto].
Qed.

(** With a limit and enough fuel, the call ends. *)
Lemma solver_solve_terminates fuel fi lim s : 0 <= lim < Z.of_nat fi -> 2 * lim + 2 <= Z.of_nat fuel -> s_phase s = Opt ->
  fst (solver_solve Or cf fuel fi lim s) <> NoFuel _.
Proof.
  intros H1 H2 Hph.
  assert (K : wp (solver_solve Or cf fuel fi lim) (fun _ _ => True) (fun c _ => c <> None) s).
  2: { unfold wp in K. destruct (solver_solve Or cf fuel fi lim s) as [[a|c| |] s']; try discriminate. congruence. }
  unfold solver_solve. apply wp_bind, wp_get.
  assert (B : forall k : M unit, wp k (fun _ _ => True) (fun c _ => c <> None) s ->
    wp (match s_status s with SInfeasible => ret tt | _ => k end) (fun _ _ => True) (fun c _ => c <> None) s)
    by (intros k Hk; destruct (s_status s); try exact Hk; now apply wp_ret).
  apply B. apply wp_bind, wp_assert. intros _. apply wp_bind, wp_modify, wp_bind.
  eapply wp_cons; [apply run_solving_loop_terminates; auto| |]; [|auto].
  intros _ s3 _. apply nf_wp_any; [|auto]. unfold getp. 
  repeat (nstep || apply restore_original_nf || apply ask_nf).
Qed.
End Loop.
