(** Lemmas for the direct system: state over the calls and the solves in exact arithmetic. *)
From Coq Require Import Reals Lra.
From Verif Require Import Base Num Cmp Sparse Vec VecFacts Order VecFacts2 RSum VecReal QnReal Mat MatFacts MatFacts2 MatFacts3 MatFacts4 Arr
  WorkingSet WorkingSetFacts DualEst DualEstFacts SteihaugFacts Gauss AugJac AugJacFacts AugJacMain AugJacReal AugJacRed AugJacRedReal AugJacDir AugJacQR.
Local Open Scope Z_scope.

(** [m] is the transpose of the matrix with the rows of the working set. *)
Definition row_transpose {N : Num} (w : wset) (cs : list (list (Z * num))) (m : mat) : Prop :=
  mnr m = wnv w /\ mnc m = ws_size w /\ exists ms, stores m ms /\ forall k j, 0 <= k < ws_size w -> 0 <= j < wnv w -> mget ms j k = row_entry w cs k j.

Section State.
Context {N : Num}.

(** Room for the calls: [n] variables *)
Definition dj_ok (n : Z) (j : djac) : Prop :=
  wf (dj_prod j) /\ (vent (dj_prod j) = [] \/ vdim (dj_prod j) <= n) /\ mwf (dj_wj j) /\ (mnc (dj_wj j) = 0 \/ mnc (dj_wj j) = n) /\ mwf (dj_mat j).

(** The columns handed over: those left of all active variables keep the numbers of their rows *)
Definition left_of_vars (w : wset) (j : Z) : Prop := forall i, 0 <= i <= j -> ws_var_state w i = Ok Inactive.
Definition handed (w : wset) (cs : list (list (Z * num))) (m : mat) : Prop :=
  mnr m = wnv w /\ mnc m = ws_size w /\ exists ms, stores m ms /\ forall k j, 0 <= k < ws_size w -> 0 <= j < wnv w ->
    (left_of_vars w j -> mget ms j k = if k + wnav w <? ws_size w then row_entry w cs (k + wnav w) j else None)
    /\ (~ left_of_vars w j -> mget ms j k = row_entry w cs k j).

Lemma dj_create_ok n : 0 <= n -> exists j, dj_create = Ok j /\ dj_ok n j.
Proof.
  intros Hn. destruct (mat_create_spec 0 0 0) as (m & E & L & R & C & K); try lia. unfold dj_create. cbn [vec_create_empty]. unfold vec_create_empty, vec_create. cbn [check rbind].
  rewrite E. cbn [rbind]. eexists. split; [reflexivity|]. unfold dj_ok. cbn [dj_prod dj_wj dj_mat vent vdim].
  assert (S : mwf m) by (exists []; split; [exact L|rewrite C; reflexivity]).
  split; [unfold wf; cbn; lia|]. auto.
Qed.

Lemma left_acts w j : consistent w -> 0 <= j < wnv w -> (left_of_vars w j <-> acts (vact w) (j + 1) = 0).
Proof.
  intros C Hj. 
  assert (HV : forall i, 0 <= i < wnv w -> (ws_var_state w i = Ok Inactive <-> vact w i = false)).
  { intros i Hi. destruct (vix_ok w C i Hi) as (_ & E & Hiff). rewrite E. unfold vact. destruct (Z.eqb_spec (vix w i) none) as [E0|E0]; cbn [negb].
    - apply Hiff in E0. rewrite E0. tauto.
    - split; [|discriminate]. intros Hs. injection Hs as Hs. exfalso. apply E0, Hiff, Hs. }
  unfold acts. split.
  - intros H. assert (Hf : filter (vact w) (zrange (j + 1)) = []); [|now rewrite Hf].
    destruct (filter (vact w) (zrange (j + 1))) as [|z l] eqn:E; [reflexivity|]. exfalso. assert (Hz : In z (z :: l)) by now left. rewrite <- E in Hz.
    apply filter_In in Hz as [Hz Ha]. apply zrange_In in Hz. specialize (H z ltac:(lia)). apply HV in H; [congruence|lia].
  - intros H i Hi. apply HV; [lia|]. destruct (vact w i) eqn:A; [|reflexivity]. exfalso. assert (Hin : In i (filter (vact w) (zrange (j + 1)))) by (apply filter_In; split; [apply zrange_In; lia|exact A]).
    destruct (filter (vact w) (zrange (j + 1))); [destruct Hin|cbn in H; lia].
Qed.

Definition dj_current (F : qr) (w : wset) (cs : list (list (Z * num))) (j : djac) : Prop :=
  dj_ok (wnv w) j /\ dj_held j = Some (dj_mat j) /\ row_transpose w cs (dj_mat j) /\ q_set F (dj_mat j) = Ok tt /\ ws_size w <= wnv w.

Lemma dj_set_ok n nc F j w jac cs : dj_ok n j -> call_data n nc w jac cs ->
  (nc < ws_size w -> dj_set_iterate F j w jac = Trap) /\
  (ws_size w <= nc -> n < ws_size w -> dj_set_iterate F j w jac = Trap) /\
  (ws_size w <= nc -> ws_size w <= n -> exists m, handed w cs m
    /\ (q_set F m = Ok tt -> exists j', dj_set_iterate F j w jac = Ok (j', Ok tt) /\ dj_ok n j' /\ dj_mat j' = m /\ dj_held j' = Some m)
    /\ (forall c, q_set F m = Err c -> exists j', dj_set_iterate F j w jac = Ok (j', Err c) /\ dj_ok n j' /\ dj_held j' = None)).
Proof.
  intros (P1 & P2 & P3 & P4 & P5) [C O Hv Hn S1 S2 S3]. subst n nc. pose proof (nv0 w C) as (N1 & N2 & N3 & N4).
  destruct (direct_matrix_ok w jac cs C O S1 S2 S3 (dj_wj j) (dj_mat j) P3 P4 P5) as [G1 G2].
  destruct (vec_resize_spec (vec_clear (dj_prod j)) (mnr jac)) as (p & Ep & Wp & Dp & Gp); [now apply wf_clear|lia|].
  assert (Vp : vent p = []). { unfold vec_resize in Ep. destruct (0 <=? mnr jac); [|discriminate]. cbn [check rbind vec_clear vdim vent] in Ep. injection Ep as <-. cbn [vent]. destruct (_ <? _); reflexivity. }
  unfold dj_set_iterate. rewrite Ep. cbn [rbind]. split; [|split].
  - intros H. rewrite (G2 H). reflexivity.
  - intros H1 H2. destruct (G1 H1) as (wj' & t' & E & _ & _ & _ & Rt & Ct). rewrite E. cbn [rbind]. rewrite Ct, Rt. destruct (Z.leb_spec (ws_size w) (wnv w)); [lia|reflexivity].
  - intros H1 H2. destruct (G1 H1) as (wj' & t' & E & Mw & Cw & St & Rt & Ct). exists t'. split.
    + unfold handed. rewrite Rt, Ct. split; [reflexivity|]. split; [reflexivity|]. eexists. split; [exact St|]. intros k l Hk Hl.
      assert (Hm : mget (trans_cols (map (D w cs) (zrange (wnv w))) (ws_size w) (wnv w)) l k = get (D w cs l) k).
      { rewrite trans_entry; auto.
        - unfold mget. rewrite nth_map_zrange by lia. reflexivity.
        - apply Forall_forall. intros c Hc. apply in_map_iff in Hc as (i & <- & Hi). apply zrange_In in Hi. now apply (D_sorted w jac cs C O S1 S2 S3). }
      rewrite Hm, (D_get w jac cs C O S1 S2 S3 l k Hl Hk). rewrite (left_acts w l C Hl). destruct (Z.eqb_spec (acts (vact w) (l + 1)) 0); split; intros; tauto.
    + rewrite E. cbn [rbind]. rewrite Ct, Rt. destruct (Z.leb_spec (ws_size w) (wnv w)); [|lia]. cbn [check rbind].
      assert (Hok : forall h, dj_ok (wnv w) (mkdj p wj' t' h)).
      { intros h. unfold dj_ok. cbn [dj_prod dj_wj dj_mat]. split; [exact Wp|]. split; [left; exact Vp|]. split; [exact Mw|]. split; [right; exact Cw|]. eexists; exact St. }
      split.
      * intros Hs. rewrite Hs. eexists. split; [reflexivity|]. cbn [dj_mat dj_held]. auto.
      * intros c Hs. rewrite Hs. eexists. split; [reflexivity|]. cbn [dj_mat dj_held]. auto.
Qed.

(** The matrix is right if no row of an active constraint has an entry left of all active variables. *)
Lemma handed_transposed w cs m : consistent w -> handed w cs m ->
  (wnav w = 0 \/ forall i j, 0 <= i < wnc w -> 0 <= j < wnv w -> ws_cons_state w i <> Ok Inactive -> mget cs i j <> None -> ~ left_of_vars w j) ->
  row_transpose w cs m.
Proof.
  intros C (R & Cm & ms & S & G) H. split; [exact R|]. split; [exact Cm|]. exists ms. split; [exact S|]. intros k j Hk Hj. destruct (G k j Hk Hj) as [G1 G2].
  pose proof (nv0 w C) as (N1 & N2 & N3 & N4).
  assert (Hdec : left_of_vars w j \/ ~ left_of_vars w j).
  { rewrite (left_acts w j C Hj). destruct (Z.eq_dec (acts (vact w) (j + 1)) 0); tauto. }
  destruct Hdec as [Hl|Hl]; [|now apply G2]. rewrite (G1 Hl). destruct H as [H|H].
  { rewrite H, Z.add_0_r. destruct (Z.ltb_spec k (ws_size w)); [reflexivity|lia]. }
  assert (HN : forall q, 0 <= q < ws_size w -> row_entry w cs q j = None).
  { intros q Hq. unfold row_entry. rewrite (cont_ok w C q Hq). destruct (Z.ltb_spec (cont w q) (wnv w)) as [Hlt|Hge].
    - destruct (Z.eqb_spec (cont w q) j) as [Ej|Ej]; [|reflexivity]. exfalso. pose proof (vix_cont_id w C q Hq Hlt) as Hv. rewrite Ej in Hv.
      destruct (vix_ok w C j Hj) as (_ & Es & Hiff). specialize (Hl j ltac:(lia)). rewrite Hl in Es. injection Es as Es. symmetry in Es. apply Hiff in Es. unfold none in Es. lia.
    - destruct (mget cs (cont w q - wnv w) j) eqn:Em; [|reflexivity]. exfalso.
      destruct (cont_cases w C q Hq) as [(R1 & R2)|(R1 & R2)]; [lia|].
      apply (H (cont w q - wnv w) j); auto; try lia; [|now rewrite Em].
      pose proof (cix_cont_id w C q Hq Hge) as Hci. destruct (cix_ok w C (cont w q - wnv w) ltac:(lia)) as (_ & Es & Hiff). rewrite Es. intros Heq. injection Heq as Heq. apply Hiff in Heq. unfold none in Heq. lia. }
  destruct (Z.ltb_spec (k + wnav w) (ws_size w)); rewrite ?HN by lia; reflexivity.
Qed.
End State.
