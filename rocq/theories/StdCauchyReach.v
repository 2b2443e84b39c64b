(** The states that a sequence of calls of standard_cauchy.c can reach, and what they hold. *)
From Coq Require Import Reals Lra.
From Verif Require Import Base Num Cmp Sparse Vec VecFacts VecFacts2 VecReal RSum Mat MatFacts MatFacts2 MatFacts3 MatFacts4 Arr Gauss PreprocReal QnReal AugJacReal WorkingSet WorkingSetFacts Cauchy CauchyFacts StdCauchy StdCauchyFacts StdCauchyReal StdCauchyLP.
Local Open Scope R_scope.

(** A matrix stores one list of columns only. *)
Lemma concat_inj {A} (cs cs' : list (list A)) : forall r r', length cs = length cs' ->
  (forall j, (j <= length cs)%nat -> length (concat (firstn j cs)) = length (concat (firstn j cs'))) ->
  concat cs ++ r = concat cs' ++ r' -> cs = cs'.
Proof.
  revert cs'. induction cs as [|c cs IH]; intros [|c' cs'] r r' Hl Hp He; cbn [length] in Hl; try discriminate; [reflexivity|].
  cbn [concat] in He. rewrite <- !app_assoc in He.
  assert (Hc : length c = length c'). { specialize (Hp 1%nat ltac:(cbn; lia)). cbn [firstn concat] in Hp. now rewrite !app_nil_r in Hp. }
  assert (E : c = c').
  { apply (f_equal (firstn (length c))) in He. rewrite !firstn_app, Nat.sub_diag, Hc, Nat.sub_diag in He. cbn [firstn] in He. rewrite !app_nil_r in He.
    rewrite <- Hc in He at 1. now rewrite !firstn_all in He. }
  subst c'. apply app_inv_head in He. f_equal. apply (IH cs' r r'); [lia| |exact He].
  intros j Hj. specialize (Hp (S j) ltac:(cbn; lia)). cbn [firstn concat] in Hp. rewrite !app_length in Hp. lia.
Qed.
Lemma stores_inj (mt : @mat RN) cs cs' : stores mt cs -> stores mt cs' -> cs = cs'.
Proof.
  intros [(_ & _ & A1 & _ & (r & A2) & _) L1] [(_ & _ & B1 & _ & (r' & B2) & _) L2].
  apply (concat_inj cs cs' r r'); [lia| |congruence].
  intros j Hj. specialize (A1 j Hj). specialize (B1 j ltac:(lia)). rewrite A1 in B1. injection B1 as B1. apply Nat2Z.inj. exact B1.
Qed.

Section Reach.
Variable P : @sprob RN.
Hypothesis HP : prob_ok P.
Variable solver : @lpi RN -> res (@lpsol RN).
Variable T : R.
Hypothesis HT : hi <= T <= 2 * hi.
Variable cs0 : list (list (Z * R)).
Notation n := (sp_nv P).
Notation m := (sp_nc P).

Inductive phase :=
  | PFresh
  | PSet (it : @siter RN) (cs : list (list (Z * R))) (r : R)
  | PSolved (it : @siter RN) (cs : list (list (Z * R))) (r : R) (g : option (@vec RN)) (p : R).
Definition placed (ph : phase) (it : @siter RN) (cs : list (list (Z * R))) (r : R) : Prop :=
  match ph with PFresh => False | PSet it' cs' r' | PSolved it' cs' r' _ _ => it' = it /\ cs' = cs /\ r' = r end.

Definition arrays_alloc (a : @lparr RN) (vs cst : list bstat) (y dual : list R) : Prop :=
  length (la_obj a) = Z.to_nat (n + 2 * m) /\ length (la_clb a) = Z.to_nat m /\ length (la_cub a) = Z.to_nat m
  /\ length (la_vlb a) = Z.to_nat (n + 2 * m) /\ length (la_vub a) = Z.to_nat (n + 2 * m)
  /\ length vs = Z.to_nat (n + 2 * m) /\ length cst = Z.to_nat m /\ length y = Z.to_nat (n + 2 * m) /\ length dual = Z.to_nat (n + 3 * m).

(** Calls from the creation on; of the solver only that its answers in this sequence are
    right is used.  Where the constraints are linear the Jacobian is always the same. *)
Inductive reach : @scd RN -> phase -> Prop :=
  | reach_create a vs cst y dual s : arrays_alloc a vs cst y dual -> sc_create P a vs cst y dual = Ok s -> reach s PFresh
  | reach_iterate s ph it cs r s' : reach s ph -> iter_ok P it cs -> (sp_nonlinear P = false -> cs = cs0) -> 0 < r < hi ->
      sc_set_iterate P s it r = Ok s' -> reach s' (PSet it cs r)
  | reach_radius s ph it cs r0 r s' : reach s ph -> placed ph it cs r0 -> 0 < r < hi ->
      sc_set_trust_radius P s r = Ok s' -> reach s' (PSet it cs r)
  | reach_solve s ph it cs r g p t s' : reach s ph -> placed ph it cs r -> grad_ok P g -> 0 <= p ->
      sc_solve solver P s g p t = Ok s' -> right T (sc_def s') ->
      (sc_reduced s' = true -> exists L, sc_red s' = Some L /\ right T L) -> reach s' (PSolved it cs r g p)
  | reach_lp_step s it cs r g p d s' d' : reach s (PSolved it cs r g p) -> wf d -> sc_lp_step P s d = Ok (s', d') -> reach s' (PSolved it cs r g p)
  | reach_working_set s it cs r g p x w s' w' : reach s (PSolved it cs r g p) -> sc_working_set P s x w = Ok (s', w') -> reach s' (PSolved it cs r g p)
  | reach_violation s it cs r g p s' v : reach s (PSolved it cs r g p) -> sc_violation P s = Ok (s', v) -> reach s' (PSolved it cs r g p)
  | reach_duals s it cs r g p w cd vd s' cd' vd' : reach s (PSolved it cs r g p) -> wf cd -> wf vd ->
      sc_estimate_duals P s w cd vd = Ok (s', cd', vd') -> reach s' (PSolved it cs r g p)
  | reach_infeasible s it cs r g p s' b : reach s (PSolved it cs r g p) -> sc_locally_infeasible P s = Ok (s', b) -> reach s' (PSolved it cs r g p).

(** ** What holds in every state *)
Record sized (s : @scd RN) : Prop := {
  z_obj : length (la_obj (sc_arr s)) = Z.to_nat (n + 2 * m);
  z_clb : length (la_clb (sc_arr s)) = Z.to_nat m; z_cub : length (la_cub (sc_arr s)) = Z.to_nat m;
  z_vlb : exists f, arr (la_vlb (sc_arr s)) (n + 2 * m) (fun j => if (j <? n)%Z then f j else 0);
  z_vub : exists f, arr (la_vub (sc_arr s)) (n + 2 * m) (fun j => if (j <? n)%Z then f j else 2 * hi);
  z_vs : length (fe_vs (sc_fe s)) = Z.to_nat (n + 2 * m); z_cs : length (fe_cs (sc_fe s)) = Z.to_nat m;
  z_x : length (fe_x (sc_fe s)) = Z.to_nat (n + 2 * m); z_dual : length (fe_dual (sc_fe s)) = Z.to_nat (n + 3 * m);
  z_nv : li_nv (sc_def s) = (n + 2 * m)%Z; z_nc : li_nc (sc_def s) = m;
  z_red : forall L, sc_red s = Some L -> li_nv L = n /\ li_nc L = m;
  z_coef : sp_nonlinear P = false -> sc_coef s = true -> exists mt, li_mat (sc_def s) = Some mt /\ stores mt (cs0 ++ @slack_cols RN m) }.

Record ready (s : @scd RN) (it : @siter RN) (cs : list (list (Z * R))) (r : R) : Prop := {
  y_it : exists it', sc_it s = Some it' /\ si_x it' = si_x it /\ si_obj it' = si_obj it /\ si_c it' = si_c it /\ stores (si_jac it') cs;
  y_iter : iter_ok P it cs; y_r : sc_radius s = r; y_pos : 0 < r < hi;
  y_lin : sp_nonlinear P = false -> cs = cs0;
  y_vlb : arr (la_vlb (sc_arr s)) (n + 2 * m) (fun j => if (j <? n)%Z then vlo P (dense (si_x it)) r j else 0);
  y_vub : arr (la_vub (sc_arr s)) (n + 2 * m) (fun j => if (j <? n)%Z then vup P (dense (si_x it)) r j else 2 * hi);
  y_clb : arr (la_clb (sc_arr s)) m (clo P (dense (si_c it))); y_cub : arr (la_cub (sc_arr s)) m (cup P (dense (si_c it)));
  y_sent : li_vlb (sc_def s) = la_vlb (sc_arr s) /\ li_vub (sc_def s) = la_vub (sc_arr s)
           /\ arr (li_clb (sc_def s)) m (clo P (dense (si_c it))) /\ arr (li_cub (sc_def s)) m (cup P (dense (si_c it)));
  y_mat : exists mt, li_mat (sc_def s) = Some mt /\ stores mt (cs ++ @slack_cols RN m) }.

(** After a solve *)
Record solved (s : @scd RN) (it : @siter RN) (cs : list (list (Z * R))) (r : R) (g : option (@vec RN)) (p : R) (sol : @lpsol RN) : Prop := {
  v_g : grad_ok P g; v_p : 0 <= p;
  v_lp : default_lp P (sc_def s) (dense (si_x it)) (dense (si_c it)) (grad g) r p;
  v_sol : li_sol (sc_def s) = Some sol;
  v_opt : lp_optimal T (sc_def s) (cs ++ @slack_cols RN m) sol;
  v_base : lp_base T (sc_def s) (cs ++ @slack_cols RN m) sol }.
(** The reduced LP was not solved *)
Definition simple_fetch (s : @scd RN) (sol : @lpsol RN) : Prop :=
  (fe_dprimal (sc_fe s) = false -> fe_x (sc_fe s) = ls_x sol)
  /\ (fe_dbase (sc_fe s) = false -> fe_vs (sc_fe s) = ls_vs sol /\ fe_cs (sc_fe s) = ls_cs sol).
(** It was *)
Record reduced_fetch (s : @scd RN) (it : @siter RN) (cs : list (list (Z * R))) (r : R) (g : option (@vec RN)) (sol : @lpsol RN) (L : @lpi RN) (sol' : @lpsol RN) : Prop := {
  q_red : sc_red s = Some L;
  q_lp : reduced_lp P L (dense (si_x it)) (dense (si_c it)) (grad g) r;
  q_sol : li_sol L = Some sol';
  q_opt : lp_optimal T L cs sol'; q_base : lp_base T L cs sol';
  q_zero : forall i, (0 <= i < m)%Z -> sl P (nth0 (ls_x sol)) i = 0 /\ su P (nth0 (ls_x sol)) i = 0;
  q_x0 : forall j, (n <= j < n + 2 * m)%Z -> nth0 (fe_x (sc_fe s)) j = 0;
  q_x : fe_dprimal (sc_fe s) = false ->
        (forall j, (0 <= j < n)%Z -> nth0 (fe_x (sc_fe s)) j = nth0 (ls_x sol') j)
        \/ (forall j, (0 <= j < n)%Z -> nth0 (fe_x (sc_fe s)) j = nth0 (ls_x sol) j);
  q_vs : fe_dbase (sc_fe s) = false -> (forall j, (0 <= j < n)%Z -> nthb (fe_vs (sc_fe s)) j = nthb (ls_vs sol') j) /\ fe_cs (sc_fe s) = ls_cs sol' }.
Definition outcome (s : @scd RN) (it : @siter RN) (cs : list (list (Z * R))) (r : R) (g : option (@vec RN)) (p : R) : Prop :=
  exists sol, solved s it cs r g p sol
    /\ (sc_reduced s = false /\ simple_fetch s sol
        \/ sc_reduced s = true /\ exists L sol', reduced_fetch s it cs r g sol L sol').

Definition inv (s : @scd RN) (ph : phase) : Prop :=
  sized s /\ match ph with
             | PFresh => True
             | PSet it cs r => ready s it cs r
             | PSolved it cs r g p => ready s it cs r /\ outcome s it cs r g p
             end.

Lemma inv_placed s ph it cs r : inv s ph -> placed ph it cs r -> sized s /\ ready s it cs r.
Proof. intros [H1 H2] H. destruct ph as [|it' cs' r'|it' cs' r' g p]; [easy| |]; destruct H as (-> & -> & ->); split; auto; apply H2. Qed.

Lemma create_inv a vs cst y dual s : arrays_alloc a vs cst y dual -> sc_create P a vs cst y dual = Ok s -> inv s PFresh.
Proof.
  intros (L1 & L2 & L3 & L4 & L5 & L6 & L7 & L8 & L9) E. unfold sc_create in E. pose proof (po_n P HP) as Hn. pose proof (po_m P HP) as Hm.
  destruct (fill_loop (@n0 RN) n (2 * m) (n + 2 * m) _ _ Hn ltac:(lia) ltac:(lia) (arr_of 0 _ _ L4)) as (l1 & E1 & A1). rewrite E1 in E. cbn [rbind] in E.
  destruct (fill_loop (@sleqp_infinity RN) n (2 * m) (n + 2 * m) _ _ Hn ltac:(lia) ltac:(lia) (arr_of 0 _ _ L5)) as (l2 & E2 & A2). rewrite E2 in E. cbn [rbind] in E.
  injection E as <-. split; [|exact I]. constructor; cbn; auto.
  - eexists. apply (arr_ext _ _ _ _ A1). intros j Hj. cbv beta. destruct (Z.leb_spec n j), (Z.ltb_spec j (n + 2 * m)), (Z.ltb_spec j n); cbn [andb]; try lia; [apply rn_n0|reflexivity].
  - eexists. apply (arr_ext _ _ _ _ A2). intros j Hj. cbv beta. destruct (Z.leb_spec n j), (Z.ltb_spec j (n + 2 * m)), (Z.ltb_spec j n); cbn [andb]; try lia; [apply rn_inf|reflexivity].
  - discriminate.
  - discriminate.
Qed.
Lemma create_total a vs cst y dual : arrays_alloc a vs cst y dual -> exists s, sc_create P a vs cst y dual = Ok s.
Proof.
  intros (L1 & L2 & L3 & L4 & L5 & L6 & L7 & L8 & L9). unfold sc_create. pose proof (po_n P HP) as Hn. pose proof (po_m P HP) as Hm.
  destruct (fill_loop (@n0 RN) n (2 * m) (n + 2 * m) _ _ Hn ltac:(lia) ltac:(lia) (arr_of 0 _ _ L4)) as (l1 & E1 & A1). rewrite E1. cbn [rbind].
  destruct (fill_loop (@sleqp_infinity RN) n (2 * m) (n + 2 * m) _ _ Hn ltac:(lia) ltac:(lia) (arr_of 0 _ _ L5)) as (l2 & E2 & A2). rewrite E2. cbn [rbind].
  eexists. reflexivity.
Qed.

Lemma set_iterate_ok s it cs r : sized s -> iter_ok P it cs -> (sp_nonlinear P = false -> cs = cs0) -> 0 < r < hi ->
  exists s' it', sc_set_iterate P s it r = Ok s' /\ sized s' /\ ready s' it cs r
    /\ sc_it s' = Some it' /\ stores (si_jac it') cs /\ mnr (si_jac it') = m /\ mnc (si_jac it') = n.
Proof.
  intros Hz Hi Hl Hr. pose proof (po_n P HP) as Hn. pose proof (po_m P HP) as Hm. unfold sc_set_iterate.
  rewrite (proj2 (rn_ltb _ _)) by (rewrite rn_n0; apply Hr). cbn [check rbind].
  destruct (z_vlb s Hz) as [f Hf]. destruct (z_vub s Hz) as [f' Hf'].
  destruct (var_bounds_ok P HP it cs r (sc_arr s) (n + 2 * m)%Z _ _ Hi (proj1 Hr) ltac:(lia) Hf Hf') as (a1 & E1 & O1 & C1 & C2 & V1 & V2).
  cbn [sc_arr set_radius_it]. rewrite E1. cbn [rbind].
  destruct (cons_bounds_ok P HP it cs a1 Hi) as (a2 & E2 & O2 & W1 & W2 & D1 & D2); [rewrite C1; apply Hz|rewrite C2; apply Hz|]. rewrite E2. cbn [rbind].
  rewrite <- W1 in V1. rewrite <- W2 in V2.
  assert (V1' : arr (la_vlb a2) (n + 2 * m) (fun j => if (j <? n)%Z then vlo P (dense (si_x it)) r j else 0)).
  { apply (arr_ext _ _ _ _ V1). intros j Hj. cbv beta. destruct (j <? n)%Z; reflexivity. }
  assert (V2' : arr (la_vub a2) (n + 2 * m) (fun j => if (j <? n)%Z then vup P (dense (si_x it)) r j else 2 * hi)).
  { apply (arr_ext _ _ _ _ V2). intros j Hj. cbv beta. destruct (j <? n)%Z; reflexivity. }
  set (s1 := send_bounds _).
  destruct (coefficients_ok P HP s1 (si_jac it) cs (io_s _ _ _ Hi) (io_jc _ _ _ Hi) (io_jr _ _ _ Hi)) as [[B E]|(mt & j & E & S1 & S2 & S3 & S4 & S5 & S6)].
  - rewrite E. cbn [rbind fst snd]. apply andb_true_iff in B. destruct B as [B1 B2]. apply negb_true_iff in B1.
    specialize (Hl B1). subst cs. destruct (z_coef s Hz B1 B2) as (mt & M1 & M2).
    eexists. eexists. split; [reflexivity|]. split; [|split; [|cbn; split; [reflexivity|cbn; split; [apply Hi|split; apply Hi]]]].
    + constructor; cbn; try apply Hz; try (rewrite O2, O1; apply Hz); try apply D1; try apply D2; [eexists; exact V1'|eexists; exact V2'].
    + constructor; cbn; auto.
      * eexists. split; [reflexivity|]. cbn. repeat split; auto; apply Hi.
      * exists mt. auto.
  - rewrite E. cbn [rbind fst snd]. eexists. eexists. split; [reflexivity|]. split; [|split; [|cbn; split; [reflexivity|cbn; auto]]].
    + constructor; cbn; try apply Hz; try (rewrite O2, O1; apply Hz); try apply D1; try apply D2; [eexists; exact V1'|eexists; exact V2'|].
      intros B _. exists mt. split; [reflexivity|]. rewrite <- (Hl B). exact S1.
    + constructor; cbn; auto.
      * eexists. split; [reflexivity|]. cbn. repeat split; auto; apply S4.
      * exists mt. auto.
Qed.

Lemma set_radius_ok s it cs r0 r : sized s -> ready s it cs r0 -> 0 < r < hi ->
  exists s', sc_set_trust_radius P s r = Ok s' /\ sized s' /\ ready s' it cs r.
Proof.
  intros Hz Hy Hr. pose proof (po_n P HP) as Hn. pose proof (po_m P HP) as Hm. unfold sc_set_trust_radius.
  destruct (y_it _ _ _ _ Hy) as (it' & Ei & X1 & X2 & X3 & X4). rewrite Ei. cbn [sc_arr set_radius_it].
  assert (Hx : @create_var_bounds RN P r it' = @create_var_bounds RN P r it) by (unfold create_var_bounds; now rewrite X1). rewrite Hx.
  destruct (var_bounds_ok P HP it cs r (sc_arr s) (n + 2 * m)%Z _ _ (y_iter _ _ _ _ Hy) (proj1 Hr) ltac:(lia) (y_vlb _ _ _ _ Hy) (y_vub _ _ _ _ Hy)) as (a1 & E1 & O1 & C1 & C2 & V1 & V2).
  rewrite E1. cbn [rbind]. eexists. split; [reflexivity|].
  assert (V1' : arr (la_vlb a1) (n + 2 * m) (fun j => if (j <? n)%Z then vlo P (dense (si_x it)) r j else 0)).
  { apply (arr_ext _ _ _ _ V1). intros j Hj. cbv beta. destruct (j <? n)%Z; reflexivity. }
  assert (V2' : arr (la_vub a1) (n + 2 * m) (fun j => if (j <? n)%Z then vup P (dense (si_x it)) r j else 2 * hi)).
  { apply (arr_ext _ _ _ _ V2). intros j Hj. cbv beta. destruct (j <? n)%Z; reflexivity. }
  split.
  - constructor; cbn; try apply Hz; try (rewrite O1; apply Hz); try (rewrite C1; apply Hz); try (rewrite C2; apply Hz); [eexists; exact V1'|eexists; exact V2'].
  - constructor; cbn; try apply Hy; auto; try (rewrite C1; apply Hy); try (rewrite C2; apply Hy).
    + exists it'. auto.
    + rewrite C1, C2. split; [reflexivity|]. split; [reflexivity|]. split; apply Hy.
Qed.

(** ** Fetching *)
Lemma ready_fe s f it cs r : ready s it cs r -> ready (set_fe s f) it cs r.
Proof. intros H. constructor; try apply H. Qed.
Lemma sized_fe s f : sized s -> length (fe_vs f) = Z.to_nat (n + 2 * m) -> length (fe_cs f) = Z.to_nat m ->
  length (fe_x f) = Z.to_nat (n + 2 * m) -> length (fe_dual f) = Z.to_nat (n + 3 * m) -> sized (set_fe s f).
Proof. intros H H1 H2 H3 H4. constructor; cbn; auto; apply H. Qed.
Lemma solved_fe s f it cs r g p sol : solved s it cs r g p sol -> solved (set_fe s f) it cs r g p sol.
Proof. intros H. constructor; apply H. Qed.

Lemma store_all {A} (src dst : list A) : length src = length dst -> store src dst = Ok src.
Proof. intros H. rewrite store_ok by lia. now rewrite H, skipn_all, app_nil_r. Qed.
Lemma store_head {A} (d : A) (src dst : list A) a k : length src = Z.to_nat a -> length dst = Z.to_nat k -> (0 <= a <= k)%Z ->
  exists l, store src dst = Ok l /\ length l = Z.to_nat k
    /\ (forall j, (0 <= j < a)%Z -> nth (Z.to_nat j) l d = nth (Z.to_nat j) src d)
    /\ (forall j, (a <= j < k)%Z -> nth (Z.to_nat j) l d = nth (Z.to_nat j) dst d).
Proof.
  intros H1 H2 Ha. destruct (store_arr src dst a k _ _ (arr_of d _ _ H1) (arr_of d _ _ H2) Ha) as (l & E & Hl).
  exists l. split; [exact E|]. split; [apply Hl|]. split; intros j Hj; rewrite (arr_nth d _ _ _ j Hl) by lia; destruct (Z.ltb_spec j a); auto; lia.
Qed.

Section Fetch.
Variables (it : @siter RN) (cs : list (list (Z * R))) (r : R) (g : option (@vec RN)) (p : R).
Notation INV s := (inv s (PSolved it cs r g p)).

Lemma fetch_base_ok s : INV s -> exists s', fetch_base s = Ok s' /\ INV s' /\ fe_dbase (sc_fe s') = false
  /\ exists vs cst, s' = set_fe s (mkfe vs cst (fe_x (sc_fe s)) (fe_dual (sc_fe s)) false (fe_dprimal (sc_fe s)) (fe_ddual (sc_fe s))).
Proof.
  intros HI. pose proof HI as (Hz & Hy & sol & Hv & Hf). pose proof (po_n P HP) as Hn. pose proof (po_m P HP) as Hm. unfold fetch_base. destruct (fe_dbase (sc_fe s)) eqn:D.
  2:{ exists s. split; [reflexivity|]. split; [exact HI|]. split; [exact D|]. exists (fe_vs (sc_fe s)), (fe_cs (sc_fe s)). destruct s as [? ? ? [] ? ? ? ? ? ? ?]. cbn in *. now rewrite D. }
  unfold the_sol. pose proof (v_opt _ _ _ _ _ _ _ Hv) as HO. destruct Hf as [[Rd [F1 F2]]|[Rd (L & sol' & HR)]]; rewrite Rd.
  - rewrite (v_sol _ _ _ _ _ _ _ Hv). cbn [rbind].
    rewrite store_all by (rewrite (lo_vs _ _ _ _ HO), (z_vs _ Hz), (z_nv _ Hz); reflexivity). cbn [rbind].
    rewrite store_all by (rewrite (lo_cs _ _ _ _ HO), (z_cs _ Hz), (z_nc _ Hz); reflexivity). cbn [rbind].
    eexists. split; [reflexivity|]. split; [|split; [reflexivity|eauto]]. split; [|split].
    + apply sized_fe; cbn [fe_vs fe_cs fe_x fe_dual]; try apply Hz; auto; [rewrite (lo_vs _ _ _ _ HO), (z_nv _ Hz)|rewrite (lo_cs _ _ _ _ HO), (z_nc _ Hz)]; reflexivity.
    + now apply ready_fe.
    + exists sol. split; [now apply solved_fe|]. left. split; [exact Rd|]. split; cbn; auto.
  - rewrite (q_red _ _ _ _ _ _ _ _ HR), (q_sol _ _ _ _ _ _ _ _ HR). cbn [rbind]. pose proof (q_opt _ _ _ _ _ _ _ _ HR) as HO'. pose proof (q_lp _ _ _ _ _ _ _ _ HR) as HL.
    destruct (store_head BZero (ls_vs sol') (fe_vs (sc_fe s)) n (n + 2 * m)) as (l & E & G1 & G2 & G3); [rewrite (lo_vs _ _ _ _ HO'), (rl_nv _ _ _ _ _ _ HL); reflexivity|apply Hz|lia|].
    rewrite E. cbn [rbind].
    rewrite store_all by (rewrite (lo_cs _ _ _ _ HO'), (z_cs _ Hz), (rl_nc _ _ _ _ _ _ HL); reflexivity). cbn [rbind].
    eexists. split; [reflexivity|]. split; [|split; [reflexivity|eauto]]. split; [|split].
    + apply sized_fe; cbn [fe_vs fe_cs fe_x fe_dual]; try apply Hz; auto; rewrite (lo_cs _ _ _ _ HO'), (rl_nc _ _ _ _ _ _ HL); reflexivity.
    + now apply ready_fe.
    + exists sol. split; [now apply solved_fe|]. right. split; [exact Rd|]. exists L, sol'. constructor; cbn; try apply HR. intros _. split; [exact G2|reflexivity].
Qed.

Lemma fetch_primal_ok s : INV s -> exists s', fetch_primal s = Ok s' /\ INV s' /\ fe_dprimal (sc_fe s') = false
  /\ exists x, s' = set_fe s (mkfe (fe_vs (sc_fe s)) (fe_cs (sc_fe s)) x (fe_dual (sc_fe s)) (fe_dbase (sc_fe s)) false (fe_ddual (sc_fe s))).
Proof.
  intros HI. pose proof HI as (Hz & Hy & sol & Hv & Hf). pose proof (po_n P HP) as Hn. pose proof (po_m P HP) as Hm. unfold fetch_primal. destruct (fe_dprimal (sc_fe s)) eqn:D.
  2:{ exists s. split; [reflexivity|]. split; [exact HI|]. split; [exact D|]. exists (fe_x (sc_fe s)). destruct s as [? ? ? [] ? ? ? ? ? ? ?]. cbn in *. now rewrite D. }
  unfold the_sol. pose proof (v_opt _ _ _ _ _ _ _ Hv) as HO. destruct Hf as [[Rd [F1 F2]]|[Rd (L & sol' & HR)]]; rewrite Rd.
  - rewrite (v_sol _ _ _ _ _ _ _ Hv). cbn [rbind].
    rewrite store_all by (rewrite (lo_x _ _ _ _ HO), (z_x _ Hz), (z_nv _ Hz); reflexivity). cbn [rbind].
    eexists. split; [reflexivity|]. split; [|split; [reflexivity|eauto]]. split; [|split].
    + apply sized_fe; cbn [fe_vs fe_cs fe_x fe_dual]; try apply Hz; exact (eq_trans (lo_x _ _ _ _ HO) (f_equal Z.to_nat (z_nv _ Hz))).
    + now apply ready_fe.
    + exists sol. split; [now apply solved_fe|]. left. split; [exact Rd|]. split; cbn; auto.
  - rewrite (q_red _ _ _ _ _ _ _ _ HR), (q_sol _ _ _ _ _ _ _ _ HR). cbn [rbind]. pose proof (q_opt _ _ _ _ _ _ _ _ HR) as HO'. pose proof (q_lp _ _ _ _ _ _ _ _ HR) as HL.
    destruct (store_head 0 (ls_x sol') (fe_x (sc_fe s)) n (n + 2 * m)) as (l & E & G1 & G2 & G3); [exact (eq_trans (lo_x _ _ _ _ HO') (f_equal Z.to_nat (rl_nv _ _ _ _ _ _ HL)))|apply Hz|lia|].
    change (store (ls_x sol') (fe_x (sc_fe s))) with (@store R (ls_x sol') (fe_x (sc_fe s))). rewrite E. cbn [rbind].
    eexists. split; [reflexivity|]. split; [|split; [reflexivity|eauto]]. split; [|split].
    + apply sized_fe; cbn [fe_vs fe_cs fe_x fe_dual]; try apply Hz; auto.
    + now apply ready_fe.
    + exists sol. split; [now apply solved_fe|]. right. split; [exact Rd|]. exists L, sol'. constructor; cbn; try apply HR.
      * intros j Hj. unfold nth0. etransitivity; [apply G3; exact Hj|]. now apply (q_x0 _ _ _ _ _ _ _ _ HR).
      * intros _. left. exact G2.
Qed.

Lemma fetch_dual_ok s : INV s -> exists s', fetch_dual P s = Ok s' /\ INV s'
  /\ exists d, s' = set_fe s (mkfe (fe_vs (sc_fe s)) (fe_cs (sc_fe s)) (fe_x (sc_fe s)) d (fe_dbase (sc_fe s)) (fe_dprimal (sc_fe s)) false).
Proof.
  intros HI. pose proof HI as (Hz & Hy & sol & Hv & Hf). pose proof (po_n P HP) as Hn. pose proof (po_m P HP) as Hm. unfold fetch_dual. destruct (fe_ddual (sc_fe s)) eqn:D.
  2:{ exists s. split; [reflexivity|]. split; [exact HI|]. exists (fe_dual (sc_fe s)). destruct s as [? ? ? [] ? ? ? ? ? ? ?]. cbn in *. now rewrite D. }
  assert (E : exists q, the_sol s = Ok q /\ (length (ls_z q) <= Z.to_nat (n + 2 * m))%nat /\ length (ls_y q) = Z.to_nat m).
  { unfold the_sol. destruct Hf as [[Rd _]|[Rd (L & sol' & HR)]]; rewrite Rd.
    - rewrite (v_sol _ _ _ _ _ _ _ Hv). exists sol. split; [reflexivity|]. pose proof (v_opt _ _ _ _ _ _ _ Hv) as HO.
      rewrite (lo_z _ _ _ _ HO), (lo_y _ _ _ _ HO), (z_nv _ Hz), (z_nc _ Hz). lia.
    - rewrite (q_red _ _ _ _ _ _ _ _ HR), (q_sol _ _ _ _ _ _ _ _ HR). exists sol'. split; [reflexivity|]. pose proof (q_opt _ _ _ _ _ _ _ _ HR) as HO'. pose proof (q_lp _ _ _ _ _ _ _ _ HR) as HL.
      rewrite (lo_z _ _ _ _ HO'), (lo_y _ _ _ _ HO'), (rl_nv _ _ _ _ _ _ HL), (rl_nc _ _ _ _ _ _ HL). lia. }
  destruct E as (q & -> & Q1 & Q2). cbn [rbind]. pose proof (z_dual _ Hz) as Hd.
  rewrite store_ok by lia. cbn [rbind].
  set (dd := ls_z q ++ skipn _ _). assert (Hdd : length dd = Z.to_nat (n + 3 * m)). { unfold dd. rewrite app_length, skipn_length. lia. }
  rewrite store_ok by (rewrite skipn_length; lia). cbn [rbind].
  eexists. split; [reflexivity|]. split; [|eauto]. split; [|split].
  + apply sized_fe; cbn [fe_vs fe_cs fe_x fe_dual]; try apply Hz. rewrite !app_length, firstn_length, !skipn_length. lia.
  + now apply ready_fe.
  + exists sol. split; [now apply solved_fe|]. destruct Hf as [[Rd [F1 F2]]|[Rd (L & sol' & HR)]]; [left|right]; split; try exact Rd; [split; auto|].
    exists L, sol'. constructor; cbn; apply HR.
Qed.
End Fetch.

(** ** Solving *)
Lemma zrange_inv {S} (J : Z -> S -> Prop) (f : S -> Z -> res S) k : (0 <= k)%Z -> forall s s',
  J 0%Z s -> (forall j t t', (0 <= j < k)%Z -> J j t -> f t j = Ok t' -> J (j + 1)%Z t') ->
  rfold f s (zrange k) = Ok s' -> J k s'.
Proof.
  revert k. refine (natlike_ind _ _ _).
  - intros s s' H0 _ E. rewrite zrange_neg in E by lia. cbn in E. now injection E as <-.
  - intros k Hk IH s s' H0 Hst E. rewrite <- Z.add_1_r, zrange_succ, rfold_app in E by lia. apply rbind_ok in E. destruct E as (t & E1 & E2).
    cbn [rfold] in E2. apply rbind_ok in E2. destruct E2 as (t' & E2 & E3). injection E3 as <-.
    apply (Hst k t); [lia| |exact E2]. apply (IH s t H0); [|exact E1]. intros j u u' Hj. apply Hst. lia.
Qed.
Lemma arr_set_len {A} (l l' : list A) i x : arr_set l i x = Ok l' -> length l' = length l.
Proof. unfold arr_set. destruct (_ && _)%bool eqn:E; [|discriminate]. intros [= <-]. apply set_nth_length. Qed.

Lemma slack_basis_len a f b : @slack_basis RN P a f = Ok b -> length (fst b) = length (fe_vs f) /\ length (snd b) = length (fe_cs f).
Proof.
  unfold slack_basis. intros E. apply rbind_ok in E. destruct E as (vs & E1 & E2).
  assert (H1 : length vs = length (fe_vs f)).
  { revert E1. apply (rfold_inv (fun l => length l = length (fe_vs f))); [reflexivity|]. intros t j t' Ht _ Et. apply arr_set_len in Et. congruence. }
  revert E2. apply (rfold_inv (fun q => length (fst q) = length (fe_vs f) /\ length (snd q) = length (fe_cs f))); [split; auto|].
  intros [v c] i t' [Hv Hc] _ Et. cbn [fst snd] in *.
  apply rbind_ok in Et. destruct Et as (v1 & A1 & Et). apply arr_set_len in A1.
  apply rbind_ok in Et. destruct Et as (v2 & A2 & Et). apply arr_set_len in A2.
  apply rbind_ok in Et. destruct Et as (lb & _ & Et).
  destruct (nltb n0 lb).
  - apply rbind_ok in Et. destruct Et as (v3 & A3 & Et). apply arr_set_len in A3. apply rbind_ok in Et. destruct Et as (c1 & A4 & Et). apply arr_set_len in A4.
    injection Et as <-. cbn. split; congruence.
  - apply rbind_ok in Et. destruct Et as (ub & _ & Et). destruct (nltb ub n0).
    + apply rbind_ok in Et. destruct Et as (v3 & A3 & Et). apply arr_set_len in A3. apply rbind_ok in Et. destruct Et as (c1 & A4 & Et). apply arr_set_len in A4.
      injection Et as <-. cbn. split; congruence.
    + apply rbind_ok in Et. destruct Et as (c1 & A4 & Et). apply arr_set_len in A4. injection Et as <-. cbn. split; congruence.
Qed.

(** Everything but the starting basis and what was fetched is kept. *)
Record alike (s s' : @scd RN) : Prop := {
  k_radius : sc_radius s' = sc_radius s; k_it : sc_it s' = sc_it s; k_arr : sc_arr s' = sc_arr s; k_coef : sc_coef s' = sc_coef s;
  k_red : sc_red s' = sc_red s;
  k_nv : li_nv (sc_def s') = li_nv (sc_def s); k_nc : li_nc (sc_def s') = li_nc (sc_def s);
  k_obj : li_obj (sc_def s') = li_obj (sc_def s); k_clb : li_clb (sc_def s') = li_clb (sc_def s); k_cub : li_cub (sc_def s') = li_cub (sc_def s);
  k_vlb : li_vlb (sc_def s') = li_vlb (sc_def s); k_vub : li_vub (sc_def s') = li_vub (sc_def s); k_mat : li_mat (sc_def s') = li_mat (sc_def s);
  k_vs : length (fe_vs (sc_fe s')) = length (fe_vs (sc_fe s)); k_cs : length (fe_cs (sc_fe s')) = length (fe_cs (sc_fe s));
  k_x : length (fe_x (sc_fe s')) = length (fe_x (sc_fe s)); k_dual : length (fe_dual (sc_fe s')) = length (fe_dual (sc_fe s)) }.
Lemma alike_refl s : alike s s. Proof. now constructor. Qed.
Lemma alike_trans s1 s2 s3 : alike s1 s2 -> alike s2 s3 -> alike s1 s3.
Proof. intros H1 H2. constructor; (etransitivity; [apply H2|apply H1]). Qed.
Lemma alike_sized s s' : alike s s' -> sized s -> sized s'.
Proof.
  intros K H. constructor.
  - rewrite (k_arr _ _ K). apply H.
  - rewrite (k_arr _ _ K). apply H.
  - rewrite (k_arr _ _ K). apply H.
  - rewrite (k_arr _ _ K). apply H.
  - rewrite (k_arr _ _ K). apply H.
  - rewrite (k_vs _ _ K). apply H.
  - rewrite (k_cs _ _ K). apply H.
  - rewrite (k_x _ _ K). apply H.
  - rewrite (k_dual _ _ K). apply H.
  - rewrite (k_nv _ _ K). apply H.
  - rewrite (k_nc _ _ K). apply H.
  - rewrite (k_red _ _ K). apply H.
  - rewrite (k_coef _ _ K), (k_mat _ _ K). apply H.
Qed.
Lemma alike_ready s s' it cs r : alike s s' -> ready s it cs r -> ready s' it cs r.
Proof.
  intros K H. constructor; try rewrite (k_radius _ _ K); try rewrite (k_it _ _ K); try rewrite (k_arr _ _ K); try rewrite (k_mat _ _ K); try apply H.
  rewrite (k_clb _ _ K), (k_cub _ _ K), (k_vlb _ _ K), (k_vub _ _ K). apply H.
Qed.
Lemma restore_alike s t s' : @restore_basis RN P s t = Ok s' -> alike s s'.
Proof.
  unfold restore_basis. destruct (_ && _)%bool; [intros [= <-]; now constructor|]. destruct (sc_first s); [|intros [= <-]; apply alike_refl].
  intros E. apply rbind_ok in E. destruct E as (s1 & E1 & [= <-]). unfold set_slack_basis in E1. apply rbind_ok in E1. destruct E1 as (b & E1 & [= <-]).
  apply slack_basis_len in E1. destruct E1. constructor; cbn; auto.
Qed.

Lemma active_slacks c l u eq st : cauchy_cons_state c l u eq = Ok st -> active st = true -> l = BLower /\ u = BLower.
Proof.
  unfold cauchy_cons_state. intros E Ha. apply rbind_ok in E. destruct E as (? & _ & [= <-]). destruct c, l, u, eq; cbn in Ha; try discriminate; auto.
Qed.

Section Solve.
Variables (it : @siter RN) (cs : list (list (Z * R))) (r : R) (g : option (@vec RN)) (p : R).
Notation INV s := (inv s (PSolved it cs r g p)).

Lemma needs_resolve_ok s s' b : INV s -> sc_reduced s = false -> needs_resolve P s = Ok (s', b) ->
  INV s' /\ alike s s' /\ sc_def s' = sc_def s /\ sc_reduced s' = false /\ fe_dprimal (sc_fe s') = false /\ fe_dbase (sc_fe s') = false
  /\ (b = true -> forall i, (0 <= i < m)%Z -> sl P (nth0 (fe_x (sc_fe s'))) i = 0 /\ su P (nth0 (fe_x (sc_fe s'))) i = 0).
Proof.
  intros HI Rd E. unfold needs_resolve in E. rewrite Rd in E. cbn [negb check rbind] in E. pose proof (po_n P HP) as Hn. pose proof (po_m P HP) as Hm.
  destruct (fetch_base_ok it cs r g p s HI) as (s1 & E1 & H1 & D1 & vs1 & cst1 & Q1). rewrite E1 in E. cbn [rbind] in E.
  destruct (fetch_primal_ok it cs r g p s1 H1) as (s2 & E2 & H2 & D2 & x2 & Q2). rewrite E2 in E. cbn [rbind] in E.
  destruct (fetch_dual_ok it cs r g p s2 H2) as (s3 & E3 & H3 & d3 & Q3). rewrite E3 in E. cbn [rbind] in E.
  apply rbind_ok in E. destruct E as ([[[ll lu] feas] needs] & E & [= Es Eb]).
  assert (F3 : fe_dprimal (sc_fe s3) = false) by (rewrite Q3; exact D2).
  assert (F4 : fe_dbase (sc_fe s3) = false) by (rewrite Q3, Q2; exact D1).
  assert (Rd3 : sc_reduced s3 = false) by (rewrite Q3, Q2, Q1; exact Rd).
  pose proof H3 as (Hz & Hy & sol & Hv & Hf). destruct Hf as [[_ [X1 X2]]|[Hc _]]; [|congruence]. specialize (X1 F3). specialize (X2 F4). destruct X2 as [X2 X3].
  pose proof H3 as (Hz3 & _). pose proof HI as (Hz0 & _). subst s'. split; [exact H3|]. split.
  { constructor; try (rewrite Q3, Q2, Q1; reflexivity).
    - rewrite (z_vs _ Hz3), (z_vs _ Hz0). reflexivity.
    - rewrite (z_cs _ Hz3), (z_cs _ Hz0). reflexivity.
    - rewrite (z_x _ Hz3), (z_x _ Hz0). reflexivity.
    - rewrite (z_dual _ Hz3), (z_dual _ Hz0). reflexivity. }
  split; [rewrite Q3, Q2, Q1; reflexivity|]. split; [exact Rd3|]. split; [exact F3|]. split; [exact F4|].
  intros Hb. subst b. apply andb_true_iff in Hb. destruct Hb as [Hb _].
  refine (zrange_inv (fun j (t : list (Z * @num RN) * list (Z * @num RN) * bool * bool) => snd (fst t) = true -> forall i, (0 <= i < j)%Z -> sl P (nth0 (fe_x (sc_fe s3))) i = 0 /\ su P (nth0 (fe_x (sc_fe s3))) i = 0)
     _ m Hm _ _ _ _ E Hb).
  - cbn. intros _ i Hi. lia.
  - intros j [[[la lb] fe] ne] t' Hj HJ Et. cbn [fst snd] in HJ.
    destruct fe; cbn [negb] in Et; [|injection Et as <-; cbn; discriminate].
    apply rbind_ok in Et. destruct Et as (st & Est & Et).
    assert (Hgoal : (snd (fst t') = true -> sl P (nth0 (fe_x (sc_fe s3))) j = 0 /\ su P (nth0 (fe_x (sc_fe s3))) j = 0)).
    { destruct (active st) eqn:Ea.
      - intros _. unfold cons_state_at in Est. apply rbind_ok in Est. destruct Est as (c & C1 & Est). apply rbind_ok in Est. destruct Est as (bl & C2 & Est). apply rbind_ok in Est. destruct Est as (bu & C3 & Est).
        destruct (active_slacks _ _ _ _ _ Est Ea) as [-> ->].
        assert (Hat : forall k, (n <= k < n + 2 * m)%Z -> arr_get (fe_vs (sc_fe s3)) k = Ok BLower -> nth0 (fe_x (sc_fe s3)) k = 0).
        { intros k Hk Gk. rewrite (arr_get_arr _ _ _ k (arr_of BZero _ _ (z_vs _ Hz))) in Gk by lia. injection Gk as Gk.
          pose proof (proj1 (v_base _ _ _ _ _ _ _ Hv) k) as Hb'. rewrite (dl_nv _ _ _ _ _ _ _ (v_lp _ _ _ _ _ _ _ Hv)) in Hb'. specialize (Hb' ltac:(lia)).
          rewrite X2 in Gk. unfold nthb in Hb'. rewrite Gk in Hb'. cbn [at_bound] in Hb'. rewrite X1.
          rewrite (proj1 Hb'). rewrite (nth0_arr _ _ _ _ (dl_vlb _ _ _ _ _ _ _ (v_lp _ _ _ _ _ _ _ Hv))) by lia. destruct (Z.ltb_spec k n); [lia|reflexivity]. }
        split; [apply (Hat (n + j)%Z); [lia|exact C2]|apply (Hat (n + m + j)%Z); [lia|exact C3]].
      - apply rbind_ok in Et. destruct Et as (xl & G1 & Et). apply rbind_ok in Et. destruct Et as (xu & G2 & Et). apply rbind_ok in Et. destruct Et as (y & _ & Et).
        rewrite (arr_get_arr _ _ _ _ (arr_of 0 _ _ (z_x _ Hz))) in G1 by lia. injection G1 as G1.
        rewrite (arr_get_arr _ _ _ _ (arr_of 0 _ _ (z_x _ Hz))) in G2 by lia. injection G2 as G2.
        destruct (@neqb RN xl n0 && @neqb RN xu n0)%bool eqn:Z0; cbn [negb] in Et; injection Et as <-; cbn [fst snd]; [|discriminate].
        intros _. apply andb_true_iff in Z0. destruct Z0 as [Z1 Z2]. apply rn_eqb in Z1. apply rn_eqb in Z2. rewrite rn_n0 in Z1, Z2.
        unfold sl, su, nth0. split; congruence. }
    intros Hf i Hi. destruct (Z.eq_dec i j) as [->|]; [now apply Hgoal|]. apply HJ; [reflexivity|lia].
Qed.

Lemma shift_bounds_ok (x : list R) (a : @lparr RN) f h : length x = Z.to_nat (n + 2 * m) ->
  (forall i, (0 <= i < m)%Z -> sl P (nth0 x) i = 0 /\ su P (nth0 x) i = 0) -> arr (la_clb a) m f -> arr (la_cub a) m h ->
  exists a', @shift_bounds RN P x a = Ok a' /\ la_obj a' = la_obj a /\ la_vlb a' = la_vlb a /\ la_vub a' = la_vub a /\ arr (la_clb a') m f /\ arr (la_cub a') m h.
Proof.
  intros Hx H0 Af Ah. pose proof (po_n P HP) as Hn. pose proof (po_m P HP) as Hm. unfold shift_bounds.
  match goal with |- context [rfold ?b ?s0 _] => set (body := b); set (s0' := s0) end.
  destruct (zrange_loop (fun j (t : list (@num RN) * list (@num RN)) => arr (fst t) m f /\ arr (snd t) m h) body m s0') as (t & E & T1 & T2); [exact Hm|split; assumption| |].
  - intros i [u v] Hi [Hu Hv]. unfold body. cbn [fst snd] in *. destruct (H0 i Hi) as [S1 S2]. unfold sl, su, nth0 in S1, S2.
    rewrite !(arr_get_arr _ _ _ _ (arr_of 0 _ _ Hx)) by lia. cbn [rbind]. rewrite S1, S2.
    rewrite (arr_get_arr _ _ _ i Hu) by lia. cbn [rbind].
    destruct (arr_set_arr u m f i (@nadd RN (f i) (@nsub RN 0 0)) Hu Hi) as (u' & Eu & Hu'). rewrite Eu. cbn [rbind].
    rewrite (arr_get_arr _ _ _ i Hv) by lia. cbn [rbind].
    destruct (arr_set_arr v m h i (@nadd RN (h i) (@nsub RN 0 0)) Hv Hi) as (v' & Ev & Hv'). rewrite Ev. cbn [rbind].
    eexists. split; [reflexivity|]. cbn [fst snd]. split; [apply (arr_ext _ _ _ _ Hu')|apply (arr_ext _ _ _ _ Hv')]; intros k Hk; unfold upd;
      destruct (Z.eqb_spec k i) as [->|]; auto; cbn; lra.
  - rewrite E. cbn [rbind]. eexists. split; [reflexivity|]. cbn. auto.
Qed.

Lemma switch_ok s s' : INV s -> sc_reduced s = false -> fe_dprimal (sc_fe s) = false -> fe_dbase (sc_fe s) = false ->
  (forall i, (0 <= i < m)%Z -> sl P (nth0 (fe_x (sc_fe s))) i = 0 /\ su P (nth0 (fe_x (sc_fe s))) i = 0) ->
  arr (la_obj (sc_arr s)) (n + 2 * m) (fun j => if (j <? n)%Z then grad g j else p) ->
  switch_to_reduced solver P s = Ok s' -> sc_def s' = sc_def s /\ sc_reduced s' = true
  /\ (exists L mt, sc_red s' = Some L /\ reduced_lp P L (dense (si_x it)) (dense (si_c it)) (grad g) r /\ li_mat L = Some mt /\ stores mt cs)
  /\ ((exists L, sc_red s' = Some L /\ right T L) -> INV s').
Proof.
  intros HI Rd D1 D2 H0 Ho E. pose proof (po_n P HP) as Hn. pose proof (po_m P HP) as Hm. pose proof HI as (Hz & Hy & sol & Hv & Hf).
  destruct Hf as [[_ [X1 X2]]|[Hc _]]; [|congruence]. specialize (X1 D1).
  unfold switch_to_reduced in E. destruct (y_it _ _ _ _ Hy) as (it' & Ei & I1 & I2 & I3 & I4). rewrite Ei in E.
  apply rbind_ok in E. destruct E as (rcs & _ & E). unfold fetch_base in E. rewrite D2 in E. cbn [rbind] in E. unfold fetch_primal in E. rewrite D1 in E. cbn [rbind] in E.
  destruct (shift_bounds_ok (fe_x (sc_fe s)) (sc_arr s) _ _ (z_x _ Hz) H0 (y_clb _ _ _ _ Hy) (y_cub _ _ _ _ Hy)) as (a & Ea & A1 & A2 & A3 & A4 & A5). rewrite Ea in E. cbn [rbind] in E.
  set (L0 := lpi_start_from _ _) in E. unfold lpi_solve in E. destruct (solver L0) as [q| |]; cbn [rbind fst snd] in E; try discriminate.
  destruct (ls_opt q); cbn [rbind] in E; [|discriminate]. injection E as <-. cbn [sc_def sc_reduced sc_red]. split; [reflexivity|]. split; [reflexivity|].
  set (L1 := match sc_red s with Some L => L | None => lpi_create n m end) in *.
  assert (HL1 : li_nv L1 = n /\ li_nc L1 = m). { unfold L1. destruct (sc_red s) as [L|] eqn:EL; [apply (z_red _ Hz L EL)|split; reflexivity]. }
  set (L2 := mklpi _ _ _ _ _ _ _ _ _ _ _ _ _).
  assert (HLp : reduced_lp P L2 (dense (si_x it)) (dense (si_c it)) (grad g) r).
  { unfold L2. constructor; cbn [li_nv li_nc li_obj li_vlb li_vub li_clb li_cub L0 lpi_start_from lpi_set_coeffs lpi_set_bounds lpi_set_obj].
    - apply HL1.
    - apply HL1.
    - apply (arr_ext _ _ _ _ (firstn_arr _ _ n _ Ho ltac:(lia))). intros j Hj. cbv beta. destruct (Z.ltb_spec j n); [reflexivity|lia].
    - rewrite A2. apply (arr_ext _ _ _ _ (firstn_arr _ _ n _ (y_vlb _ _ _ _ Hy) ltac:(lia))). intros j Hj. cbv beta. destruct (Z.ltb_spec j n); [reflexivity|lia].
    - rewrite A3. apply (arr_ext _ _ _ _ (firstn_arr _ _ n _ (y_vub _ _ _ _ Hy) ltac:(lia))). intros j Hj. cbv beta. destruct (Z.ltb_spec j n); [reflexivity|lia].
    - exact A4.
    - exact A5. }
  split; [exists L2, (si_jac it'); auto|].
  intros (L & [= EL] & (mt & cs1 & sol' & M1 & M2 & M3 & M4 & M5)).
  assert (Hcs : cs1 = cs). { rewrite <- EL in M1. cbn in M1. injection M1 as <-. now apply (stores_inj (si_jac it')). } subst cs1.
  split; [|split].
  - constructor; cbn [sc_arr sc_fe sc_def sc_red sc_coef dirty fe_vs fe_cs fe_x fe_dual]; try apply Hz.
    + rewrite A1. apply Hz.
    + apply A4.
    + apply A5.
    + rewrite A2. apply Hz.
    + rewrite A3. apply Hz.
    + intros L' [= <-]. exact HL1.
  - constructor; cbn [sc_arr sc_fe sc_def sc_it sc_radius]; rewrite ?A2, ?A3; try apply Hy; assumption.
  - exists sol. split; [constructor; apply Hv|]. right. split; [reflexivity|]. exists L, sol'.
    constructor; cbn [sc_red sc_fe dirty fe_x fe_vs fe_cs fe_dprimal fe_dbase]; auto; try discriminate.
    + now rewrite EL.
    + rewrite <- EL. exact HLp.
    + rewrite <- X1. exact H0.
    + intros j Hj. destruct (Z.ltb_spec j (n + m)).
      * destruct (H0 (j - n)%Z ltac:(lia)) as [S1 _]. unfold sl in S1. now replace (n + (j - n))%Z with j in S1 by lia.
      * destruct (H0 (j - n - m)%Z ltac:(lia)) as [_ S1]. unfold su in S1. now replace (n + m + (j - n - m))%Z with j in S1 by lia.
Qed.

Lemma solve_lps s t s' : sized s -> ready s it cs r -> grad_ok P g -> 0 <= p -> sc_solve solver P s g p t = Ok s' ->
  default_lp P (sc_def s') (dense (si_x it)) (dense (si_c it)) (grad g) r p
  /\ (exists mt, li_mat (sc_def s') = Some mt /\ stores mt (cs ++ @slack_cols RN m))
  /\ (right T (sc_def s') ->
       (sc_reduced s' = true -> exists L mt, sc_red s' = Some L /\ reduced_lp P L (dense (si_x it)) (dense (si_c it)) (grad g) r /\ li_mat L = Some mt /\ stores mt cs)
       /\ ((sc_reduced s' = true -> exists L, sc_red s' = Some L /\ right T L) -> INV s')).
Proof.
  intros Hz Hy Hg Hp E. pose proof (po_n P HP) as Hn. pose proof (po_m P HP) as Hm. unfold sc_solve in E.
  destruct (objective_ok P HP g p (sc_arr s) Hg (z_obj _ Hz)) as (a & Ea & B1 & B2 & B3 & B4 & B5). rewrite Ea in E. cbn [rbind] in E.
  set (s1 := set_def _ _) in E.
  assert (Hz1 : sized s1). { constructor; cbn [s1 sc_arr sc_fe sc_def sc_red sc_coef set_def set_arr lpi_set_obj li_nv li_nc li_mat]; rewrite ?B1, ?B2, ?B3, ?B4; try apply Hz. apply B5. }
  assert (Hy1 : ready s1 it cs r). { constructor; cbn [s1 sc_arr sc_fe sc_def sc_red sc_coef sc_it sc_radius set_def set_arr lpi_set_obj li_vlb li_vub li_clb li_cub li_mat]; rewrite ?B1, ?B2, ?B3, ?B4; apply Hy. }
  assert (Ho1 : li_obj (sc_def s1) = la_obj (sc_arr s1)) by reflexivity.
  assert (Ho1' : arr (la_obj (sc_arr s1)) (n + 2 * m) (fun j => if (j <? n)%Z then grad g j else p)) by exact B5.
  clearbody s1. apply rbind_ok in E. destruct E as (s2 & E2 & E).
  assert (K : alike s1 s2).
  { destruct (sp_warm P); [|injection E2 as <-; apply alike_refl]. destruct t.
    - now apply restore_alike in E2.
    - now apply restore_alike in E2.
    - destruct (sc_cur s1) as [[| |]|]; try (now apply restore_alike in E2). injection E2 as <-. apply alike_refl. }
  pose proof (alike_sized _ _ K Hz1) as Hz2. pose proof (alike_ready _ _ _ _ _ K Hy1) as Hy2.
  rewrite <- (k_obj _ _ K), <- (k_arr _ _ K) in Ho1. rewrite <- (k_arr _ _ K) in Ho1'.
  unfold lpi_solve in E. destruct (solver (sc_def s2)) as [q| |]; cbn [rbind fst snd] in E; try discriminate.
  destruct (ls_opt q); cbn [rbind] in E; [|discriminate].
  cbn [sc_radius sc_it sc_arr sc_fe sc_has sc_cur sc_first sc_coef sc_reduced sc_def sc_red] in E.
  set (L := mklpi _ _ _ _ _ _ _ _ _ _ _ _ _) in E. set (L' := if sp_warm P then lpi_save L t else L) in E.
  assert (HL : li_nv L' = li_nv (sc_def s2) /\ li_nc L' = li_nc (sc_def s2) /\ li_obj L' = li_obj (sc_def s2) /\ li_clb L' = li_clb (sc_def s2) /\ li_cub L' = li_cub (sc_def s2)
     /\ li_vlb L' = li_vlb (sc_def s2) /\ li_vub L' = li_vub (sc_def s2) /\ li_mat L' = li_mat (sc_def s2)).
  { unfold L', L. destruct (sp_warm P); repeat split. }
  destruct HL as (N1 & N2 & N3 & N4 & N5 & N6 & N7 & N8). clearbody L'. clear L.
  match type of E with context [if _ then _ else Ok ?u] => set (s3 := u) in E end.
  assert (Hz3 : sized s3). { constructor; cbn [s3 sc_arr sc_fe sc_def sc_red sc_coef dirty fe_vs fe_cs fe_x fe_dual]; rewrite ?N1, ?N2, ?N8; apply Hz2. }
  assert (Hy3 : ready s3 it cs r). { constructor; cbn [s3 sc_arr sc_fe sc_def sc_red sc_coef sc_it sc_radius]; rewrite ?N4, ?N5, ?N6, ?N7, ?N8; apply Hy2. }
  assert (HD3 : default_lp P (sc_def s3) (dense (si_x it)) (dense (si_c it)) (grad g) r p).
  { constructor.
    + apply Hz3.
    + apply Hz3.
    + cbn [s3 sc_def]. rewrite N3, Ho1. exact Ho1'.
    + rewrite (proj1 (y_sent _ _ _ _ Hy3)). apply Hy3.
    + rewrite (proj1 (proj2 (y_sent _ _ _ _ Hy3))). apply Hy3.
    + apply Hy3.
    + apply Hy3. }
  assert (HI3 : right T (sc_def s3) -> INV s3).
  { intros (mt & cs1 & sol & M1 & M2 & M3 & M4 & M5). split; [exact Hz3|]. split; [exact Hy3|].
    destruct (y_mat _ _ _ _ Hy3) as (mt' & U1 & U2). rewrite M1 in U1. injection U1 as <-. pose proof (stores_inj mt _ _ M2 U2) as ->.
    exists sol. split.
    - now constructor.
    - left. split; [reflexivity|]. split; cbn; discriminate. }
  assert (Rd3 : sc_reduced s3 = false) by reflexivity.
  assert (Ho3 : arr (la_obj (sc_arr s3)) (n + 2 * m) (fun j => if (j <? n)%Z then grad g j else p)) by exact Ho1'.
  clearbody s3. destruct (sp_resolves P && otype_eqb t TDefault)%bool; [|injection E as <-; split; [exact HD3|split; [apply Hy3|intros HR; split; [congruence|auto]]]].
  apply rbind_ok in E. destruct E as ([s4 b] & E4 & E). cbn [fst snd] in E.
  assert (Hd4 : sc_def s4 = sc_def s3).
  { clear - E4. unfold needs_resolve in E4. apply rbind_ok in E4. destruct E4 as (_ & _ & E4). apply rbind_ok in E4. destruct E4 as (u1 & U1 & E4). apply rbind_ok in E4. destruct E4 as (u2 & U2 & E4). apply rbind_ok in E4. destruct E4 as (u3 & U3 & E4).
    apply rbind_ok in E4. destruct E4 as ([[[? ?] ?] ?] & _ & [= <- _]).
    assert (K1 : sc_def u1 = sc_def s3). { revert U1. unfold fetch_base. destruct (fe_dbase _); [|now intros [= <-]]. intros U. apply rbind_ok in U. destruct U as (? & _ & U). apply rbind_ok in U. destruct U as (? & _ & U). apply rbind_ok in U. destruct U as (? & _ & U). now injection U as <-. }
    assert (K2 : sc_def u2 = sc_def u1). { revert U2. unfold fetch_primal. destruct (fe_dprimal _); [|now intros [= <-]]. intros U. apply rbind_ok in U. destruct U as (? & _ & U). apply rbind_ok in U. destruct U as (? & _ & U). now injection U as <-. }
    assert (K3 : sc_def u3 = sc_def u2). { revert U3. unfold fetch_dual. destruct (fe_ddual _); [|now intros [= <-]]. intros U. apply rbind_ok in U. destruct U as (? & _ & U). apply rbind_ok in U. destruct U as (? & _ & U). apply rbind_ok in U. destruct U as (? & _ & U). now injection U as <-. }
    congruence. }
  assert (Hdef' : sc_def s' = sc_def s3).
  { destruct b; [|injection E as <-; exact Hd4]. rewrite <- Hd4. clear - E. unfold switch_to_reduced in E. destruct (sc_it s4); [|discriminate].
    apply rbind_ok in E. destruct E as (? & _ & E). apply rbind_ok in E. destruct E as (u1 & U1 & E). apply rbind_ok in E. destruct E as (u2 & U2 & E). apply rbind_ok in E. destruct E as (? & _ & E). apply rbind_ok in E. destruct E as (? & _ & E). apply rbind_ok in E. destruct E as (? & _ & E). injection E as <-. cbn.
    assert (K1 : sc_def u1 = sc_def s4). { revert U1. unfold fetch_base. destruct (fe_dbase _); [|now intros [= <-]]. intros U. apply rbind_ok in U. destruct U as (? & _ & U). apply rbind_ok in U. destruct U as (? & _ & U). apply rbind_ok in U. destruct U as (? & _ & U). now injection U as <-. }
    assert (K2 : sc_def u2 = sc_def u1). { revert U2. unfold fetch_primal. destruct (fe_dprimal _); [|now intros [= <-]]. intros U. apply rbind_ok in U. destruct U as (? & _ & U). apply rbind_ok in U. destruct U as (? & _ & U). now injection U as <-. }
    congruence. }
  rewrite Hdef'. split; [exact HD3|]. split; [apply Hy3|]. intros HR. specialize (HI3 HR).
  destruct (needs_resolve_ok s3 s4 b HI3 Rd3 E4) as (HI4 & K4 & _ & Rd4 & F1 & F2 & HZ).
  destruct b; [|injection E as <-; split; [congruence|intros _; exact HI4]].
  rewrite <- (k_arr _ _ K4) in Ho3.
  destruct (switch_ok s4 s' HI4 Rd4 F1 F2 (HZ eq_refl) Ho3 E) as (_ & Rs & HL & HI'). split; [intros _; exact HL|]. intros HR'. apply HI'. now apply HR'.
Qed.
Lemma solve_ok s t s' : sized s -> ready s it cs r -> grad_ok P g -> 0 <= p -> sc_solve solver P s g p t = Ok s' -> right T (sc_def s') ->
  (sc_reduced s' = true -> exists L, sc_red s' = Some L /\ right T L) -> INV s'.
Proof. intros Hz Hy Hg Hp E HR HR'. now apply (solve_lps s t s' Hz Hy Hg Hp E). Qed.
End Solve.

(** ** Queries *)
Section Queries.
Variables (it : @siter RN) (cs : list (list (Z * R))) (r : R) (g : option (@vec RN)) (p : R).
Notation INV s := (inv s (PSolved it cs r g p)).

Lemma fetch_base_keeps s s' : INV s -> fetch_base s = Ok s' -> INV s'.
Proof. intros H E. destruct (fetch_base_ok it cs r g p s H) as (s1 & E1 & H1 & _). rewrite E in E1. now injection E1 as ->. Qed.
Lemma add_vars_keeps s x w s' w' : INV s -> add_vars P s x w = Ok (s', w') -> INV s'.
Proof.
  intros H E. unfold add_vars in E. apply rbind_ok in E. destruct E as (s1 & E1 & E). apply fetch_base_keeps in E1; [|exact H].
  apply rbind_ok in E. destruct E as (? & _ & [= <- _]). exact E1.
Qed.
Lemma add_cons_keeps s w s' w' : INV s -> add_cons P s w = Ok (s', w') -> INV s'.
Proof.
  intros H E. unfold add_cons in E. apply rbind_ok in E. destruct E as (s1 & E1 & E). apply fetch_base_keeps in E1; [|exact H].
  apply rbind_ok in E. destruct E as (? & _ & [= <- _]). exact E1.
Qed.
Lemma working_set_keeps s x w s' w' : INV s -> sc_working_set P s x w = Ok (s', w') -> INV s'.
Proof.
  intros H E. unfold sc_working_set in E. apply rbind_ok in E. destruct E as ([s1 w1] & E1 & E).
  apply rbind_ok in E. destruct E as (? & _ & E). apply rbind_ok in E. destruct E as (? & _ & [= <- <-]).
  destruct (sc_reduced s).
  - unfold reduced_working_set in E1. apply rbind_ok in E1. destruct E1 as (s2 & E2 & E1). apply fetch_base_keeps in E2; [|exact H].
    apply rbind_ok in E1. destruct E1 as ([s3 w3] & E3 & E1). apply add_vars_keeps in E3; [|exact E2]. apply rbind_ok in E1. destruct E1 as (? & _ & [= <- _]). exact E3.
  - unfold simple_working_set in E1. apply rbind_ok in E1. destruct E1 as ([s3 w3] & E3 & E1). apply add_vars_keeps in E3; [|exact H]. now apply add_cons_keeps in E1.
Qed.
Lemma infeasible_keeps s s' b : INV s -> sc_locally_infeasible P s = Ok (s', b) -> INV s'.
Proof.
  intros H E. unfold sc_locally_infeasible in E. destruct (sc_it s); [|discriminate]. apply rbind_ok in E. destruct E as (? & _ & E). apply rbind_ok in E. destruct E as (s1 & E1 & E).
  apply fetch_base_keeps in E1; [|exact H]. apply rbind_ok in E. destruct E as (? & _ & E). apply rbind_ok in E. destruct E as (? & _ & E). apply rbind_ok in E. destruct E as (? & _ & [= <- _]). exact E1.
Qed.
Lemma store_len {A} (src dst l : list A) : store src dst = Ok l -> length l = length dst.
Proof.
  unfold store. destruct (Nat.leb_spec (length src) (length dst)); [|discriminate]. cbn. intros [= <-]. rewrite app_length, skipn_length. lia.
Qed.
Lemma dual_keeps s d : INV s -> length d = Z.to_nat (n + 3 * m) ->
  INV (set_fe s (mkfe (fe_vs (sc_fe s)) (fe_cs (sc_fe s)) (fe_x (sc_fe s)) d (fe_dbase (sc_fe s)) (fe_dprimal (sc_fe s)) (fe_ddual (sc_fe s)))).
Proof.
  intros (Hz & Hy & sol & Hv & Hf) Hd. split; [|split].
  - apply sized_fe; cbn [fe_vs fe_cs fe_x fe_dual]; try apply Hz; exact Hd.
  - now apply ready_fe.
  - exists sol. split; [now apply solved_fe|]. destruct Hf as [[Rd [F1 F2]]|[Rd (L & sol' & HR)]]; [left|right]; split; try exact Rd; [split; auto|].
    exists L, sol'. constructor; cbn; apply HR.
Qed.
Lemma one_dual_keeps s vals st k d s' d' : INV s -> one_dual P s vals st k d = Ok (s', d') -> INV s'.
Proof.
  intros H E. unfold one_dual in E. apply rbind_ok in E. destruct E as (? & _ & E). apply rbind_ok in E. destruct E as (raw & E1 & E).
  apply rbind_ok in E. destruct E as (? & _ & E). apply rbind_ok in E. destruct E as (? & _ & [= <- _]). apply dual_keeps; [exact H|].
  apply store_len in E1. rewrite E1. apply H.
Qed.
Lemma duals_keeps s w cd vd s' cd' vd' : INV s -> sc_estimate_duals P s w cd vd = Ok (s', cd', vd') -> INV s'.
Proof.
  intros H E. unfold sc_estimate_duals in E. destruct (li_sol _); [|discriminate]. apply rbind_ok in E. destruct E as ([s1 v1] & E1 & E). apply one_dual_keeps in E1; [|exact H].
  apply rbind_ok in E. destruct E as ([s2 v2] & E2 & [= <- _ _]). cbn [fst] in E2. now apply one_dual_keeps in E2.
Qed.

Lemma sum_loop (x : list (@num RN)) b k N' : length x = Z.to_nat N' -> (0 <= b)%Z -> (0 <= k)%Z -> (b + k <= N')%Z ->
  rfold (fun acc j => v <- arr_get x (b + j) ;; Ok (@nadd RN acc v)) (@n0 RN) (zrange k) = Ok (sumd k (fun j => nth0 x (b + j))).
Proof.
  intros Hx Hb Hk HN.
  destruct (zrange_loop (fun j (t : @num RN) => t = sumd j (fun i => nth0 x (b + i))) (fun acc j => v <- arr_get x (b + j) ;; Ok (@nadd RN acc v)) k (@n0 RN)) as (t & E & Ht).
  - exact Hk.
  - rewrite rn_n0. reflexivity.
  - intros j t Hj ->. rewrite (arr_get_arr _ _ _ _ (arr_of 0 _ _ Hx)) by lia. cbn [rbind]. eexists. split; [reflexivity|]. rewrite sumd_succ by lia. reflexivity.
  - rewrite E. now rewrite Ht.
Qed.

Lemma violation_ok s : INV s -> exists s' sol, sc_violation P s = Ok (s', slacks P (nth0 (ls_x sol))) /\ solved s it cs r g p sol /\ INV s'.
Proof.
  intros (Hz & Hy & sol & Hv & Hf). pose proof (po_n P HP) as Hn. pose proof (po_m P HP) as Hm. pose proof (v_opt _ _ _ _ _ _ _ Hv) as HO.
  assert (Hlen : length (ls_x sol) = Z.to_nat (n + 2 * m)) by (exact (eq_trans (lo_x _ _ _ _ HO) (f_equal Z.to_nat (z_nv _ Hz)))).
  unfold sc_violation. rewrite (v_sol _ _ _ _ _ _ _ Hv). rewrite store_all by (exact (eq_trans Hlen (eq_sym (z_x _ Hz)))). cbn [rbind].
  rewrite (sum_loop (ls_x sol) n (2 * m) (n + 2 * m) Hlen) by lia. cbn [rbind]. eexists. exists sol. split.
  - f_equal. f_equal. replace (2 * m)%Z with (m + m)%Z by lia. rewrite sumd_add by lia. unfold slacks. rewrite sumd_plus. f_equal. apply sumd_ext. intros i Hi. unfold su. f_equal. lia.
  - split; [exact Hv|]. split; [|split].
    + apply sized_fe; cbn [fe_vs fe_cs fe_x fe_dual]; try apply Hz; exact Hlen.
    + now apply ready_fe.
    + exists sol. split; [now apply solved_fe|]. destruct Hf as [[Rd [F1 F2]]|[Rd (L & sol' & HR)]]; [left|right]; split; try exact Rd; [split; auto|].
      exists L, sol'. constructor; cbn [sc_red sc_fe set_fe fe_x fe_vs fe_cs fe_dbase fe_dprimal]; try apply HR.
      * intros j Hj. pose proof (q_zero _ _ _ _ _ _ _ _ HR) as H0. destruct (Z.ltb_spec j (n + m)).
        -- destruct (H0 (j - n)%Z ltac:(lia)) as [S1 _]. unfold sl in S1. now replace (n + (j - n))%Z with j in S1 by lia.
        -- destruct (H0 (j - n - m)%Z ltac:(lia)) as [_ S1]. unfold su in S1. now replace (n + m + (j - n - m))%Z with j in S1 by lia.
      * intros _. right. reflexivity.
Qed.
End Queries.

Theorem reach_inv s ph : reach s ph -> inv s ph.
Proof.
  intros H. induction H as [a vs cst y dual s Ha E|s ph it cs r s' Hr IH Hi Hl Hp E|s ph it cs r0 r s' Hr IH Hpl Hp E|s ph it cs r g p t s' Hr IH Hpl Hg Hp E HR HR'
    |s it cs r g p d s' d' Hr IH Hd E|s it cs r g p x w s' w' Hr IH E|s it cs r g p s' v Hr IH E|s it cs r g p w cd vd s' cd' vd' Hr IH _ _ E|s it cs r g p s' b Hr IH E].
  - now apply (create_inv a vs cst y dual).
  - destruct (set_iterate_ok s it cs r (proj1 IH) Hi Hl Hp) as (s1 & _ & E1 & H1 & H2 & _). rewrite E in E1. injection E1 as ->. split; assumption.
  - destruct (inv_placed _ _ _ _ _ IH Hpl) as [Hz Hy]. destruct (set_radius_ok s it cs r0 r Hz Hy Hp) as (s1 & E1 & H1 & H2). rewrite E in E1. injection E1 as ->. split; assumption.
  - destruct (inv_placed _ _ _ _ _ IH Hpl) as [Hz Hy]. now apply (solve_ok it cs r g p s t s').
  - unfold sc_lp_step in E. destruct (fetch_primal_ok it cs r g p s IH) as (s1 & E1 & H1 & _). rewrite E1 in E. cbn [rbind] in E.
    apply rbind_ok in E. destruct E as (? & _ & [= <- _]). exact H1.
  - now apply (working_set_keeps it cs r g p s x w s' w').
  - destruct (violation_ok it cs r g p s IH) as (s1 & sol & E1 & _ & H1). rewrite E in E1. now injection E1 as -> _.
  - now apply (duals_keeps it cs r g p s w cd vd s' cd' vd').
  - now apply (infeasible_keeps it cs r g p s s' b).
Qed.
End Reach.
