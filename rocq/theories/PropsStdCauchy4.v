(** C78: the test for local infeasibility based on the linear program. *)
From Coq Require Import Reals Lra.
From Verif Require Import Base Num Cmp Sparse Vec VecFacts VecFacts2 VecReal RSum Mat MatFacts MatFacts2 MatFacts3 MatFacts4 Arr Gauss PreprocReal QnReal WorkingSet WorkingSetFacts DualEstFacts AugJacFacts AugJacMain AugJacReal AugJacQRReal Cauchy CauchyFacts StdCauchy StdCauchyFacts StdCauchyReal StdCauchyLP StdCauchyReach StdCauchyWS StdCauchyWS2 StdCauchyDual StdCauchyInf Eval PropsStdCauchy PropsStdCauchy2 PropsStdCauchy3.
Local Open Scope R_scope.

(** A step within the bounds on the variables, of any length *)
Definition within (P : @sprob RN) (x d : Z -> R) : Prop :=
  forall j, (0 <= j < sp_nv P)%Z -> (- hi < dense (sp_vlb P) j -> dense (sp_vlb P) j <= x j + d j) /\ (dense (sp_vub P) j < hi -> x j + d j <= dense (sp_vub P) j).
(** Variables whose bounds count as equal have bounds closer than the trust radius. *)
Definition narrow (P : @sprob RN) (r : R) : Prop :=
  forall j, (0 <= j < sp_nv P)%Z -> @is_eq RN (dense (sp_vlb P) j) (dense (sp_vub P) j) (sp_eps P) = true -> dense (sp_vub P) j - dense (sp_vlb P) j < r.

(** A price and the two violations of one row *)
Lemma row_gain (l u a b y p s t : R) : l <= u -> Rabs y <= p -> 0 <= s -> 0 <= t ->
  (- hi < l -> l <= a + s - t) -> (u < hi -> a + s - t <= u) ->
  (0 < y -> - hi < l /\ a + s - t = l) -> (y < 0 -> u < hi /\ a + s - t = u) -> (y < p -> s = 0) -> (- p < y -> t = 0) ->
  p * viol l a u <= y * (b - a) + p * viol l b u.
Proof.
  intros Hlu Hy Hs Ht F1 F2 P1 P2 S1 S2. assert (Hy2 : - p <= y <= p) by (unfold Rabs in Hy; destruct (Rcase_abs y); lra).
  assert (V : forall v, 0 <= viol l v u). { intros v. unfold viol. pose proof (Rmax_l 0 (l - v)). pose proof (Rmax_l 0 (v - u)). destruct (Rlt_dec _ _), (Rlt_dec _ _); lra. }
  destruct (Rtotal_order y 0) as [Hn|[H0|Hp]].
  - destruct (P2 Hn) as [Hu E]. assert (Hs0 : s = 0) by (apply S1; lra). subst s.
    assert (Va : viol l a u = t). { unfold viol. destruct (Rlt_dec u hi); [|lra]. rewrite (Rmax_right 0 (a - u)) by lra. destruct (Rlt_dec _ l); [rewrite Rmax_left by lra|]; lra. }
    assert (Vb : b - u <= viol l b u). { unfold viol. destruct (Rlt_dec u hi); [|lra]. pose proof (Rmax_r 0 (b - u)). pose proof (Rmax_l 0 (l - b)). destruct (Rlt_dec _ l); lra. }
    specialize (V b). rewrite Va. replace (b - a) with (b - u - t) by lra. destruct (Rle_lt_dec y (- p)) as [G|G].
    + assert (y = - p) as -> by lra. pose proof (Rmult_le_compat_l p _ _ ltac:(lra) Vb). lra.
    + assert (t = 0) as -> by (apply S2; lra). pose proof (Rmult_le_compat_l (- y) _ _ ltac:(lra) Vb). assert (0 <= (p + y) * viol l b u) by (apply Rmult_le_pos; lra). lra.
  - subst y. assert (Hp : p = 0 \/ 0 < p) by lra. destruct Hp as [->|Hp]; [lra|]. assert (s = 0) as -> by (apply S1; lra). assert (t = 0) as -> by (apply S2; lra).
    assert (Va : viol l a u = 0). { unfold viol. destruct (Rlt_dec _ l) as [A|A]; [specialize (F1 A); rewrite Rmax_left by lra|]; (destruct (Rlt_dec u hi) as [B|B]; [specialize (F2 B); rewrite Rmax_left by lra|]); lra. }
    rewrite Va. pose proof (Rmult_le_pos p _ ltac:(lra) (V b)). lra.
  - destruct (P1 Hp) as [Hu E]. assert (Ht0 : t = 0) by (apply S2; lra). subst t.
    assert (Va : viol l a u = s). { unfold viol. destruct (Rlt_dec _ l); [|lra]. rewrite (Rmax_right 0 (l - a)) by lra. destruct (Rlt_dec u hi); [rewrite Rmax_left by lra|]; lra. }
    assert (Vb : l - b <= viol l b u). { unfold viol. destruct (Rlt_dec _ l); [|lra]. pose proof (Rmax_r 0 (l - b)). pose proof (Rmax_l 0 (b - u)). destruct (Rlt_dec u hi); lra. }
    specialize (V b). rewrite Va. replace (b - a) with (b - l + s) by lra. destruct (Rle_lt_dec p y) as [G|G].
    + assert (y = p) as -> by lra. pose proof (Rmult_le_compat_l p _ _ ltac:(lra) Vb). lra.
    + assert (s = 0) as -> by (apply S1; lra). pose proof (Rmult_le_compat_l y _ _ ltac:(lra) Vb). assert (0 <= (p - y) * viol l b u) by (apply Rmult_le_pos; lra). lra.
Qed.

Section Props.
Variable P : @sprob RN.
Hypothesis HP : prob_ok P.
Variable solver : @lpi RN -> res (@lpsol RN).
Variable T : R.
Hypothesis HT : hi <= T <= 2 * hi.
Variable cs0 : list (list (Z * R)).
Notation n := (sp_nv P).
Notation m := (sp_nc P).

(** A positive answer: the step of the LP is the best one within the bounds on the variables, not
    just within the trust region.  A negative answer: the step satisfies the linearised constraints
    or reaches the trust region. *)
Theorem C78_answer s it cs r g p sol : reach P solver T cs0 s (PSolved it cs r g p) -> sc_reduced s = false ->
  li_sol (sc_def s) = Some sol -> regular_basis (sc_def s) (cs ++ @slack_cols RN m) sol -> lp_duals T (sc_def s) (cs ++ @slack_cols RN m) sol ->
  far P it r -> narrow P r ->
  let y := nth0 (ls_x sol) in let model := merit_model P (grad g) (dense (si_c it)) cs p in
  exists s' b, sc_locally_infeasible P s = Ok (s', b) /\ least P it cs r g p y
    /\ (b = true -> forall d, within P (dense (si_x it)) d -> model y <= model d)
    /\ (b = false -> lin_viol P (dense (si_c it)) cs y = 0 \/ exists j, (0 <= j < n)%Z /\ Rabs (y j) = r).
Proof.
  intros HR Rd Hs RB LD Hfar Hnar y model. pose proof (po_n P HP) as Hn. pose proof (po_m P HP) as Hm. apply reach_inv in HR; [|exact HP].
  pose proof HR as (Hz & Hy & sol0 & Hv & Hf). destruct (iter_facts P it cs (y_iter _ _ _ _ _ _ Hy)) as (Hin & Hcv & Hcs). pose proof (y_pos _ _ _ _ _ _ Hy) as Hr.
  assert (sol0 = sol) as -> by (pose proof (v_sol _ _ _ _ _ _ _ _ _ Hv); congruence).
  pose proof (v_lp _ _ _ _ _ _ _ _ _ Hv) as DL. pose proof (v_base _ _ _ _ _ _ _ _ _ Hv) as DB. pose proof (v_opt _ _ _ _ _ _ _ _ _ Hv) as DO.
  destruct (y_it _ _ _ _ _ _ Hy) as (it' & Eit & Ex & _).
  destruct (fetch_base_ok P HP T cs0 it cs r g p s HR) as (s1 & E1 & I1 & D1 & (vs1 & cst1 & Es)).
  assert (Rd1 : sc_reduced s1 = false) by (rewrite Es; exact Rd). assert (Ed1 : sc_def s1 = sc_def s) by (rewrite Es; reflexivity).
  assert (Hst : fe_vs (sc_fe s1) = ls_vs sol /\ fe_cs (sc_fe s1) = ls_cs sol).
  { pose proof I1 as (_ & _ & sol1 & Hv1 & [[_ [_ F]]|[Q _]]); [|congruence]. pose proof (v_sol _ _ _ _ _ _ _ _ _ Hv1) as E2. rewrite Ed1 in E2. assert (sol1 = sol) as -> by congruence. exact (F D1). }
  destruct Hst as [Ev Ec]. pose proof I1 as (Hz1 & Hy1 & _).
  unfold sc_locally_infeasible. rewrite Eit, Rd, E1. cbn [negb check rbind]. rewrite (y_r _ _ _ _ _ _ Hy1).
  assert (Hpos : @nltb RN (@n0 RN) r = true) by (rewrite rn_n0; apply rn_ltb; lra). rewrite Hpos. cbn [check rbind]. rewrite Ex.
  assert (One : forall i, (0 <= i < m)%Z -> nthb (ls_vs sol) (n + i) = BLower \/ nthb (ls_vs sol) (n + m + i) = BLower) by (intros i Hi; apply (def_one_lower P HP T HT it cs r g p (sc_def s) sol DL Hcs DB RB Hr i Hi)).
  assert (Nz : forall j, (0 <= j < n)%Z -> nthb (ls_vs sol) j <> BZero) by (intros j Hj; apply (def_nozero P HP T HT it cs r g p (sc_def s) sol DL DB Hr j Hj)).
  rewrite (trust_region_active_ok P HP); [|apply (y_iter _ _ _ _ _ _ Hy)|apply Hz1|rewrite Ev; exact Nz]. cbn [rbind].
  rewrite (feasible_direction_ok P HP); [|apply Hz1|apply Hz1|rewrite Ev; exact One]. cbn [rbind]. rewrite Ev, Ec.
  destruct (proj1 (default_feasible P HP T HT _ _ _ r p cs Hr Hin Hcv Hcs (sc_def s) _ DL) (lo_feas _ _ _ _ DO)) as [_ Hrows].
  pose proof (v_p _ _ _ _ _ _ _ _ _ Hv) as Hp.
  eexists _, _. split; [reflexivity|]. split; [exact (proj1 (solved_least P HP T HT cs0 s it cs r g p sol Hy Hv))|]. split.
  - intros Hb d Hd. apply negb_true_iff, orb_false_iff in Hb. destruct Hb as [_ Hb].
    assert (Htr : forall j, (0 <= j < n)%Z -> tr_at P r (ls_vs sol) (dense (si_x it)) j = false).
    { intros j Hj. apply not_true_iff_false. intros G. apply not_true_iff_false in Hb. apply Hb. apply existsb_exists. exists j. split; [now apply zrange_In|exact G]. }
    assert (Hvar : forall j, (0 <= j < n)%Z -> nth0 (ls_z sol) j * y j <= nth0 (ls_z sol) j * d j).
    { intros j Hj. destruct (cert_var P HP T it cs r g p (sc_def s) sol DL LD j Hj) as (A & B & C). destruct (Hd j Hj) as [D2 D3]. specialize (Htr j Hj). unfold tr_at in Htr.
      pose proof (def_var P HP T it cs r g p (sc_def s) sol DL DB j Hj) as Hat. specialize (Hin j Hj). destruct (Hfar j Hj) as [F1 F2]. pose proof (Hnar j Hj) as Hw. specialize (Nz j Hj).
      pose proof (vlo_cases P it r j) as Vl. pose proof (vup_cases P it r j) as Vu. change (nth0 (ls_x sol) j) with (y j) in Hat.
      assert (Kl : dense (si_x it) j - dense (sp_vlb P) j < r -> - hi < dense (sp_vlb P) j /\ vlo P (dense (si_x it)) r j = dense (sp_vlb P) j - dense (si_x it) j).
      { intros G. assert (Q : - hi < dense (sp_vlb P) j) by (destruct (Rlt_le_dec (- hi) (dense (sp_vlb P) j)) as [Q|Q]; [exact Q|specialize (F1 Q); lra]). split; [exact Q|].
        destruct Vl as [Vl|[_ Vl]]; [|exact Vl]. exfalso. revert Vl. unfold vlo. destruct (@is_infinite RN _) eqn:Ei; [apply rn_is_infinite in Ei; lra|]. unfold Rmax. destruct (Rle_dec _ _); lra. }
      assert (Ku : dense (sp_vub P) j - dense (si_x it) j < r -> dense (sp_vub P) j < hi /\ vup P (dense (si_x it)) r j = dense (sp_vub P) j - dense (si_x it) j).
      { intros G. assert (Q : dense (sp_vub P) j < hi) by (destruct (Rlt_le_dec (dense (sp_vub P) j) hi) as [Q|Q]; [exact Q|specialize (F2 Q); lra]). split; [exact Q|].
        destruct Vu as [Vu|[_ Vu]]; [|exact Vu]. exfalso. revert Vu. unfold vup. destruct (@is_infinite RN _) eqn:Ei; [apply rn_is_infinite in Ei; lra|]. unfold Rmin. destruct (Rle_dec _ _); lra. }
      destruct (Rtotal_order (nth0 (ls_z sol) j) 0) as [Hn'|[H0|Hp']].
      - assert (y j >= d j); [|apply Rmult_le_compat_neg_l; lra]. change (y j) with (nth0 (ls_x sol) j). rewrite (B Hn').
        assert (G : dense (sp_vub P) j - dense (si_x it) j < r \/ vup P (dense (si_x it)) r j = vlo P (dense (si_x it)) r j).
        { destruct (@is_eq RN (dense (sp_vlb P) j) (dense (sp_vub P) j) (sp_eps P)) eqn:Ee in Htr, Hw; [left; specialize (Hw eq_refl); lra|]. destruct (nthb (ls_vs sol) j) eqn:Eb in Htr, Hat, C, Nz; try congruence; cbn [at_bound bstat_eqb andb] in Htr, Hat; [right|specialize (C eq_refl); lra|left].
          - specialize (B Hn'). change (nth0 (ls_x sol) j) with (y j) in B. lra.
          - apply rn_leb_false in Htr. lra. }
        destruct G as [G|G]; [destruct (Ku G) as [K1 K2]; rewrite K2; specialize (D3 K1); lra|].
        destruct Vu as [Vu|[K1 K2]]; [|rewrite K2; specialize (D3 K1); lra]. destruct Vl as [Vl|[_ Vl]]; lra.
      - rewrite H0. lra.
      - apply Rmult_le_compat_l; [lra|]. change (y j) with (nth0 (ls_x sol) j). rewrite (A Hp').
        assert (G : dense (si_x it) j - dense (sp_vlb P) j < r \/ vup P (dense (si_x it)) r j = vlo P (dense (si_x it)) r j).
        { destruct (@is_eq RN (dense (sp_vlb P) j) (dense (sp_vub P) j) (sp_eps P)) eqn:Ee in Htr, Hw; [left; specialize (Hw eq_refl); lra|]. destruct (nthb (ls_vs sol) j) eqn:Eb in Htr, Hat, C, Nz; try congruence; cbn [at_bound bstat_eqb andb] in Htr, Hat; [left|specialize (C eq_refl); lra|right].
          - destruct (@nleb RN r _) eqn:El in Htr; [discriminate|]. apply rn_leb_false in El. lra.
          - specialize (A Hp'). change (nth0 (ls_x sol) j) with (y j) in A. lra. }
        destruct G as [G|G]; [destruct (Kl G) as [K1 K2]; rewrite K2; specialize (D2 K1); lra|].
        destruct Vl as [Vl|[K1 K2]]; [|rewrite K2; specialize (D2 K1); lra]. destruct Vu as [Vu|[_ Vu]]; lra. }
    assert (Hrow : forall i, (0 <= i < m)%Z -> p * viol (dense (sp_clb P) i) (lin P (dense (si_c it)) cs y i) (dense (sp_cub P) i)
        <= nth0 (ls_y sol) i * (lin P (dense (si_c it)) cs d i - lin P (dense (si_c it)) cs y i) + p * viol (dense (sp_clb P) i) (lin P (dense (si_c it)) cs d i) (dense (sp_cub P) i)).
    { intros i Hi. destruct (cert_row P HP T HT it cs r g p (sc_def s) sol DL Hcs DB LD i Hi) as (R1 & R2 & _). destruct (cert_bound P HP T HT it cs r g p (sc_def s) sol DL Hcs LD i Hi) as (B1 & B2 & B3).
      destruct (Hrows i Hi) as (Q1 & Q2 & Q3 & Q4). destruct (po_c P HP i Hi) as (Hlu & _).
      apply (row_gain _ _ _ _ _ _ (sl P y i) (su P y i)); auto. }
    assert (Hg : forall e, sumd n (fun j => grad g j * e j) = sumd n (fun j => nth0 (ls_z sol) j * e j) + sumd m (fun i => nth0 (ls_y sol) i * (lin P (dense (si_c it)) cs e i - dense (si_c it) i))).
    { intros e. transitivity (sumd n (fun j => nth0 (ls_z sol) j * e j + sumd m (fun i => mR cs i j * nth0 (ls_y sol) i * e j))).
      - apply sumd_ext. intros j Hj. rewrite (cert_z P HP T it cs r g p (sc_def s) sol DL Hcs LD j Hj). rewrite (sumd_ext m (fun i => mR cs i j * nth0 (ls_y sol) i * e j) (fun i => e j * (mR cs i j * nth0 (ls_y sol) i))) by (intros i Hi; ring). rewrite sumd_scal. ring.
      - rewrite sumd_plus. f_equal. rewrite sumd_swap. apply sumd_ext. intros i Hi. unfold lin. replace (dense (si_c it) i + sumd n (fun j => mR cs i j * e j) - dense (si_c it) i) with (sumd n (fun j => mR cs i j * e j)) by ring.
        rewrite <- sumd_scal. apply sumd_ext. intros j Hj. ring. }
    unfold model, merit_model, lin_viol. rewrite !Hg, <- !sumd_scal.
    assert (S1 : sumd n (fun j => nth0 (ls_z sol) j * y j) <= sumd n (fun j => nth0 (ls_z sol) j * d j)) by (apply sumd_le; exact Hvar).
    assert (S2 : sumd m (fun i => nth0 (ls_y sol) i * (lin P (dense (si_c it)) cs y i - dense (si_c it) i) + p * viol (dense (sp_clb P) i) (lin P (dense (si_c it)) cs y i) (dense (sp_cub P) i))
       <= sumd m (fun i => nth0 (ls_y sol) i * (lin P (dense (si_c it)) cs d i - dense (si_c it) i) + p * viol (dense (sp_clb P) i) (lin P (dense (si_c it)) cs d i) (dense (sp_cub P) i))).
    { apply sumd_le. intros i Hi. specialize (Hrow i Hi). lra. }
    rewrite !sumd_plus in S2. lra.
  - intros Hb. apply negb_false_iff, orb_true_iff in Hb. destruct Hb as [Hb|Hb].
    + left. unfold lin_viol. apply sumd_zero. intros i Hi. rewrite forallb_forall in Hb. specialize (Hb i (proj2 (zrange_In m i) Hi)).
      assert (Hq : forall q, (n <= q < n + 2 * m)%Z -> nthb (ls_vs sol) q = BLower -> y q = 0).
      { intros q Hq Eq. pose proof (def_slack P HP T it cs r g p (sc_def s) sol DL Hcs DB q Hq) as Q. rewrite Eq in Q. apply Q. }
      assert (HZ : sl P y i = 0 /\ su P y i = 0).
      { unfold zero_slack in Hb. apply orb_true_iff in Hb. destruct Hb as [Hb|Hb].
        - assert (Hbas : nthb (ls_cs sol) i = BBasic) by (destruct (nthb (ls_cs sol) i); (reflexivity || discriminate)).
          assert (Hk : forall q, (n <= q < n + 2 * m)%Z -> (q = n + i \/ q = n + m + i)%Z -> y q = 0).
          { intros q Hqr Hqi. destruct (def_lower P HP T HT it cs r g p (sc_def s) sol DL Hcs DB Hr q Hqr) as [El|Eb]; [now apply Hq|]. exfalso.
            set (v := fun j => if (j =? q)%Z then 1 else 0). assert (H0 : v q = 0); [|unfold v in H0; rewrite Z.eqb_refl in H0; lra].
            apply (rb_cols _ _ _ RB v); [| |rewrite (dl_nv _ _ _ _ _ _ _ DL); lia].
            - intros j _ Hj. unfold v. destruct (Z.eqb_spec j q) as [E3|_]; [congruence|reflexivity].
            - intros k Hk Hnb. rewrite (dl_nc _ _ _ _ _ _ _ DL) in Hk. assert (k <> i) by congruence. rewrite (default_row P HP cs Hcs (sc_def s)) by (apply DL || lia). rewrite sumd_zero.
              2:{ intros j Hj. unfold v. destruct (Z.eqb_spec j q) as [E3|_]; [lia|]. apply Rmult_0_r. }
              unfold sl, su, v. destruct (Z.eqb_spec (n + k) q) as [e1|e1]; destruct (Z.eqb_spec (n + m + k) q) as [e2|e2]; try lia; lra. }
          split; apply Hk; lia.
        - apply andb_true_iff in Hb. destruct Hb as [H1 H2]. split; apply Hq; try lia; [destruct (nthb (ls_vs sol) (n + i))|destruct (nthb (ls_vs sol) (n + m + i))]; (reflexivity || discriminate). }
      destruct HZ as [Z1 Z2]. destruct (Hrows i Hi) as (_ & _ & Q3 & Q4). fold y in Q3, Q4. rewrite Z1, Z2 in Q3, Q4. unfold viol.
      destruct (Rlt_dec _ _) as [A|A]; [specialize (Q3 A); rewrite Rmax_left by lra|]; (destruct (Rlt_dec _ hi) as [B|B]; [specialize (Q4 B); rewrite Rmax_left by lra|]); lra.
    + right. apply existsb_exists in Hb. destruct Hb as (j & Hj & Hb). apply zrange_In in Hj. exists j. split; [exact Hj|]. unfold tr_at in Hb. destruct (is_eq _ _ _); [discriminate|].
      pose proof (def_var P HP T it cs r g p (sc_def s) sol DL DB j Hj) as Hat. change (nth0 (ls_x sol) j) with (y j) in Hat.
      destruct (nthb (ls_vs sol) j) eqn:Eb in Hb, Hat; cbn [at_bound bstat_eqb andb] in Hb, Hat; try discriminate.
      * destruct (@nleb RN r _) eqn:El in Hb; [|discriminate]. apply rn_leb in El. destruct Hat as [-> _]. destruct (vlo_cases P it r j) as [V|[V1 V2]]; [rewrite V, Rabs_Ropp; apply Rabs_right; lra|].
        revert V2. unfold vlo. destruct (@is_infinite RN _) eqn:Ei; [intros; rewrite Rabs_Ropp; apply Rabs_right; lra|]. intros V2. rewrite Rmax_right by lra. rewrite Rabs_Ropp. apply Rabs_right; lra.
      * apply rn_leb in Hb. destruct Hat as [-> _]. destruct (vup_cases P it r j) as [V|[V1 V2]]; [rewrite V; apply Rabs_right; lra|].
        revert V2. unfold vup. destruct (@is_infinite RN _) eqn:Ei; [intros; apply Rabs_right; lra|]. intros V2. rewrite Rmin_right by lra. apply Rabs_right; lra.
Qed.

(** For the LP of the feasibility phase, without objective: if its step violates the linearised
    constraints and the answer is positive, no step satisfies them. *)
Theorem C78_infeasible s it cs r p sol s' : reach P solver T cs0 s (PSolved it cs r None p) -> sc_reduced s = false ->
  li_sol (sc_def s) = Some sol -> regular_basis (sc_def s) (cs ++ @slack_cols RN m) sol -> lp_duals T (sc_def s) (cs ++ @slack_cols RN m) sol ->
  far P it r -> narrow P r -> 0 < p -> sc_locally_infeasible P s = Ok (s', true) ->
  0 < lin_viol P (dense (si_c it)) cs (nth0 (ls_x sol)) ->
  ~ exists d, within P (dense (si_x it)) d /\ forall i, (0 <= i < m)%Z ->
      (- hi < dense (sp_clb P) i -> dense (sp_clb P) i <= lin P (dense (si_c it)) cs d i) /\ (dense (sp_cub P) i < hi -> lin P (dense (si_c it)) cs d i <= dense (sp_cub P) i).
Proof.
  intros HR Rd Hs RB LD Hfar Hnar Hp E Hv (d & Hd & Hc).
  destruct (C78_answer s it cs r None p sol HR Rd Hs RB LD Hfar Hnar) as (s1 & b & E1 & _ & Hb & _). assert (b = true) as -> by congruence. specialize (Hb eq_refl d Hd).
  unfold merit_model in Hb. rewrite !sumd_zero in Hb by (intros j Hj; unfold grad; lra).
  assert (Hz : lin_viol P (dense (si_c it)) cs d = 0).
  { unfold lin_viol. apply sumd_zero. intros i Hi. destruct (Hc i Hi) as [Q3 Q4]. unfold viol.
    destruct (Rlt_dec _ _) as [A|A]; [specialize (Q3 A); rewrite Rmax_left by lra|]; (destruct (Rlt_dec _ hi) as [B|B]; [specialize (Q4 B); rewrite Rmax_left by lra|]); lra. }
  rewrite Hz in Hb. pose proof (Rmult_lt_0_compat _ _ Hp Hv). lra.
Qed.
End Props.
Print Assumptions C78_answer.
Print Assumptions C78_infeasible.

(** *** One variable at its upper bound 0, one equation with value [v], solved without objective *)
Definition kP (v : R) : @sprob RN := @mksp RN 1 1 (e1 (-10)) (e1 0) (e1 v) (e1 v) true 0 0 true true.
Definition ksol (v : R) : @lpsol RN := @mksol RN true (3 * v) [0; v; 0] [BUpper; BBasic; BLower] [BLower] [-3; 0; 6] [3].
Lemma k_states v : v = 0 \/ v = 1 -> exists s, sc_create (kP v) ea [BZero;BZero;BZero] [BZero] [0;0;0] [0;0;0;0] = Ok s
  /\ exists s1, sc_set_iterate (kP v) s fit 1 = Ok s1 /\ exists s2, sc_solve (fsolver (ksol v)) (kP v) s1 None 3 TFeas = Ok s2 /\ sc_reduced s2 = false /\ li_sol (sc_def s2) = Some (ksol v).
Proof.
  intros [-> | ->].
  - eexists. split; [leaf|]. eexists. split; [ev scu|]. eexists. split.
    { unfold sc_solve. eapply rbind_step; [leaf|]. cbv beta zeta. eapply rbind_step.
      { change (sp_warm (kP 0)) with true. cbv iota. unfold restore_basis. eapply if_step; [leaf|]. cbv iota. eapply if_step; [leaf|]. cbv iota.
        eapply rbind_step; [unfold set_slack_basis; eapply rbind_step; [ev scu|leaf]|]. leaf. }
      cbv beta. unfold lpi_solve, fsolver. cbn [rbind snd]. change (ls_opt (ksol 0)) with true. cbn [rbind]. change (sp_resolves (kP 0) && otype_eqb TFeas TDefault) with false. cbv iota. reflexivity. }
    split; reflexivity.
  - eexists. split; [leaf|]. eexists. split; [ev scu|]. eexists. split.
    { unfold sc_solve. eapply rbind_step; [leaf|]. cbv beta zeta. eapply rbind_step.
      { change (sp_warm (kP 1)) with true. cbv iota. unfold restore_basis. eapply if_step; [leaf|]. cbv iota. eapply if_step; [leaf|]. cbv iota.
        eapply rbind_step; [unfold set_slack_basis; eapply rbind_step; [ev scu|leaf]|]. leaf. }
      cbv beta. unfold lpi_solve, fsolver. cbn [rbind snd]. change (ls_opt (ksol 1)) with true. cbn [rbind]. change (sp_resolves (kP 1) && otype_eqb TFeas TDefault) with false. cbv iota. reflexivity. }
    split; reflexivity.
Qed.
Section K.
Variable v : R.
Hypothesis Hv : v = 0 \/ v = 1.
Lemma kP_ok : prob_ok (kP v).
Proof.
  pose proof hi_big. assert (0 <= v <= 1) by lra. constructor; try apply e1_ok; cbn [kP sp_nv sp_nc sp_vlb sp_vub sp_clb sp_cub]; try lia.
  - intros j Hj. apply zero1 in Hj as ->. rewrite !e1_at. lra.
  - intros j Hj. apply zero1 in Hj as ->. rewrite !e1_at. split; [lra|]. split; [lra|]. split; [lra|]. split; right; rewrite Rabs_right by lra; lra.
Qed.
Lemma kit_ok : iter_ok (kP v) fit ecs.
Proof.
  pose proof hi_big. constructor; try apply e1_ok; cbn [kP fit sp_nv sp_nc sp_vlb sp_vub sp_clb sp_cub si_x si_c si_jac]; try reflexivity.
  - intros j Hj. apply zero1 in Hj as ->. rewrite !e1_at, Rabs_R0. lra.
  - intros j Hj. apply zero1 in Hj as ->. rewrite !e1_at, Rabs_R0. lra.
  - exact (io_s _ _ _ eit_ok).
Qed.
Lemma k_lin y : lin (kP v) (dense (si_c fit)) ecs y 0 = y 0%Z.
Proof. unfold lin. change (sp_nv (kP v)) with 1%Z. rewrite sumd1. cbn [fit si_c]. rewrite e1_at. change (mR ecs 0 0) with 1. lra. Qed.
Lemma k_vup : vup (kP v) (dense (si_x fit)) 1 0 = 0.
Proof. unfold vup. cbn [kP sp_vub fit si_x]. rewrite !e1_at, einf by lra. rewrite Rmin_left by lra. lra. Qed.
Lemma k_clo : clo (kP v) (dense (si_c fit)) 0 = v.
Proof. pose proof hi_big. unfold clo. cbn [kP sp_clb fit si_c]. rewrite !e1_at. destruct (@is_infinite RN _) eqn:Ei; [apply rn_is_infinite in Ei; lra|]. lra. Qed.
Lemma k_cup : cup (kP v) (dense (si_c fit)) 0 = v.
Proof. pose proof hi_big. unfold cup. cbn [kP sp_cub fit si_c]. rewrite !e1_at. destruct (@is_infinite RN _) eqn:Ei; [apply rn_is_infinite in Ei; lra|]. lra. Qed.
Lemma k_right L : default_lp (kP v) L (dense (si_x fit)) (dense (si_c fit)) (grad None) 1 3 ->
  lp_optimal hi L (ecs ++ @slack_cols RN 1) (ksol v) /\ lp_base hi L (ecs ++ @slack_cols RN 1) (ksol v) /\ lp_duals hi L (ecs ++ @slack_cols RN 1) (ksol v).
Proof.
  intros HL. pose proof hi_big as Hh. pose proof (iter_facts (kP v) fit ecs kit_ok) as (H1 & H2 & H3).
  assert (HT : hi <= hi <= 2 * hi) by lra. assert (Hr : 0 < 1 < hi) by lra.
  pose proof (fun y => default_feasible (kP v) kP_ok hi HT _ _ _ 1 3 ecs Hr H1 H2 H3 L y HL) as HF.
  assert (HV' : forall y, lp_value L y = 3 * (y 1%Z + y 2%Z)).
  { intros q. rewrite (default_value (kP v) kP_ok _ _ _ 1 3 ecs H3 L q HL). unfold slacks, sl, su. change (sp_nv (kP v)) with 1%Z. change (sp_nc (kP v)) with 1%Z. rewrite !sumd1. unfold grad. change (1 + 0)%Z with 1%Z. change (1 + 1 + 0)%Z with 2%Z. lra. }
  assert (Hs : forall q, sl (kP v) q 0 = q 1%Z /\ su (kP v) q 0 = q 2%Z) by (intros; split; reflexivity).
  assert (X0 : nth0 (ls_x (ksol v)) 0 = 0) by reflexivity. assert (X1 : nth0 (ls_x (ksol v)) 1 = v) by reflexivity. assert (X2 : nth0 (ls_x (ksol v)) 2 = 0) by reflexivity.
  assert (Hrow : lp_row L (ecs ++ @slack_cols RN 1) (nth0 (ls_x (ksol v))) 0 = v).
  { rewrite (default_row (kP v) kP_ok ecs H3 L) by (apply HL || (cbn; lia)). change (sp_nv (kP v)) with 1%Z. rewrite sumd1. destruct (Hs (nth0 (ls_x (ksol v)))) as [-> ->]. rewrite X0, X1, X2. lra. }
  split; [constructor; try reflexivity|split].
  - now rewrite (dl_nv _ _ _ _ _ _ _ HL).
  - now rewrite (dl_nv _ _ _ _ _ _ _ HL).
  - now rewrite (dl_nc _ _ _ _ _ _ _ HL).
  - now rewrite (dl_nv _ _ _ _ _ _ _ HL).
  - now rewrite (dl_nc _ _ _ _ _ _ _ HL).
  - apply HF. split.
    + intros j Hj. apply zero1 in Hj as ->. cbn [kP fit sp_vlb sp_vub si_x]. rewrite !e1_at, X0. rewrite Rabs_R0. lra.
    + intros i Hi. apply zero1 in Hi as ->. rewrite k_lin. cbn [kP sp_clb sp_cub]. destruct (Hs (nth0 (ls_x (ksol v)))) as [-> ->]. rewrite !e1_at, X0, X1, X2. lra.
  - rewrite HV', X1, X2. cbn [ksol ls_val]. lra.
  - intros q Hq. rewrite !HV', X1, X2. apply HF in Hq. destruct Hq as [Hx Hq]. specialize (Hq 0%Z ltac:(cbn; lia)). specialize (Hx 0%Z ltac:(cbn; lia)). rewrite k_lin in Hq.
    destruct (Hs q) as [E1 E2]. rewrite E1, E2 in Hq. cbn [kP sp_clb sp_cub sp_vlb sp_vub fit si_x] in Hq, Hx. rewrite !e1_at in Hq, Hx. destruct Hq as (V1 & V2 & V3 & _). destruct Hx as (_ & _ & V4). assert (- hi < v /\ 0 < hi) as [W1 W2] by (clear - Hv Hh; lra). specialize (V3 W1). specialize (V4 W2). lra.
  - split.
    + rewrite (dl_nv _ _ _ _ _ _ _ HL). intros j Hj. cbn in Hj.
      rewrite (nth0_arr _ _ _ _ (dl_vlb _ _ _ _ _ _ _ HL)) by (cbn; lia). rewrite (nth0_arr _ _ _ _ (dl_vub _ _ _ _ _ _ _ HL)) by (cbn; lia).
      destruct (three j Hj) as [-> | [-> | ->]].
      * change (at_bound hi BUpper (vlo (kP v) (dense (si_x fit)) 1 0) 0 (vup (kP v) (dense (si_x fit)) 1 0)). rewrite k_vup. cbn [at_bound]. lra.
      * exact I.
      * change (at_bound hi BLower 0 0 (2 * hi)). cbn [at_bound]. lra.
    + rewrite (dl_nc _ _ _ _ _ _ _ HL). intros i Hi. rewrite (nth0_arr _ _ _ _ (dl_clb _ _ _ _ _ _ _ HL)) by exact Hi. rewrite (nth0_arr _ _ _ _ (dl_cub _ _ _ _ _ _ _ HL)) by exact Hi.
      apply zero1 in Hi as ->. change (nthb (ls_cs (ksol v)) 0) with BLower. rewrite k_clo, Hrow. cbn [at_bound]. lra.
  - constructor; rewrite ?(dl_nv _ _ _ _ _ _ _ HL), ?(dl_nc _ _ _ _ _ _ _ HL).
    + intros j Hj. cbn in Hj. rewrite (nth0_arr _ _ _ _ (dl_obj _ _ _ _ _ _ _ HL)) by (cbn; lia). change (sp_nc (kP v)) with 1%Z. rewrite sumd1, f_entry by lia.
      change (nth0 (ls_y (ksol v)) 0) with 3. destruct (three j Hj) as [-> | [-> | ->]].
      * change (nth0 (ls_z (ksol v)) 0) with (-3). change (0 <? sp_nv (kP v))%Z with true. change (0 =? 2)%Z with false. cbv iota. unfold grad. lra.
      * change (nth0 (ls_z (ksol v)) 1) with 0. change (1 <? sp_nv (kP v))%Z with false. change (1 =? 2)%Z with false. cbv iota. lra.
      * change (nth0 (ls_z (ksol v)) 2) with 6. change (2 <? sp_nv (kP v))%Z with false. change (2 =? 2)%Z with true. cbv iota. lra.
    + intros j Hj. cbn in Hj. rewrite (nth0_arr _ _ _ _ (dl_vlb _ _ _ _ _ _ _ HL)) by (cbn; lia). rewrite (nth0_arr _ _ _ _ (dl_vub _ _ _ _ _ _ _ HL)) by (cbn; lia).
      destruct (three j Hj) as [-> | [-> | ->]].
      * change (nth0 (ls_z (ksol v)) 0) with (-3). change (0 <? sp_nv (kP v))%Z with true. cbv iota. rewrite k_vup, X0. change (nthb (ls_vs (ksol v)) 0) with BUpper. split; [lra|]. split; [lra|discriminate].
      * change (nth0 (ls_z (ksol v)) 1) with 0. split; [lra|]. split; [lra|reflexivity].
      * change (nth0 (ls_z (ksol v)) 2) with 6. change (2 <? sp_nv (kP v))%Z with false. cbv iota. rewrite X2. change (nthb (ls_vs (ksol v)) 2) with BLower. split; [lra|]. split; [lra|discriminate].
    + intros i Hi. rewrite (nth0_arr _ _ _ _ (dl_clb _ _ _ _ _ _ _ HL)) by exact Hi. rewrite (nth0_arr _ _ _ _ (dl_cub _ _ _ _ _ _ _ HL)) by exact Hi. cbn in Hi. apply zero1 in Hi as ->.
      change (nth0 (ls_y (ksol v)) 0) with 3. rewrite Hrow, k_clo. change (nthb (ls_cs (ksol v)) 0) with BLower. split; [lra|]. split; [lra|discriminate].
Qed.
Lemma k_reg L : li_nv L = 3%Z -> li_nc L = 1%Z -> regular_basis L (ecs ++ @slack_cols RN 1) (ksol v).
Proof.
  intros E3 E1. constructor; rewrite ?E3, ?E1.
  - intros a q Ha Hq He. pose proof (He 0%Z ltac:(lia)) as P0. pose proof (He 1%Z ltac:(lia)) as P1. pose proof (He 2%Z ltac:(lia)) as P2. rewrite sumd1 in P0, P1, P2. rewrite f_entry in P0, P1, P2 by lia. cbn [Z.eqb Pos.eqb] in P0, P1, P2.
    pose proof (Ha 1%Z ltac:(lia) eq_refl) as A1. split; intros j Hj; [destruct (three j Hj) as [-> | [-> | ->]]|apply zero1 in Hj as ->]; lra.
  - intros q Hq Hrow. pose proof (Hq 0%Z ltac:(lia) ltac:(discriminate)) as V0. pose proof (Hq 2%Z ltac:(lia) ltac:(discriminate)) as V2. specialize (Hrow 0%Z ltac:(lia) ltac:(discriminate)).
    unfold lp_row in Hrow. rewrite E3, sumd3, !f_entry in Hrow by lia. cbn [Z.eqb Pos.eqb] in Hrow. intros j Hj. destruct (three j Hj) as [-> | [-> | ->]]; lra.
Qed.
Lemma k_far : far (kP v) fit 1.
Proof. pose proof hi_big. intros j Hj. apply zero1 in Hj as ->. cbn [kP fit sp_vlb sp_vub si_x]. rewrite !e1_at. lra. Qed.
Lemma k_free : @is_eq RN (dense (sp_vlb (kP v)) 0) (dense (sp_vub (kP v)) 0) (sp_eps (kP v)) = false.
Proof. apply not_true_iff_false. intros G. cbn [kP sp_vlb sp_vub sp_eps] in G. rewrite !e1_at in G. apply rn_is_eq0 in G. lra. Qed.
Lemma k_narrow : narrow (kP v) 1.
Proof. intros j Hj G. apply zero1 in Hj as ->. rewrite k_free in G. discriminate. Qed.
Lemma k_viol : lin_viol (kP v) (dense (si_c fit)) ecs (nth0 (ls_x (ksol v))) = v.
Proof.
  pose proof hi_big. unfold lin_viol. change (sp_nc (kP v)) with 1%Z. rewrite sumd1, k_lin. change (nth0 (ls_x (ksol v)) 0) with 0. cbn [kP sp_clb sp_cub]. rewrite !e1_at. unfold viol.
  destruct (Rlt_dec (- hi) v), (Rlt_dec v hi); try lra. rewrite (Rmax_right 0 (v - 0)), (Rmax_left 0 (0 - v)) by lra. lra.
Qed.
(** The answer is positive for both values of the equation. *)
Lemma k_run : exists s s', reach (kP v) (fsolver (ksol v)) hi ecs s (PSolved fit ecs 1 None 3) /\ sc_reduced s = false /\ li_sol (sc_def s) = Some (ksol v)
  /\ regular_basis (sc_def s) (ecs ++ @slack_cols RN 1) (ksol v) /\ lp_duals hi (sc_def s) (ecs ++ @slack_cols RN 1) (ksol v)
  /\ sc_locally_infeasible (kP v) s = Ok (s', true).
Proof.
  pose proof hi_big as Hh. assert (HT : hi <= hi <= 2 * hi) by lra.
  destruct (k_states v Hv) as (s & E0 & s1 & E1 & s2 & E2 & Rd & S3).
  assert (R0 : reach (kP v) (fsolver (ksol v)) hi ecs s PFresh). { refine (reach_create (kP v) (fsolver (ksol v)) hi ecs ea _ _ _ _ s _ E0). repeat split. }
  assert (R1 : reach (kP v) (fsolver (ksol v)) hi ecs s1 (PSet fit ecs 1)). { apply (reach_iterate (kP v) (fsolver (ksol v)) hi ecs s PFresh); [exact R0|exact kit_ok|discriminate|lra|exact E1]. }
  pose proof (reach_inv (kP v) kP_ok (fsolver (ksol v)) hi ecs s1 _ R1) as [Hz Hy].
  destruct (solve_lps (kP v) kP_ok (fsolver (ksol v)) hi ecs fit ecs 1 None 3 s1 TFeas s2 Hz Hy I ltac:(lra) E2) as (D1 & (mt & M1 & M2) & _).
  destruct (k_right _ D1) as (O3 & B3 & U3).
  assert (HR : reach (kP v) (fsolver (ksol v)) hi ecs s2 (PSolved fit ecs 1 None 3)).
  { apply (reach_solve (kP v) (fsolver (ksol v)) hi ecs s1 _ fit ecs 1 _ 3 TFeas s2 R1); auto.
    - cbn. auto.
    - exact I.
    - lra.
    - exists mt, (ecs ++ @slack_cols RN 1), (ksol v). auto.
    - congruence. }
  destruct (C78_answer (kP v) kP_ok (fsolver (ksol v)) hi HT ecs s2 fit ecs 1 None 3 (ksol v) HR Rd S3 (k_reg _ (dl_nv _ _ _ _ _ _ _ D1) (dl_nc _ _ _ _ _ _ _ D1)) U3 k_far k_narrow) as (s' & b & E & _).
  exists s2, s'. split; [exact HR|]. split; [exact Rd|]. split; [exact S3|]. split; [apply k_reg; apply D1|]. split; [exact U3|]. rewrite E. do 2 f_equal.
  revert E. apply reach_inv in HR; [|exact kP_ok]. destruct (fetch_base_ok (kP v) kP_ok hi ecs fit ecs 1 _ 3 s2 HR) as (s3 & E3 & I1 & D2 & (vs1 & cst1 & Es)).
  assert (Hst : fe_vs (sc_fe s3) = ls_vs (ksol v) /\ fe_cs (sc_fe s3) = ls_cs (ksol v)).
  { pose proof I1 as (_ & _ & sol1 & Hv1 & [[_ [_ F]]|[Q _]]); [|rewrite Es in Q; cbn in Q; congruence]. pose proof (v_sol _ _ _ _ _ _ _ _ _ Hv1) as E4. rewrite Es in E4. cbn [set_fe sc_def] in E4. assert (sol1 = ksol v) as -> by congruence. exact (F D2). }
  destruct Hst as [Ev Ec]. pose proof I1 as (Hz1 & Hy1 & _). destruct HR as (_ & Hy2 & _). destruct (y_it _ _ _ _ _ _ Hy2) as (it' & Eit & Ex & _).
  unfold sc_locally_infeasible. rewrite Eit, Rd, E3. cbn [negb check rbind]. rewrite (y_r _ _ _ _ _ _ Hy1).
  assert (Hpos : @nltb RN (@n0 RN) 1 = true) by (rewrite rn_n0; apply rn_ltb; lra). rewrite Hpos. cbn [check rbind]. rewrite Ex.
  rewrite (trust_region_active_ok (kP v) kP_ok); [|apply (y_iter _ _ _ _ _ _ Hy1)|apply Hz1|rewrite Ev; intros j Hj; apply zero1 in Hj as ->; discriminate]. cbn [rbind].
  rewrite (feasible_direction_ok (kP v) kP_ok); [|apply Hz1|apply Hz1|rewrite Ev; intros i Hi; apply zero1 in Hi as ->; right; reflexivity]. cbn [rbind]. rewrite Ev, Ec.
  assert (A1 : existsb (tr_at (kP v) 1 (ls_vs (ksol v)) (dense (si_x fit))) (zrange (sp_nv (kP v))) = false).
  { change (zrange (sp_nv (kP v))) with [0%Z]. cbn [existsb]. rewrite orb_false_r. unfold tr_at. rewrite k_free. change (nthb (ls_vs (ksol v)) 0) with BUpper. cbn [bstat_eqb andb]. apply rn_leb_false. cbn [kP sp_vub fit si_x]. rewrite !e1_at. lra. }
  rewrite A1. change (forallb (zero_slack (kP v) (ls_vs (ksol v)) (ls_cs (ksol v))) (zrange (sp_nc (kP v)))) with false. intros [= _ <-]. reflexivity.
Qed.
End K.
(** The equation x = 1 cannot be reached from below the bound 0. *)
Example C78_example : exists s s', reach (kP 1) (fsolver (ksol 1)) hi ecs s (PSolved fit ecs 1 None 3) /\ sc_locally_infeasible (kP 1) s = Ok (s', true)
  /\ ~ exists d, within (kP 1) (dense (si_x fit)) d /\ lin (kP 1) (dense (si_c fit)) ecs d 0 = 1.
Proof.
  destruct (k_run 1 (or_intror eq_refl)) as (s & s' & HR & Rd & Hs & RB & LD & E). pose proof hi_big as Hh. assert (HT : hi <= hi <= 2 * hi) by lra. exists s, s'. split; [exact HR|]. split; [exact E|].
  intros (d & Hd & Hl). refine (C78_infeasible (kP 1) (kP_ok 1 (or_intror eq_refl)) (fsolver (ksol 1)) hi HT ecs s fit ecs 1 3 (ksol 1) s' HR Rd Hs RB LD (k_far 1) (k_narrow 1) ltac:(lra) E _ (ex_intro _ d (conj Hd _))).
  - rewrite (k_viol 1 (or_intror eq_refl)). lra.
  - intros i Hi. apply zero1 in Hi as ->. rewrite Hl. cbn [kP sp_clb sp_cub]. rewrite !e1_at. lra.
Qed.
(** A slack variable in the basis counts as a violation even if its value is zero: the answer is
    positive although the iterate satisfies the constraint. *)
Theorem C78_degenerate_refuted : exists P solver s it cs r p sol s', prob_ok P /\ reach P solver hi cs s (PSolved it cs r None p) /\ sc_reduced s = false
  /\ li_sol (sc_def s) = Some sol /\ regular_basis (sc_def s) (cs ++ @slack_cols RN (sp_nc P)) sol /\ lp_duals hi (sc_def s) (cs ++ @slack_cols RN (sp_nc P)) sol
  /\ far P it r /\ narrow P r /\ sc_locally_infeasible P s = Ok (s', true)
  /\ lin_viol P (dense (si_c it)) cs (nth0 (ls_x sol)) = 0 /\ lin_viol P (dense (si_c it)) cs (fun _ => 0) = 0.
Proof.
  destruct (k_run 0 (or_introl eq_refl)) as (s & s' & HR & Rd & Hs & RB & LD & E).
  exists (kP 0), (fsolver (ksol 0)), s, fit, ecs, 1, 3, (ksol 0), s'. split; [exact (kP_ok 0 (or_introl eq_refl))|]. split; [exact HR|]. split; [exact Rd|]. split; [exact Hs|]. split; [exact RB|]. split; [exact LD|].
  split; [exact (k_far 0)|]. split; [exact (k_narrow 0)|]. split; [exact E|]. pose proof (k_viol 0 (or_introl eq_refl)) as Q. split; [exact Q|]. rewrite <- Q at 2.
  unfold lin_viol. change (sp_nc (kP 0)) with 1%Z. rewrite !sumd1, !k_lin. reflexivity.
Qed.
Print Assumptions C78_degenerate_refuted.
