(** The LP that standard_cauchy.c hands to the solver, over exact arithmetic, and the states
    that a sequence of calls can reach. *)
From Coq Require Import Reals Lra.
From Verif Require Import Base Num Cmp Sparse Vec VecFacts VecFacts2 VecReal RSum Mat MatFacts MatFacts2 MatFacts3 MatFacts4 Arr Gauss PreprocReal QnReal WorkingSet WorkingSetFacts Cauchy CauchyFacts StdCauchy StdCauchyFacts.
Local Open Scope R_scope.

(** Component of an array *)
Definition nth0 (l : list R) (j : Z) : R := nth (Z.to_nat j) l 0.

(** Neither close to the threshold of infinity nor subject to reaching it by a difference *)
Definition modest (r : R) : Prop := hi <= Rabs r \/ Rabs r < hi / 2.

Record prob_ok (P : @sprob RN) : Prop := {
  po_n : (0 <= sp_nv P)%Z; po_m : (0 <= sp_nc P)%Z;
  po_vl : vok (sp_nv P) (sp_vlb P); po_vu : vok (sp_nv P) (sp_vub P);
  po_cl : vok (sp_nc P) (sp_clb P); po_cu : vok (sp_nc P) (sp_cub P);
  po_v : forall j, (0 <= j < sp_nv P)%Z ->
    dense (sp_vlb P) j <= dense (sp_vub P) j /\ dense (sp_vlb P) j < hi /\ - hi < dense (sp_vub P) j;
  po_c : forall i, (0 <= i < sp_nc P)%Z ->
    dense (sp_clb P) i <= dense (sp_cub P) i /\ dense (sp_clb P) i < hi /\ - hi < dense (sp_cub P) i
    /\ modest (dense (sp_clb P) i) /\ modest (dense (sp_cub P) i) }.

Record iter_ok (P : @sprob RN) (it : @siter RN) (cs : list (list (Z * R))) : Prop := {
  io_x : vok (sp_nv P) (si_x it); io_c : vok (sp_nc P) (si_c it);
  io_in : forall j, (0 <= j < sp_nv P)%Z -> dense (sp_vlb P) j <= dense (si_x it) j <= dense (sp_vub P) j /\ Rabs (dense (si_x it) j) < hi;
  io_cv : forall i, (0 <= i < sp_nc P)%Z -> Rabs (dense (si_c it) i) < hi / 2;
  io_s : stores (si_jac it) cs; io_jc : mnc (si_jac it) = sp_nv P; io_jr : mnr (si_jac it) = sp_nc P }.

(** ** What is minimised *)

(** The steps allowed: in the trust region and within the bounds that are finite *)
Definition step_ok (P : @sprob RN) (x : Z -> R) (r : R) (d : Z -> R) : Prop :=
  forall j, (0 <= j < sp_nv P)%Z -> Rabs (d j) <= r
    /\ (- hi < dense (sp_vlb P) j -> dense (sp_vlb P) j <= x j + d j)
    /\ (dense (sp_vub P) j < hi -> x j + d j <= dense (sp_vub P) j).

(** Violation of bounds, of which those beyond the threshold do not count *)
Definition viol (l v u : R) : R :=
  (if Rlt_dec (- hi) l then Rmax 0 (l - v) else 0) + (if Rlt_dec u hi then Rmax 0 (v - u) else 0).
(** Linearised constraint *)
Definition lin (P : @sprob RN) (c : Z -> R) (cs : list (list (Z * R))) (d : Z -> R) (i : Z) : R :=
  c i + sumd (sp_nv P) (fun j => mR cs i j * d j).
Definition lin_viol (P : @sprob RN) (c : Z -> R) (cs : list (list (Z * R))) (d : Z -> R) : R :=
  sumd (sp_nc P) (fun i => viol (dense (sp_clb P) i) (lin P c cs d i) (dense (sp_cub P) i)).
(** Linear model of the merit function, without the objective value *)
Definition merit_model (P : @sprob RN) (g c : Z -> R) (cs : list (list (Z * R))) (p : R) (d : Z -> R) : R :=
  sumd (sp_nv P) (fun j => g j * d j) + p * lin_viol P c cs d.

(** ** Linear programs; a solver takes a bound of absolute value [T] and more as infinite *)
Definition inside (T l v u : R) : Prop := (- T < l -> l <= v) /\ (u < T -> v <= u).
Definition lp_row (L : @lpi RN) (cs : list (list (Z * R))) (x : Z -> R) (i : Z) : R := sumd (li_nv L) (fun j => mR cs i j * x j).
Definition lp_feasible (T : R) (L : @lpi RN) (cs : list (list (Z * R))) (x : Z -> R) : Prop :=
  (forall j, (0 <= j < li_nv L)%Z -> inside T (nth0 (li_vlb L) j) (x j) (nth0 (li_vub L) j))
  /\ (forall i, (0 <= i < li_nc L)%Z -> inside T (nth0 (li_clb L) i) (lp_row L cs x i) (nth0 (li_cub L) i)).
Definition lp_value (L : @lpi RN) (x : Z -> R) : R := sumd (li_nv L) (fun j => nth0 (li_obj L) j * x j).

(** An optimal solution, and its base states *)
Record lp_optimal (T : R) (L : @lpi RN) (cs : list (list (Z * R))) (sol : @lpsol RN) : Prop := {
  lo_x : length (ls_x sol) = Z.to_nat (li_nv L);
  lo_vs : length (ls_vs sol) = Z.to_nat (li_nv L); lo_cs : length (ls_cs sol) = Z.to_nat (li_nc L);
  lo_z : length (ls_z sol) = Z.to_nat (li_nv L); lo_y : length (ls_y sol) = Z.to_nat (li_nc L);
  lo_feas : lp_feasible T L cs (nth0 (ls_x sol));
  lo_val : ls_val sol = lp_value L (nth0 (ls_x sol));
  lo_min : forall x, lp_feasible T L cs x -> lp_value L (nth0 (ls_x sol)) <= lp_value L x }.

Definition nthb (l : list bstat) (j : Z) : bstat := nth (Z.to_nat j) l BZero.
(** Value and bounds of a variable or a row with base state [b] *)
Definition at_bound (T : R) (b : bstat) (l v u : R) : Prop :=
  match b with
  | BLower => v = l /\ - T < l
  | BUpper => v = u /\ u < T
  | BBasic => True
  | BZero => v = 0 /\ l <= - T /\ T <= u
  end.
Definition lp_base (T : R) (L : @lpi RN) (cs : list (list (Z * R))) (sol : @lpsol RN) : Prop :=
  (forall j, (0 <= j < li_nv L)%Z -> at_bound T (nthb (ls_vs sol) j) (nth0 (li_vlb L) j) (nth0 (ls_x sol) j) (nth0 (li_vub L) j))
  /\ (forall i, (0 <= i < li_nc L)%Z -> at_bound T (nthb (ls_cs sol) i) (nth0 (li_clb L) i) (lp_row L cs (nth0 (ls_x sol)) i) (nth0 (li_cub L) i)).

(** The last solution of the interface is a right answer. *)
Definition right (T : R) (L : @lpi RN) : Prop :=
  exists mt cs sol, li_mat L = Some mt /\ stores mt cs /\ li_sol L = Some sol /\ lp_optimal T L cs sol /\ lp_base T L cs sol.

(** ** The arrays *)
Section Setup.
Variable P : @sprob RN.
Hypothesis HP : prob_ok P.
Notation n := (sp_nv P).
Notation m := (sp_nc P).

Definition vlo (x : Z -> R) (r : R) (j : Z) : R :=
  if @is_infinite RN (- dense (sp_vlb P) j) then - r else Rmax (dense (sp_vlb P) j - x j) (- r).
Definition vup (x : Z -> R) (r : R) (j : Z) : R :=
  if @is_infinite RN (dense (sp_vub P) j) then r else Rmin (dense (sp_vub P) j - x j) r.
Definition clo (c : Z -> R) (i : Z) : R :=
  if @is_infinite RN (- dense (sp_clb P) i) then - (2 * hi) else dense (sp_clb P) i - c i.
Definition cup (c : Z -> R) (i : Z) : R :=
  if @is_infinite RN (dense (sp_cub P) i) then 2 * hi else dense (sp_cub P) i - c i.

Lemma not_infinite (x : R) : x < hi -> @is_infinite RN x = false.
Proof. intros H. destruct (@is_infinite RN x) eqn:E; [|reflexivity]. apply rn_is_infinite in E. lra. Qed.

Lemma vlo_le x r j d : vlo x r j <= d <-> - r <= d /\ (- hi < dense (sp_vlb P) j -> dense (sp_vlb P) j <= x j + d).
Proof.
  unfold vlo. destruct (@is_infinite RN _) eqn:E.
  - apply rn_is_infinite in E. split; [intros H; split; [exact H|intros; lra]|tauto].
  - apply not_true_iff_false in E. rewrite rn_is_infinite in E. split.
    + intros H. pose proof (Rmax_l (dense (sp_vlb P) j - x j) (- r)). pose proof (Rmax_r (dense (sp_vlb P) j - x j) (- r)). split; [lra|intros; lra].
    + intros [H1 H2]. apply Rmax_lub; [|exact H1]. specialize (H2 ltac:(lra)). lra.
Qed.
Lemma vup_ge x r j d : d <= vup x r j <-> d <= r /\ (dense (sp_vub P) j < hi -> x j + d <= dense (sp_vub P) j).
Proof.
  unfold vup. destruct (@is_infinite RN _) eqn:E.
  - apply rn_is_infinite in E. split; [intros H; split; [exact H|intros; lra]|tauto].
  - apply not_true_iff_false in E. rewrite rn_is_infinite in E. split.
    + intros H. pose proof (Rmin_l (dense (sp_vub P) j - x j) r). pose proof (Rmin_r (dense (sp_vub P) j - x j) r). split; [lra|intros; lra].
    + intros [H1 H2]. apply Rmin_glb; [|exact H1]. specialize (H2 ltac:(lra)). lra.
Qed.

Lemma var_bounds_ok (it : @siter RN) cs r (a : @lparr RN) nl f g : iter_ok P it cs -> 0 < r -> (n <= nl)%Z ->
  arr (la_vlb a) nl f -> arr (la_vub a) nl g ->
  exists a', @create_var_bounds RN P r it a = Ok a' /\ la_obj a' = la_obj a /\ la_clb a' = la_clb a /\ la_cub a' = la_cub a
    /\ arr (la_vlb a') nl (fun j => if (j <? n)%Z then vlo (dense (si_x it)) r j else f j)
    /\ arr (la_vub a') nl (fun j => if (j <? n)%Z then vup (dense (si_x it)) r j else g j).
Proof.
  intros Hi Hr Hnl Hl Hu. unfold create_var_bounds. rewrite (proj2 (rn_ltb _ _)) by (rewrite rn_n0; exact Hr). cbn [check rbind].
  match goal with |- context [rfold ?b ?s0 _] => set (body := b); set (s0' := s0) end.
  destruct (zrange_loop (fun j (s : list (Z * @num RN) * list (Z * @num RN) * list (Z * @num RN) * list (@num RN) * list (@num RN)) => let '(lx, ll, lu, vlb, vub) := s in
      synced j lx (si_x it) /\ synced j ll (sp_vlb P) /\ synced j lu (sp_vub P)
      /\ arr vlb nl (fun k => if (k <? j)%Z then vlo (dense (si_x it)) r k else f k)
      /\ arr vub nl (fun k => if (k <? j)%Z then vup (dense (si_x it)) r k else g k)) body n s0') as (s' & E & Hs').
  - apply HP.
  - cbn. split; [apply synced_start|]. split; [apply synced_start|]. split; [apply synced_start|].
    split; [apply (arr_ext _ _ _ _ Hl)|apply (arr_ext _ _ _ _ Hu)]; intros k Hk; destruct (Z.ltb_spec k 0); auto; lia.
  - intros j [[[[lx ll] lu] vlb] vub] Hj (S1 & S2 & S3 & A1 & A2). unfold body.
    rewrite !(synced_head _ _ _ S1), !(synced_head _ _ _ S2), !(synced_head _ _ _ S3) by (apply HP || apply Hi).
    destruct (po_v P HP j Hj) as (B1 & B2 & B3). destruct (io_in P it cs Hi j Hj) as (B4 & B5).
    rewrite (not_infinite _ B2). rewrite (not_infinite (@nopp RN (dense (sp_vub P) j))) by (change (@nopp RN) with Ropp; lra).
    rewrite (proj2 (rn_is_finite _) B5). cbn [negb check rbind].
    rewrite rn_min, rn_max.
    match goal with |- context [arr_set vub j ?t] => change t with (vup (dense (si_x it)) r j) end.
    match goal with |- context [arr_set vlb j ?t] => change t with (vlo (dense (si_x it)) r j) end.
    destruct (arr_set_arr vub nl _ j (vup (dense (si_x it)) r j) A2 ltac:(lia)) as (vub' & E2 & A2').
    destruct (arr_set_arr vlb nl _ j (vlo (dense (si_x it)) r j) A1 ltac:(lia)) as (vlb' & E1 & A1').
    rewrite E2. cbn [rbind]. rewrite E1. cbn [rbind].
    rewrite (proj2 (rn_leb _ _)).
    2:{ apply Rle_trans with 0; [apply vlo_le|apply vup_ge]; split; try lra; intros; lra. }
    cbn [check rbind]. eexists. split; [reflexivity|].
    split; [now apply synced_next|]. split; [now apply synced_next|]. split; [now apply synced_next|].
    split; [apply (arr_ext _ _ _ _ A1')|apply (arr_ext _ _ _ _ A2')]; intros k Hk; unfold upd;
      destruct (Z.eqb_spec k j), (Z.ltb_spec k j), (Z.ltb_spec k (j + 1)); subst; auto; lia.
  - rewrite E. cbn [rbind]. destruct s' as [[[[lx ll] lu] vlb] vub]. destruct Hs' as (_ & _ & _ & A1 & A2).
    eexists. split; [reflexivity|]. cbn [la_obj la_clb la_cub la_vlb la_vub]. auto.
Qed.

Lemma cons_bounds_ok (it : @siter RN) cs (a : @lparr RN) : iter_ok P it cs ->
  length (la_clb a) = Z.to_nat m -> length (la_cub a) = Z.to_nat m ->
  exists a', @create_cons_bounds RN P it a = Ok a' /\ la_obj a' = la_obj a /\ la_vlb a' = la_vlb a /\ la_vub a' = la_vub a
    /\ arr (la_clb a') m (clo (dense (si_c it))) /\ arr (la_cub a') m (cup (dense (si_c it))).
Proof.
  intros Hi Hl Hu. unfold create_cons_bounds.
  pose proof (arr_of 0 _ _ Hl) as Al. pose proof (arr_of 0 _ _ Hu) as Au.
  set (f := fun j => nth (Z.to_nat j) (la_clb a) 0) in Al. set (g := fun j => nth (Z.to_nat j) (la_cub a) 0) in Au.
  match goal with |- context [rfold ?b ?s0 _] => set (body := b); set (s0' := s0) end.
  destruct (zrange_loop (fun j (s : list (Z * @num RN) * list (Z * @num RN) * list (Z * @num RN) * list (@num RN) * list (@num RN)) => let '(lc, ll, lu, clb, cub) := s in
      synced j lc (si_c it) /\ synced j ll (sp_clb P) /\ synced j lu (sp_cub P)
      /\ arr clb m (fun k => if (k <? j)%Z then clo (dense (si_c it)) k else f k)
      /\ arr cub m (fun k => if (k <? j)%Z then cup (dense (si_c it)) k else g k)) body m s0') as (s' & E & Hs').
  - apply HP.
  - cbn. split; [apply synced_start|]. split; [apply synced_start|]. split; [apply synced_start|].
    split; [apply (arr_ext _ _ _ _ Al)|apply (arr_ext _ _ _ _ Au)]; intros k Hk; destruct (Z.ltb_spec k 0); auto; lia.
  - intros j [[[[lc ll] lu] clb] cub] Hj (S1 & S2 & S3 & A1 & A2). unfold body.
    rewrite !(synced_head _ _ _ S1), !(synced_head _ _ _ S2), !(synced_head _ _ _ S3) by (apply HP || apply Hi).
    destruct (po_c P HP j Hj) as (B1 & B2 & B3 & B6 & B7). pose proof (io_cv P it cs Hi j Hj) as B5. pose proof hi_pos as Hh.
    rewrite (not_infinite _ B2). rewrite (not_infinite (@nopp RN (dense (sp_cub P) j))) by (change (@nopp RN) with Ropp; lra).
    rewrite (proj2 (rn_is_finite _)) by (eapply Rlt_trans; [exact B5|lra]). cbn [negb check rbind].
    rewrite rn_inf.
    match goal with |- context [arr_set cub j ?t] => change t with (cup (dense (si_c it)) j) end.
    match goal with |- context [arr_set clb j ?t] => change t with (clo (dense (si_c it)) j) end.
    destruct (arr_set_arr cub m _ j (cup (dense (si_c it)) j) A2 ltac:(lia)) as (cub' & E2 & A2').
    destruct (arr_set_arr clb m _ j (clo (dense (si_c it)) j) A1 ltac:(lia)) as (clb' & E1 & A1').
    rewrite E2. cbn [rbind]. rewrite E1. cbn [rbind].
    rewrite (proj2 (rn_leb _ _)).
    2:{ unfold clo, cup. apply Rabs_def2 in B5.
        destruct (@is_infinite RN (- _)) eqn:I1, (@is_infinite RN (dense (sp_cub P) j)) eqn:I2; lra. }
    cbn [check rbind]. eexists. split; [reflexivity|].
    split; [now apply synced_next|]. split; [now apply synced_next|]. split; [now apply synced_next|].
    split; [apply (arr_ext _ _ _ _ A1')|apply (arr_ext _ _ _ _ A2')]; intros k Hk; unfold upd;
      destruct (Z.eqb_spec k j), (Z.ltb_spec k j), (Z.ltb_spec k (j + 1)); subst; auto; lia.
  - rewrite E. cbn [rbind]. destruct s' as [[[[lc ll] lu] clb] cub]. destruct Hs' as (_ & _ & _ & A1 & A2).
    eexists. split; [reflexivity|]. cbn [la_obj la_clb la_cub la_vlb la_vub]. repeat split; try apply A1; try apply A2.
    + intros j Hj. rewrite (proj2 A1 j Hj). destruct (Z.ltb_spec j m); [reflexivity|lia].
    + intros j Hj. rewrite (proj2 A2 j Hj). destruct (Z.ltb_spec j m); [reflexivity|lia].
Qed.

(** Objective of the LP *)
Definition grad_ok (g : option (@vec RN)) : Prop := match g with Some v => vok n v | None => True end.
Definition grad (g : option (@vec RN)) (j : Z) : R := match g with Some v => dense v j | None => 0 end.

Lemma objective_ok g p (a : @lparr RN) : grad_ok g -> length (la_obj a) = Z.to_nat (n + 2 * m) ->
  exists a', @create_default_objective RN P g p a = Ok a' /\ la_vlb a' = la_vlb a /\ la_vub a' = la_vub a
    /\ la_clb a' = la_clb a /\ la_cub a' = la_cub a
    /\ arr (la_obj a') (n + 2 * m) (fun j => if (j <? n)%Z then grad g j else p).
Proof.
  intros Hg Hl. unfold create_default_objective. pose proof (po_n P HP). pose proof (po_m P HP).
  destruct (fill_loop0 (@n0 RN) n (n + 2 * m) (la_obj a) _ ltac:(lia) (arr_of 0 _ _ Hl)) as (o1 & E1 & A1). rewrite E1. cbn [rbind].
  destruct (fill_loop p n (2 * m) (n + 2 * m) o1 _ ltac:(lia) ltac:(lia) ltac:(lia) A1) as (o2 & E2 & A2). rewrite E2. cbn [rbind].
  assert (A3 : arr o2 (n + 2 * m) (fun j => if (j <? n)%Z then 0 else p)).
  { apply (arr_ext _ _ _ _ A2). intros k Hk. cbv beta.
    destruct (Z.leb_spec n k), (Z.ltb_spec k (n + 2 * m)), (Z.ltb_spec k n); cbn [andb]; try lia; try reflexivity. apply rn_n0. }
  destruct g as [v|]; cbn [grad_ok grad] in *.
  - destruct Hg as [Hw Hd]. rewrite (proj2 (Z.eqb_eq _ _) Hd). cbn [check rbind].
    pose proof Hw as (_ & Hs & _). rewrite Hd in Hs. assert (Hs' : sorted_in 0 (n + 2 * m) (keys (vent v))) by (apply (sorted_in_weaken 0 0 n (n + 2 * m)); [lia|lia|exact Hs]).
    destruct (scatter_loop (vent v) 0 (n + 2 * m) o2 _ ltac:(lia) Hs' A3) as (o3 & E3 & A4).
    rewrite E3. cbn [rbind]. eexists. split; [reflexivity|]. cbn [la_obj la_clb la_cub la_vlb la_vub]. repeat split; try apply A4.
    intros j Hj. rewrite (proj2 A4 j Hj). f_equal. unfold dense.
    destruct (get (vent v) j) as [gx|] eqn:G.
    + assert (In j (keys (vent v))). { destruct (in_dec Z.eq_dec j (keys (vent v))) as [H'|H']; [exact H'|]. apply get_None in H'. congruence. }
      apply (sorted_in_In _ _ _ _ Hs) in H1. destruct (Z.ltb_spec j n); [|lia]. reflexivity.
    + destruct (Z.ltb_spec j n); [|reflexivity]. cbn. symmetry. apply rn_n0.
  - eexists. split; [reflexivity|]. cbn [la_obj la_clb la_cub la_vlb la_vub]. repeat split; try apply A3.
Qed.

(** The matrix *)
Lemma coefficients_ok (s : @scd RN) (jac : @mat RN) cs : stores jac cs -> mnc jac = n -> mnr jac = m ->
  (negb (sp_nonlinear P) && sc_coef s = true /\ @set_default_coefficients RN P s jac = Ok (s, jac))
  \/ exists mt jac', @set_default_coefficients RN P s jac
       = Ok (mksc (sc_radius s) (sc_it s) (sc_arr s) (sc_fe s) (sc_has s) (sc_cur s) (sc_first s) true (sc_reduced s) (lpi_set_coeffs (sc_def s) mt) (sc_red s), jac')
     /\ stores mt (cs ++ slack_cols m) /\ mnr mt = m /\ mnc mt = (n + 2 * m)%Z /\ stores jac' cs /\ mnr jac' = m /\ mnc jac' = n.
Proof.
  intros Hs Hc Hr. unfold set_default_coefficients. destruct (negb (sp_nonlinear P) && sc_coef s); [left; split; reflexivity|right].
  rewrite Hc, Hr. destruct (append_identities_ok jac cs n m Hs Hc Hr) as (mt & E1 & S1 & R1 & C1). rewrite E1. cbn [rbind].
  rewrite (valid_of_wf _ _ S1). cbn [rbind check].
  destruct (remove_identities_ok mt cs n m (po_n P HP) S1 R1 C1) as (j & E2 & S2 & R2 & C2).
  { destruct Hs as [_ H]. lia. }
  rewrite E2. cbn [rbind]. rewrite (valid_of_wf _ _ S2). cbn [rbind check]. exists mt, j. auto 10.
Qed.
End Setup.
