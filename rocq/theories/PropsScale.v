(** Scaling: C21-C23, C55, C56. *)
From Coq Require Import Reals Lra.
From Flocq Require Import Core BinarySingleNaN Mult_error.
From Coquelicot Require Import Coquelicot.
From Verif Require Import Base Num Cmp Sparse Vec VecFacts VecFacts2 VecFacts3 Order F64Facts RSum VecReal Mat MatFacts MatFacts2 MatFacts3 MatFacts4 Arr Problem ProblemFacts Scale ScaleFacts ScaleReal ScaleAuto.
Local Open Scope Z_scope.

(** ** C21 *)

(** Every entry [x] at index [i] is multiplied by [2^(k i)] without over- or underflow. *)
Definition vkeeps (v : @vec F64) (k : Z -> Z) : Prop := forall i x, In (i, x) (vent v) -> keeps x (k i).
Definition mkeeps (cs : list (list (Z * f64))) (k : Z -> Z -> Z) : Prop :=
  forall j c i x, nth_error cs j = Some c -> In (i, x) c -> keeps x (k i (Z.of_nat j)).

Lemma vldexp_back k k' v : vkeeps v k -> (forall i, k' i = - k i) -> @vldexp F64 F64_Ldexp k' (vldexp k v) = v.
Proof.
  intros H E. apply vldexp_undo. apply Forall_forall. intros [i x] Hin. cbn [fst snd]. cbn [nldexp F64_Ldexp].
  rewrite E. apply ldexp_undo. eauto.
Qed.

Lemma vldexp_ext {N : Num} {L : Ldexp N} k k' v : (forall i, k i = k' i) -> vldexp k v = vldexp k' v.
Proof. intros E. unfold vldexp. f_equal. apply map_ext. intros [i x]; cbn. now rewrite E. Qed.

Lemma cols_ldexp_ext {N : Num} {L : Ldexp N} k k' j cs : (forall i j, k i j = k' i j) -> cols_ldexp k j cs = cols_ldexp k' j cs.
Proof.
  intros E. revert j; induction cs as [|c cs IH]; intros j; cbn [cols_ldexp]; [reflexivity|]. rewrite IH. f_equal.
  apply map_ext. intros [i x]; cbn. now rewrite E.
Qed.

Lemma it_wf_scaled {N : Num} {L : Ldexp N} s it cs p o g c j cd vd kp kg kc kj kcd kvd :
  it_wf s it cs -> p = vldexp kp (it_primal it) -> g = vldexp kg (it_grad it) -> c = vldexp kc (it_cons it) ->
  j = mldexp kj cs (it_jac it) -> cd = vldexp kcd (it_cdual it) -> vd = vldexp kvd (it_vdual it) ->
  it_wf s (mkiter p o g c j cd vd) (cols_ldexp kj 0 cs).
Proof.
  intros (P1 & P2 & G1 & G2 & C1 & C2 & J1 & J2 & J3 & D1 & D2 & E1 & E2) -> -> -> -> -> ->.
  unfold it_wf; cbn [it_primal it_grad it_cons it_jac it_cdual it_vdual].
  repeat split; try (apply vldexp_wf; assumption); try (apply mldexp_stores; assumption); auto.
Qed.

Theorem C21_iterate : forall (s : scaling) (it : @iter F64) cs (lsq : bool), swf s -> it_wf s it cs ->
  vkeeps (it_primal it) (fun j => - vw s j) ->
  keeps (it_obj it) (- ((if lsq then 2 else 1) * sc_ow s)) ->
  vkeeps (it_grad it) (fun j => vw s j - sc_ow s) ->
  vkeeps (it_cons it) (fun i => - cw s i) ->
  mkeeps cs (fun i j => vw s j - cw s i) ->
  vkeeps (it_cdual it) (fun i => cw s i - sc_ow s) ->
  vkeeps (it_vdual it) (fun j => vw s j - sc_ow s) ->
  exists it', scale_iterate s it lsq = Ok it' /\ unscale_iterate s it' lsq = Ok it.
Proof.
  intros s it cs lsq Hs Hw Kp Ko Kg Kc Kj Kcd Kvd. rewrite (scale_iterate_spec s it lsq cs Hs Hw).
  eexists. split; [reflexivity|]. erewrite unscale_iterate_spec; [|exact Hs|].
  2:{ eapply it_wf_scaled; [exact Hw|reflexivity..]. }
  f_equal. destruct it as [p o g c j cd vd]; cbn [it_primal it_obj it_grad it_cons it_jac it_cdual it_vdual] in *.
  destruct Hw as (_ & _ & _ & _ & _ & _ & J1 & _). cbn [it_jac] in J1. f_equal.
  - apply vldexp_back; [|intros; lia]. intros i x Hi. replace (-1 * vw s i + 0) with (- vw s i) by lia. auto.
  - destruct lsq; unfold unscale_lsq_obj_val, scale_lsq_obj_val, unscale_obj_val, scale_obj_val; cbn [nldexp F64_Ldexp];
      (apply ldexp_undo'; [|lia]).
    + replace (-1 * 2 * sc_ow s) with (- (2 * sc_ow s)) by lia. exact Ko.
    + replace (-1 * sc_ow s) with (- (1 * sc_ow s)) by lia. exact Ko.
  - apply vldexp_back; [|intros; lia]. intros i x Hi. replace (vw s i + -1 * sc_ow s) with (vw s i - sc_ow s) by lia. auto.
  - apply vldexp_back; [|intros; lia]. intros i x Hi. replace (-1 * cw s i + 0) with (- cw s i) by lia. auto.
  - apply mldexp_undo; [exact J1|]. intros n d [i x] Hn He. cbn [fst snd]. apply ldexp_undo'; [|lia].
    replace (-1 * cw s i + vw s (Z.of_nat n)) with (vw s (Z.of_nat n) - cw s i) by lia. eapply Kj; eauto.
  - apply vldexp_back; [|intros; lia]. intros i x Hi. replace (cw s i + -1 * sc_ow s) with (cw s i - sc_ow s) by lia. auto.
  - apply vldexp_back; [|intros; lia]. intros i x Hi. replace (vw s i + -1 * sc_ow s) with (vw s i - sc_ow s) by lia. auto.
Qed.
Print Assumptions C21_iterate.

(** The other order, used for initial values and restored iterates. *)
Theorem C21_iterate_rev : forall (s : scaling) (it : @iter F64) cs (lsq : bool), swf s -> it_wf s it cs ->
  vkeeps (it_primal it) (fun j => vw s j) ->
  keeps (it_obj it) ((if lsq then 2 else 1) * sc_ow s) ->
  vkeeps (it_grad it) (fun j => sc_ow s - vw s j) ->
  vkeeps (it_cons it) (fun i => cw s i) ->
  mkeeps cs (fun i j => cw s i - vw s j) ->
  vkeeps (it_cdual it) (fun i => sc_ow s - cw s i) ->
  vkeeps (it_vdual it) (fun j => sc_ow s - vw s j) ->
  exists it', unscale_iterate s it lsq = Ok it' /\ scale_iterate s it' lsq = Ok it.
Proof.
  intros s it cs lsq Hs Hw Kp Ko Kg Kc Kj Kcd Kvd. rewrite (unscale_iterate_spec s it lsq cs Hs Hw).
  eexists. split; [reflexivity|]. erewrite scale_iterate_spec; [|exact Hs|].
  2:{ eapply it_wf_scaled; [exact Hw|reflexivity..]. }
  f_equal. destruct it as [p o g c j cd vd]; cbn [it_primal it_obj it_grad it_cons it_jac it_cdual it_vdual] in *.
  destruct Hw as (_ & _ & _ & _ & _ & _ & J1 & _). cbn [it_jac] in J1. f_equal.
  - apply vldexp_back; [|intros; lia]. intros i x Hi. replace (vw s i + 0) with (vw s i) by lia. auto.
  - destruct lsq; unfold unscale_lsq_obj_val, scale_lsq_obj_val, unscale_obj_val, scale_obj_val; cbn [nldexp F64_Ldexp];
      (apply ldexp_undo'; [|lia]); [exact Ko|]. rewrite Z.mul_1_l in Ko. exact Ko.
  - apply vldexp_back; [|intros; lia]. intros i x Hi. replace (-1 * vw s i + sc_ow s) with (sc_ow s - vw s i) by lia. auto.
  - apply vldexp_back; [|intros; lia]. intros i x Hi. replace (cw s i + 0) with (cw s i) by lia. auto.
  - apply mldexp_undo; [exact J1|]. intros n d [i x] Hn He. cbn [fst snd]. apply ldexp_undo'; [|lia].
    replace (-1 * vw s (Z.of_nat n) + cw s i) with (cw s i - vw s (Z.of_nat n)) by lia. eapply Kj; eauto.
  - apply vldexp_back; [|intros; lia]. intros i x Hi. replace (-1 * cw s i + sc_ow s) with (sc_ow s - cw s i) by lia. auto.
  - apply vldexp_back; [|intros; lia]. intros i x Hi. replace (-1 * vw s i + sc_ow s) with (sc_ow s - vw s i) by lia. auto.
Qed.
Print Assumptions C21_iterate_rev.

(** Scaled values are the exact products. *)
Theorem C21_value : forall (x : f64) e, ffin x = true -> keeps x e ->
  B2R (nldexp x e) = (B2R x * bpow radix2 e)%R /\ ffin (nldexp x e) = true /\ Bsign (nldexp x e) = Bsign x.
Proof. exact ldexp_exact. Qed.
Print Assumptions C21_value.

(** A computable sufficient condition for [keeps]. *)
Definition keepsb (x : f64) (e : Z) : bool :=
  match x with
  | B754_finite _ m k _ => (-1021 <=? Z.pos (digits2_pos m) + k + e) && (Z.pos (digits2_pos m) + k + e <=? 1024)
  | _ => true
  end.

Lemma keepsb_ok x e : keepsb x e = true -> keeps x e.
Proof.
  destruct x as [sg|sg| |sg m k B]; cbn [keepsb]; intros H; try (left; reflexivity).
  - right; left; reflexivity.
  - right; right. apply andb_prop in H. destruct H as [Ha Hb]. apply Z.leb_le in Ha, Hb.
    set (x := @B754_finite 53 1024 sg m k B).
    assert (Hm : mag radix2 (B2R x) = (Z.pos (digits2_pos m) + k) :> Z).
    { unfold x. cbn [B2R]. rewrite mag_F2R_Zdigits by (destruct sg; discriminate).
      rewrite Digits.Zpos_digits2_pos. destruct sg; reflexivity. }
    assert (Hx : (B2R x <> 0)%R).
    { unfold x. cbn [B2R]. apply F2R_neq_0. destruct sg; discriminate. }
    rewrite Rabs_mult, (Rabs_pos_eq (bpow radix2 e)) by apply bpow_ge_0.
    pose proof (bpow_mag_le radix2 (B2R x) Hx) as L1. pose proof (bpow_mag_gt radix2 (B2R x)) as L2. rewrite Hm in L1, L2.
    pose proof (bpow_gt_0 radix2 e) as L3. split.
    + apply Rle_trans with (bpow radix2 (Z.pos (digits2_pos m) + k - 1) * bpow radix2 e)%R.
      * rewrite <- bpow_plus. apply bpow_le. lia.
      * apply Rmult_le_compat_r; lra.
    + apply Rlt_le_trans with (bpow radix2 (Z.pos (digits2_pos m) + k) * bpow radix2 e)%R.
      * apply Rmult_lt_compat_r; auto.
      * rewrite <- bpow_plus. apply bpow_le. lia.
Qed.

Definition fz (z : Z) : f64 := f64_lit z 1.
Definition ftenth : f64 := f64_lit 1 10.

(** Two variables, one constraint, non-zero weights. *)
Definition ex_s : scaling := mkscaling 2 1 (-3) [2; -5] [7].
Definition ex_it : @iter F64 := mkiter (mkvec 2 2 [(0, ftenth); (1, fz 3)]) ftenth (mkvec 2 2 [(1, fz (-7))]) (mkvec 1 1 [(0, ftenth)])
  (mkmat 1 2 2 2 [0; 1; 2] [(0, ftenth); (0, fz 5)]) (mkvec 1 1 [(0, fz (-2))]) (mkvec 2 2 [(0, fz 9)]).

Lemma vkeeps_ok v k : forallb (fun e => keepsb (snd e) (k (fst e))) (vent v) = true -> vkeeps v k.
Proof. intros H i x Hi. rewrite forallb_forall in H. apply keepsb_ok. exact (H _ Hi). Qed.

Example C21_example : exists it', scale_iterate ex_s ex_it false = Ok it' /\ unscale_iterate ex_s it' false = Ok ex_it.
Proof.
  apply (C21_iterate ex_s ex_it [[(0, ftenth)]; [(0, fz 5)]] false).
  - unfold swf; cbn; lia.
  - unfold it_wf, wf, stores, layout, ex_it; cbn -[fz ftenth]. repeat split; try lia.
    + intros [|[|[|j]]] Hj; cbn; try reflexivity. lia.
    + now exists [].
    + repeat constructor; cbn; lia.
  - apply vkeeps_ok. vm_compute. reflexivity.
  - apply keepsb_ok. vm_compute. reflexivity.
  - apply vkeeps_ok. vm_compute. reflexivity.
  - apply vkeeps_ok. vm_compute. reflexivity.
  - intros [|[|j]] c i x Hc Hi; cbn [nth_error] in Hc; try (injection Hc as <-; destruct Hi as [Hi|[]]; injection Hi as <- <-; apply keepsb_ok; vm_compute; reflexivity).
    destruct j; discriminate.
  - apply vkeeps_ok. vm_compute. reflexivity.
  - apply vkeeps_ok. vm_compute. reflexivity.
Qed.

(** The hypothesis is needed: a normal number that becomes subnormal is not recovered. *)
Example C21_underflow : exists x : f64, Beqb (nldexp (nldexp x (-1030)) 1030) x = false.
Proof. exists ftenth. vm_compute. reflexivity. Qed.

(** ** C22 *)

Definition it_kkt (it : @iter RN) (cs : list (list (Z * R))) (vlb vub cl cu : @vec RN) : kkt_pt :=
  mkkkt (dense (it_primal it)) (dense (it_grad it)) (dense (it_cons it)) (mR cs) (dense (it_cdual it)) (dense (it_vdual it))
    (dense vlb) (dense vub) (dense cl) (dense cu).

(** Shapes of the data of a problem without linear constraints (problem.c). *)
Definition prob_shape (s : scaling) (p : @problem RN) : Prop :=
  wf (p_vlb p) /\ vdim (p_vlb p) = sc_nv s /\ wf (p_vub p) /\ vdim (p_vub p) = sc_nv s
  /\ wf (p_clb p) /\ vdim (p_clb p) = sc_nc s /\ wf (p_cub p) /\ vdim (p_cub p) = sc_nc s
  /\ wf (p_glb p) /\ vdim (p_glb p) = sc_nc s /\ wf (p_gub p) /\ vdim (p_gub p) = sc_nc s
  /\ wf (p_llb p) /\ vdim (p_llb p) = 0 /\ wf (p_lub p) /\ vdim (p_lub p) = 0
  /\ mwf (p_lin p) /\ mnr (p_lin p) = 0 /\ mnc (p_lin p) = sc_nv s.

Lemma nil_of_dim0 {N : Num} (v : vec) : wf v -> vdim v = 0 -> vent v = [].
Proof.
  intros Hw Hd. apply wf_bounds in Hw. destruct (vent v) as [|e es]; [reflexivity|]. inv Hw. lia.
Qed.

Lemma scale_cons_linear_nil {N : Num} {L : Ldexp N} s (v : vec) : wf v -> vdim v = 0 -> scale_cons_linear s v = Ok v.
Proof.
  intros Hw Hd. unfold scale_cons_linear. rewrite (nil_of_dim0 v Hw Hd). cbn [rmapM rbind].
  destruct v as [d c es]. cbn [vdim vcap vent] in *. pose proof (nil_of_dim0 (mkvec d c es) Hw Hd) as E. cbn in E. now rewrite E.
Qed.

Lemma stores_nil_rows {N : Num} (m : mat) cs : stores m cs -> mnr m = 0 -> mnnz m = 0.
Proof.
  intros Hs Hr. pose proof (layout_facts m cs Hs) as (_ & _ & _ & H4 & H5). rewrite H4, Hr in *.
  assert (Hc : concat cs = []); [|now rewrite Hc]. clear -H5. induction H5 as [|c cs Hc H IH]; [reflexivity|].
  cbn [concat]. rewrite IH, app_nil_r. apply sorted_in_bounds in Hc. destruct c as [|e c]; [reflexivity|].
  cbn in Hc. inv Hc. lia.
Qed.

Lemma scale_linear_coeffs_nil {N : Num} {L : Ldexp N} s (m : mat) cs : swf s -> stores m cs -> mnr m = 0 ->
  scale_linear_coeffs s m = Ok m.
Proof.
  intros (_ & Hn & _) Hs Hr. unfold scale_linear_coeffs. rewrite Hr. destruct (Z.leb_spec 0 (sc_nc s)); [|lia]. cbn [check rbind].
  unfold mat_ldexp. pose proof (stores_nil_rows m cs Hs Hr) as Hz. rewrite Hz. cbn. rewrite <- Hz. now destruct m.
Qed.

Lemma copy_scaled (s : list Z) (v t : @vec RN) o : wf v -> wf t -> vdim t = vdim v -> vdim v <= Z.of_nat (length s) ->
  exists r, (u <- vec_copy v t ;; apply_scaling u s o) = Ok r /\ wf r /\ vdim r = vdim v
    /\ forall i, dense r i = (dense v i * p2 (-1 * wt s i + o))%R.
Proof.
  intros Hv Ht Hd Hl. destruct (vec_copy_spec v t Hv Ht) as (u & -> & Hu & Hud & Hue); [lia|]. cbn [rbind].
  rewrite apply_scaling_spec by (auto; lia). eexists. split; [reflexivity|]. split; [now apply vldexp_wf|].
  split; [now rewrite vldexp_dim|]. intros i. rewrite dense_vldexp. unfold dense. now rewrite Hue.
Qed.

(** The scaled problem (after the flush of problem_scaling.c) and the scaled iterate. *)
Theorem C22_optimality_partial : forall (s : scaling) (p q : @problem RN) (it : @iter RN) cs, swf s ->
  prob_shape s p -> prob_shape s q -> it_wf s it cs ->
  exists q' it' cs', problem_scaling_flush s p q = Ok q' /\ scale_iterate s it false = Ok it' /\ it_wf s it' cs' /\
    let k := it_kkt it cs (p_vlb p) (p_vub p) (p_clb p) (p_cub p) in
    let k' := it_kkt it' cs' (p_vlb q') (p_vub q') (p_clb q') (p_cub q') in
    (stationary (sc_nv s) (sc_nc s) k <-> stationary (sc_nv s) (sc_nc s) k') /\
    (feasible (sc_nv s) (sc_nc s) k <-> feasible (sc_nv s) (sc_nc s) k') /\
    (complementarity (sc_nv s) (sc_nc s) k <-> complementarity (sc_nv s) (sc_nc s) k').
Proof.
  intros s p q it cs Hs Hp Hq Hit.
  destruct Hp as (A1 & A2 & A3 & A4 & A5 & A6 & A7 & A8 & A9 & A10 & A11 & A12 & A13 & A14 & A15 & A16 & (pl & A17) & A18 & A19).
  destruct Hq as (B1 & B2 & B3 & B4 & B5 & B6 & B7 & B8 & B9 & B10 & B11 & B12 & B13 & B14 & B15 & B16 & B17 & B18 & B19).
  pose proof Hs as (S1 & S2 & S3 & S4). unfold problem_scaling_flush, scale_point, scale_cons_val, scale_cons_general.
  destruct (copy_scaled (sc_vw s) (p_vlb p) (p_vlb q) 0) as (vlb & Evlb & Wvlb & Dvlb & Fvlb); auto; try lia.
  destruct (copy_scaled (sc_vw s) (p_vub p) (p_vub q) 0) as (vub & Evub & Wvub & Dvub & Fvub); auto; try lia.
  destruct (copy_scaled (sc_cw s) (p_clb p) (p_clb q) 0) as (clb & Eclb & Wclb & Dclb & Fclb); auto; try lia.
  destruct (copy_scaled (sc_cw s) (p_cub p) (p_cub q) 0) as (cub & Ecub & Wcub & Dcub & Fcub); auto; try lia.
  destruct (copy_scaled (sc_cw s) (p_glb p) (p_glb q) 0) as (glb & Eglb & _); auto; try lia.
  destruct (copy_scaled (sc_cw s) (p_gub p) (p_gub q) 0) as (gub & Egub & _); auto; try lia.
  assert (HF : exists q', problem_scaling_flush s p q = Ok q' /\ p_vlb q' = vlb /\ p_vub q' = vub /\ p_clb q' = clb /\ p_cub q' = cub).
  { unfold problem_scaling_flush, scale_point, scale_cons_val, scale_cons_general.
    apply rbind_ok in Evlb. destruct Evlb as (u1 & -> & Evlb). cbn [rbind]. rewrite Evlb. cbn [rbind].
    apply rbind_ok in Evub. destruct Evub as (u2 & -> & Evub). cbn [rbind]. rewrite Evub. cbn [rbind].
    apply rbind_ok in Eclb. destruct Eclb as (u3 & -> & Eclb). cbn [rbind]. rewrite Eclb. cbn [rbind].
    apply rbind_ok in Ecub. destruct Ecub as (u4 & -> & Ecub). cbn [rbind]. rewrite Ecub. cbn [rbind].
    apply rbind_ok in Eglb. destruct Eglb as (u5 & -> & Eglb). cbn [rbind]. rewrite Eglb. cbn [rbind].
    apply rbind_ok in Egub. destruct Egub as (u6 & -> & Egub). cbn [rbind]. rewrite Egub. cbn [rbind].
    destruct (vec_copy_spec (p_llb p) (p_llb q) A13 B13) as (ll & -> & Wll & Dll & _); [lia|]. cbn [rbind].
    rewrite scale_cons_linear_nil by (auto; lia). cbn [rbind].
    destruct (vec_copy_spec (p_lub p) (p_lub q) A15 B15) as (lu & -> & Wlu & Dlu & _); [lia|]. cbn [rbind].
    rewrite scale_cons_linear_nil by (auto; lia). cbn [rbind].
    destruct (mat_copy_spec (p_lin p) pl (p_lin q) A17 B17) as (lm & -> & Slm & Rlm & Clm); [lia|lia|]. cbn [rbind].
    rewrite (scale_linear_coeffs_nil s lm pl Hs Slm) by lia. cbn [rbind].
    eexists. split; [reflexivity|]. cbn [p_vlb p_vub p_clb p_cub]. auto. }
  destruct HF as (q' & EF & Q1 & Q2 & Q3 & Q4). exists q'.
  rewrite (scale_iterate_spec s it false cs Hs Hit). eexists _, (cols_ldexp (fun i j => (-1) * cw s i + vw s j) 0 cs).
  split; [exact EF|]. split; [reflexivity|]. split; [eapply it_wf_scaled; [exact Hit|reflexivity..]|].
  cbv zeta. rewrite Q1, Q2, Q3, Q4. set (K := it_kkt it cs _ _ _ _). set (K' := it_kkt _ _ _ _ _ _).
  assert (Hlen : Z.of_nat (length cs) = sc_nv s).
  { destruct Hit as (_ & _ & _ & _ & _ & _ & (_ & J1) & _ & J3 & _). lia. }
  assert (HX : forall j, kx K' j = kx (kscale (vw s) (cw s) (sc_ow s) K) j).
  { intros j. unfold K', K; cbn [kx it_kkt kscale it_primal]. rewrite dense_vldexp. apply f_equal. apply f_equal. lia. }
  assert (HC : forall i, kc K' i = kc (kscale (vw s) (cw s) (sc_ow s) K) i).
  { intros i. unfold K', K; cbn [kc it_kkt kscale it_cons]. rewrite dense_vldexp. apply f_equal. apply f_equal. lia. }
  assert (HL : forall i, klam K' i = klam (kscale (vw s) (cw s) (sc_ow s) K) i).
  { intros i. unfold K', K; cbn [klam it_kkt kscale it_cdual]. rewrite dense_vldexp. apply f_equal. apply f_equal. lia. }
  assert (HM : forall i, kmu K' i = kmu (kscale (vw s) (cw s) (sc_ow s) K) i).
  { intros i. unfold K', K; cbn [kmu it_kkt kscale it_vdual]. rewrite dense_vldexp. apply f_equal. apply f_equal. lia. }
  assert (HG : forall i, kg K' i = kg (kscale (vw s) (cw s) (sc_ow s) K) i).
  { intros i. unfold K', K; cbn [kg it_kkt kscale it_grad]. rewrite dense_vldexp. apply f_equal. apply f_equal. lia. }
  assert (HJ : forall i j, 0 <= j < sc_nv s -> kJ K' i j = kJ (kscale (vw s) (cw s) (sc_ow s) K) i j).
  { intros i j Hj. unfold K', K; cbn [kJ it_kkt kscale]. rewrite mR_cols_ldexp by (rewrite <- Hlen in Hj; exact Hj). apply f_equal. apply f_equal. lia. }
  assert (Hb : forall j, klb K' j = klb (kscale (vw s) (cw s) (sc_ow s) K) j /\ kub K' j = kub (kscale (vw s) (cw s) (sc_ow s) K) j).
  { intros j. unfold K', K; cbn [klb kub it_kkt kscale]. rewrite Fvlb, Fvub. fold (vw s j). replace (-1 * vw s j + 0) with (- vw s j) by lia. auto. }
  assert (Hcb : forall j, kcl K' j = kcl (kscale (vw s) (cw s) (sc_ow s) K) j /\ kcu K' j = kcu (kscale (vw s) (cw s) (sc_ow s) K) j).
  { intros j. unfold K', K; cbn [kcl kcu it_kkt kscale]. rewrite Fclb, Fcub. fold (cw s j). replace (-1 * cw s j + 0) with (- cw s j) by lia. auto. }
  split; [|split].
  - rewrite (kscale_stationary (vw s) (cw s) (sc_ow s)). apply stationary_ext; intros; auto. symmetry; auto.
  - rewrite (kscale_feasible (vw s) (cw s) (sc_ow s)). unfold feasible.
    split; intros [H1 H2]; (split; intros i Hi; [specialize (H1 i Hi)|specialize (H2 i Hi)]); destruct (Hb i) as [b1 b2], (Hcb i) as [c1 c2].
    + now rewrite b1, b2, HX.
    + now rewrite c1, c2, HC.
    + now rewrite <- b1, <- b2, <- HX.
    + now rewrite <- c1, <- c2, <- HC.
  - rewrite (kscale_compl (vw s) (cw s) (sc_ow s)). unfold complementarity.
    split; intros [H1 H2]; (split; intros i Hi; [specialize (H1 i Hi)|specialize (H2 i Hi)]); destruct (Hb i) as [b1 b2], (Hcb i) as [c1 c2].
    + now rewrite b1, b2, HX, HM.
    + now rewrite c1, c2, HC, HL.
    + now rewrite <- b1, <- b2, <- HX, <- HM.
    + now rewrite <- c1, <- c2, <- HC, <- HL.
Qed.
Print Assumptions C22_optimality_partial.

Lemma stores_unique {N : Num} (m : mat) cs cs' : stores m cs -> stores m cs' -> cs = cs'.
Proof.
  intros H H'. assert (Hl : Z.of_nat (length cs) = Z.of_nat (length cs')) by (destruct H, H'; lia).
  apply nth_error_ext. intros n. destruct (Nat.lt_ge_cases n (length cs)) as [Hn|Hn].
  - assert (Hc : 0 <= Z.of_nat n < mnc m) by (destruct H; lia).
    destruct (stores_col m cs _ H Hc) as (c & E1 & E2 & _). destruct (stores_col m cs' _ H' Hc) as (c' & E1' & E2' & _).
    rewrite Nat2Z.id in E1, E1'. congruence.
  - rewrite (proj2 (nth_error_None cs n)), (proj2 (nth_error_None cs' n)); auto; lia.
Qed.

Lemma unscale_scale_real (s : scaling) (it : @iter RN) cs lsq : swf s -> it_wf s it cs ->
  exists it' cs', unscale_iterate s it lsq = Ok it' /\ it_wf s it' cs' /\ scale_iterate s it' lsq = Ok it.
Proof.
  intros Hs Hw. rewrite (unscale_iterate_spec s it lsq cs Hs Hw). eexists _, _. split; [reflexivity|].
  assert (Hw' := it_wf_scaled s it cs _
     (if lsq then unscale_lsq_obj_val s (it_obj it) else unscale_obj_val s (it_obj it)) _ _ _ _ _
     (fun j => vw s j + 0) (fun j => -1 * vw s j + sc_ow s) (fun i => cw s i + 0) (fun i j => (-1) * vw s j + cw s i)
     (fun i => -1 * cw s i + sc_ow s) (fun j => -1 * vw s j + sc_ow s) Hw eq_refl eq_refl eq_refl eq_refl eq_refl eq_refl).
  split; [exact Hw'|]. rewrite (scale_iterate_spec s _ lsq _ Hs Hw'). f_equal. cbn [it_primal it_obj it_grad it_cons it_jac it_cdual it_vdual].
  destruct it as [p o g c j cd vd]; cbn [it_primal it_obj it_grad it_cons it_jac it_cdual it_vdual] in *.
  destruct Hw as (_ & _ & _ & _ & _ & _ & J1 & _). cbn [it_jac] in J1.
  assert (V : forall (v : @vec RN) k k', (forall i, k i + k' i = 0) -> vldexp k' (vldexp k v) = v).
  { intros v k k' E. apply vldexp_undo. apply Forall_forall. intros [i x] _. cbn [fst snd]. apply r_undo. auto. }
  f_equal; try (apply V; intros; lia).
  - destruct lsq; apply r_undo; lia.
  - apply mldexp_undo; [exact J1|]. intros n d [i x] _ _. apply r_undo. cbn [fst]. lia.
Qed.

(** Starting from a scaled iterate. *)
Theorem C22_unscaled_partial : forall (s : scaling) (p q : @problem RN) (it' : @iter RN) cs', swf s ->
  prob_shape s p -> prob_shape s q -> it_wf s it' cs' ->
  exists q' it cs, problem_scaling_flush s p q = Ok q' /\ unscale_iterate s it' false = Ok it /\ it_wf s it cs /\
    let k := it_kkt it cs (p_vlb p) (p_vub p) (p_clb p) (p_cub p) in
    let k' := it_kkt it' cs' (p_vlb q') (p_vub q') (p_clb q') (p_cub q') in
    (stationary (sc_nv s) (sc_nc s) k <-> stationary (sc_nv s) (sc_nc s) k') /\
    (feasible (sc_nv s) (sc_nc s) k <-> feasible (sc_nv s) (sc_nc s) k') /\
    (complementarity (sc_nv s) (sc_nc s) k <-> complementarity (sc_nv s) (sc_nc s) k').
Proof.
  intros s p q it' cs' Hs Hp Hq Hw. destruct (unscale_scale_real s it' cs' false Hs Hw) as (it & cs & E1 & W & E2).
  destruct (C22_optimality_partial s p q it cs Hs Hp Hq W) as (q' & it2 & cs2 & EF & E3 & W2 & H).
  rewrite E2 in E3. injection E3 as <-.
  assert (cs2 = cs') as -> by (destruct Hw as (_ & _ & _ & _ & _ & _ & J & _); destruct W2 as (_ & _ & _ & _ & _ & _ & J' & _); eapply stores_unique; eauto).
  exists q', it, cs. auto.
Qed.
Print Assumptions C22_unscaled_partial.

(** Functions of finitely many coordinates given as functions on all indices. *)
Definition extensional (F : (Z -> R) -> R) : Prop := forall f g : Z -> R, (forall i, f i = g i) -> F f = F g.

Lemma partial_ext F x x' j d : extensional F -> (forall i, x i = x' i) -> partial_at F x j d -> partial_at F x' j d.
Proof.
  intros He Hx H. unfold partial_at in *. rewrite <- Hx. eapply is_derive_ext; [|exact H].
  intros t. apply He. intros i. unfold put1. destruct (i =? j); auto.
Qed.

Lemma unscaled_dense (s : scaling) (y : @vec RN) : swf s -> wf y -> vdim y = sc_nv s ->
  exists x, unscale_point s y = Ok x /\ wf x /\ vdim x = sc_nv s /\ forall j, dense x j = (dense y j * p2 (vw s j))%R.
Proof.
  intros (S1 & S2 & S3 & S4) Hw Hd. unfold unscale_point. rewrite apply_unscaling_spec by (auto; lia).
  eexists. split; [reflexivity|]. split; [now apply vldexp_wf|]. split; [now rewrite vldexp_dim|].
  intros j. rewrite dense_vldexp. fold (vw s j). now rewrite Z.add_0_r.
Qed.

(** The scaled gradient is the gradient of the scaled objective [2^-ow f(2^vw y)]. *)
Theorem C22_gradient : forall (s : scaling) (F : (Z -> R) -> R) (y x g : @vec RN), swf s -> wf y -> vdim y = sc_nv s ->
  wf g -> vdim g = sc_nv s -> extensional F -> unscale_point s y = Ok x ->
  (forall j, 0 <= j < sc_nv s -> partial_at F (dense x) j (dense g j)) ->
  exists g', scale_obj_grad s g = Ok g' /\
    forall j, 0 <= j < sc_nv s -> partial_at (fun z => (F (fun i => z i * p2 (vw s i)) * p2 (- sc_ow s))%R) (dense y) j (dense g' j).
Proof.
  intros s F y x g Hs Wy Dy Wg Dg He Ex H.
  destruct (unscaled_dense s y Hs Wy Dy) as (x' & E' & _ & _ & Hx). rewrite Ex in E'. injection E' as <-.
  destruct Hs as (S1 & S2 & S3 & S4). unfold scale_obj_grad. rewrite apply_unscaling_spec by (auto; lia).
  eexists. split; [reflexivity|]. intros j Hj. rewrite dense_vldexp. fold (vw s j). change (-1 * sc_ow s) with (- sc_ow s) || idtac.
  replace (vw s j + -1 * sc_ow s) with (vw s j - sc_ow s) by lia.
  apply (scaled_partial F (vw s) (sc_ow s)); [exact He|]. eapply partial_ext; [exact He|exact Hx|]. auto.
Qed.
Print Assumptions C22_gradient.

(** The scaled Jacobian is the Jacobian of the scaled constraints [2^-cw_i c_i(2^vw y)]. *)
Theorem C22_jacobian : forall (s : scaling) (C : Z -> (Z -> R) -> R) (y x : @vec RN) (m : @mat RN) cs, swf s -> wf y -> vdim y = sc_nv s ->
  stores m cs -> mnr m = sc_nc s -> mnc m = sc_nv s -> (forall i, extensional (C i)) -> unscale_point s y = Ok x ->
  (forall i j, 0 <= i < sc_nc s -> 0 <= j < sc_nv s -> partial_at (C i) (dense x) j (mR cs i j)) ->
  exists m' cs', scale_cons_jac s m = Ok m' /\ stores m' cs' /\ mnr m' = sc_nc s /\ mnc m' = sc_nv s /\
    forall i j, 0 <= i < sc_nc s -> 0 <= j < sc_nv s ->
      partial_at (fun z => (C i (fun j => z j * p2 (vw s j)) * p2 (- cw s i))%R) (dense y) j (mR cs' i j).
Proof.
  intros s C y x m cs Hs Wy Dy Sm Rm Cm He Ex H.
  destruct (unscaled_dense s y Hs Wy Dy) as (x' & E' & _ & _ & Hx). rewrite Ex in E'. injection E' as <-.
  rewrite (scale_cons_jac_spec s m cs Hs Sm Rm Cm). eexists _, _. split; [reflexivity|].
  split; [apply mldexp_stores; exact Sm|]. split; [exact Rm|]. split; [exact Cm|].
  intros i j Hi Hj. rewrite mR_cols_ldexp by (destruct Sm as [_ Sm]; rewrite <- Cm, Sm in Hj; exact Hj).
  replace (-1 * cw s i + vw s j) with (vw s j - cw s i) by lia.
  apply (scaled_partial (C i) (vw s) (cw s i)); [apply He|]. eapply partial_ext; [apply He|exact Hx|]. auto.
Qed.
Print Assumptions C22_jacobian.

(** Successful calls of the user's Hessian callback return the product with the Hessian of the
    Lagrangian, with objective part [H0] and constraint parts [Hc]. *)
Definition hess_oracle (f : @ufunc RN) (x : @vec RN) (H0 : Z -> Z -> R) (Hc : Z -> Z -> Z -> R) : Prop :=
  forall d lam buf r, wf d -> vdim d = uf_nv f -> wf lam -> vdim lam = uf_nc f -> wf buf -> vdim buf = uf_nv f ->
    uf_hess f x d lam buf = Ok r -> wf r /\ vdim r = uf_nv f /\
    forall j, 0 <= j < uf_nv f -> dense r j = hess_apply (uf_nv f) (uf_nc f) H0 Hc (dense lam) (dense d) j.

(** The scaled Hessian product is the product with the Hessian of the scaled Lagrangian. *)
Theorem C22_hessian : forall (s : scaling) (f : @ufunc RN) (y x d lam buf r : @vec RN) H0 Hc, swf s ->
  uf_nv f = sc_nv s -> uf_nc f = sc_nc s -> wf y -> vdim y = sc_nv s -> unscale_point s y = Ok x ->
  (forall u, wf u -> vdim u = vdim x -> vent u = vent x -> hess_oracle f u H0 Hc) ->
  wf d -> vdim d = sc_nv s -> wf lam -> vdim lam = sc_nc s -> wf buf -> vdim buf = sc_nv s ->
  uf_hess (scaled_func s f (sc_nc s)) y d lam buf = Ok r ->
  wf r /\ vdim r = sc_nv s /\
  forall j, 0 <= j < sc_nv s -> dense r j = hess_apply (sc_nv s) (sc_nc s)
    (fun j k => (H0 j k * p2 (vw s j) * p2 (vw s k) * p2 (- sc_ow s))%R)
    (fun i j k => (Hc i j k * p2 (vw s j) * p2 (vw s k) * p2 (- cw s i))%R) (dense lam) (dense d) j.
Proof.
  intros s f y x d lam buf r H0 Hc Hs Hnv Hnc Wy Dy Ex Ho Wd Dd Wl Dl Wb Db E.
  pose proof Hs as (S1 & S2 & S3 & S4).
  assert (Wev : forall n, 0 <= n -> wf (@evec RN n)) by (intros n Hn; unfold wf, evec; cbn; repeat split; lia).
  cbn [scaled_func uf_hess] in E.
  destruct (unscaled_dense s y Hs Wy Dy) as (x' & E' & Wx & Dx & Hx). rewrite Ex in E'. injection E' as <-.
  unfold scaled_point in E.
  destruct (vec_copy_spec y (evec (uf_nv f)) Wy) as (y1 & C1 & Wy1 & Dy1 & Ey1); [apply Wev; lia|cbn; lia|]. rewrite C1 in E. cbn [rbind] in E.
  unfold unscale_point in E. rewrite apply_unscaling_spec in E by (auto; lia). cbn [rbind] in E.
  destruct (vec_copy_spec d (evec (uf_nv f)) Wd) as (d1 & C2 & Wd1 & Dd1 & Ed1); [apply Wev; lia|cbn; lia|]. rewrite C2 in E. cbn [rbind] in E.
  destruct (vec_copy_spec lam (evec (sc_nc s)) Wl) as (l1 & C3 & Wl1 & Dl1 & El1); [apply Wev; lia|cbn; lia|]. rewrite C3 in E. cbn [rbind] in E.
  unfold unscale_hessian_direction in E. rewrite apply_unscaling_spec in E by (auto; lia). cbn [rbind] in E.
  rewrite apply_scaling_spec in E by (auto; lia). cbn [rbind fst snd] in E.
  apply rbind_ok in E. destruct E as (p & E1 & E2). unfold func_hess_prod in E1.
  repeat (apply rbind_ok in E1; destruct E1 as (? & ?Q & E1); try (apply check_ok in Q; clear x0)).
  match goal with H : uf_hess f _ _ _ _ = Ok _ |- _ => rename H into EH end.
  injection E1 as <-.
  assert (Hov : hess_oracle f (vldexp (fun i => wt (sc_vw s) i + 0) y1) H0 Hc).
  { apply Ho; [now apply vldexp_wf|cbn [vldexp vdim]; lia|].
    unfold unscale_point in Ex. rewrite apply_unscaling_spec in Ex by (auto; lia). injection Ex as <-.
    unfold vldexp; cbn [vent]. now rewrite Ey1. }
  apply Hov in EH; try (apply vldexp_wf; assumption); try (cbn [vldexp vdim]; lia).
  2:{ unfold vec_clear, wf in *; cbn. destruct Wb as (? & ? & ?). repeat split; auto; lia. }
  2:{ cbn; lia. }
  destruct EH as (Wp & Dp & Hp). unfold scale_hessian_product in E2. rewrite apply_unscaling_spec in E2 by (auto; lia).
  injection E2 as <-. split; [now apply vldexp_wf|]. split; [cbn [vldexp vdim]; lia|].
  intros j Hj. rewrite dense_vldexp. rewrite Hp by lia. rewrite Hnv, Hnc.
  replace (wt (sc_vw s) j + -1 * sc_ow s) with (vw s j - sc_ow s) by (unfold vw; lia).
  fold (H0_scaled (vw s) (sc_ow s) H0). fold (Hc_scaled (vw s) (cw s) Hc).
  rewrite <- (hess_scaled (sc_nv s) (sc_nc s) H0 Hc (vw s) (cw s) (sc_ow s)). f_equal.
  unfold hess_apply. apply sumd_ext. intros k Hk. rewrite dense_vldexp.
  replace (wt (sc_vw s) k + 0) with (vw s k) by (unfold vw; lia). unfold dense at 2. rewrite Ed1. fold (dense d k). f_equal. f_equal.
  apply sumd_ext. intros i Hi. rewrite dense_vldexp. unfold dense at 1. rewrite El1. fold (dense lam i).
  replace (-1 * wt (sc_cw s) i + sc_ow s) with (- cw s i + sc_ow s) by (unfold cw; lia). reflexivity.
Qed.
Print Assumptions C22_hessian.

(** An infinite bound (cmp.c: at least half of sleqp_infinity) becomes finite under a weight of 2. *)
Theorem C22_infinite_refuted : exists (s : scaling) (ub : @vec F64), swf s /\ wf ub /\ vdim ub = sc_nv s /\
  forallb (fun e => is_infinite (snd e)) (vent ub) = true /\
  exists ub', scale_point s ub = Ok ub' /\ forallb (fun e => is_finite (snd e)) (vent ub') = true.
Proof.
  exists (mkscaling 1 0 0 [2] []), (mkvec 1 1 [(0, sleqp_infinity)]).
  split; [unfold swf; cbn; lia|]. split; [unfold wf; cbn; lia|]. split; [reflexivity|].
  split; [vm_compute; reflexivity|]. eexists. split; [reflexivity|]. vm_compute. reflexivity.
Qed.
Print Assumptions C22_infinite_refuted.

(** Least-squares problems (problem_scaling.c:210-273): with residuals [r] and residual Jacobian
    [J], the scaled objective is half the squared norm of [2^-ow r], so that its gradient is
    [2^-2ow 2^vw J^T r], but multipliers are unscaled with [2^ow] only.  One variable [x <= 1],
    residual [x - 3]: a stationary scaled pair whose unscaled image is not stationary. *)
Theorem C22_lsq_refuted : exists (s : scaling) (r J mu' : R), swf s /\
  exists (rs fwd mu : @vec RN),
    scale_lsq_residuals s (mkvec 1 1 [(0, r)]) = rs /\
    (v <- scale_lsq_forward_direction s (mkvec 1 1 [(0, J)]) ;; Ok (scale_lsq_adjoint_direction s v)) = Ok fwd /\
    (dense fwd 0 * dense rs 0 + mu' = 0)%R /\
    unscale_var_duals s (mkvec 1 1 [(0, mu')]) = Ok mu /\
    (J * r + dense mu 0 <> 0)%R.
Proof.
  exists (mkscaling 1 0 1 [0] []), (-2)%R, 1%R, (1/2)%R. split; [unfold swf; cbn; lia|].
  eexists _, _, _. split; [reflexivity|]. split; [reflexivity|].
  split; [|split; [reflexivity|]]; cbn; unfold r_ldexp; cbn; lra.
Qed.
Print Assumptions C22_lsq_refuted.

(** Data meeting the hypotheses of the C22 theorems: minimise x0^2/2 + x1 subject to 1 <= 2 x0 + x1 <= 4, 0 <= x <= 5. *)
Definition ex22_s : scaling := mkscaling 2 1 1 [1; -1] [2].
Definition ex22_p : @problem RN := mkproblem (mkufunc 2 1 (fun _ v => Ok v) (fun _ m => Ok m) (fun _ _ _ v => Ok v)) 0%R (mkvec 2 0 [])
  (mkvec 2 0 []) (mkvec 2 2 [(0, 5%R); (1, 5%R)]) (mkvec 1 1 [(0, 1%R)]) (mkvec 1 1 [(0, 4%R)])
  (mkvec 1 1 [(0, 1%R)]) (mkvec 1 1 [(0, 4%R)]) (mkmat 0 2 0 0 [0; 0; 0] []) (mkvec 0 0 []) (mkvec 0 0 []) 0 None
  (mkvec 1 0 []) (mkvec 0 0 []) (mkvec 1 0 []) (mkmat 1 2 0 0 [0; 0; 0] []).
Definition ex22_it : @iter RN := mkiter (mkvec 2 2 [(0, (1/2)%R)]) (1/8)%R (mkvec 2 2 [(0, (1/2)%R); (1, 1%R)]) (mkvec 1 1 [(0, 1%R)])
  (mkmat 1 2 2 2 [0; 1; 2] [(0, 2%R); (0, 1%R)]) (mkvec 1 1 [(0, (-1/4)%R)]) (mkvec 2 2 [(1, (-3/4)%R)]).
Definition ex22_cs : list (list (Z * R)) := [[(0, 2%R)]; [(0, 1%R)]].

Example C22_example : swf ex22_s /\ prob_shape ex22_s ex22_p /\ it_wf ex22_s ex22_it ex22_cs /\
  let k := it_kkt ex22_it ex22_cs (p_vlb ex22_p) (p_vub ex22_p) (p_clb ex22_p) (p_cub ex22_p) in
  stationary 2 1 k /\ feasible 2 1 k /\ complementarity 2 1 k.
Proof.
  split; [unfold swf; cbn; lia|]. split.
  { unfold prob_shape, wf, mwf; cbn. repeat split; try lia. exists [[]; []]. unfold stores, layout; cbn. repeat split; try lia.
    - intros [|[|[|j]]] Hj; cbn; try reflexivity. lia.
    - now exists [].
    - repeat constructor. }
  split.
  { unfold it_wf, wf, stores, layout; cbn. repeat split; try lia.
    - intros [|[|[|j]]] Hj; cbn; try reflexivity. lia.
    - now exists [].
    - repeat constructor; cbn; lia. }
  cbv zeta. split; [|split].
  - intros j Hj. assert (j = 0 \/ j = 1) as [-> | ->] by lia; unfold it_kkt, sumd, mR, mdense, dense; cbn; rewrite ?Pos2Nat.inj_1; cbn; unfold rn_lit; lra.
  - split.
    + intros j Hj. assert (j = 0 \/ j = 1) as [-> | ->] by lia; unfold it_kkt, sumd, mR, mdense, dense; cbn; rewrite ?Pos2Nat.inj_1; cbn; unfold rn_lit; lra.
    + intros j Hj. assert (j = 0) as -> by lia; unfold it_kkt, sumd, mR, mdense, dense; cbn; rewrite ?Pos2Nat.inj_1; cbn; unfold rn_lit; lra.
  - split.
    + intros j Hj. assert (j = 0 \/ j = 1) as [-> | ->] by lia; unfold compl, it_kkt, sumd, mR, mdense, dense; cbn; rewrite ?Pos2Nat.inj_1; cbn; unfold rn_lit; lra.
    + intros j Hj. assert (j = 0) as -> by lia; unfold compl, it_kkt, sumd, mR, mdense, dense; cbn; rewrite ?Pos2Nat.inj_1; cbn; unfold rn_lit; lra.
Qed.

(** ** C23 *)

(** A point satisfies the linear constraints with coefficients [cs]. *)
Definition lin_sat (nl nv : Z) (cs : list (list (Z * R))) (lb ub x : @vec RN) : Prop :=
  forall i, 0 <= i < nl -> (dense lb i <= sumd nv (fun j => mR cs i j * dense x j) <= dense ub i)%R.

Lemma scale_linear_spec {N : Num} {L : Ldexp N} s m cs : swf s -> stores m cs -> mnc m = sc_nv s -> 2 * mnr m <= sc_nc s ->
  scale_linear_coeffs s m = Ok (mldexp (fun i j => (-1) * cw s (mnr m + i) + vw s j) cs m).
Proof.
  intros (S1 & S2 & S3 & S4) Hm Hc Hn. unfold scale_linear_coeffs. pose proof (layout_facts m cs Hm) as (H1 & _).
  destruct (Z.leb_spec (mnr m) (sc_nc s)); [|lia]. cbn [check rbind].
  apply mat_ldexp_spec; auto. intros j c e Hj He. destruct (stores_index m cs j c e Hm Hj He).
  rewrite !arr_get_wt by lia. reflexivity.
Qed.

Lemma cons_linear_spec {N : Num} {L : Ldexp N} s v : swf s -> wf v -> vdim v <= sc_nc s ->
  scale_cons_linear s v = Ok (vldexp (fun i => -1 * cw s (sc_nc s - vdim v + i) + 0) v).
Proof.
  intros (S1 & S2 & S3 & S4) Hw Hd. unfold scale_cons_linear. erewrite rmapM_ok; [reflexivity|].
  eapply Forall_impl; [|exact (wf_bounds v Hw)]. cbn beta. intros e He. rewrite arr_get_wt by lia. reflexivity.
Qed.

(** With as many linear as general constraints (or fewer, provided the weight used for each row is the
    weight of its bounds), a point satisfies the linear constraints iff the scaled one satisfies the scaled constraints. *)
Theorem C23_linear_partial : forall (s : scaling) (m : @mat RN) cs (lb ub x : @vec RN), swf s -> stores m cs ->
  mnc m = sc_nv s -> 2 * mnr m <= sc_nc s ->
  (forall i, 0 <= i < mnr m -> cw s (mnr m + i) = cw s (sc_nc s - mnr m + i)) ->
  wf lb -> vdim lb = mnr m -> wf ub -> vdim ub = mnr m -> wf x -> vdim x = sc_nv s ->
  exists m' cs' lb' ub' y, scale_linear_coeffs s m = Ok m' /\ stores m' cs' /\ scale_cons_linear s lb = Ok lb' /\
    scale_cons_linear s ub = Ok ub' /\ scale_point s x = Ok y /\
    (lin_sat (mnr m) (sc_nv s) cs lb ub x <-> lin_sat (mnr m) (sc_nv s) cs' lb' ub' y).
Proof.
  intros s m cs lb ub x Hs Hm Hc Hn Hw Wl Dl Wu Du Wx Dx. pose proof Hs as (S1 & S2 & S3 & S4).
  pose proof (layout_facts m cs Hm) as (H1 & _).
  rewrite (scale_linear_spec s m cs) by auto. rewrite !cons_linear_spec by (auto; lia). unfold scale_point.
  rewrite apply_scaling_spec by (auto; lia).
  eexists _, _, _, _, _. split; [reflexivity|]. split; [apply mldexp_stores; exact Hm|]. split; [reflexivity|].
  split; [reflexivity|]. split; [reflexivity|].
  assert (Hrow : forall i, 0 <= i < mnr m ->
    sumd (sc_nv s) (fun j => (mR (@cols_ldexp RN RN_Ldexp (fun i j => (-1) * cw s (mnr m + i) + vw s j)%Z 0 cs) i j
       * dense (vldexp (fun i => -1 * wt (sc_vw s) i + 0)%Z x) j)%R)
    = (p2 (- cw s (sc_nc s - mnr m + i)%Z) * sumd (sc_nv s) (fun j => mR cs i j * dense x j))%R).
  { intros i Hi. rewrite <- sumd_scal. apply sumd_ext. intros j Hj.
    rewrite mR_cols_ldexp by (destruct Hm as [_ Hm]; rewrite <- Hc, Hm in Hj; exact Hj). rewrite dense_vldexp.
    fold (vw s j). rewrite (Hw i Hi). replace (-1 * vw s j + 0) with (- vw s j) by lia. rewrite p2_plus.
    replace (-1 * cw s (sc_nc s - mnr m + i)) with (- cw s (sc_nc s - mnr m + i)) by lia.
    transitivity (mR cs i j * dense x j * p2 (- cw s (sc_nc s - mnr m + i)%Z) * (p2 (vw s j) * p2 (- vw s j)))%R; [ring|]. rewrite p2_opp. ring. }
  unfold lin_sat. split; intros H i Hi; specialize (H i Hi).
  - rewrite Hrow, !dense_vldexp, Dl, Du by exact Hi.
    replace (-1 * cw s (sc_nc s - mnr m + i) + 0) with (- cw s (sc_nc s - mnr m + i)) by lia.
    pose proof (p2_pos (- cw s (sc_nc s - mnr m + i))). nra.
  - rewrite Hrow, !dense_vldexp, Dl, Du in H by exact Hi.
    replace (-1 * cw s (sc_nc s - mnr m + i) + 0) with (- cw s (sc_nc s - mnr m + i)) in H by lia.
    pose proof (p2_pos (- cw s (sc_nc s - mnr m + i))). nra.
Qed.
Print Assumptions C23_linear_partial.

(** One linear and one general constraint meet the hypotheses. *)
Example C23_example : exists (s : scaling) (m : @mat RN) cs, swf s /\ stores m cs /\ mnc m = sc_nv s /\ 2 * mnr m <= sc_nc s /\ 0 < mnr m /\
  (forall i, 0 <= i < mnr m -> cw s (mnr m + i) = cw s (sc_nc s - mnr m + i)) /\ cw s 1 <> 0.
Proof.
  exists (mkscaling 1 2 0 [1] [3; 4]), (mkmat 1 1 1 1 [0; 1] [(0, 1%R)]), [[(0, 1%R)]].
  split; [unfold swf; cbn; lia|]. split.
  { unfold stores, layout; cbn. repeat split; try lia.
    - intros [|[|j]] Hj; cbn; try reflexivity. lia.
    - now exists [].
    - repeat constructor; cbn; lia. }
  split; [reflexivity|]. split; [cbn; lia|]. split; [cbn; lia|]. split; [|cbn; discriminate].
  intros i Hi. reflexivity.
Qed.

(** Two general constraints and the linear constraint 0 <= x <= 1: the row is scaled with the
    weight of the second general constraint. *)
Theorem C23_refuted : exists (s : scaling) (m : @mat RN) cs (lb ub x : @vec RN) m' cs' lb' ub' y, swf s /\ stores m cs /\
  mnc m = sc_nv s /\ mnr m <= sc_nc s /\
  wf lb /\ vdim lb = mnr m /\ wf ub /\ vdim ub = mnr m /\ wf x /\ vdim x = sc_nv s /\
  scale_linear_coeffs s m = Ok m' /\ stores m' cs' /\ scale_cons_linear s lb = Ok lb' /\ scale_cons_linear s ub = Ok ub' /\
  scale_point s x = Ok y /\ lin_sat (mnr m) (sc_nv s) cs lb ub x /\ ~ lin_sat (mnr m) (sc_nv s) cs' lb' ub' y.
Proof.
  set (m := @mkmat RN 1 1 1 1 [0; 1] [(0, 1%R)]).
  assert (Hm : stores m [[(0, 1%R)]]).
  { unfold stores, layout; cbn. repeat split; try lia.
    - intros [|[|j]] Hj; cbn; try reflexivity. lia.
    - now exists [].
    - repeat constructor; cbn; lia. }
  set (s := mkscaling 1 3 0 [0] [0; 0; 1]). assert (Hs : swf s) by (unfold swf; cbn; lia).
  exists s, m, [[(0, 1%R)]], (mkvec 1 1 []), (mkvec 1 1 [(0, 1%R)]), (mkvec 1 1 [(0, 1%R)]).
  eexists _, _, _, _, _. split; [exact Hs|]. split; [exact Hm|]. split; [reflexivity|]. split; [cbn; lia|].
  split; [unfold wf; cbn; lia|]. split; [reflexivity|]. split; [unfold wf; cbn; lia|]. split; [reflexivity|].
  split; [unfold wf; cbn; lia|]. split; [reflexivity|].
  split; [apply (scale_linear_spec s m [[(0, 1%R)]]); auto; cbn; lia|]. split; [apply mldexp_stores; exact Hm|].
  split; [reflexivity|]. split; [reflexivity|]. split; [reflexivity|]. split.
  - intros i Hi. assert (i = 0) as -> by (cbn in Hi; lia). unfold sumd, mR, mdense, dense; cbn; rewrite ?Pos2Nat.inj_1; cbn; unfold rn_lit; lra.
  - intros H. specialize (H 0 ltac:(cbn; lia)). revert H. unfold sumd, mR, mdense, dense; cbn; rewrite ?Pos2Nat.inj_1; cbn; unfold r_ldexp, rn_lit; cbn; lra.
Qed.
Print Assumptions C23_refuted.

(** If all constraints are linear, the weights are always read out of bounds. *)
Theorem C23_bounds_refuted {N : Num} {L : Ldexp N} : forall (s : scaling) (m : mat) cs, swf s -> stores m cs -> mnr m = sc_nc s ->
  0 < mnnz m -> scale_linear_coeffs s m = Trap.
Proof.
  intros s m cs (S1 & S2 & S3 & S4) Hm Hr Hn. pose proof (layout_facts m cs Hm) as (H1 & H2 & H3 & H4 & H5).
  unfold scale_linear_coeffs. rewrite Hr, Z.leb_refl. cbn [check rbind]. unfold mat_ldexp.
  destruct (Z.to_nat (mnnz m)) as [|n] eqn:En; [lia|]. unfold zrange. rewrite En. cbn [seq map rfold].
  destruct (flat_pos cs 0) as (j & c & p & e & q & Hj & Hc & Hk); [lia|].
  assert (Hp : p = []) by (destruct p; [reflexivity|cbn in Hk; lia]). subst p. cbn [app length] in *.
  assert (Hjl : (j < length cs)%nat) by (apply nth_error_Some; congruence).
  pose proof Hm as [HL Hmc]. pose proof HL as (_ & Hcl & _ & _ & (rest & Hent) & _ & _).
  assert (Hcs : concat (firstn (S j) cs) = concat (firstn j cs) ++ c) by now apply concat_firstn_S.
  rewrite (advance_spec m cs (Z.of_nat j) 0 HL); try lia.
  2:{ replace (Z.to_nat (Z.of_nat j + 1)) with (S j) by lia. rewrite Nat2Z.id, Hcs, app_length, Hc. cbn [length]. lia. }
  cbn [rbind]. 
  assert (Hne : arr_get (ment m) 0 = Ok e).
  { apply arr_get_nth; [lia|]. rewrite Hent. rewrite nth_error_app1 by (cbn; lia).
    rewrite <- (firstn_skipn j cs), concat_app. destruct (concat (firstn j cs)); [|cbn in Hk; lia].
    rewrite (skipn_nth cs j c Hj). cbn [app concat]. rewrite Hc. reflexivity. }
  change (Z.of_nat 0) with 0. rewrite Hne. cbn [rbind].
  destruct (stores_index m cs j c e Hm Hj) as [Hi _]; [rewrite Hc; now left|].
  assert (Ho : arr_get (sc_cw s) (sc_nc s + fst e) = Trap).
  { unfold arr_get. destruct (Z.leb_spec 0 (sc_nc s + fst e)); [|reflexivity].
    rewrite (proj2 (nth_error_None _ _)); [reflexivity|]. lia. }
  rewrite Ho. reflexivity.
Qed.
Print Assumptions C23_bounds_refuted.

Example C23_bounds_example : exists (s : scaling) (m : @mat F64) cs, swf s /\ stores m cs /\ mnr m = sc_nc s /\ 0 < mnnz m.
Proof.
  exists (mkscaling 1 1 0 [0] [0]), (mkmat 1 1 1 1 [0; 1] [(0, fz 1)]), [[(0, fz 1)]].
  split; [unfold swf; cbn; lia|]. split; [|cbn; lia].
  unfold stores, layout; cbn -[fz]. repeat split; try lia.
  - intros [|[|j]] Hj; cbn -[fz]; try reflexivity. lia.
  - now exists [].
  - repeat constructor; cbn -[fz]; lia.
Qed.

Lemma convert_dim {N : Num} f src dim t r : convert f src dim t = Ok r -> vdim src = dim.
Proof.
  unfold convert. intros E. apply rbind_ok in E. destruct E as (? & _ & E). apply rbind_ok in E. destruct E as (? & E1 & _).
  apply check_ok in E1. lia.
Qed.

(** No problem with linear constraints can be scaled at all: the scaled function is created with
    the number of all constraints, but the bounds passed are those of the general ones. *)
Theorem C23_create_refuted {N : Num} {L : Ldexp N} : forall (s : scaling) (p q : problem), 0 < p_nl p ->
  vdim (p_glb p) = uf_nc (p_func p) -> problem_scaling_create s p <> Ok q.
Proof.
  intros s p q Hn Hd. unfold problem_scaling_create. destruct (negb _); [discriminate|]. destruct (negb _); [discriminate|].
  unfold problem_create, create_bounds. intros E. apply rbind_ok in E. destruct E as (b & E & _).
  apply rbind_ok in E. destruct E as (? & _ & E). apply rbind_ok in E. destruct E as (? & _ & E).
  apply rbind_ok in E. destruct E as (? & E & _). apply convert_dim in E. cbn [scaled_func uf_nc] in E. lia.
Qed.
Print Assumptions C23_create_refuted.

(** ** C55: nominal values are mapped to [.5, 1) *)

Lemma frexp_unit (x : f64) : ffin x = true -> B2R x <> 0%R ->
  let z := f64_ldexp x (-1 * f64_frexp x + 0) in ffin z = true /\ (/ 2 <= Rabs (B2R z) < 1)%R.
Proof.
  intros Hf Hx. destruct x as [s|s| |s m e B]; try discriminate; [cbn in Hx; lra|].
  set (x := B754_finite s m e B) in *. cbv zeta. change (f64_frexp x) with (snd (Bfrexp x)).
  pose proof (Bfrexp_correct 53 1024 prec53 x eq_refl) as H. destruct (Bfrexp x) as [z k]. cbn [snd].
  destruct H as (E & H). destruct (H ltac:(lia)) as ((H1 & H2) & _).
  assert (Ez : (B2R x * bpow radix2 (-1 * k + 0) = B2R z)%R).
  { rewrite E, Rmult_assoc, <- bpow_plus. replace (k + (-1 * k + 0)) with 0 by lia. cbn [bpow]. lra. }
  assert (Hk : keeps x (-1 * k + 0)).
  { right; right. rewrite Ez. split.
    - apply Rle_trans with (bpow radix2 (-1)); [apply bpow_le; lia|]. exact H1.
    - apply Rlt_le_trans with 1%R; [exact H2|]. change 1%R with (bpow radix2 0). apply bpow_le. lia. }
  destruct (ldexp_exact x _ Hf Hk) as (E1 & E2 & _). split; [exact E2|]. rewrite E1, Ez. split; [exact H1|exact H2].
Qed.

Lemma from_nominal_loop (xs : list (@num F64)) (ws : list Z) n : 0 <= n -> n <= len xs -> len ws = n ->
  exists ws', rfold (fun w j => x <- arr_get xs j ;; arr_set w j (@nfrexp F64 F64_Ldexp x)) ws (zrange n) = Ok ws'
    /\ len ws' = n /\ forall i, 0 <= i < n -> exists x, arr_get xs i = Ok x /\ wt ws' i = f64_frexp x.
Proof.
  intros Hn Hx Hw.
  destruct (zrange_loop (fun j (w : list Z) => len w = n /\ forall i, 0 <= i < j -> exists x, arr_get xs i = Ok x /\ arr_get w i = Ok (f64_frexp x))
    (fun w j => x <- arr_get xs j ;; arr_set w j (@nfrexp F64 F64_Ldexp x)) n ws) as (w & E & Hl & H); auto.
  { split; auto. intros; lia. }
  - intros j w Hj (Hl & H). destruct (nth_error xs (Z.to_nat j)) as [x|] eqn:Ex; [|apply nth_error_None in Ex; lia].
    assert (Eg : arr_get xs j = Ok x) by (apply arr_get_nth; [lia|exact Ex]). rewrite Eg. cbn [rbind]. rewrite arr_set_ok by lia.
    eexists. split; [reflexivity|]. rewrite set_nth_length. split; [exact Hl|]. intros i Hi.
    assert (G : arr_get (set_nth w (Z.to_nat j) (@nfrexp F64 F64_Ldexp x)) i = if i =? j then Ok (f64_frexp x) else arr_get w i).
    { unfold arr_get. destruct (Z.leb_spec 0 i); [|lia]. rewrite set_nth_spec by lia.
      destruct (Z.eqb_spec i j), (Nat.eqb_spec (Z.to_nat i) (Z.to_nat j)); try lia; reflexivity. }
    destruct (Z.eq_dec i j) as [->|].
    + exists x. rewrite G, Z.eqb_refl. auto.
    + destruct (H i) as (y & ? & ?); [lia|]. exists y. rewrite G. destruct (Z.eqb_spec i j); [lia|]. auto.
  - exists w. split; [exact E|]. split; [exact Hl|]. intros i Hi. destruct (H i Hi) as (x & ? & E1). exists x. split; auto.
    rewrite arr_get_wt in E1 by lia. congruence.
Qed.

(** Every entry of [v] is the nominal value of its index. *)
Definition nominal (v : @vec F64) (xs : list f64) : Prop := forall i x, In (i, x) (vent v) -> arr_get xs i = Ok x.
Definition usable (x : f64) : Prop := ffin x = true /\ B2R x <> 0%R.
Definition unit_range (x : f64) : Prop := ffin x = true /\ (/ 2 <= Rabs (B2R x) < 1)%R.

Theorem C55_var_nominal : forall (s : scaling) (xs : list (@num F64)), swf s -> sc_nv s <= len xs -> Forall usable xs ->
  exists s', set_var_weights_from_nominal s xs = Ok s' /\ swf s' /\ sc_cw s' = sc_cw s /\ sc_ow s' = sc_ow s
    /\ forall v, wf v -> vdim v = sc_nv s -> nominal v xs ->
       exists v', scale_point s' v = Ok v' /\ map fst (vent v') = map fst (vent v) /\ Forall unit_range (map snd (vent v')).
Proof.
  intros s xs (S1 & S2 & S3 & S4) Hl Hu.
  destruct (from_nominal_loop xs (sc_vw s) (sc_nv s)) as (ws & E & Hw & H); [lia..|].
  unfold set_var_weights_from_nominal. rewrite E. cbn [rbind]. eexists. split; [reflexivity|]. unfold swf; cbn [sc_nv sc_nc sc_vw sc_cw sc_ow].
  split; [repeat split; lia|]. split; [reflexivity|]. split; [reflexivity|].
  intros v Hv Hd Hnom. unfold scale_point; cbn [sc_vw]. rewrite apply_scaling_spec by (auto; lia). eexists. split; [reflexivity|].
  unfold vldexp; cbn [vent]. rewrite !map_map. cbn [fst snd]. split; [reflexivity|].
  apply Forall_forall. intros z Hz. apply in_map_iff in Hz. destruct Hz as ([i x] & <- & Hin). cbn [fst snd].
  pose proof (proj1 (Forall_forall _ _) (wf_bounds v Hv) _ Hin) as Hb. cbn [fst] in Hb.
  destruct (H i) as (x' & Ex & Ew); [lia|]. assert (Exx : x' = x) by (pose proof (eq_trans (eq_sym Ex) (Hnom i x Hin)) as Ey; now injection Ey). subst x'. rewrite Ew.
  destruct (proj1 (Forall_forall _ _) Hu x) as [U1 U2]. { pose proof (Hnom i x Hin) as Hg. apply arr_get_nth in Hg; [|lia]. eapply nth_error_In; eauto. }
  exact (frexp_unit x U1 U2).
Qed.
Print Assumptions C55_var_nominal.

Theorem C55_cons_nominal : forall (s : scaling) (xs : list (@num F64)), swf s -> sc_nc s <= len xs -> Forall usable xs ->
  exists s', set_cons_weights_from_nominal s xs = Ok s' /\ swf s' /\ sc_vw s' = sc_vw s /\ sc_ow s' = sc_ow s
    /\ forall v, wf v -> vdim v = sc_nc s -> nominal v xs ->
       exists v', scale_cons_val s' v = Ok v' /\ map fst (vent v') = map fst (vent v) /\ Forall unit_range (map snd (vent v')).
Proof.
  intros s xs (S1 & S2 & S3 & S4) Hl Hu.
  destruct (from_nominal_loop xs (sc_cw s) (sc_nc s)) as (ws & E & Hw & H); [lia..|].
  unfold set_cons_weights_from_nominal. rewrite E. cbn [rbind]. eexists. split; [reflexivity|]. unfold swf; cbn [sc_nv sc_nc sc_vw sc_cw sc_ow].
  split; [repeat split; lia|]. split; [reflexivity|]. split; [reflexivity|].
  intros v Hv Hd Hnom. unfold scale_cons_val; cbn [sc_cw]. rewrite apply_scaling_spec by (auto; lia). eexists. split; [reflexivity|].
  unfold vldexp; cbn [vent]. rewrite !map_map. cbn [fst snd]. split; [reflexivity|].
  apply Forall_forall. intros z Hz. apply in_map_iff in Hz. destruct Hz as ([i x] & <- & Hin). cbn [fst snd].
  pose proof (proj1 (Forall_forall _ _) (wf_bounds v Hv) _ Hin) as Hb. cbn [fst] in Hb.
  destruct (H i) as (x' & Ex & Ew); [lia|]. assert (Exx : x' = x) by (pose proof (eq_trans (eq_sym Ex) (Hnom i x Hin)) as Ey; now injection Ey). subst x'. rewrite Ew.
  destruct (proj1 (Forall_forall _ _) Hu x) as [U1 U2]. { pose proof (Hnom i x Hin) as Hg. apply arr_get_nth in Hg; [|lia]. eapply nth_error_In; eauto. }
  exact (frexp_unit x U1 U2).
Qed.
Print Assumptions C55_cons_nominal.

Theorem C55_obj_nominal : forall (s : scaling) (x : f64), usable x -> unit_range (scale_obj_val (set_obj_weight_from_nominal s x) x).
Proof.
  intros s x [H1 H2]. unfold scale_obj_val, set_obj_weight_from_nominal, set_obj_weight. cbn [sc_ow nldexp F64_Ldexp nfrexp].
  pose proof (frexp_unit x H1 H2) as H. cbv zeta in H. rewrite Z.add_0_r in H. exact H.
Qed.
Print Assumptions C55_obj_nominal.

Lemma usable_lit z : z <> 0 -> Z.abs z < 2 ^ 53 -> usable (fz z).
Proof.
  intros H1 H2. unfold usable, fz, f64_lit. cbn [Z.eqb Pos.eqb]. destruct (f64_of_Z_exact z) as [E1 E2]; [|split]; try assumption.
  rewrite E1. now apply IZR_neq.
Qed.

Example C55_example : exists s', set_var_weights_from_nominal (mkscaling 2 1 0 [0; 0] [0]) [fz 1000; fz (-3)] = Ok s'
  /\ sc_vw s' = [10; 2] /\ exists v', scale_point s' (mkvec 2 2 [(0, fz 1000); (1, fz (-3))]) = Ok v' /\ Forall unit_range (map snd (vent v')).
Proof.
  destruct (C55_var_nominal (mkscaling 2 1 0 [0; 0] [0]) [fz 1000; fz (-3)]) as (s' & E & _ & _ & _ & H).
  - unfold swf; cbn; lia.
  - cbn; lia.
  - repeat apply Forall_cons; try apply Forall_nil; apply usable_lit; lia.
  - exists s'. split; [exact E|]. split; [unfold set_var_weights_from_nominal in E; cbn -[nfrexp fz] in E; injection E as <-; vm_compute; reflexivity|].
    destruct (H (mkvec 2 2 [(0, fz 1000); (1, fz (-3))])) as (v' & E' & _ & F).
    + unfold wf; cbn -[fz]; lia.
    + reflexivity.
    + intros i x [Hi|[Hi|[]]]; injection Hi as <- <-; reflexivity.
    + eauto.
Qed.

(** ** C56: automatic scaling *)

Lemma f64_ldexp_nn x e : fnn x -> fnn (@nldexp F64 F64_Ldexp x e).
Proof.
  intros Hx. cbn [nldexp F64_Ldexp]. unfold f64_ldexp. destruct x as [s|s| |s m k B]; try reflexivity; [discriminate Hx|].
  pose proof (Bldexp_correct 53 1024 prec53 prec_lt_emax_53_1024 mode_NE (B754_finite s m k B) e) as H.
  destruct (Rlt_bool _ _).
  - destruct H as (_ & H & _). now apply nn_fin.
  - cbn [nn F64_Ord]. set (z := Bldexp _ _ _) in *. destruct z; try reflexivity. cbn in H. discriminate.
Qed.

Lemma f64_inf_pos : fnn (@sleqp_infinity F64) /\ (0 < val (@sleqp_infinity F64))%R.
Proof.
  split; [vm_compute; reflexivity|]. rewrite <- (val_0 (Ord := F64_Ord)). apply ltb_iff; [apply nn_0|vm_compute; reflexivity|vm_compute; reflexivity].
Qed.

(** Numbers only, with a non-negative tolerance. *)
Theorem C56_jac_weights : forall (s : scaling) (m : @mat F64) cs mins maxs (eps : f64),
  swf s -> stores m cs -> mnr m = sc_nc s -> mnc m = sc_nv s ->
  (forall c e, In c cs -> In e c -> BinarySingleNaN.is_nan (snd e) = false) ->
  BinarySingleNaN.is_nan eps = false -> (0 <= f64val eps)%R ->
  Z.max (sc_nv s) (sc_nc s) <= len mins -> Z.max (sc_nv s) (sc_nc s) <= len maxs ->
  exists s', scaling_from_cons_jac s m mins maxs eps = Ok s' /\ swf s' /\ sc_nv s' = sc_nv s /\ sc_nc s' = sc_nc s /\ sc_ow s' = 0
    /\ Forall (fun w => -30 <= w <= 30) (sc_vw s') /\ Forall (fun w => -30 <= w <= 30) (sc_cw s').
Proof.
  intros s m cs mins maxs eps Hs Hm Hr Hc Hn He1 He2 L1 L2.
  apply (from_jac_spec f64_ldexp_nn f64_inf_pos s m cs mins maxs eps); auto; try lia. split; [exact He1|exact He2].
Qed.
Print Assumptions C56_jac_weights.

Theorem C56_grad_weights : forall (s : scaling) (g : @vec F64) (eps : f64),
  Forall (fun e => BinarySingleNaN.is_nan (snd e) = false) (vent g) ->
  exists s', obj_scaling_from_grad s g eps = Ok s' /\ -30 <= sc_ow s' <= 30 /\ sc_vw s' = sc_vw s /\ sc_cw s' = sc_cw s.
Proof. intros s g eps Hg. exact (from_grad_spec s g eps Hg). Qed.
Print Assumptions C56_grad_weights.

Example C56_example : exists s', scaling_from_cons_jac (mkscaling 2 1 5 [1; 2] [3]) (mkmat 1 2 2 2 [0; 1; 2] [(0, fz 1024); (0, fz (-7))])
    [fz 0; fz 0] [fz 0; fz 0] ftenth = Ok s' /\ swf s'.
Proof.
  destruct (C56_jac_weights (mkscaling 2 1 5 [1; 2] [3]) (mkmat 1 2 2 2 [0; 1; 2] [(0, fz 1024); (0, fz (-7))])
    [[(0, fz 1024)]; [(0, fz (-7))]] [fz 0; fz 0] [fz 0; fz 0] ftenth) as (s' & E & Hw & _); eauto.
  - unfold swf; cbn; lia.
  - unfold stores, layout; cbn -[fz]. repeat split; try lia.
    + intros [|[|[|j]]] Hj; cbn -[fz]; try reflexivity. lia.
    + now exists [].
    + repeat constructor; cbn -[fz]; lia.
  - intros c e [<-|[<-|[]]] [<-|[]]; vm_compute; reflexivity.
  - rewrite <- (val_0 (Ord := F64_Ord)). change (f64val ftenth) with (val (Ord := F64_Ord) ftenth). apply Rlt_le, ltb_iff; [apply nn_0|vm_compute; reflexivity|vm_compute; reflexivity].
  - cbn; lia.
  - cbn; lia.
Qed.

(** The weights do not normalise anything: a gradient [1024] gets the weight [-10], so that the
    scaled gradient is [2^20] instead of about [1]; the same holds for the Jacobian. *)
Theorem C56_grad_refuted : exists (s s' : scaling) (g g' : @vec F64), swf s /\ wf g /\ vdim g = sc_nv s
  /\ obj_scaling_from_grad s g (fz 0) = Ok s' /\ sc_ow s' = -10
  /\ scale_obj_grad s' g = Ok g' /\ map (fun e => Beqb (snd e) (fz 1048576)) (vent g') = [true].
Proof.
  exists (mkscaling 1 0 0 [0] []), (mkscaling 1 0 (-10) [0] []), (mkvec 1 1 [(0, fz 1024)]), (vldexp (fun _ => 10) (mkvec 1 1 [(0, fz 1024)])).
  split; [unfold swf; cbn; lia|]. split; [unfold wf; cbn -[fz]; lia|]. split; [reflexivity|]. split; [vm_compute; reflexivity|].
  split; [reflexivity|]. split; [reflexivity|]. vm_compute. reflexivity.
Qed.
Print Assumptions C56_grad_refuted.

Theorem C56_jac_refuted : exists (s s' : scaling) (m m' : @mat F64), swf s /\ stores m [[(0, fz 1024)]]
  /\ scaling_from_cons_jac s m [fz 0] [fz 0] (fz 0) = Ok s' /\ sc_cw s' = [-10] /\ sc_vw s' = [0]
  /\ scale_cons_jac s' m = Ok m' /\ map (fun e => Beqb (snd e) (fz 1048576)) (ment m') = [true].
Proof.
  exists (mkscaling 1 1 0 [0] [0]), (mkscaling 1 1 0 [0] [-10]), (mkmat 1 1 1 1 [0; 1] [(0, fz 1024)]), (mldexp (fun _ _ => 10) [[(0, fz 1024)]] (mkmat 1 1 1 1 [0; 1] [(0, fz 1024)])).
  split; [unfold swf; cbn; lia|]. split.
  { unfold stores, layout; cbn -[fz]. repeat split; try lia.
    + intros [|[|j]] Hj; cbn -[fz]; try reflexivity. lia.
    + now exists [].
    + repeat constructor; cbn -[fz]; lia. }
  split; [vm_compute; reflexivity|]. split; [reflexivity|]. split; [reflexivity|]. split; [reflexivity|]. vm_compute. reflexivity.
Qed.
Print Assumptions C56_jac_refuted.
