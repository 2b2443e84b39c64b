(** The transformed problem over exact arithmetic (transform.c) and the state it is built from. *)
From Coq Require Import Reals Lra.
From Flocq Require Import Core BinarySingleNaN.
From Verif Require Import Base Num Cmp Order OrdArith Sparse Vec VecFacts VecFacts2 VecFacts3 VecFacts4 VecReal RSum Mat MatFacts MatFacts2 MatFacts3 MatFacts4 Arr
  Problem ProblemFacts Preproc PreprocFacts PreprocReal.
Local Open Scope R_scope.

(** Well-formed problem data; [cs] are the columns of the linear coefficients. *)
Definition pdata (p : @problem RN) cs : Prop :=
  stores (p_lin p) cs /\ mnr (p_lin p) = p_nl p /\ mnc (p_lin p) = uf_nv (p_func p) /\ (0 <= uf_nc (p_func p))%Z
  /\ (wf (p_vlb p) /\ vdim (p_vlb p) = uf_nv (p_func p)) /\ (wf (p_vub p) /\ vdim (p_vub p) = uf_nv (p_func p))
  /\ (wf (p_llb p) /\ vdim (p_llb p) = p_nl p) /\ (wf (p_lub p) /\ vdim (p_lub p) = p_nl p)
  /\ (wf (p_glb p) /\ vdim (p_glb p) = uf_nc (p_func p)) /\ (wf (p_gub p) /\ vdim (p_gub p) = uf_nc (p_func p)).

Lemma to_raw_arr {N : Num} (v : vec) a : wf v -> vec_to_raw v = Ok a -> arr a (vdim v) (dense v).
Proof.
  intros Hw E. destruct (vec_to_raw_spec v Hw) as (a' & E' & Hl & Hn). assert (a' = a) by congruence. subst a'. split; [lia|exact Hn].
Qed.

Lemma set_from_raw_real (c : rvec) (a : list R) n f v : wf c -> arr a n f -> (0 <= n)%Z -> vec_set_from_raw c a (0 : @num RN) = Ok v ->
  wf v /\ vdim v = n /\ forall i, (0 <= i < n)%Z -> dense v i = f i.
Proof.
  intros Hw [Hl Hn] H0 E. destruct (vec_set_from_raw_spec c a (0 : @num RN) Hw) as (v' & E' & Hw' & Hd & Hg). assert (v' = v) by congruence. subst v'.
  split; [auto|]. split; [rewrite Hd; rnum; lia|]. intros i Hi. unfold dense. rewrite Hg by lia. rnum. rewrite (Hn i Hi).
  destruct (@is_zero RN (f i) 0) eqn:Ez; [|reflexivity]. apply rn_is_zero0 in Ez. rewrite oval_rn. now rewrite Ez.
Qed.

Lemma remove_entries_inv {N : Num} (s t v : vec) fs : wf s -> wf t -> sorted_in 0 (vdim s) fs -> vec_remove_entries s t fs = Ok v ->
  wf v /\ vdim v = vdim t /\ (vdim s = vdim t + Z.of_nat (length fs))%Z /\ forall i j, kept fs i j -> dense v j = dense s i.
Proof.
  intros Hs Ht Hf E. assert (Hd : (vdim s = vdim t + Z.of_nat (length fs))%Z).
  { unfold vec_remove_entries in E. unbind E. apply check_ok in E0. cbn [vec_clear vdim] in E0. lia. }
  destruct (vec_remove_entries_spec s t fs Hs Ht Hf Hd) as (v' & E' & Hw & Hv & Hk). assert (v' = v) by congruence. subst v'.
  repeat (split; [assumption|]). intros i j H. unfold dense. now rewrite (Hk i j H).
Qed.

Lemma merge_entries_inv {N : Num} (s t v : vec) es : wf s -> wf t -> sorted_in 0 (vdim t) (keys es) -> merge_entries s t es = Ok v ->
  wf v /\ vdim v = vdim t /\ (vdim s + Z.of_nat (length es) = vdim t)%Z /\ (forall i j, kept (keys es) i j -> dense v i = dense s j)
  /\ (forall f y, In (f, y) es -> dense v f = y).
Proof.
  intros Hs Ht Hf E. assert (Hd : (vdim s + Z.of_nat (length es) = vdim t)%Z).
  { unfold merge_entries in E. unbind E. apply check_ok in E0. cbn [vec_clear vdim] in E0. lia. }
  destruct (merge_entries_spec s t es Hs Ht Hf Hd) as (v' & E' & Hw & Hv & Hk & Hk'). assert (v' = v) by congruence. subst v'.
  repeat (split; [assumption|]). split.
  - intros i j H. unfold dense. now rewrite (Hk i j H).
  - intros f y H. unfold dense. now rewrite (Hk' f y H).
Qed.

Lemma wf_evec {N : Num} d : (0 <= d)%Z -> wf (evec d).
Proof. intros H. unfold wf, evec. cbn [vdim vent vcap keys map length sorted_in]. split; [exact H|]. split; [exact I|]. cbn. lia. Qed.

(** A problem constructed over exact arithmetic has the data it was given. *)
Lemma problem_create_inv f vlb vub glb gub coeffs cs llb lub eps (q : @problem RN) :
  (0 <= uf_nv f)%Z -> (0 <= uf_nc f)%Z -> wf vlb -> wf vub -> wf glb -> wf gub -> wf llb -> wf lub ->
  vdim vlb = uf_nv f -> vdim vub = uf_nv f -> vdim glb = uf_nc f -> vdim gub = uf_nc f ->
  vdim llb = mnr coeffs -> vdim lub = mnr coeffs -> stores coeffs cs -> mnc coeffs = uf_nv f ->
  problem_create f vlb vub glb gub coeffs llb lub eps = Ok q ->
  p_func q = f /\ p_nl q = mnr coeffs /\ pdata q cs
  /\ (forall j, dense (p_vlb q) j = dense vlb j) /\ (forall j, dense (p_vub q) j = dense vub j)
  /\ (forall j, dense (p_llb q) j = dense llb j) /\ (forall j, dense (p_lub q) j = dense lub j)
  /\ (forall j, dense (p_glb q) j = dense glb j) /\ (forall j, dense (p_gub q) j = dense gub j).
Proof.
  intros Hnv Hnc W1 W2 W3 W4 W5 W6 D1 D2 D3 D4 D5 D6 Hs Hc E.
  assert (Hfin : mat_is_finite coeffs = Ok true).
  { rewrite (mat_is_finite_stores coeffs cs Hs). unfold problem_create in E. unbind E. destruct a as [[[vl vu] gl] gu]. unbind E. unbind E. unbind E. unbind E. unbind E. unbind E.
    pose proof (layout_facts coeffs cs Hs) as (R0 & _).
    destruct (mat_create_spec 0 (uf_nv f) 0) as (m0 & Em & Lm & Rm & Cm & Capm); try lia. assert (m0 = a) by congruence. subst m0.
    assert (mwf a0 /\ mnr a0 = mnr coeffs /\ mnc a0 = uf_nv f) as (Wm1 & Rm1 & Cm1).
    { unfold mat_create in Em. change (0 <=? 0)%Z with true in Em. destruct (Z.leb_spec 0 (uf_nv f)); [|lia]. cbn [andb check rbind] in Em.
      injection Em as <-. unfold mat_resize in E2. cbn [mnc mcols mnr mnnz mcap ment] in E2. destruct (Z.leb_spec 0 (mnr coeffs)), (Z.leb_spec 0 (uf_nv f)); try lia.
      cbn [andb check rbind] in E2. rewrite Z.ltb_irrefl in E2. injection E2 as <-. split; [|auto].
      exists (repeat [] (Z.to_nat (uf_nv f))). apply stores_repeat_nil; auto; lia. }
    destruct (mat_copy_spec coeffs cs a0) as (m2 & Ec & S2 & R2 & C2'); auto; try congruence. assert (m2 = a1) by congruence. subst m2.
    rewrite (mat_is_finite_stores a1 cs S2) in E6. injection E6 as <-. unbind E. apply check_ok in E6. f_equal. exact E6. }
  assert (Z1 : @map_lower RN n0 = n0) by reflexivity. assert (Z2 : @map_upper RN n0 = n0) by reflexivity.
  destruct (problem_create_spec f vlb vub glb gub coeffs cs llb lub eps) as (c1 & c2 & c3 & c4 & c5 & c6 & V1 & V2 & V3 & V4 & V5 & V6 & H); auto.
  destruct H as [[_ [H|H]]|(_ & _ & _ & _ & _ & _ & [[H _]|(_ & _ & _ & clb & cub & lin & gj & H & Wc & Wc' & Dc & Dc' & Gl & Gu & Sl & Rl & Cl & _)])]; try congruence.
  rewrite H in E. apply (f_equal (fun r => match r with Ok z => z | _ => q end)) in E. cbv iota beta in E. subst q.
  unfold pdata. cbn [p_func p_nl p_vlb p_vub p_llb p_lub p_lin p_glb p_gub].
  split; [reflexivity|]. split; [reflexivity|]. split.
  { split; [exact Sl|]. split; [exact Rl|]. split; [exact Cl|]. split; [exact Hnc|]. repeat (split; [split; [assumption|cbn [vmapped vdim]; assumption]|]). split; [assumption|cbn [vmapped vdim]; assumption]. }
  split; [intros j; exact (dense_mapped map_lower vlb c1 j Z1)|]. split; [intros j; exact (dense_mapped map_upper vub c2 j Z2)|].
  split; [intros j; exact (dense_mapped map_lower llb c5 j Z1)|]. split; [intros j; exact (dense_mapped map_upper lub c6 j Z2)|].
  split; [intros j; exact (dense_mapped map_lower glb c3 j Z1)|]. intros j; exact (dense_mapped map_upper gub c4 j Z2).
Qed.

(** A sum over all indices, split into removed and kept ones. *)
Lemma sum_kept fs N (f g : Z -> R) : sorted_in 0 N fs -> (0 <= N)%Z ->
  (forall j j', (0 <= j < N)%Z -> kept fs j j' -> g j' = f j) ->
  sumd N f = sumd N (fun j => if existsb (Z.eqb j) fs then f j else 0) + sumd (N - Z.of_nat (length fs)) g.
Proof.
  intros Hs HN Hg.
  assert (G : forall n, (Z.of_nat n <= N)%Z -> (0 <= Z.of_nat n - count_lt fs (Z.of_nat n))%Z /\
    rsum n f = rsum n (fun j => if existsb (Z.eqb j) fs then f j else 0) + sumd (Z.of_nat n - count_lt fs (Z.of_nat n)) g).
  { induction n as [|n IH]; intros Hn.
    - rewrite (count_lt_none fs (Z.of_nat 0)). { split; [lia|]. cbn. lra. } intros k Hk. pose proof (sorted_in_In _ _ _ _ Hs Hk). lia.
    - destruct IH as [I1 I2]; [lia|]. replace (Z.of_nat (S n)) with (Z.of_nat n + 1)%Z by lia. rewrite (count_lt_succ fs 0 N) by exact Hs. cbn [rsum].
      destruct (existsb (Z.eqb (Z.of_nat n)) fs) eqn:Ex.
      + replace (Z.of_nat n + 1 - (count_lt fs (Z.of_nat n) + 1))%Z with (Z.of_nat n - count_lt fs (Z.of_nat n))%Z by lia. split; [exact I1|]. lra.
      + replace (Z.of_nat n + 1 - (count_lt fs (Z.of_nat n) + 0))%Z with (Z.of_nat n - count_lt fs (Z.of_nat n) + 1)%Z by lia. split; [lia|].
        assert (Hk : kept fs (Z.of_nat n) (Z.of_nat n - count_lt fs (Z.of_nat n))).
        { apply kept_total. intros Hin. apply existsb_In in Hin. congruence. }
        unfold sumd in *. replace (Z.to_nat (Z.of_nat n - count_lt fs (Z.of_nat n) + 1)) with (S (Z.to_nat (Z.of_nat n - count_lt fs (Z.of_nat n)))) by lia.
        cbn [rsum]. rewrite Z2Nat.id by lia. rewrite (Hg (Z.of_nat n) _ ltac:(lia) Hk). lra. }
  specialize (G (Z.to_nat N) ltac:(lia)). rewrite Z2Nat.id in G by lia. rewrite (count_lt_all fs N) in G; [exact (proj2 G)|].
  intros k Hk. pose proof (sorted_in_In _ _ _ _ Hs Hk). lia.
Qed.

(** Tightening by converted bounds. *)
Lemma conv_max (L : list (@cbound RN)) a n f a' : arr a n f ->
  rfold (fun d cb => x <- arr_get d (cb_var cb) ;; arr_set d (cb_var cb) (@nmax RN x (cb_lb cb))) a L = Ok a' ->
  exists g, arr a' n g /\ forall j, (0 <= j < n)%Z -> forall t, g j <= t <-> f j <= t /\ forall cb, In cb L -> cb_var cb = j -> cb_lb cb <= t.
Proof.
  revert a f; induction L as [|cb L IH]; intros a f Ha E; cbn [rfold] in E.
  - injection E as <-. exists f. split; [exact Ha|]. intros j Hj t. split; [intros H; split; [exact H|intros cb []]|tauto].
  - unbind E. unbind E0. destruct (arr_get_inv _ _ _ _ _ Ha E1) as [Hv ->]. destruct (arr_set_inv _ _ _ _ _ _ Ha E0) as [_ Ha0].
    destruct (IH _ _ Ha0 E) as (g & Hg & Hj). exists g. split; [exact Hg|]. intros j Hr t. rewrite (Hj j Hr t). unfold upd. rewrite rn_max.
    destruct (Z.eqb_spec j (cb_var cb)) as [->|Hne].
    + split.
      * intros [H1 H2]. pose proof (Rmax_l (f (cb_var cb)) (cb_lb cb)). pose proof (Rmax_r (f (cb_var cb)) (cb_lb cb)). split; [rnum; lra|]. intros c [<-|Hc] Hcv; [rnum; lra|auto].
      * intros [H1 H2]. split; [apply Rmax_lub; [exact H1|apply H2; [now left|reflexivity]]|]. intros c Hc Hcv. apply H2; [now right|exact Hcv].
    + split; intros [H1 H2]; (split; [exact H1|]).
      * intros c [<-|Hc] Hcv; [congruence|auto].
      * intros c Hc Hcv. apply H2; [now right|exact Hcv].
Qed.

Lemma conv_min (L : list (@cbound RN)) a n f a' : arr a n f ->
  rfold (fun d cb => x <- arr_get d (cb_var cb) ;; arr_set d (cb_var cb) (@nmin RN x (cb_ub cb))) a L = Ok a' ->
  exists g, arr a' n g /\ forall j, (0 <= j < n)%Z -> forall t, t <= g j <-> t <= f j /\ forall cb, In cb L -> cb_var cb = j -> t <= cb_ub cb.
Proof.
  revert a f; induction L as [|cb L IH]; intros a f Ha E; cbn [rfold] in E.
  - injection E as <-. exists f. split; [exact Ha|]. intros j Hj t. split; [intros H; split; [exact H|intros cb []]|tauto].
  - unbind E. unbind E0. destruct (arr_get_inv _ _ _ _ _ Ha E1) as [Hv ->]. destruct (arr_set_inv _ _ _ _ _ _ Ha E0) as [_ Ha0].
    destruct (IH _ _ Ha0 E) as (g & Hg & Hj). exists g. split; [exact Hg|]. intros j Hr t. rewrite (Hj j Hr t). unfold upd. rewrite rn_min.
    destruct (Z.eqb_spec j (cb_var cb)) as [->|Hne].
    + split.
      * intros [H1 H2]. pose proof (Rmin_l (f (cb_var cb)) (cb_ub cb)). pose proof (Rmin_r (f (cb_var cb)) (cb_ub cb)). split; [rnum; lra|]. intros c [<-|Hc] Hcv; [rnum; lra|auto].
      * intros [H1 H2]. split; [apply Rmin_glb; [exact H1|apply H2; [now left|reflexivity]]|]. intros c Hc Hcv. apply H2; [now right|exact Hcv].
    + split; intros [H1 H2]; (split; [exact H1|]).
      * intros c [<-|Hc] Hcv; [congruence|auto].
      * intros c Hc Hcv. apply H2; [now right|exact Hcv].
Qed.

Section Trans.
Variables (p : @problem RN) (cs : list (list (Z * R))).
Hypothesis HP : pdata p cs.
Let nv := uf_nv (p_func p).
Let nl := p_nl p.

Lemma nv_pos : (0 <= nv)%Z.
Proof. destruct HP as (HS & _ & Hc & _). pose proof (layout_facts _ _ HS) as (_ & H & _). unfold nv. lia. Qed.
Lemma nl_pos : (0 <= nl)%Z.
Proof. destruct HP as (HS & Hr & _). pose proof (layout_facts _ _ HS) as (H & _). unfold nl. lia. Qed.

Section State.
Variables (s : @pst RN) (fixed : list (Z * R)) (removed : list Z) (fv : Z -> @vstate RN) (fc : Z -> ckind) (rv rc : Z -> bool * bool).
Hypotheses (A1 : arr (ps_vars s) nv fv) (A2 : arr (ps_cons s) nl fc) (A3 : arr (ps_vreq s) nv rv) (A4 : arr (ps_creq s) nl rc).
Hypotheses (HF : fixed = fixed_of fv nv) (HFn : Z.of_nat (length fixed) = ps_nfix s).
Hypotheses (HR : removed = removed_of fc nl) (HRn : Z.of_nat (length removed) = num_removed_cons s).

Lemma fixed_sorted : sorted_in 0 nv (keys fixed).
Proof. rewrite HF. apply fixed_of_sorted. Qed.
Lemma removed_sorted : sorted_in 0 nl removed.
Proof. rewrite HR. apply removed_of_sorted. Qed.
Lemma len_keys : length (keys fixed) = length fixed.
Proof. apply map_length. Qed.

Lemma trans_var_lb v : transformed_var_lb p s fixed (0 : @num RN) = Ok v ->
  wf v /\ vdim v = (nv - ps_nfix s)%Z /\ forall j j', (0 <= j < nv)%Z -> kept (keys fixed) j j' -> forall t,
    dense v j' <= t <-> (if only_lower (rv j) then - (2 * hi) else dense (p_vlb p) j) <= t /\ forall cb, In cb (ps_conv s) -> cb_var cb = j -> cb_lb cb <= t.
Proof.
  intros E. destruct HP as (HS & Hnr & Hnc & Hg & (Wl & Dl) & _). pose proof nv_pos as Hn. fold nv in Dl.
  unfold transformed_var_lb in E. fold nv in E. unbind E. unbind E. unbind E. unbind E. unbind E. unbind E.
  apply wf_create in E0. destruct E0 as (W0 & D0 & _).
  rewrite <- Dl in A3. destruct (replace_bound_inv _ _ rv _ _ _ _ _ Wl W0 ltac:(congruence) A3 E1) as (W1 & D1 & H1). rewrite Dl in *.
  pose proof (to_raw_arr _ _ W1 E2) as Ar. rewrite D1 in Ar.
  destruct (conv_max _ _ _ _ _ Ar E3) as (g & Hg2 & Hj).
  apply wf_create in E4. destruct E4 as (W4 & D4 & _). assert (P4 : (0 <= nv - ps_nfix s)%Z) by (destruct W4; lia).
  destruct (set_from_raw_real a3 _ _ _ _ W4 Hg2 Hn E5) as (W5 & D5 & H5).
  destruct (remove_entries_inv _ _ _ _ W5 (wf_evec _ P4) ltac:(rewrite D5; apply fixed_sorted) E) as (W6 & D6 & _ & H6).
  split; [exact W6|]. split; [exact D6|]. intros j j' Hr Hk t. rewrite (H6 j j' Hk), (H5 j Hr), (Hj j Hr t), (H1 j Hr).
  change (@nopp RN) with Ropp. rewrite rn_inf. reflexivity.
Qed.

Lemma trans_var_ub v : transformed_var_ub p s fixed (0 : @num RN) = Ok v ->
  wf v /\ vdim v = (nv - ps_nfix s)%Z /\ forall j j', (0 <= j < nv)%Z -> kept (keys fixed) j j' -> forall t,
    t <= dense v j' <-> t <= (if only_upper (rv j) then 2 * hi else dense (p_vub p) j) /\ forall cb, In cb (ps_conv s) -> cb_var cb = j -> t <= cb_ub cb.
Proof.
  intros E. destruct HP as (HS & Hnr & Hnc & Hg & _ & (Wl & Dl) & _). pose proof nv_pos as Hn. fold nv in Dl.
  unfold transformed_var_ub in E. fold nv in E. unbind E. unbind E. unbind E. unbind E. unbind E. unbind E.
  apply wf_create in E0. destruct E0 as (W0 & D0 & _).
  rewrite <- Dl in A3. destruct (replace_bound_inv _ _ rv _ _ _ _ _ Wl W0 ltac:(congruence) A3 E1) as (W1 & D1 & H1). rewrite Dl in *.
  pose proof (to_raw_arr _ _ W1 E2) as Ar. rewrite D1 in Ar.
  destruct (conv_min _ _ _ _ _ Ar E3) as (g & Hg2 & Hj).
  apply wf_create in E4. destruct E4 as (W4 & D4 & _). assert (P4 : (0 <= nv - ps_nfix s)%Z) by (destruct W4; lia).
  destruct (set_from_raw_real a3 _ _ _ _ W4 Hg2 Hn E5) as (W5 & D5 & H5).
  destruct (remove_entries_inv _ _ _ _ W5 (wf_evec _ P4) ltac:(rewrite D5; apply fixed_sorted) E) as (W6 & D6 & _ & H6).
  split; [exact W6|]. split; [exact D6|]. intros j j' Hr Hk t. rewrite (H6 j j' Hk), (H5 j Hr), (Hj j Hr t), (H1 j Hr).
  rewrite rn_inf. reflexivity.
Qed.

(** Contribution of the fixed variables to row [i]. *)
Definition fixpart i : R := sumd nv (fun j => if existsb (Z.eqb j) (keys fixed) then mR cs i j * vs_value (fv j) else 0).

Lemma fixed_value j : (0 <= j < nv)%Z -> oval (get fixed j) = if existsb (Z.eqb j) (keys fixed) then vs_value (fv j) else 0.
Proof.
  intros Hj. destruct (existsb (Z.eqb j) (keys fixed)) eqn:Ex.
  - apply existsb_In in Ex. apply keys_pairs in Ex. destruct Ex as (x & Hx). rewrite (In_get _ _ _ _ _ fixed_sorted Hx). cbn [oval].
    rewrite HF in Hx. apply fixed_of_in in Hx. tauto.
  - destruct (get fixed j) as [x|] eqn:E; [|apply oval_rn]. apply get_Some_In, In_keys, existsb_In in E. congruence.
Qed.

Lemma fixed_linear_real r : fixed_linear p s fixed (0 : @num RN) = Ok r ->
  wf (fst r) /\ wf (snd r) /\ vdim (fst r) = nl /\ vdim (snd r) = nl
  /\ (forall i, (0 <= i < nl)%Z -> dense (fst r) i = dense (p_llb p) i - fixpart i)
  /\ (forall i, (0 <= i < nl)%Z -> dense (snd r) i = dense (p_lub p) i - fixpart i).
Proof.
  intros E. destruct HP as (HS & Hnr & Hnc & Hg & _ & _ & (Wl & Dl) & (Wu & Du) & _). pose proof nv_pos as Hn. pose proof nl_pos as Hm.
  unfold fixed_linear in E. fold nv in E, Hnc. fold nl in E, Hnr, Dl, Du. destruct (Z.ltb_spec 0 (ps_nfix s)).
  - unbind E. unbind E. unbind E. unbind E. unbind E. unbind E. unbind E. injection E as <-. cbn [fst snd].
    destruct (vec_reserve_spec (evec nv) (ps_nfix s)) as (t1 & Et & W1 & D1 & N1 & C1); [now apply wf_evec|lia|]. assert (t1 = a) by congruence. subst t1. clear Et.
    assert (Wfv : wf a0 /\ vdim a0 = nv /\ vent a0 = fixed).
    { assert (Hp : push_all a fixed = Ok (mkvec (vdim a) (vcap a) (vent a ++ fixed))).
      { apply push_all_ok.
        - rewrite D1, N1. cbn [evec vdim vent app]. apply fixed_sorted.
        - unfold vnnz. rewrite N1. cbn [evec vent length]. rnum. lia. }
      rewrite N1, D1 in Hp. cbn [evec vdim vent app] in Hp. assert (a0 = mkvec nv (vcap a) fixed) by congruence. subst a0. cbn [vdim vent]. split; [|auto].
      unfold wf. cbn [vdim vent vcap]. split; [exact Hn|]. split; [apply fixed_sorted|]. rnum. lia. }
    destruct Wfv as (Wf & Df & Nf).
    destruct (mult_vec_real (p_lin p) cs a0 HS Wf) as (r & Er & Lr & Hr); [congruence|]. assert (r = a1) by congruence. subst r. rewrite Hnr, Hnc in *.
    apply wf_create in E3. destruct E3 as (W3 & D3 & _).
    assert (Ar : arr a1 nl fixpart).
    { split; [exact Lr|]. intros i Hi. specialize (Hr i Hi). assert (Hlt : (Z.to_nat i < length a1)%nat) by lia. rewrite (nth_error_nth' a1 0 Hlt), Hr. f_equal.
      unfold fixpart. apply sumd_ext. intros j Hj. unfold dense. pose proof (fixed_value j Hj) as Hfx. rewrite Nf. rnum. rewrite Hfx. destruct (existsb _ _); lra. }
    destruct (set_from_raw_real a2 _ _ _ _ W3 Ar Hm E4) as (W4 & D4 & H4). rewrite rn_n1 in E5, E6. change (@nopp RN 1) with (- 1) in *.
    destruct (add_scaled_real (p_llb p) a3 (evec nl) 1 (-1)) as (z1 & F1 & Z1 & Z2 & Z3); auto; [congruence|cbn; lia|].
    destruct (add_scaled_real (p_lub p) a3 (evec nl) 1 (-1)) as (z2 & F2 & Y1 & Y2 & Y3); auto; [congruence|cbn; lia|].
    assert (z1 = a4) by congruence. assert (z2 = a5) by congruence. subst z1 z2.
    split; [auto|]. split; [auto|]. split; [congruence|]. split; [congruence|]. split; intros i Hi; rewrite ?Z3, ?Y3, (H4 i Hi); lra.
  - injection E as <-. cbn [fst snd]. repeat (split; [assumption|]).
    assert (H0 : forall i, fixpart i = 0).
    { intros i. unfold fixpart. apply sumd_zero. intros j Hj. destruct fixed as [|e l]; [reflexivity|]. cbn [length] in HFn. lia. }
    split; intros i Hi; rewrite H0; lra.
Qed.

Lemma trans_linear r : transform_linear p s fixed removed (0 : @num RN) = Ok r ->
  let '(l, u, a) := r in
  wf l /\ wf u /\ vdim l = (nl - num_removed_cons s)%Z /\ vdim u = (nl - num_removed_cons s)%Z
  /\ mnr a = (nl - num_removed_cons s)%Z /\ mnc a = (nv - ps_nfix s)%Z
  /\ (forall i i', (0 <= i < nl)%Z -> kept removed i i' -> dense l i' = dense (p_llb p) i - fixpart i \/ (only_lower (rc i) = true /\ dense l i' = - (2 * hi)))
  /\ (forall i i', (0 <= i < nl)%Z -> kept removed i i' -> dense u i' = dense (p_lub p) i - fixpart i \/ (only_upper (rc i) = true /\ dense u i' = 2 * hi))
  /\ exists cs', stores a cs' /\ forall i i' j j', (0 <= i < nl)%Z -> (0 <= j < nv)%Z -> kept removed i i' -> kept (keys fixed) j j' -> mR cs' i' j' = mR cs i j.
Proof.
  intros E. destruct HP as (HS & Hnr & Hnc & Hg & _). pose proof nv_pos as Hn. pose proof nl_pos as Hm.
  unfold transform_linear in E. fold nv in E, Hnc. fold nl in E, Hnr. unbind E. unbind E. unbind E. unbind E. unbind E. unbind E. injection E as <-. cbn [fst snd].
  destruct (fixed_linear_real _ E0) as (W1 & W2 & D1 & D2 & H1 & H2).
  assert (Hlu : wf (fst a0) /\ wf (snd a0) /\ vdim (fst a0) = nl /\ vdim (snd a0) = nl
     /\ (forall i, (0 <= i < nl)%Z -> dense (fst a0) i = dense (p_llb p) i - fixpart i \/ (only_lower (rc i) = true /\ dense (fst a0) i = - (2 * hi)))
     /\ (forall i, (0 <= i < nl)%Z -> dense (snd a0) i = dense (p_lub p) i - fixpart i \/ (only_upper (rc i) = true /\ dense (snd a0) i = 2 * hi))).
  { destruct (negb (ps_nvb s =? 0)%Z).
    - unbind E1. unbind E1. injection E1 as <-. cbn [fst snd].
      destruct (replace_bound_inv _ _ rc _ (evec nl) _ _ _ W1 (wf_evec _ Hm) ltac:(cbn [evec vdim]; congruence) ltac:(rewrite D1; exact A4) E) as (X1 & X2 & X3).
      destruct (replace_bound_inv _ _ rc _ (evec nl) _ _ _ W2 (wf_evec _ Hm) ltac:(cbn [evec vdim]; congruence) ltac:(rewrite D2; exact A4) E6) as (Y1 & Y2 & Y3).
      rewrite D1 in *. rewrite D2 in *. change (@nopp RN) with Ropp in *. rewrite rn_inf in *.
      split; [auto|]. split; [auto|]. split; [auto|]. split; [auto|]. split.
      + intros i Hi. rewrite (X3 i Hi), (H1 i Hi). destruct (only_lower (rc i)); auto.
      + intros i Hi. rewrite (Y3 i Hi), (H2 i Hi). destruct (only_upper (rc i)); auto.
    - injection E1 as <-. repeat (split; [assumption|]). split; intros i Hi; left; auto. }
  destruct Hlu as (V1 & V2 & V3 & V4 & V5 & V6).
  assert (Hpos : (0 <= nl - num_removed_cons s)%Z).
  { pose proof (sorted_in_length _ _ _ removed_sorted). lia. }
  destruct (remove_entries_inv _ _ _ _ V1 (wf_evec _ Hpos) ltac:(rewrite V3; apply removed_sorted) E2) as (X1 & X2 & _ & X3).
  destruct (remove_entries_inv _ _ _ _ V2 (wf_evec _ Hpos) ltac:(rewrite V4; apply removed_sorted) E3) as (Y1 & Y2 & _ & Y3).
  assert (Hpos2 : (0 <= nv - ps_nfix s)%Z).
  { pose proof (sorted_in_length _ _ _ fixed_sorted) as H. rewrite len_keys in H. lia. }
  assert (Hm0 : mwf a3 /\ mnr a3 = (nl - num_removed_cons s)%Z /\ mnc a3 = (nv - ps_nfix s)%Z).
  { unfold mat_create in E4. destruct (Z.leb_spec 0 (nl - num_removed_cons s)), (Z.leb_spec 0 (nv - ps_nfix s)); try lia. change (0 <=? 0)%Z with true in E4. cbn [andb check rbind] in E4.
    injection E4 as <-. cbn [mnr mnc]. split; [|auto]. exists (repeat [] (Z.to_nat (nv - ps_nfix s))). apply stores_repeat_nil; auto; lia. }
  destruct Hm0 as (Wa & Ra & Ca).
  destruct (mat_remove_entries_layout (p_lin p) cs a3 removed (keys fixed) HS Wa) as (t' & Et & St & Rt & Ct).
  { rewrite Hnr. apply removed_sorted. } { rewrite Hnc. apply fixed_sorted. } { rewrite Hnc, Ca, len_keys. lia. } { rewrite Hnr, Ra. lia. }
  rnum. assert (t' = a4) by congruence. subst t'.
  split; [auto|]. split; [auto|]. split; [exact X2|]. split; [exact Y2|]. split; [congruence|]. split; [congruence|].
  split; [intros i i' Hi Hk; rewrite (X3 i i' Hk); auto|]. split; [intros i i' Hi Hk; rewrite (Y3 i i' Hk); auto|].
  eexists. split; [exact St|]. intros i i' j j' Hi Hj Hk Hk'. unfold mR, mdense. rewrite Hnc.
  destruct HS as [HL Hc]. f_equal. apply (remove_both_entry cs removed (keys fixed) (mnr (p_lin p)) nv i j i' j'); auto.
  - destruct HL as (_ & _ & _ & _ & _ & _ & HFA). exact HFA.
  - congruence.
  - rewrite Hnr. apply removed_sorted.
  - apply fixed_sorted.
Qed.

Lemma trans_func_nv : uf_nv (transformed_func p fixed) = (nv - ps_nfix s)%Z /\ uf_nc (transformed_func p fixed) = uf_nc (p_func p).
Proof.
  unfold transformed_func. destruct fixed as [|e l].
  - cbn [length] in HFn. split; [unfold nv; lia|reflexivity].
  - unfold fixed_ufunc. cbn [uf_nv uf_nc]. rnum. split; [fold nv; rewrite HFn; reflexivity|reflexivity].
Qed.

Lemma trans_problem q : transformed_problem p s fixed removed (0 : @num RN) = Ok q ->
  exists cs', pdata q cs' /\ p_func q = transformed_func p fixed /\ uf_nv (p_func q) = (nv - ps_nfix s)%Z /\ p_nl q = (nl - num_removed_cons s)%Z
  /\ (forall j j', (0 <= j < nv)%Z -> kept (keys fixed) j j' -> forall t,
       dense (p_vlb q) j' <= t <-> (if only_lower (rv j) then - (2 * hi) else dense (p_vlb p) j) <= t /\ forall cb, In cb (ps_conv s) -> cb_var cb = j -> cb_lb cb <= t)
  /\ (forall j j', (0 <= j < nv)%Z -> kept (keys fixed) j j' -> forall t,
       t <= dense (p_vub q) j' <-> t <= (if only_upper (rv j) then 2 * hi else dense (p_vub p) j) /\ forall cb, In cb (ps_conv s) -> cb_var cb = j -> t <= cb_ub cb)
  /\ (forall i i', (0 <= i < nl)%Z -> kept removed i i' -> dense (p_llb q) i' = dense (p_llb p) i - fixpart i \/ (only_lower (rc i) = true /\ dense (p_llb q) i' = - (2 * hi)))
  /\ (forall i i', (0 <= i < nl)%Z -> kept removed i i' -> dense (p_lub q) i' = dense (p_lub p) i - fixpart i \/ (only_upper (rc i) = true /\ dense (p_lub q) i' = 2 * hi))
  /\ (forall i i' j j', (0 <= i < nl)%Z -> (0 <= j < nv)%Z -> kept removed i i' -> kept (keys fixed) j j' -> mR cs' i' j' = mR cs i j)
  /\ (forall i, dense (p_glb q) i = dense (p_glb p) i) /\ (forall i, dense (p_gub q) i = dense (p_gub p) i).
Proof.
  intros E. unfold transformed_problem in E. unbind E. unbind E. unbind E. unbind E. unbind E. unbind E. injection E as <-. clear E4 E5.
  destruct (trans_var_lb _ E0) as (W1 & D1 & H1). destruct (trans_var_ub _ E1) as (W2 & D2 & H2).
  pose proof (trans_linear _ E2) as HL. destruct a1 as [[l u] mt]. cbn [fst snd] in *.
  destruct HL as (W3 & W4 & D3 & D4 & Rm & Cm & H3 & H4 & cs' & Ss & Hm). destruct trans_func_nv as [Fn Fc].
  destruct HP as (_ & _ & _ & Hg & _ & _ & _ & _ & (Wgl & Dgl) & (Wgu & Dgu)).
  destruct (problem_create_inv (transformed_func p fixed) a a0 (p_glb p) (p_gub p) mt cs' l u (0 : @num RN) a2) as (P1 & P2 & P3 & P4 & P5 & P6 & P7 & P8 & P9); auto; try congruence.
  { rewrite Fn. destruct W1 as (W1 & _). lia. }
  exists cs'. split; [exact P3|]. split; [exact P1|]. split; [congruence|]. split; [congruence|].
  split; [intros j j' Hj Hk t; rewrite P4; auto|]. split; [intros j j' Hj Hk t; rewrite P5; auto|].
  split; [intros i i' Hi Hk; rewrite P6; auto|]. split; [intros i i' Hi Hk; rewrite P7; auto|]. auto.
Qed.

End State.
End Trans.
