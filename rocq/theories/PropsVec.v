(** Property theorems C01-C10: sparse vectors and tolerance comparisons.

    Specification vocabulary: [wf] and [dense] (VecFacts.v), [get] and [sorted_in]
    (Sparse.v), [kept] (VecFacts2.v), [sumd], [dotd], [norm2], [is_max_abs]
    (RSum.v, VecReal.v), [nn]/[val] = "not NaN" / "the real number denoted" (Order.v). *)
From Coq Require Import Reals Lra Sorted.
From Flocq Require Import Core IEEE754.BinarySingleNaN.
From Verif Require Import Base Num Cmp Sparse Vec VecFacts Order VecFacts2 VecFacts3 F64Facts RSum VecReal CmpFacts VecFacts4.
Local Open Scope Z_scope.

(** [sorted_in lo hi l] says: strictly increasing with all elements in [lo, hi). *)
Theorem sorted_in_meaning lo hi l :
  sorted_in lo hi l <-> StronglySorted Z.lt l /\ Forall (fun i => lo <= i < hi) l.
Proof.
  revert lo; induction l as [|i l IH]; intros lo; cbn [sorted_in].
  - split; auto. intros _. split; constructor.
  - rewrite IH. split.
    + intros (Hi & Hs & Hf). split.
      * constructor; auto. eapply Forall_impl; [|exact Hf]. intros j Hj. cbn in Hj. lia.
      * constructor; auto. eapply Forall_impl; [|exact Hf]. intros j Hj. cbn in Hj. lia.
    + intros (Hs & Hf). inversion Hs as [|? ? Hs' Hall]; subst. inversion Hf as [|? ? Hi Hf']; subst.
      split; auto. split; auto. rewrite Forall_forall in *. intros j Hj.
      specialize (Hall j Hj). specialize (Hf' j Hj). lia.
Qed.

(** ** Small concrete vectors over doubles, used by the examples. *)
Definition fz (z : Z) : f64 := f64_of_Z z.
Definition ve (d : Z) (es : list (Z * Z)) : @vec F64 := mkvec d (Z.of_nat (length es)) (map (fun e => (fst e, fz (snd e))) es).
Definition vx : @vec F64 := ve 5 [(0, 3); (2, -4); (4, 7)].
Definition vy : @vec F64 := ve 5 [(1, 2); (2, 4)].
Definition show (v : @vec F64) : list (Z * SpecFloat.spec_float) := map (fun e => (fst e, B2SF (snd e : f64))) (vent v).
Definition fnan : f64 := B754_nan.
Definition finf : f64 := B754_infinity false.
Lemma wf_vx : wf vx. Proof. unfold wf; cbn; lia. Qed.
Lemma wf_vy : wf vy. Proof. unfold wf; cbn; lia. Qed.

(** ** C01 *)

(** Every run of operations that does not abort ends in a well-formed vector. *)
Theorem C01_run_wf {N : Num} : forall d c ops v0 v,
  vec_create d c = Ok v0 -> (forall s, In (VCopyFrom s) ops -> wf s) ->
  rfold vstep v0 ops = Ok v -> wf v.
Proof. exact vrun_wf. Qed.
Print Assumptions C01_run_wf.

(** An operation that meets its documented precondition does not abort, and has
    exactly the stated effect on the dimension and on the stored entries. *)
Theorem C01_step_ok {N : Num} : forall v o, wf v -> vpre v o ->
  exists v', vstep v o = Ok v' /\ wf v'
    /\ vdim v' = fst (veffect o (vdim v) (get (vent v)))
    /\ (forall j, get (vent v') j = snd (veffect o (vdim v) (get (vent v))) j).
Proof. exact vstep_ok. Qed.
Print Assumptions C01_step_ok.

(** The validity check accepts exactly the well-formed vectors. *)
Theorem C01_valid_iff_wf {N : Num} : forall v, 0 <= vdim v -> (vec_is_valid v = true <-> wf v).
Proof. intros v H. rewrite vec_is_valid_spec. unfold wf. tauto. Qed.
Print Assumptions C01_valid_iff_wf.

Example C01_example :
  match rfold vstep (mkvec 5 2 [])
    [VPush 1 (fz 3); VReserve 4; VPush 3 (fz 8); VScale (fz 2); VResize 3; VPush 2 (fz 1)] with
  | Ok v => vec_is_valid v && (vdim v =? 3) && (Z.of_nat (length (vent v)) =? 2) | _ => false end = true.
Proof. vm_compute. reflexivity. Qed.
(** The precondition is needed: pushing out of order aborts. *)
Example C01_example_pre : rfold vstep (mkvec 5 4 []) [VPush 3 (fz 1); VPush 1 (fz 1)] = Trap.
Proof. reflexivity. Qed.

(** ** C02 *)
Theorem C02_add_scaled {N : Num} : forall x y f g eps r,
  wf x -> wf y -> vdim x = vdim y -> 0 <= vcap r ->
  exists z, vec_add_scaled x y f g eps r = Ok z /\ wf z /\ vdim z = vdim x
    /\ forall i, get (vent z) i =
         match get (vent x) i, get (vent y) i with
         | None, None => None
         | a, b =>
           let v := match a, b with
                    | Some p, Some q => nadd (nadd n0 (nmul f p)) (nmul g q)
                    | Some p, None => nadd n0 (nmul f p)
                    | None, Some q => nadd n0 (nmul g q)
                    | None, None => n0
                    end in
           if nleb (nabs v) eps then None else Some v
         end.
Proof.
  intros x y f g eps r Hx Hy Hd Hr. destruct (vec_add_scaled_spec x y f g eps r Hx Hy Hd Hr) as (z & E & Hw & Hdz & Hg).
  exists z. repeat split; auto; try apply Hw. intros i. rewrite Hg. unfold comb_at.
  destruct (get (vent x) i), (get (vent y) i); reflexivity.
Qed.
Print Assumptions C02_add_scaled.

(** In exact arithmetic with tolerance zero: the dense linear combination. *)
Theorem C02_add_scaled_real : forall (x y r : rvec) (a b : R),
  wf x -> wf y -> vdim x = vdim y -> 0 <= vcap r ->
  exists z, vec_add_scaled x y a b 0%R r = Ok z /\ wf z /\ vdim z = vdim x
    /\ forall i, dense z i = (a * dense x i + b * dense y i)%R.
Proof. exact add_scaled_real. Qed.
Print Assumptions C02_add_scaled_real.

Example C02_example : rmap (fun z => map fst (vent z)) (vec_add_scaled vx vy (fz 1) (fz 1) (fz 0) (ve 0 [])) = Ok [0; 1; 4].
Proof. vm_compute. reflexivity. Qed.

(** ** C03 *)
Theorem C03_raw_roundtrip {N : Num} : forall v values eps, wf v ->
  exists v', vec_set_from_raw v values eps = Ok v' /\ wf v' /\
    vec_to_raw v' = Ok (map (fun x => if nleb (nabs x) eps then n0 else x) values).
Proof.
  intros v values eps Hw. destruct (vec_set_from_raw_spec v values eps Hw) as (v' & E & Hw' & _).
  exists v'. split; [exact E|]. split; [exact Hw'|].
  destruct (raw_roundtrip v values eps Hw) as (v2 & E2 & H2). assert (v2 = v') by congruence. subst. exact H2.
Qed.
Print Assumptions C03_raw_roundtrip.

Theorem C03_to_raw {N : Num} : forall v, wf v ->
  exists a, vec_to_raw v = Ok a /\ Z.of_nat (length a) = vdim v
    /\ forall i, 0 <= i < vdim v ->
         nth_error a (Z.to_nat i) = Some (dense v i) /\ vec_value_at v i = Ok (dense v i).
Proof.
  intros v Hw. destruct (vec_to_raw_spec v Hw) as (a & E & Hl & Hn). exists a. repeat split; auto.
  apply vec_value_at_spec. lia.
Qed.
Print Assumptions C03_to_raw.

(** A vector without negligible entries survives the dense round trip unchanged. *)
Theorem C03_sparse_roundtrip {N : Num} : forall v r eps, wf v -> wf r ->
  (forall i x, In (i, x) (vent v) -> nleb (nabs x) eps = false) -> nleb (nabs n0) eps = true ->
  exists a v', vec_to_raw v = Ok a /\ vec_set_from_raw r a eps = Ok v' /\ vdim v' = vdim v
    /\ forall i, get (vent v') i = get (vent v) i.
Proof. exact sparse_roundtrip. Qed.
Print Assumptions C03_sparse_roundtrip.

Theorem C03_concat {N : Num} : forall x y r, wf x -> wf y -> 0 <= vcap r ->
  exists z, vec_concat x y r = Ok z /\ wf z /\ vdim z = vdim x + vdim y
    /\ forall i, get (vent z) i = if i <? vdim x then get (vent x) i else get (vent y) (i - vdim x).
Proof. exact vec_concat_spec. Qed.
Print Assumptions C03_concat.

Example C03_example : rmap (map B2SF) (vec_to_raw vx) = Ok (map B2SF [fz 3; fz 0; fz (-4); fz 0; fz 7]).
Proof. vm_compute. reflexivity. Qed.

(** ** C04 *)
Local Open Scope R_scope.
Theorem C04_dot : forall x y : rvec, wf x -> wf y -> vdim x = vdim y ->
  vec_dot x y = Ok (sumd (vdim x) (fun i => dense x i * dense y i)).
Proof. exact vec_dot_real. Qed.
Print Assumptions C04_dot.

(** Symmetry, bilinearity, definiteness and Cauchy-Schwarz of the computed inner product. *)
Theorem C04_dot_laws : forall (x y z r : rvec) (a b : R),
  wf x -> wf y -> wf z -> vdim x = vdim y -> vdim y = vdim z -> (0 <= vcap r)%Z ->
  exists xy xz yz xx yy w,
    vec_dot x y = Ok xy /\ vec_dot y x = Ok xy /\ vec_dot x z = Ok xz /\ vec_dot y z = Ok yz
    /\ vec_add_scaled x y a b 0 r = Ok w /\ vec_dot w z = Ok (a * xz + b * yz)
    /\ vec_dot x x = Ok xx /\ vec_dot y y = Ok yy
    /\ 0 <= xx /\ (xx = 0 <-> forall i, (0 <= i < vdim x)%Z -> dense x i = 0)
    /\ xy * xy <= xx * yy.
Proof.
  intros x y z r a b Hx Hy Hz E1 E2 Hr.
  destruct (add_scaled_real x y r a b Hx Hy E1 Hr) as (w & Ew & Hw & Hdw & Hv).
  exists (dotd (vdim x) (dense x) (dense y)), (dotd (vdim x) (dense x) (dense z)), (dotd (vdim x) (dense y) (dense z)),
    (dotd (vdim x) (dense x) (dense x)), (dotd (vdim x) (dense y) (dense y)), w.
  split; [apply vec_dot_real; auto|].
  split; [rewrite vec_dot_real by auto; rewrite <- E1; now rewrite dotd_sym|].
  split; [apply vec_dot_real; auto; congruence|].
  split; [rewrite vec_dot_real by (auto; congruence); now rewrite E1|].
  split; [exact Ew|].
  split.
  { rewrite vec_dot_real by (auto; congruence). rewrite Hdw, <- dotd_lin. apply (f_equal (@Ok R)). apply dotd_ext; auto. }
  split; [apply vec_dot_real; auto|].
  split; [rewrite vec_dot_real by auto; now rewrite E1|].
  split; [apply dotd_nonneg|]. split; [apply dotd_zero|]. apply dotd_cauchy.
Qed.
Print Assumptions C04_dot_laws.

Theorem C04_norms : forall v : rvec, wf v ->
  vec_norm_sq v = sumd (vdim v) (fun i => dense v i * dense v i)
  /\ vec_norm v = sqrt (sumd (vdim v) (fun i => dense v i * dense v i))
  /\ vec_one_norm v = sumd (vdim v) (fun i => Rabs (dense v i))
  /\ is_max_abs (vdim v) (dense v) (vec_inf_norm v).
Proof.
  intros v H. split; [now apply vec_norm_sq_real|]. split; [now apply vec_norm_real|].
  split; [now apply vec_one_norm_real|now apply vec_inf_norm_real].
Qed.
Print Assumptions C04_norms.

Theorem C04_norm_axioms : forall (x y r : rvec) (a : R),
  wf x -> wf y -> vdim x = vdim y -> (0 <= vcap r)%Z ->
  exists s, vec_add_scaled x y 1 1 0 r = Ok s
    /\ vec_norm s <= vec_norm x + vec_norm y
    /\ vec_one_norm s <= vec_one_norm x + vec_one_norm y
    /\ vec_inf_norm s <= vec_inf_norm x + vec_inf_norm y
    /\ vec_norm (vec_scale x a) = Rabs a * vec_norm x
    /\ vec_one_norm (vec_scale x a) = Rabs a * vec_one_norm x
    /\ vec_inf_norm (vec_scale x a) = Rabs a * vec_inf_norm x
    /\ (vec_norm x = 0 <-> forall i, (0 <= i < vdim x)%Z -> dense x i = 0)
    /\ (vec_one_norm x = 0 <-> forall i, (0 <= i < vdim x)%Z -> dense x i = 0)
    /\ (vec_inf_norm x = 0 <-> forall i, (0 <= i < vdim x)%Z -> dense x i = 0).
Proof. exact norm_axioms. Qed.
Print Assumptions C04_norm_axioms.

(** The example is evaluated over doubles (the entries are small integers, so exactly). *)
Example C04_example : rmap B2SF (vec_dot vx vy) = Ok (B2SF (fz (-16))) /\ B2SF (vec_one_norm vx) = B2SF (fz 14).
Proof. vm_compute. split; reflexivity. Qed.
Example C04_wf : exists x : rvec, wf x /\ dense x 2 = 2.
Proof. exists (mkvec 3 3 [(0%Z, 1); (2%Z, 2)]). split; [unfold wf; cbn; lia|reflexivity]. Qed.
Local Open Scope Z_scope.

(** ** C05 *)
Theorem C05_vec_eq {N : Num} : forall x y eps, wf x -> wf y -> vdim x = vdim y -> is_eq n0 n0 eps = true ->
  exists b, vec_eq x y eps = Ok b /\
    (b = true <-> forall i, 0 <= i < vdim x -> is_eq (dense x i) (dense y i) eps = true).
Proof. exact vec_eq_spec. Qed.
Print Assumptions C05_vec_eq.
(** The side condition holds for every tolerance the settings admit. *)
Theorem C05_side_condition : forall eps : f64, tol eps -> @is_eq F64 n0 n0 eps = true.
Proof. exact is_eq_00. Qed.
Print Assumptions C05_side_condition.
Example C05_example : vec_eq vx vx (fz 0) = Ok true /\ vec_eq vx vy (fz 0) = Ok false
  /\ vec_eq vx (ve 5 [(0, 3); (1, 0); (2, -4); (4, 7)]) (fz 0) = Ok true.
Proof. vm_compute. auto. Qed.

(** ** C06 *)
Theorem C06_is_boxed {N : Num} {O : Ord N} : forall x lb ub,
  wf x -> wf lb -> wf ub -> vdim lb = vdim x -> vdim ub = vdim x ->
  exists b, vec_is_boxed x lb ub = Ok b /\
    (b = true <-> forall i, 0 <= i < vdim x ->
       nltb (dense x i) (dense lb i) = false /\ nltb (dense ub i) (dense x i) = false).
Proof. exact vec_is_boxed_spec. Qed.
Print Assumptions C06_is_boxed.
(** Without NaNs: plain order on the denoted real numbers. *)
Theorem C06_is_boxed_real {N : Num} {O : Ord N} : forall x lb ub,
  wf x -> wf lb -> wf ub -> vdim lb = vdim x -> vdim ub = vdim x ->
  (forall i, nn (dense x i) /\ nn (dense lb i) /\ nn (dense ub i)) ->
  exists b, vec_is_boxed x lb ub = Ok b /\
    (b = true <-> forall i, 0 <= i < vdim x -> (val (dense lb i) <= val (dense x i) <= val (dense ub i))%R).
Proof.
  intros x lb ub Hx Hl Hu E1 E2 Hnn. destruct (vec_is_boxed_spec x lb ub Hx Hl Hu E1 E2) as (b & Eb & Hb).
  exists b. split; [exact Eb|]. rewrite Hb. split; intros H i Hi; specialize (H i Hi);
    destruct (Hnn i) as (H1 & H2 & H3); unfold in_box_at in *; rewrite ?ltb_false_iff in * by auto; tauto.
Qed.
Print Assumptions C06_is_boxed_real.
Example C06_example : vec_is_boxed vx (ve 5 [(0, 3); (2, -5)]) (ve 5 [(0, 3); (1, 1); (4, 8)]) = Ok true
  /\ vec_is_boxed vx (ve 5 []) (ve 5 [(0, 3); (1, 1); (4, 8)]) = Ok false.
Proof. vm_compute. auto. Qed.

(** ** C07 *)
(** Clipping projects; the value may be replaced by zero only if it is within the
    drop tolerance.  Stated for the case where dropping does not leave the box. *)
Theorem C07_clip_partial {N : Num} {O : Ord N} : forall x lb ub eps r,
  wf x -> wf lb -> wf ub -> vdim lb = vdim x -> vdim ub = vdim x -> vdim r = vdim x -> 0 <= vcap r ->
  (forall i, 0 <= i < vdim x -> nn (dense x i) /\ nn (dense lb i) /\ nn (dense ub i)
                               /\ (val (dense lb i) <= val (dense ub i))%R) ->
  nn eps -> (0 <= val eps)%R ->
  (forall i, 0 <= i < vdim x ->
     (Rabs (Rmax (Rmin (val (dense x i)) (val (dense ub i))) (val (dense lb i))) <= val eps)%R ->
     (val (dense lb i) <= 0 <= val (dense ub i))%R) ->
  exists c, vec_clip x lb ub eps r = Ok c /\ wf c /\ vdim c = vdim x
    /\ (forall i, 0 <= i < vdim x -> (val (dense lb i) <= val (dense c i) <= val (dense ub i))%R)
    /\ (forall i, 0 <= i < vdim x ->
          let p := Rmax (Rmin (val (dense x i)) (val (dense ub i))) (val (dense lb i)) in
          val (dense c i) = p \/ (Rabs p <= val eps /\ val (dense c i) = 0)%R).
Proof. exact clip_spec_real. Qed.
Print Assumptions C07_clip_partial.

(** With drop tolerance zero the claim holds in full. *)
Theorem C07_clip_zero_tolerance {N : Num} {O : Ord N} : forall x lb ub r,
  wf x -> wf lb -> wf ub -> vdim lb = vdim x -> vdim ub = vdim x -> vdim r = vdim x -> 0 <= vcap r ->
  (forall i, 0 <= i < vdim x -> nn (dense x i) /\ nn (dense lb i) /\ nn (dense ub i)
                               /\ (val (dense lb i) <= val (dense ub i))%R) ->
  exists c, vec_clip x lb ub n0 r = Ok c /\ wf c /\ vdim c = vdim x
    /\ (forall i, 0 <= i < vdim x ->
          (val (dense lb i) <= val (dense c i) <= val (dense ub i))%R
          /\ val (dense c i) = Rmax (Rmin (val (dense x i)) (val (dense ub i))) (val (dense lb i))).
Proof. exact clip_zero_tol. Qed.
Print Assumptions C07_clip_zero_tolerance.

(** With a positive tolerance the full claim is false: the box [1, 2], tolerance 1. *)
Theorem C07_clip_refuted : exists (x lb ub r : @vec F64) (eps : f64),
  wf x /\ wf lb /\ wf ub /\ vdim lb = vdim x /\ vdim ub = vdim x /\ vdim r = vdim x /\ 0 <= vcap r
  /\ (forall i, 0 <= i < vdim x -> fnn (dense x i) /\ fnn (dense lb i) /\ fnn (dense ub i)
                                  /\ (f64val (dense lb i) <= f64val (dense ub i))%R)
  /\ tol eps /\ vec_clip x lb ub eps r = Trap.
Proof. exact clip_refuted. Qed.
Print Assumptions C07_clip_refuted.
Example C07_example : rmap show
  (vec_clip vx (ve 5 [(1, 1)]) (ve 5 [(0, 2); (1, 4); (2, 9); (4, 10)]) (fz 0) (ve 5 []))
  = Ok [(0, B2SF (fz 2)); (1, B2SF (fz 1)); (4, B2SF (fz 7))].
Proof. vm_compute. reflexivity. Qed.

(** ** C08 *)
Theorem C08_remove {N : Num} : forall source target fs,
  wf source -> wf target -> sorted_in 0 (vdim source) fs ->
  vdim source = vdim target + Z.of_nat (length fs) ->
  exists t, vec_remove_entries source target fs = Ok t /\ wf t /\ vdim t = vdim target
    /\ forall i j, kept fs i j -> get (vent t) j = get (vent source) i.
Proof. exact vec_remove_entries_spec. Qed.
Print Assumptions C08_remove.

Theorem C08_merge {N : Num} : forall source target entries,
  wf source -> wf target -> sorted_in 0 (vdim target) (keys entries) ->
  vdim source + Z.of_nat (length entries) = vdim target ->
  exists t, merge_entries source target entries = Ok t /\ wf t /\ vdim t = vdim target
    /\ (forall i j, kept (keys entries) i j -> get (vent t) i = get (vent source) j)
    /\ (forall f y, In (f, y) entries -> get (vent t) f = Some y).
Proof. exact merge_entries_spec. Qed.
Print Assumptions C08_merge.

Theorem C08_add_zero {N : Num} : forall source target fs,
  wf source -> wf target -> sorted_in 0 (vdim target) fs ->
  vdim source + Z.of_nat (length fs) = vdim target ->
  exists t, add_zero_entries source target fs = Ok t /\ wf t /\ vdim t = vdim target
    /\ (forall i j, kept fs i j -> get (vent t) i = get (vent source) j)
    /\ (forall f, In f fs -> get (vent t) f = None).
Proof. exact add_zero_entries_spec. Qed.
Print Assumptions C08_add_zero.

Theorem C08_remove_then_merge {N : Num} : forall x r t entries,
  wf x -> wf r -> wf t -> sorted_in 0 (vdim x) (keys entries) ->
  vdim x = vdim r + Z.of_nat (length entries) -> vdim t = vdim x ->
  (forall f y, In (f, y) entries -> get (vent x) f = Some y) ->
  exists x1 x2, vec_remove_entries x r (keys entries) = Ok x1 /\ merge_entries x1 t entries = Ok x2
    /\ wf x1 /\ wf x2 /\ vdim x2 = vdim x /\ forall i, get (vent x2) i = get (vent x) i.
Proof. exact remove_then_merge. Qed.
Print Assumptions C08_remove_then_merge.

Theorem C08_merge_then_remove {N : Num} : forall x r t entries,
  wf x -> wf r -> wf t -> sorted_in 0 (vdim t) (keys entries) ->
  vdim t = vdim x + Z.of_nat (length entries) -> vdim r = vdim x ->
  exists x1 x2, merge_entries x t entries = Ok x1 /\ vec_remove_entries x1 r (keys entries) = Ok x2
    /\ wf x1 /\ wf x2 /\ vdim x2 = vdim x /\ forall j, 0 <= j < vdim x -> get (vent x2) j = get (vent x) j.
Proof. exact merge_then_remove. Qed.
Print Assumptions C08_merge_then_remove.

(** The correspondence [kept] is a bijection between kept and reduced indices. *)
Theorem C08_kept_bijection : forall fs d, sorted_in 0 d fs ->
  (forall i, 0 <= i < d -> ~ In i fs -> exists j, kept fs i j)
  /\ (forall j, 0 <= j < d - Z.of_nat (length fs) -> exists i, 0 <= i < d /\ kept fs i j)
  /\ (forall i i' j, kept fs i j -> kept fs i' j -> i = i')
  /\ (forall i i' j j', kept fs i j -> kept fs i' j' -> (i < i' <-> j < j')).
Proof. exact kept_bijection. Qed.
Print Assumptions C08_kept_bijection.
Example C08_example : rmap (fun t => map fst (vent t)) (vec_remove_entries vx (ve 3 []) [1; 2]) = Ok [0; 2].
Proof. vm_compute. reflexivity. Qed.

(** ** C09 *)
(** Full claim: [vec_is_finite v = true <-> forall entries, neither NaN nor infinite].
    It is false, since the loop stops before the last entry. *)
Theorem C09_is_finite_refuted : exists v : @vec F64, wf v /\ vec_is_finite v = true
  /\ exists i, In (i, fnan) (vent v).
Proof.
  exists (mkvec 1 1 [(0, fnan)]). split; [unfold wf; cbn; lia|]. split; [reflexivity|].
  exists 0. now left.
Qed.
Print Assumptions C09_is_finite_refuted.
(** What holds: the test is exact for all entries but the last one. *)
Theorem C09_is_finite_partial {N : Num} : forall v,
  vec_is_finite v = true <->
  forall k e, nth_error (vent v) k = Some e -> (S k < length (vent v))%nat ->
    nisnan (snd e) = false /\ nisinf (snd e) = false.
Proof. exact vec_is_finite_iff. Qed.
Print Assumptions C09_is_finite_partial.
Example C09_example : vec_is_finite (mkvec 3 3 [(0, fnan); (1, fz 1)]) = false /\ vec_is_finite vx = true.
Proof. split; reflexivity. Qed.

(** ** C10 *)
Theorem C10_trichotomy : forall x y eps : f64,
  ffin x = true -> ffin y = true -> fnn eps -> (0 <= f64val eps)%R ->
  (is_lt x y eps = true /\ is_eq x y eps = false /\ is_gt x y eps = false)
  \/ (is_lt x y eps = false /\ is_eq x y eps = true /\ is_gt x y eps = false)
  \/ (is_lt x y eps = false /\ is_eq x y eps = false /\ is_gt x y eps = true).
Proof. intros x y eps Hx Hy H1 H2. exact (trichotomy x y eps Hx Hy (conj H1 H2)). Qed.
Print Assumptions C10_trichotomy.
Theorem C10_coherent : forall x y eps : f64,
  ffin x = true -> ffin y = true -> fnn eps -> (0 <= f64val eps)%R ->
  is_leq x y eps = is_lt x y eps || is_eq x y eps
  /\ is_geq x y eps = is_gt x y eps || is_eq x y eps
  /\ is_eq x y eps = is_eq y x eps
  /\ is_lt x y eps = is_gt y x eps
  /\ is_eq x x eps = true.
Proof.
  intros x y eps Hx Hy H1 H2. assert (T : tol eps) by (split; auto).
  split; [now apply leq_iff_lt_or_eq|]. split; [now apply geq_iff_gt_or_eq|].
  split; [now apply is_eq_sym|]. split; [now apply is_lt_gt_sym|]. now apply is_eq_refl.
Qed.
Print Assumptions C10_coherent.
(** The sign tests agree with the relative comparison against zero for tolerances below one... *)
Theorem C10_sign_tests : forall x eps : f64,
  ffin x = true -> fnn eps -> (0 <= f64val eps < 1)%R ->
  is_neg x eps = is_lt x n0 eps /\ is_pos x eps = is_gt x n0 eps /\ is_zero x eps = is_eq x n0 eps.
Proof. intros x eps Hx H1 H2. apply sign_tests; auto; [split; auto; lra|lra]. Qed.
Print Assumptions C10_sign_tests.
(** ... and not from one on. *)
Theorem C10_sign_tests_refuted : exists x eps : f64, ffin x = true /\ fnn eps /\ (0 <= f64val eps)%R
  /\ is_pos x eps <> is_gt x n0 eps.
Proof.
  exists (fz 2), (fz 1). split; [reflexivity|]. split; [reflexivity|]. split.
  - unfold fz. rewrite fval_fin by reflexivity. destruct (f64_of_Z_exact 1) as [-> _]; [reflexivity|]. lra.
  - vm_compute. discriminate.
Qed.
Print Assumptions C10_sign_tests_refuted.
Example C10_example : @is_lt F64 (fz 1) (fz 2) (f64_lit 1 10) = true /\ @is_eq F64 (fz 1000) (fz 1001) (f64_lit 1 10) = true.
Proof. vm_compute. auto. Qed.
