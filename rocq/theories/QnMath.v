(** Textbook quasi-Newton recurrences on R^d (vectors are functions of the coordinate) and their
    algebra: the specification for C37 and C38. *)
From Coq Require Import Reals Lra FunctionalExtensionality.
From Flocq Require Import Core.
From Verif Require Import Base RSum VecReal.
Local Open Scope R_scope.

Definition op := (Z -> R) -> Z -> R.

Section D.
Variable d : Z.
Local Notation dot := (dotd d).

(** Notions independent of the code. *)
Definition linear_op (B : op) : Prop :=
  forall a b f g i, B (fun j => a * f j + b * g j) i = a * B f i + b * B g i.
Definition symmetric_op (B : op) : Prop := forall f g, dot (B f) g = dot f (B g).
Definition nonzero (f : Z -> R) : Prop := exists i, (0 <= i < d)%Z /\ f i <> 0.
Definition posdef_op (B : op) : Prop := forall f, nonzero f -> 0 < dot (B f) f.

(** Nocedal/Wright (6.19) with the first part multiplied by a sizing factor. *)
Definition upd (sig : R) (B : op) (s r : Z -> R) : op :=
  fun f i => sig * (B f i - dot (B s) f / dot (B s) s * B s i) + dot r f / dot r s * r i.

(** Powell's damping, Nocedal/Wright procedure 18.2. *)
Definition damp (damped : bool) (B : op) (s y : Z -> R) : Z -> R :=
  if damped && Rlt_bool (dot y s) (2 / 10 * dot (B s) s) then
    let theta := (1 - 2 / 10) * dot (B s) s / (dot (B s) s - dot y s) in
    fun i => theta * y i + (1 - theta) * B s i
  else y.

Definition clip_sizing (x : R) : R := Rmin (Rmax x (1 / 10)) 1.

(** Limited-memory BFGS for the pairs [l] (newest first), initial matrix [scale] times identity. *)
Fixpoint bspec (damped sized : bool) (scale : R) (l : list ((Z -> R) * (Z -> R))) : op :=
  match l with
  | [] => fun f i => scale * f i
  | (s, y) :: l' =>
    let B := bspec damped sized scale l' in
    let sig := match l' with
               | [] => 1
               | (s', y') :: l'' =>
                 if sized then
                   let r' := damp damped (bspec damped sized scale l'') s' y' in
                   clip_sizing (((1 - 1 / 2) * dot s' y' / dot s' s' + 1 / 2 * dot s y / dot s s)
                                / ((1 - 1 / 2) * dot r' s' / dot s' s' + 1 / 2 * dot (B s) s))
                 else 1
               end in
    upd sig B s (damp damped B s y)
  end.

(** Limited-memory SR1 with the safeguard of Nocedal/Wright (6.26). *)
Definition sr1_skipped (B : op) (s y : Z -> R) : Prop :=
  let p := fun i => y i - B s i in
  Rabs (dot s p) < 1 / 100000000 * norm2 d p * norm2 d s \/ dot s p = 0.
Definition sr1_skip (B : op) (s y : Z -> R) : bool :=
  let p := fun i => y i - B s i in
  Rlt_bool (Rabs (dot s p)) (1 / 100000000 * norm2 d p * norm2 d s) || Req_bool (dot s p) 0.
Fixpoint sspec (scale : R) (l : list ((Z -> R) * (Z -> R))) : op :=
  match l with
  | [] => fun f i => scale * f i
  | (s, y) :: l' =>
    let B := sspec scale l' in
    if sr1_skip B s y then B else
    let p := fun i => y i - B s i in
    fun f i => B f i + dot p f / dot s p * p i
  end.

(** ** Algebra *)

Lemma dot_lin_r a b f g h : dot h (fun i => a * f i + b * g i) = a * dot h f + b * dot h g.
Proof. rewrite dotd_sym, dotd_lin. now rewrite !(dotd_sym d h). Qed.
Lemma dot_scal_l a f g : dot (fun i => a * f i) g = a * dot f g.
Proof.
  rewrite <- (Rplus_0_r (a * dot f g)). replace 0 with (0 * dot f g) by lra. rewrite <- dotd_lin.
  apply dotd_ext; intros; lra.
Qed.

Lemma linear_ext (B : op) f g : (forall i, f i = g i) -> forall i, B f i = B g i.
Proof. intros H i. now rewrite (functional_extensionality f g H). Qed.

Lemma linear_scal (B : op) a f i : linear_op B -> B (fun j => a * f j) i = a * B f i.
Proof.
  intros H. pose proof (H a 0 f f i) as E. transitivity (B (fun j => a * f j + 0 * f j) i); [|rewrite E; lra].
  apply linear_ext. intros; lra.
Qed.

Lemma linear_id c : linear_op (fun f i => c * f i).
Proof. intros a b f g i. lra. Qed.
Lemma symmetric_id c : symmetric_op (fun f i => c * f i).
Proof. intros f g. rewrite (dot_scal_l c f g), (dotd_sym d f (fun i => c * g i)), (dot_scal_l c g f), (dotd_sym d g f). reflexivity. Qed.

Lemma nonzero_dot f : nonzero f <-> 0 < dot f f.
Proof.
  split.
  - intros (i & Hi & Hf). destruct (Req_dec (dot f f) 0) as [E|E].
    + exfalso. apply Hf. now apply (proj1 (dotd_zero d f) E).
    + pose proof (dotd_nonneg d f). lra.
  - intros H. destruct (Z_le_dec d 0) as [Hd|Hd].
    + exfalso. assert (dot f f = 0) by (apply dotd_zero; intros; lia). lra.
    + assert (D : forall n, (forall i, (0 <= i < Z.of_nat n)%Z -> f i = 0) \/ exists i, (0 <= i < Z.of_nat n)%Z /\ f i <> 0).
      { induction n as [|n [IH|(i & Hi & Hf)]].
        - left. lia.
        - destruct (Req_dec (f (Z.of_nat n)) 0) as [E|E].
          + left. intros i Hi. destruct (Z.eq_dec i (Z.of_nat n)) as [->|]; [auto|]. apply IH. lia.
          + right. exists (Z.of_nat n). split; [lia|auto].
        - right. exists i. split; [lia|auto]. }
      destruct (D (Z.to_nat d)) as [D0|(i & Hi & Hf)].
      * exfalso. assert (dot f f = 0) by (apply dotd_zero; intros; apply D0; lia). lra.
      * exists i. split; [lia|auto].
Qed.

Lemma posdef_id c : 0 < c -> posdef_op (fun f i => c * f i).
Proof. intros Hc f Hf. rewrite (dot_scal_l c f f). apply nonzero_dot in Hf. now apply Rmult_lt_0_compat. Qed.

Lemma linear_upd sig B s r : linear_op B -> linear_op (upd sig B s r).
Proof.
  intros H a b f g i. unfold upd. rewrite H, !dot_lin_r.
  unfold Rdiv. ring.
Qed.

Lemma dot_upd sig B s r f g : dot (upd sig B s r f) g =
  sig * (dot (B f) g - dot (B s) f / dot (B s) s * dot (B s) g) + dot r f / dot r s * dot r g.
Proof.
  transitivity (dot (fun i => sig * (fun j => 1 * B f j + (- (dot (B s) f / dot (B s) s)) * B s j) i
                              + (dot r f / dot r s) * r i) g).
  - apply dotd_ext; intros; [unfold upd; ring|reflexivity].
  - rewrite dotd_lin. f_equal. f_equal. rewrite dotd_lin. ring.
Qed.

Lemma symmetric_upd sig B s r : symmetric_op B -> symmetric_op (upd sig B s r).
Proof.
  intros H f g. rewrite (dotd_sym d f), !dot_upd. rewrite (H f g), (dotd_sym d f). unfold Rdiv. ring.
Qed.

Lemma posdef_upd sig B s r : linear_op B -> symmetric_op B -> posdef_op B -> nonzero s -> 0 < sig -> 0 < dot r s ->
  posdef_op (upd sig B s r).
Proof.
  intros HL HS HP Hs Hsig Hr f Hf. rewrite dot_upd.
  set (b := dot (B s) s). assert (Hb : 0 < b) by (apply HP, Hs).
  set (t := dot (B s) f / b).
  set (g := fun i => 1 * f i + (- t) * s i).
  assert (Hg : dot (B g) g = dot (B f) f - t * dot (B s) f).
  { unfold g. rewrite dot_lin_r.
    assert (E : forall h, dot (B (fun i => 1 * f i + - t * s i)) h = dot (B f) h - t * dot (B s) h).
    { intros h. transitivity (dot (fun i => 1 * B f i + - t * B s i) h).
      - apply dotd_ext; intros; [apply HL|reflexivity].
      - rewrite dotd_lin. ring. }
    rewrite !E. assert (dot (B f) s = dot (B s) f) as -> by (rewrite HS, dotd_sym; reflexivity).
    fold b. assert (t * b = dot (B s) f) by (unfold t; field; lra). nra. }
  assert (Hsq : 0 <= dot r f / dot r s * dot r f).
  { replace (dot r f / dot r s * dot r f) with (dot r f * dot r f * / dot r s) by (unfold Rdiv; ring).
    apply Rmult_le_pos; [apply Rle_0_sqr|]. left. now apply Rinv_0_lt_compat. }
  rewrite <- Hg. destruct (Req_dec (dot g g) 0) as [Eg|Eg].
  - assert (Hfs : forall i, (0 <= i < d)%Z -> f i = t * s i).
    { intros i Hi. pose proof (proj1 (dotd_zero d g) Eg i Hi) as E. unfold g in E. lra. }
    assert (Ht : t <> 0).
    { intros ->. destruct Hf as (i & Hi & Hn). apply Hn. rewrite Hfs by auto. lra. }
    assert (Hrf : dot r f = t * dot r s).
    { transitivity (dot r (fun i => t * s i + 0 * s i)).
      - apply dotd_ext; intros; [reflexivity|]. rewrite Hfs by auto. lra.
      - rewrite dot_lin_r. ring. }
    assert (Hg0 : dot (B g) g = 0).
    { transitivity (dot (B g) (fun i => 0 * s i + 0 * s i)).
      - apply dotd_ext; intros; [reflexivity|]. rewrite (proj1 (dotd_zero d g) Eg) by auto. ring.
      - rewrite dot_lin_r. ring. }
    rewrite Hg0, Hrf.
    replace (sig * 0 + t * dot r s / dot r s * (t * dot r s)) with (t * t * dot r s) by (field; lra).
    apply Rmult_lt_0_compat; [|auto]. nra.
  - assert (Hgn : nonzero g) by (apply nonzero_dot; pose proof (dotd_nonneg d g); lra).
    pose proof (HP g Hgn). nra.
Qed.

Lemma damp_dot damped B s y : posdef_op B -> nonzero s -> (damped = true \/ 0 < dot y s) ->
  0 < dot (damp damped B s y) s /\ (damped = true -> 2 / 10 * dot (B s) s <= dot (damp damped B s y) s).
Proof.
  intros HP Hs Hd. pose proof (HP s Hs) as Hb. unfold damp. set (b := dot (B s) s) in *.
  destruct damped; cbn [andb].
  - destruct (Rlt_bool_spec (dot y s) (2 / 10 * b)) as [H|H].
    + cbv zeta. rewrite dotd_lin. fold b.
      replace ((1 - 2 / 10) * b / (b - dot y s) * dot y s + (1 - (1 - 2 / 10) * b / (b - dot y s)) * b)
        with (2 / 10 * b) by (field; lra). lra.
    + lra.
  - destruct Hd as [Hd|Hd]; [discriminate|]. split; [auto|discriminate].
Qed.

(** What damping does: [r] is a convex combination, [y] itself if the curvature is sufficient. *)
Lemma damp_spec damped B s y : posdef_op B -> nonzero s ->
  exists theta, 0 < theta <= 1 /\
    (forall i, damp damped B s y i = theta * y i + (1 - theta) * B s i) /\
    (2 / 10 * dot (B s) s <= dot y s -> theta = 1) /\ (damped = false -> theta = 1).
Proof.
  intros HP Hs. pose proof (HP s Hs) as Hb. unfold damp. set (b := dot (B s) s) in *.
  destruct damped; cbn [andb].
  2: { exists 1. split; [lra|]. split; [intros; ring|]. auto. }
  destruct (Rlt_bool_spec (dot y s) (2 / 10 * b)) as [H|H].
  - exists ((1 - 2 / 10) * b / (b - dot y s)). split.
    + split; [apply Rdiv_lt_0_compat; lra|].
      apply (Rmult_le_reg_r (b - dot y s)); [lra|]. unfold Rdiv. rewrite Rmult_assoc, Rinv_l by lra. lra.
    + split; [reflexivity|]. split; [lra|discriminate].
  - exists 1. split; [lra|]. split; [intros; ring|]. auto.
Qed.

Lemma clip_sizing_pos x : 1 / 10 <= clip_sizing x <= 1.
Proof.
  unfold clip_sizing. split; [|apply Rmin_r]. apply Rmin_glb; [apply Rmax_r|lra].
Qed.

Definition good_pair (damped : bool) (p : (Z -> R) * (Z -> R)) : Prop :=
  nonzero (fst p) /\ (damped = true \/ 0 < dot (snd p) (fst p)).

Lemma bspec_spd damped sized scale l : 0 < scale -> Forall (good_pair damped) l ->
  linear_op (bspec damped sized scale l) /\ symmetric_op (bspec damped sized scale l)
  /\ posdef_op (bspec damped sized scale l).
Proof.
  intros Hs. induction l as [|[s y] l IH]; intros Hg.
  - cbn [bspec]. split; [apply linear_id|]. split; [apply symmetric_id|now apply posdef_id].
  - inversion Hg as [|? ? [Hn Hd] Hl]; subst. cbn [fst snd] in *. destruct (IH Hl) as (I1 & I2 & I3).
    cbn [bspec]. cbv zeta.
    match goal with |- linear_op (upd ?x _ _ _) /\ _ => assert (Hsig : 0 < x) end.
    { destruct l as [|[s' y'] l']; [lra|]. destruct sized; [|lra].
      match goal with |- 0 < clip_sizing ?x => pose proof (clip_sizing_pos x) end. lra. }
    split; [now apply linear_upd|]. split; [now apply symmetric_upd|].
    apply posdef_upd; auto. now apply damp_dot.
Qed.

Lemma bspec_secant damped sized scale s y l i : 0 < scale -> Forall (good_pair damped) ((s, y) :: l) ->
  bspec damped sized scale ((s, y) :: l) s i = damp damped (bspec damped sized scale l) s y i.
Proof.
  intros Hs Hg. inversion Hg as [|? ? [Hn Hd] Hl]; subst. cbn [fst snd] in *.
  destruct (bspec_spd damped sized scale l Hs Hl) as (I1 & I2 & I3).
  pose proof (I3 s Hn) as Hb. destruct (damp_dot damped _ s y I3 Hn Hd) as [Hr _].
  cbn [bspec]. cbv zeta. unfold upd. field. split; lra.
Qed.

(** SR1 *)
Lemma sr1_skip_iff B s y : sr1_skip B s y = true <-> sr1_skipped B s y.
Proof.
  unfold sr1_skip, sr1_skipped. cbv zeta. rewrite orb_true_iff.
  match goal with |- (Rlt_bool ?a ?b = true) \/ (Req_bool ?c 0 = true) <-> _ =>
    destruct (Rlt_bool_spec a b), (Req_bool_spec c 0) end; split; intros; auto; intuition (try discriminate; lra).
Qed.

Lemma sspec_sym scale l : linear_op (sspec scale l) /\ symmetric_op (sspec scale l).
Proof.
  induction l as [|[s y] l [I1 I2]]; cbn [sspec].
  - split; [apply linear_id|apply symmetric_id].
  - cbv zeta. destruct (sr1_skip _ s y); [auto|]. split.
    + intros a b f g i. rewrite I1, dot_lin_r. unfold Rdiv. ring.
    + intros f g. set (p := fun i => y i - sspec scale l s i).
      assert (E : forall f g, dot (fun i => sspec scale l f i + dot p f / dot s p * p i) g
                   = dot (sspec scale l f) g + dot p f / dot s p * dot p g).
      { intros f0 g0. transitivity (dot (fun i => 1 * sspec scale l f0 i + dot p f0 / dot s p * p i) g0).
        - apply dotd_ext; intros; [ring|reflexivity].
        - rewrite dotd_lin. ring. }
      rewrite E, (dotd_sym d f), E, (I2 f g), (dotd_sym d f). unfold Rdiv. ring.
Qed.

Lemma sspec_secant scale s y l i : ~ sr1_skipped (sspec scale l) s y ->
  sspec scale ((s, y) :: l) s i = y i.
Proof.
  intros H. cbn [sspec]. cbv zeta. destruct (sr1_skip _ s y) eqn:E; [apply sr1_skip_iff in E; tauto|].
  set (p := fun i => y i - sspec scale l s i).
  assert (Hp : dot s p <> 0) by (intros E0; apply H; right; exact E0).
  rewrite (dotd_sym d p s). unfold Rdiv. rewrite Rinv_r by exact Hp. unfold p. ring.
Qed.
(** If the update is not needed because the secant equation already holds, nothing is lost. *)
Lemma sspec_secant_exact scale s y l i : (0 <= i < d)%Z -> (forall i, (0 <= i < d)%Z -> sspec scale l s i = y i) ->
  sspec scale ((s, y) :: l) s i = y i.
Proof.
  intros Hi H. cbn [sspec]. cbv zeta. destruct (sr1_skip _ s y) eqn:E; [auto|].
  rewrite (H i Hi). unfold Rminus. rewrite Rplus_opp_r. ring.
Qed.
End D.
