(** The test for local infeasibility in standard_cauchy.c. *)
From Coq Require Import Reals Lra.
From Verif Require Import Base Num Cmp Sparse Vec VecFacts VecFacts2 VecReal RSum Mat MatFacts MatFacts2 MatFacts3 MatFacts4 Arr Gauss PreprocReal QnReal WorkingSet WorkingSetFacts DualEstFacts AugJacFacts AugJacReal Cauchy CauchyFacts StdCauchy StdCauchyFacts StdCauchyReal StdCauchyLP StdCauchyReach StdCauchyWS StdCauchyWS2 StdCauchyDual.
Local Open Scope R_scope.

Section Inf.
Variable P : @sprob RN.
Hypothesis HP : prob_ok P.
Variable T : R.
Hypothesis HT : hi <= T <= 2 * hi.
Notation n := (sp_nv P).
Notation m := (sp_nc P).

(** ** The two loops *)
Definition tr_at (r : R) (vs : list bstat) (x : Z -> R) (j : Z) : bool :=
  if @is_eq RN (dense (sp_vlb P) j) (dense (sp_vub P) j) (sp_eps P) then false
  else if bstat_eqb (nthb vs j) BLower && @nleb RN r (x j - dense (sp_vlb P) j) then true
  else bstat_eqb (nthb vs j) BUpper && @nleb RN r (dense (sp_vub P) j - x j).
Definition zero_slack (vs cst : list bstat) (i : Z) : bool :=
  bstat_eqb (nthb cst i) BBasic || bstat_eqb (nthb vs (n + i)) BLower && bstat_eqb (nthb vs (n + m + i)) BLower.

Lemma trust_region_active_ok r f x : vok n x -> length (fe_vs f) = Z.to_nat (n + 2 * m) -> (forall j, (0 <= j < n)%Z -> nthb (fe_vs f) j <> BZero) ->
  trust_region_active P r f x = Ok (existsb (tr_at r (fe_vs f) (dense x)) (zrange n)).
Proof.
  intros Hx Hl HZ. unfold trust_region_active. pose proof (po_m P HP) as Hm.
  match goal with |- context [rfold ?b ?s0 _] => set (body := b); set (s0' := s0) end.
  destruct (zrange_loop (fun j (t : list (Z * @num RN) * list (Z * @num RN) * list (Z * @num RN) * bool) => let '(lx, ll, lu, act) := t in
      act = existsb (tr_at r (fe_vs f) (dense x)) (zrange j) /\ (act = false -> synced j lx x /\ synced j ll (sp_vlb P) /\ synced j lu (sp_vub P))) body n s0') as (t & E & Ht).
  - apply HP.
  - cbn. split; [reflexivity|]. intros _. split; [apply synced_start|]. split; apply synced_start.
  - intros j [[[lx ll] lu] act] Hj (Ha & Hs). unfold body. rewrite zrange_succ, existsb_app, <- Ha by lia. cbn [existsb]. destruct act.
    + eexists. split; [reflexivity|]. cbn beta iota. split; [reflexivity|discriminate].
    + destruct (Hs eq_refl) as (S1 & S2 & S3).
      rewrite !(synced_head _ _ _ S1), !(synced_head _ _ _ S2), !(synced_head _ _ _ S3) by (apply HP || apply Hx).
      rewrite (get_b _ (n + 2 * m)) by (exact Hl || lia). cbn [rbind].
      assert (Hnz : bstat_eqb (nthb (fe_vs f) j) BZero = false). { pose proof (HZ j Hj). destruct (nthb _ j); (reflexivity || congruence). }
      rewrite Hnz. cbn [negb check rbind]. eexists. split; [reflexivity|]. cbn beta iota. split.
      * rewrite orb_false_r. cbn [orb]. reflexivity.
      * intros _. split; [now apply synced_next|]. split; now apply synced_next.
  - rewrite E. cbn [rbind]. destruct t as [[[lx ll] lu] act]. cbn [snd]. destruct Ht as (-> & _). reflexivity.
Qed.
Lemma feasible_direction_ok f : length (fe_vs f) = Z.to_nat (n + 2 * m) -> length (fe_cs f) = Z.to_nat m ->
  (forall i, (0 <= i < m)%Z -> nthb (fe_vs f) (n + i) = BLower \/ nthb (fe_vs f) (n + m + i) = BLower) ->
  feasible_direction P f = Ok (forallb (zero_slack (fe_vs f) (fe_cs f)) (zrange m)).
Proof.
  intros Hl Hc HS. unfold feasible_direction. pose proof (po_n P HP) as Hn.
  match goal with |- context [rfold ?b ?s0 _] => set (body := b); set (s0' := s0) end.
  destruct (zrange_loop (fun i (t : bool) => t = forallb (zero_slack (fe_vs f) (fe_cs f)) (zrange i)) body m s0') as (t & E & Ht).
  - apply HP.
  - reflexivity.
  - intros i ok Hi ->. unfold body. rewrite zrange_succ, forallb_app by lia. cbn [forallb]. rewrite (get_b _ m) by (exact Hc || lia). cbn [rbind]. unfold zero_slack at 4.
    destruct (bstat_eqb (nthb (fe_cs f) i) BBasic) eqn:Eb.
    + eexists. split; [reflexivity|]. cbn [orb]. now rewrite !andb_true_r.
    + rewrite !(get_b _ (n + 2 * m)) by (exact Hl || lia). cbn [rbind].
      assert (Hk : negb (bstat_eqb (nthb (fe_vs f) (n + i)) BBasic) || negb (bstat_eqb (nthb (fe_vs f) (n + m + i)) BBasic) = true).
      { destruct (HS i Hi) as [-> | ->]; cbn; [reflexivity|apply orb_true_r]. }
      rewrite Hk. cbn [check rbind orb]. eexists. split; [reflexivity|]. rewrite andb_true_r. destruct (bstat_eqb _ BLower && bstat_eqb _ BLower); [now rewrite andb_true_r|now rewrite andb_false_r].
  - rewrite E. now rewrite Ht.
Qed.
End Inf.
