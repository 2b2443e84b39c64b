(** The reduced system from call to call, for any arithmetic. *)
From Verif Require Import Base Num Cmp Sparse Vec VecFacts Order VecFacts2 Mat MatFacts MatFacts2 MatFacts3 MatFacts4 Arr
  WorkingSet WorkingSetFacts DualEst DualEstFacts Feas FeasFacts OptFacts AugJac AugJacFacts AugJacUpper AugJacMain AugJacRed AugJacRed2.
Local Open Scope Z_scope.

Section Red3.
Context {N : Num}.

(** What the data structure keeps between calls. *)
Definition rj_ok (n nc : Z) (j : rjac) : Prop :=
  rj_n j = n /\ mwf (rj_m j) /\ wf (rj_rhs j) /\ (wf (rj_dir j) /\ vdim (rj_dir j) = n) /\
  (rj_rows j = vdim (rj_rhs j) \/ rj_rows j = none) /\
  match rj_ws j with Some u => consistent u /\ wnv u = n /\ wnc u = nc | None => True end.

(** Rows, matrix and factorization are those of the working set [w] and the columns [cs]. *)
Definition rj_current (n nc : Z) (F : fact) (w : wset) (cs : list (list (Z * num))) (j : rjac) : Prop :=
  rj_ok n nc j /\ rj_rows j = ws_size w /\
  (forall k, 0 <= k < ws_size w -> sys_row (rj_counts j) (rj_sys j) k = Ok (srow w cs k)) /\
  exists m, rj_held j = Some m /\ gram w cs (f_lower F) m.

Lemma rj_create_ok n nc fixed : 0 <= n -> 0 <= nc -> exists j, rj_create n nc fixed = Ok j /\ rj_ok n nc j
  /\ rj_has j = false /\ (rj_ws j = None <-> fixed = false).
Proof.
  intros Hn Hnc. unfold rj_create. destruct (mat_create_spec 0 0 0) as (m & E & L & R1 & R2 & R3); try lia. rewrite E. cbn [rbind].
  eexists. split; [reflexivity|]. unfold rj_ok. cbn [rj_n rj_m rj_rhs rj_dir rj_rows rj_ws rj_has]. split; [|split; [reflexivity|destruct fixed; split; congruence]].
  split; [reflexivity|]. split; [exists []; split; [exact L|cbn; lia]|]. split; [repeat split; cbn; lia|]. split; [split; [repeat split; cbn; lia|reflexivity]|].
  split; [now right|]. destruct fixed; auto. split; [|split; reflexivity]. eapply holds_consistent. apply create_holds; lia.
Qed.

Lemma row_same a b cs k j : same_items a b -> 0 <= k < ws_size b -> row_entry a cs k j = row_entry b cs k j.
Proof. intros (H1 & H2 & H3 & H4) Hk. unfold row_entry. rewrite H4 by lia. now rewrite H1. Qed.
Lemma srow_same a b cs k : same_items a b -> 0 <= k < ws_size b -> srow a cs k = srow b cs k.
Proof.
  intros HE Hk. pose proof HE as (H1 & _). unfold srow, olist. rewrite H1. f_equal. apply map_ext. intros j. now rewrite (row_same a b).
Qed.
Lemma gram_same a b cs lower m : same_items a b -> gram b cs lower m -> gram a cs lower m.
Proof.
  intros HE (R1 & R2 & ms & HS & G). pose proof HE as (H1 & H2 & H3 & H4). unfold gram. rewrite H3. split; [auto|]. split; [auto|].
  exists ms. split; [exact HS|]. intros k l Hk Hl. rewrite G by auto. unfold gram_entry, is_var_row, row_dot. rewrite H4 by lia. rewrite H1.
  destruct (lower && (k <? l)); [reflexivity|]. f_equal. destruct (lower && (k =? l) && _); [reflexivity|].
  apply fold_left_ext_in. intros s j _. rewrite !(row_same a b cs) by auto. reflexivity.
Qed.

(** A call that builds the matrix *)
Lemma rj_set_miss n nc F j w jac cs : rj_ok n nc j -> call_data n nc w jac cs ->
  (forall u, rj_ws j = Some u -> ws_eq w u = Ok false \/ rj_has j = false) ->
  exists m rhs st sy, gram w cs (f_lower F) m /\ mwf m /\ wf rhs /\ vdim rhs = ws_size w
    /\ (forall k, 0 <= k < ws_size w -> sys_row st sy k = Ok (srow w cs k)) /\
    let u := match rj_ws j with None => None | Some _ => Some w end in
    rj_set_iterate F j w jac = match f_set F m with
      | Ok _ => Ok (mkrj n (rj_nc j) m rhs (rj_dir j) (ws_size w) st sy u true (Some m), Ok tt)
      | Err c => Ok (mkrj n (rj_nc j) m rhs (rj_dir j) (ws_size w) st sy u (rj_has j) None, Err c)
      | Trap => Trap
      end.
Proof.
  intros (O1 & O2 & O3 & O4 & O5 & O6) [C O Hv Hn HS Jc Jr] Hmiss. destruct Hv, Hn.
  pose proof (nv0 w C) as (H1 & H2 & H3 & H4).
  assert (HR : exists rhs, reserve_rhs j w = Ok rhs /\ wf rhs /\ vdim rhs = ws_size w).
  { unfold reserve_rhs. destruct (Z.eqb_spec (rj_rows j) (ws_size w)) as [E|E].
    - exists (rj_rhs j). split; [reflexivity|]. split; [exact O3|]. destruct O5; [lia|]. unfold none in *. lia.
    - destruct (vec_resize_spec (rj_rhs j) (ws_size w) O3) as (v & E1 & W1 & D1 & _); [lia|]. rewrite E1. cbn [rbind].
      destruct (vec_reserve_spec v (ws_size w) W1) as (v2 & E2 & W2 & D2 & _); [lia|]. exists v2. rewrite E2, D2. auto. }
  destruct HR as (rhs & Er & Wr & Dr).
  set (st := starts w cs). set (sy := sys w cs).
  assert (Hrow : forall k, 0 <= k < ws_size w -> sys_row st sy k = Ok (srow w cs k)) by (exact (sys_row_ok w jac cs C O HS Jc Jr)).
  assert (HM : exists m, (if f_lower F then matrix_lower (rj_m j) (wnav w) (ws_size w) st sy else matrix_general (rj_m j) (ws_size w) st sy) = Ok m
     /\ gram w cs (f_lower F) m /\ mwf m).
  { destruct (f_lower F).
    - exact (matrix_lower_ok w cs C st sy Hrow (rj_m j) O2).
    - exact (matrix_general_ok w cs C st sy Hrow (rj_m j) O2). }
  destruct HM as (m & Em & HG & Hm). exists m, rhs, st, sy. split; [exact HG|]. split; [exact Hm|]. split; [exact Wr|]. split; [exact Dr|]. split; [exact Hrow|]. cbv zeta.
  assert (Hfin : forall u, (rhs <- reserve_rhs j w ;;
    s <- row_counts w jac ;;
    let starts := starts_from 0 (fst s) in
    sys <- fill_system (rj_n j) w jac starts (snd s) ;;
    m <- (if f_lower F then matrix_lower (rj_m j) (wnav w) (ws_size w) starts sys
          else matrix_general (rj_m j) (ws_size w) starts sys) ;;
    match f_set F m with
    | Trap => Trap
    | Err c => Ok (mkrj (rj_n j) (rj_nc j) m rhs (rj_dir j) (ws_size w) starts sys u (rj_has j) None, Err c)
    | Ok _ => Ok (mkrj (rj_n j) (rj_nc j) m rhs (rj_dir j) (ws_size w) starts sys u true (Some m), Ok tt)
    end) = match f_set F m with
      | Ok _ => Ok (mkrj (wnv w) (rj_nc j) m rhs (rj_dir j) (ws_size w) st sy u true (Some m), Ok tt)
      | Err c => Ok (mkrj (wnv w) (rj_nc j) m rhs (rj_dir j) (ws_size w) st sy u (rj_has j) None, Err c)
      | Trap => Trap
      end).
  { intros u. rewrite Er. cbn [rbind]. rewrite (row_counts_ok w jac cs C HS Jc Jr). cbn [rbind fst snd]. cbv zeta. rewrite O1.
    change (starts_from 0 (counts w (E w cs))) with (starts w cs). rewrite (fill_system_ok w jac cs C O HS Jc Jr). cbn [rbind]. fold st. fold sy. rewrite Em. cbn [rbind]. destruct (f_set F m); reflexivity. }
  unfold rj_set_iterate. destruct (rj_ws j) as [u|] eqn:Eu.
  - destruct O6 as (Cu & Uv & Un). destruct (ws_eq_items w u C Cu) as (r & Er' & _); [congruence..|].
    assert (Hr : r && rj_has j = false).
    { destruct (Hmiss u eq_refl) as [E| Eh]; [|rewrite Eh; apply andb_false_r]. rewrite Er' in E. injection E as ->. reflexivity. }
    rewrite Er'. cbn [rbind]. rewrite Hr. unfold ws_copy. rewrite Uv, Un, !Z.eqb_refl. cbn [check rbind]. apply Hfin.
  - cbn [rbind]. apply Hfin.
Qed.

(** Every call either reuses the factorization of an equal working set or builds a new matrix. *)
Lemma rj_set_cases n nc F j w jac cs : rj_ok n nc j -> call_data n nc w jac cs ->
  (exists u, rj_ws j = Some u /\ rj_has j = true /\ same_items w u /\ rj_set_iterate F j w jac = Ok (j, Ok tt))
  \/ (forall u, rj_ws j = Some u -> ws_eq w u = Ok false \/ rj_has j = false).
Proof.
  intros HJ [C O Hv Hn HS Jc Jr]. pose proof HJ as (O1 & O2 & O3 & O4 & O5 & O6).
  destruct (rj_ws j) as [u|] eqn:Eu; [|right; congruence]. destruct O6 as (Cu & Uv & Un).
  destruct (ws_eq_items w u C Cu) as ([|] & Er & Hi); [congruence..| |].
  - destruct (rj_has j) eqn:Eh; [left; exists u; repeat split; auto; try (now apply Hi)|right; auto].
    unfold rj_set_iterate. rewrite Eu, Er, Eh. reflexivity.
  - right. intros u' [= <-]. auto.
Qed.

Lemma rj_set_current n nc F j w jac cs j' : rj_ok n nc j -> call_data n nc w jac cs ->
  (forall u, rj_ws j = Some u -> rj_has j = true -> rj_current n nc F u cs j) ->
  rj_set_iterate F j w jac = Ok (j', Ok tt) ->
  rj_current n nc F w cs j' /\ (rj_ws j' = None <-> rj_ws j = None)
  /\ (forall u, rj_ws j' = Some u -> rj_current n nc F u cs j').
Proof.
  intros HJ HD Hcur E. destruct (rj_set_cases n nc F j w jac cs HJ HD) as [(u & Eu & Hh & Hi & E')|Hmiss].
  - rewrite E in E'. injection E' as ->. pose proof (Hcur u Eu Hh) as (_ & S1 & S2 & m & Hm & HG). split; [|split; [tauto|]].
    + split; [exact HJ|]. split; [rewrite S1; symmetry; apply Hi|]. split.
      * intros k Hk. assert (Hs : ws_size w = ws_size u) by apply Hi. rewrite (srow_same w u) by (auto; lia). apply S2. lia.
      * exists m. split; [exact Hm|]. now apply (gram_same w u).
    + intros u' E'. rewrite Eu in E'. injection E' as <-. now apply Hcur.
  - destruct (rj_set_miss n nc F j w jac cs HJ HD Hmiss) as (m & rhs & st & sy & HG & Hm & Wr & Dr & Hrow & E'). cbv zeta in E'. rewrite E in E'.
    destruct (f_set F m); [|discriminate..]. injection E' as ->. cbn [rj_ws].
    assert (HC : forall v, (match v with Some v => v = w | None => True end) ->
      rj_current n nc F w cs (mkrj n (rj_nc j) m rhs (rj_dir j) (ws_size w) st sy v true (Some m))).
    { intros v Hv. destruct HJ as (O1 & O2 & O3 & O4 & O5 & O6), HD as [C O Hv' Hn HS Jc Jr]. unfold rj_current, rj_ok. cbn [rj_n rj_m rj_rhs rj_dir rj_rows rj_ws rj_counts rj_sys rj_held].
      split; [|split; [reflexivity|split; [exact Hrow|exists m; auto]]].
      split; [reflexivity|]. split; [exact Hm|]. split; [exact Wr|]. split; [exact O4|]. split; [left; congruence|]. destruct v; auto. subst. auto. }
    split; [apply HC; destruct (rj_ws j); auto|]. split; [destruct (rj_ws j); split; congruence|].
    intros u Eu. destruct (rj_ws j); [|discriminate]. injection Eu as <-. apply HC. reflexivity.
Qed.

(** ** The solves keep the state *)
Lemma fact_solution_dim raw sol b e zeps v : wf sol -> fact_solution raw sol b e zeps = Ok v -> wf v /\ vdim v = e - b.
Proof.
  intros Hw. unfold fact_solution, part. destruct (Z.leb_spec 0 b), (Z.leb_spec b e), (Z.leb_spec e (Z.of_nat (length raw))); cbn [andb rbind]; try discriminate.
  set (p := firstn _ _). destruct (vec_set_from_raw_spec sol p zeps Hw) as (v' & E & W & D & _). rewrite E. intros [= ->]. split; [exact W|].
  rewrite D. unfold p. rewrite firstn_length, skipn_length. lia.
Qed.
Lemma vec_push_wf v i x v' : wf v -> vec_push v i x = Ok v' -> wf v' /\ vdim v' = vdim v.
Proof.
  intros (H1 & H2 & H3) E. apply vec_push_inv in E as (-> & Hc & Hi & Hl). split; [|reflexivity]. unfold wf; cbn [vdim vent vcap].
  split; [exact H1|]. split.
  - rewrite keys_app. apply sorted_in_app. split; [exact H2|]. pose proof (rev_keys_last (vent v)) as Hk. cbn [keys map fst sorted_in].
    split; [|exact Logic.I]. rewrite <- Hk in Hl. destruct (rev (keys (vent v))); lia.
  - rewrite app_length. cbn [length]. unfold vnnz in Hc. lia.
Qed.
Lemma rfold_inv {A B} (P : A -> Prop) (f : A -> B -> res A) l a a' :
  (forall s x s', P s -> f s x = Ok s' -> P s') -> P a -> rfold f a l = Ok a' -> P a'.
Proof.
  intros Hf. revert a; induction l as [|x l IH]; intros a Ha; cbn [rfold]; [intros [= <-]; exact Ha|].
  destruct (f a x) as [s| |] eqn:E; cbn [rbind]; try discriminate. apply IH. eapply Hf; eauto.
Qed.
Lemma rj_product_dim j d p p' : wf p -> rj_product j d p = Ok p' -> wf p' /\ vdim p' = vdim p.
Proof.
  intros (H1 & H2 & H3) E. unfold rj_product in E.
  assert (Hclear : wf (vec_clear p)). { unfold vec_clear, wf. cbn [vdim vent vcap keys map length sorted_in]. repeat split; auto. lia. }
  destruct (Z.leb_spec 0 (rj_rows j)) as [Hr|Hr].
  - destruct (vec_reserve_spec (vec_clear p) (rj_rows j) Hclear Hr) as (q & Eq & Wq & Dq & _). rewrite Eq in E. cbn [rbind] in E.
    apply (rfold_inv (fun v => wf v /\ vdim v = vdim p)) in E; auto.
    intros s x s' [Ws Ds] Es. destruct (sys_row _ _ x) as [r| |]; cbn [rbind] in Es; try discriminate.
    destruct (meets_row r (vent d)); [|injection Es as <-; auto]. apply vec_push_wf in Es as [W D]; auto. split; [exact W|congruence].
  - unfold vec_reserve in E. destruct (Z.leb_spec 0 (rj_rows j)); [lia|]. discriminate.
Qed.
Lemma arr_set_length {A} (l l' : list A) i x : arr_set l i x = Ok l' -> length l' = length l.
Proof. unfold arr_set. destruct (_ && _)%bool eqn:E; [|discriminate]. intros [= <-]. apply set_nth_length. Qed.
Lemma rj_trans_length j d c : rj_trans_product j d = Ok c -> length c = Z.to_nat (rj_n j).
Proof.
  intros E. apply (rfold_inv (fun c => length c = Z.to_nat (rj_n j))) in E; [exact E| |apply repeat_length].
  intros s e s' Hs Es. destruct (sys_row _ _ _) as [r| |]; cbn [rbind] in Es; try discriminate.
  apply (rfold_inv (fun c => length c = Z.to_nat (rj_n j))) in Es; auto.
  intros t x t' Ht Et. destruct (arr_get t (fst x)) as [old| |]; cbn [rbind] in Et; try discriminate. apply arr_set_length in Et. congruence.
Qed.

Definition same_but (j j' : rjac) : Prop :=
  rj_n j' = rj_n j /\ rj_m j' = rj_m j /\ rj_rows j' = rj_rows j /\ rj_counts j' = rj_counts j /\ rj_sys j' = rj_sys j
  /\ rj_ws j' = rj_ws j /\ rj_has j' = rj_has j /\ rj_held j' = rj_held j.
Lemma set_rhs_same j r d : same_but j (set_rhs j r d).
Proof. unfold same_but, set_rhs. cbn. repeat split. Qed.
Lemma same_current n nc F w cs j r d : rj_current n nc F w cs j -> wf r -> vdim r = rj_rows j -> wf d -> vdim d = n ->
  rj_current n nc F w cs (set_rhs j r d).
Proof.
  intros ((O1 & O2 & O3 & O4 & O5 & O6) & S1 & S2 & S3) Wr Dr Wd Dd. unfold rj_current, rj_ok, set_rhs. cbn [rj_n rj_m rj_rhs rj_dir rj_rows rj_ws rj_counts rj_sys rj_held].
  split; [|auto]. repeat (split; [auto; fail|]). auto.
Qed.
Lemma rhs_dim n nc F w cs j : consistent w -> rj_current n nc F w cs j -> vdim (rj_rhs j) = rj_rows j.
Proof. intros C ((_ & _ & _ & _ & O5 & _) & S1 & _). pose proof (nv0 w C) as (_ & _ & H3 & _). destruct O5; [congruence|]. unfold none in *. lia. Qed.

Lemma rj_min_norm_state F j zeps b sol j' x : wf (rj_rhs j) -> rj_min_norm F j zeps b sol = Ok (j', x) ->
  exists r, j' = set_rhs j r (rj_dir j) /\ wf r /\ vdim r = rj_rows j.
Proof.
  intros Hw E. unfold rj_min_norm in E. destruct (held_solve F (rj_held j) b) as [raw| |]; cbn [rbind] in E; try discriminate.
  destruct (fact_solution raw (rj_rhs j) 0 (rj_rows j) zeps) as [y| |] eqn:Ey; cbn [rbind] in E; try discriminate.
  destruct (rj_trans_product j y) as [l| |]; cbn [rbind] in E; try discriminate. destruct (vec_set_from_raw sol l zeps); cbn [rbind] in E; try discriminate.
  injection E as <- <-. apply fact_solution_dim in Ey as [W D]; auto. exists y. repeat split; auto; try apply W. lia.
Qed.
Lemma rj_lsq_state F j zeps b sol j' x : wf (rj_rhs j) -> rj_lsq F j zeps b sol = Ok (j', x) ->
  exists r, j' = set_rhs j r (rj_dir j) /\ wf r /\ vdim r = vdim (rj_rhs j).
Proof.
  intros Hw E. unfold rj_lsq in E. destruct (rj_product j b (rj_rhs j)) as [p| |] eqn:Ep; cbn [rbind] in E; try discriminate.
  destruct (held_solve F (rj_held j) p) as [raw| |]; cbn [rbind] in E; try discriminate.
  destruct (fact_solution raw sol 0 (rj_rows j) zeps) as [y| |] eqn:Ey; cbn [rbind] in E; try discriminate.
  injection E as <- <-. apply rj_product_dim in Ep as [W D]; auto. exists p. auto.
Qed.
Lemma rj_project_state F j zeps b sol j' x : wf (rj_rhs j) -> wf (rj_dir j) -> 0 <= rj_n j -> rj_project F j zeps b sol = Ok (j', x) ->
  exists r d, j' = set_rhs j r d /\ wf r /\ vdim r = rj_rows j /\ wf d /\ vdim d = rj_n j.
Proof.
  intros Hw Hd Hn E. unfold rj_project in E. destruct (rj_product j b (rj_rhs j)) as [p| |] eqn:Ep; cbn [rbind] in E; try discriminate.
  destruct (held_solve F (rj_held j) p) as [raw| |]; cbn [rbind] in E; try discriminate. apply rj_product_dim in Ep as [Wp Dp]; auto.
  destruct (fact_solution raw p 0 (rj_rows j) zeps) as [y| |] eqn:Ey; cbn [rbind] in E; try discriminate.
  destruct (rj_trans_product j y) as [c| |] eqn:Ec; cbn [rbind] in E; try discriminate. apply rj_trans_length in Ec.
  destruct (vec_set_from_raw_spec (rj_dir j) c zeps Hd) as (d & E1 & W1 & D1 & _). rewrite E1 in E. cbn [rbind] in E.
  destruct (vec_add_scaled b d n1 (nopp n1) zeps sol); cbn [rbind] in E; try discriminate.
  injection E as <- <-. apply fact_solution_dim in Ey as [W D]; auto. exists y, d. split; [reflexivity|]. split; [exact W|]. split; [lia|]. split; [exact W1|]. rewrite D1, Ec. lia.
Qed.

(** ** Histories: successful calls of [set_iterate] and of the solves in any order *)
Inductive rj_reach (n nc : Z) (F : fact) (fixed : bool) (cs0 : list (list (Z * num))) : option (wset * list (list (Z * num))) -> rjac -> Prop :=
| reach_create j : rj_create n nc fixed = Ok j -> rj_reach n nc F fixed cs0 None j
| reach_set o j w jac cs j' : rj_reach n nc F fixed cs0 o j -> call_data n nc w jac cs -> (fixed = true -> cs = cs0) ->
    rj_set_iterate F j w jac = Ok (j', Ok tt) -> rj_reach n nc F fixed cs0 (Some (w, cs)) j'
| reach_min_norm o j zeps b sol j' x : rj_reach n nc F fixed cs0 o j -> rj_min_norm F j zeps b sol = Ok (j', x) -> rj_reach n nc F fixed cs0 o j'
| reach_lsq o j zeps b sol j' x : rj_reach n nc F fixed cs0 o j -> rj_lsq F j zeps b sol = Ok (j', x) -> rj_reach n nc F fixed cs0 o j'
| reach_project o j zeps b sol j' x : rj_reach n nc F fixed cs0 o j -> rj_project F j zeps b sol = Ok (j', x) -> rj_reach n nc F fixed cs0 o j'.

Lemma rj_reach_inv n nc F fixed cs0 o j : 0 <= n -> 0 <= nc -> rj_reach n nc F fixed cs0 o j ->
  rj_ok n nc j /\ (rj_ws j = None <-> fixed = false) /\ (forall u, rj_ws j = Some u -> rj_has j = true -> rj_current n nc F u cs0 j)
  /\ (o = None -> rj_held j = None) /\ (forall w cs, o = Some (w, cs) -> rj_current n nc F w cs j /\ consistent w).
Proof.
  intros Hn Hc H. induction H as [j E|o j w jac cs j' _ (I1 & I2 & I3 & I4 & I5) HD Hf E|o j zeps b sol j' x _ (I1 & I2 & I3 & I4 & I5) E|o j zeps b sol j' x _ (I1 & I2 & I3 & I4 & I5) E|o j zeps b sol j' x _ (I1 & I2 & I3 & I4 & I5) E].
  - destruct (rj_create_ok n nc fixed Hn Hc) as (j0 & E0 & J & Hh & Hw). rewrite E in E0. injection E0 as <-.
    split; [exact J|]. split; [exact Hw|]. split; [intros u _ Hx; congruence|]. split; [|discriminate]. intros _.
    unfold rj_create in E. destruct (mat_create 0 0 0); cbn [rbind] in E; try discriminate. now injection E as <-.
  - assert (Hcur : forall u, rj_ws j = Some u -> rj_has j = true -> rj_current n nc F u cs j).
    { intros u Eu Hh. destruct fixed; [|exfalso; rewrite (proj2 I2 eq_refl) in Eu; discriminate]. rewrite (Hf eq_refl). now apply I3. }
    destruct (rj_set_current n nc F j w jac cs j' I1 HD Hcur E) as (J1 & J2 & J3).
    split; [apply J1|]. split; [tauto|]. split.
    + intros u Eu _. destruct fixed; [|exfalso; rewrite (proj2 J2 (proj2 I2 eq_refl)) in Eu; discriminate]. rewrite <- (Hf eq_refl). now apply J3.
    + split; [discriminate|]. intros w' cs' [= <- <-]. split; [exact J1|apply HD].
  - destruct o as [[w cs]|].
    + destruct (I5 w cs eq_refl) as [J C]. destruct (rj_min_norm_state F j zeps b sol j' x) as (r & -> & Wr & Dr); auto; [apply I1|].
      destruct I1 as (O1 & O2 & O3 & O4 & O5 & O6).
      assert (S : forall u cs, rj_current n nc F u cs j -> rj_current n nc F u cs (set_rhs j r (rj_dir j))) by (intros; apply same_current; auto; apply O4).
      split; [apply (S w cs J)|]. split; [exact I2|]. split; [intros u Eu Hh; now apply S, I3|]. split; [discriminate|]. intros w' cs' [= <- <-]. split; [now apply S|exact C].
    + exfalso. unfold rj_min_norm, held_solve in E. rewrite (I4 eq_refl) in E. discriminate.
  - destruct o as [[w cs]|].
    + destruct (I5 w cs eq_refl) as [J C]. destruct (rj_lsq_state F j zeps b sol j' x) as (r & -> & Wr & Dr); auto; [apply I1|].
      pose proof (rhs_dim n nc F w cs j C J) as Hd. destruct I1 as (O1 & O2 & O3 & O4 & O5 & O6).
      assert (S : forall u cs, rj_current n nc F u cs j -> rj_current n nc F u cs (set_rhs j r (rj_dir j))) by (intros; apply same_current; auto; try apply O4; congruence).
      split; [apply (S w cs J)|]. split; [exact I2|]. split; [intros u Eu Hh; now apply S, I3|]. split; [discriminate|]. intros w' cs' [= <- <-]. split; [now apply S|exact C].
    + exfalso. unfold rj_lsq, held_solve in E. rewrite (I4 eq_refl) in E. destruct (rj_product j b (rj_rhs j)); discriminate.
  - destruct o as [[w cs]|].
    + destruct (I5 w cs eq_refl) as [J C]. pose proof I1 as (O1 & O2 & O3 & O4 & O5 & O6).
      destruct (rj_project_state F j zeps b sol j' x) as (r & d & -> & Wr & Dr & Wd & Dd); auto; [apply O4|lia|].
      assert (S : forall u cs, rj_current n nc F u cs j -> rj_current n nc F u cs (set_rhs j r d)) by (intros; apply same_current; auto; congruence).
      split; [apply (S w cs J)|]. split; [exact I2|]. split; [intros u Eu Hh; now apply S, I3|]. split; [discriminate|]. intros w' cs' [= <- <-]. split; [now apply S|exact C].
    + exfalso. unfold rj_project, held_solve in E. rewrite (I4 eq_refl) in E. destruct (rj_product j b (rj_rhs j)); discriminate.
Qed.

(** The next call succeeds if the factorization accepts the matrix. *)
Lemma rj_reach_next n nc F fixed cs0 o j w jac cs : 0 <= n -> 0 <= nc -> rj_reach n nc F fixed cs0 o j -> call_data n nc w jac cs ->
  (forall m, mwf m -> gram w cs (f_lower F) m -> f_set F m = Ok tt) -> exists j', rj_set_iterate F j w jac = Ok (j', Ok tt).
Proof.
  intros Hn Hc HR HD HF. destruct (rj_reach_inv n nc F fixed cs0 o j Hn Hc HR) as (I1 & _).
  destruct (rj_set_cases n nc F j w jac cs I1 HD) as [(u & _ & _ & _ & E)|Hmiss]; [eauto|].
  destruct (rj_set_miss n nc F j w jac cs I1 HD Hmiss) as (m & rhs & st & sy & HG & Hm & _ & _ & _ & E). cbv zeta in E. rewrite (HF m Hm HG) in E. eauto.
Qed.
End Red3.
