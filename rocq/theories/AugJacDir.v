(** Lemmas for the direct system (direct_aug_jac.c): the rows of the working set built in place. *)
From Coq Require Import FinFun.
From Verif Require Import Base Num Cmp Sparse Vec VecFacts Order VecFacts2 Mat MatFacts MatFacts2 MatFacts3 MatFacts4 Arr WorkingSet WorkingSetFacts
  DualEst DualEstFacts AugJac AugJacFacts AugJacUpper AugJacMain AugJacRed.
Local Open Scope Z_scope.

(** Position among the marked numbers *)
Lemma rank (P : Z -> bool) (g : Z -> Z) n lo hi : 0 <= n -> (forall i, 0 <= i < n -> P i = true -> lo <= g i < hi) ->
  (forall i k, 0 <= i -> i < k < n -> P i = true -> P k = true -> g i < g k) -> len (filter P (zrange n)) = hi - lo ->
  forall j, 0 <= j < n -> P j = true -> g j = lo + len (filter P (zrange j)).
Proof.
  intros Hn Hr Hm Hc. set (c := fun j => len (filter P (zrange j))) in *.
  assert (Cs : forall j, 0 <= j -> c (j + 1) = c j + if P j then 1 else 0).
  { intros j Hj. unfold c. rewrite zrange_succ, filter_app, app_length by lia. cbn [filter]. destruct (P j); cbn [length]; lia. }
  assert (Lo : forall j, 0 <= j -> j <= n -> forall k, j <= k < n -> P k = true -> lo + c j <= g k).
  { intros j Hj. pattern j. apply natlike_ind; [| |exact Hj].
    - intros _ k Hk Pk. unfold c. cbn. specialize (Hr k ltac:(lia) Pk). lia.
    - intros x Hx IH Hxn k Hk Pk. replace (Z.succ x) with (x + 1) by lia. rewrite Cs by lia. specialize (IH ltac:(lia)). destruct (P x) eqn:Px.
      + specialize (IH x ltac:(lia) Px). specialize (Hm x k ltac:(lia) ltac:(lia) Px Pk). lia.
      + specialize (IH k ltac:(lia) Pk). lia. }
  assert (Up : forall d, 0 <= d -> d <= n -> forall k, 0 <= k < n - d -> P k = true -> g k < hi - (c n - c (n - d))).
  { intros d Hd. pattern d. apply natlike_ind; [| |exact Hd].
    - intros _ k Hk Pk. specialize (Hr k ltac:(lia) Pk). rewrite Z.sub_0_r. lia.
    - intros x Hx IH Hxn k Hk Pk. specialize (IH ltac:(lia)). pose proof (Cs (n - x - 1) ltac:(lia)) as Hc1. replace (n - x - 1 + 1) with (n - x) in Hc1 by lia.
      replace (n - Z.succ x) with (n - x - 1) by lia. destruct (P (n - x - 1)) eqn:Px.
      + specialize (IH (n - x - 1) ltac:(lia) Px). specialize (Hm k (n - x - 1) ltac:(lia) ltac:(lia) Pk Px). lia.
      + specialize (IH k ltac:(lia) Pk). lia. }
  intros j Hj Pj. specialize (Lo j ltac:(lia) ltac:(lia) j ltac:(lia) Pj). specialize (Up (n - j - 1) ltac:(lia) ltac:(lia) j ltac:(lia) Pj).
  replace (n - (n - j - 1)) with (j + 1) in Up by lia. pose proof (Cs j ltac:(lia)) as H. rewrite Pj in H. fold (c n) in Hc. fold (c j). lia.
Qed.

Lemma arr_get_mid {A} (p : list A) x q : arr_get (p ++ x :: q) (len p) = Ok x.
Proof. apply arr_get_nth; [lia|]. rewrite Nat2Z.id, nth_error_app2, Nat.sub_diag by lia. reflexivity. Qed.
Lemma arr_set_mid {A} (p : list A) x q y : arr_set (p ++ x :: q) (len p) y = Ok (p ++ y :: q).
Proof.
  rewrite arr_set_ok by (rewrite app_length; cbn [length]; lia). rewrite Nat2Z.id. f_equal. induction p as [|a p IH]; [reflexivity|]. cbn. now rewrite IH.
Qed.
Lemma snoc_of {A} (l : list A) k : len l = k + 1 -> 0 <= k -> exists p x, l = p ++ [x] /\ len p = k.
Proof.
  intros Hl Hk. destruct l as [|a l] using rev_ind; [cbn in Hl; lia|]. exists l, a. split; [reflexivity|]. rewrite app_length in Hl. cbn in Hl. lia.
Qed.

Section Push.
Context {N : Num}.

Definition shifted (nav : Z) (es : list (Z * num)) : list (Z * num) := map (fun e => (fst e + nav, snd e)) es.

Lemma move_up_ok nav off (es : list (Z * num)) : 0 <= off -> forall X R R', len R = off ->
  exists G, move_up nav off (rev (map (fun k => len X + k) (zrange (len es)))) (X ++ map Some es ++ R ++ R') = Ok (X ++ G ++ map Some (shifted nav es) ++ R')
    /\ len G = off.
Proof.
  intros Ho. induction es as [|e es IH] using rev_ind; intros X R R' HR.
  - exists R. split; [reflexivity|exact HR].
  - rewrite app_length. cbn [length]. replace (Z.of_nat (length es + 1)) with (len es + 1) by lia. rewrite zrange_succ, map_app, rev_app_distr by lia.
    cbn [map rev app move_up]. rewrite map_app. cbn [map]. rewrite <- app_assoc. cbn [app].
    assert (Hp : len X + len es = len (X ++ map Some es)) by (rewrite app_length, map_length; lia).
    assert (Hg : arr_get (X ++ map Some es ++ Some e :: R ++ R') (len X + len es) = Ok (Some e)) by (rewrite Hp, app_assoc; apply arr_get_mid).
    rewrite Hg. cbn [rbind].
    destruct (snoc_of (Some e :: R) off) as (R1 & z & E1 & L1); [cbn [length]; lia|exact Ho|].
    assert (Hw : arr_set (X ++ map Some es ++ Some e :: R ++ R') (len X + len es + off) (Some (fst e + nav, snd e)) = Ok (X ++ map Some es ++ R1 ++ Some (fst e + nav, snd e) :: R')).
    { change (Some e :: R ++ R') with ((Some e :: R) ++ R'). rewrite E1, <- (app_assoc R1). cbn [app].
      replace (len X + len es + off) with (len (X ++ map Some es ++ R1)) by (rewrite !app_length, map_length; lia).
      pose proof (arr_set_mid (X ++ map Some es ++ R1) z R' (Some (fst e + nav, snd e))) as H. rewrite <- !app_assoc in H. exact H. }
    rewrite Hw. cbn [rbind].
    destruct (IH X R1 (Some (fst e + nav, snd e) :: R') L1) as (G & EG & LG). exists G. split; [|exact LG].
    rewrite EG. unfold shifted. rewrite !map_app, <- !app_assoc. reflexivity.
Qed.

Variables (w : wset) (act : Z -> bool) (n nav : Z) (K : Z -> list (Z * num)).
Hypothesis Hact : forall j, 0 <= j < n -> exists s, ws_var_state w j = Ok s /\ active s = act j.

Definition acts (j : Z) : Z := len (filter act (zrange j)).
Definition before (j : Z) : Z := len (concat (map K (zrange j))).
(** direct_aug_jac.c:84-116 stops at the first active variable: columns to its left keep their rows *)
Definition dcol (j : Z) : list (Z * num) :=
  if acts (j + 1) =? 0 then K j else (if act j then [(acts j, n1)] else []) ++ shifted nav (K j).
Definition after (j : Z) : Z := len (concat (map dcol (zrange j))).

Lemma acts_succ j : 0 <= j -> acts (j + 1) = acts j + if act j then 1 else 0.
Proof. intros Hj. unfold acts. rewrite zrange_succ, filter_app, app_length by lia. cbn [filter]. destruct (act j); cbn [length]; lia. Qed.
Lemma acts_nonneg j : 0 <= acts j.
Proof. unfold acts. lia. Qed.
Lemma acts_le i j : 0 <= i <= j -> acts i <= acts j.
Proof.
  intros Hij. replace j with (i + (j - i)) by lia. pattern (j - i). apply natlike_ind; [rewrite Z.add_0_r; lia| |lia].
  intros x Hx IH. replace (i + Z.succ x) with (i + x + 1) by lia. rewrite acts_succ by lia. destruct (act (i + x)); lia.
Qed.
Lemma before_succ j : 0 <= j -> before (j + 1) = before j + len (K j).
Proof. intros Hj. unfold before. rewrite zrange_succ, map_app, concat_app, app_length by lia. cbn [map concat]. rewrite app_nil_r. lia. Qed.
Lemma after_is j : 0 <= j -> after j = before j + acts j.
Proof.
  intros Hj. pattern j. apply natlike_ind; [reflexivity| |exact Hj]. intros x Hx IH. replace (Z.succ x) with (x + 1) by lia.
  rewrite before_succ, acts_succ by lia. unfold after. rewrite zrange_succ, map_app, concat_app, app_length by lia. cbn [map concat]. rewrite app_nil_r.
  fold (after x). rewrite Nat2Z.inj_add. fold (after x). rewrite IH. unfold dcol. rewrite acts_succ by lia. pose proof (acts_nonneg x).
  destruct (act x); cbn [app]; [destruct (Z.eqb_spec (acts x + 1) 0); [lia|]; cbn [length]; unfold shifted; rewrite map_length; lia|].
  rewrite Z.add_0_r. destruct (Z.eqb_spec (acts x) 0); unfold shifted; rewrite ?map_length; lia.
Qed.
Lemma left_same c : 0 <= c -> acts c = 0 -> concat (map dcol (zrange c)) = concat (map K (zrange c)).
Proof.
  intros Hc Ha. f_equal. apply map_ext_in. intros j Hj. apply zrange_In in Hj. unfold dcol. pose proof (acts_le (j + 1) c ltac:(lia)). pose proof (acts_nonneg (j + 1)).
  destruct (Z.eqb_spec (acts (j + 1)) 0); [reflexivity|lia].
Qed.

Lemma push_vars_ok L : n < L -> forall c, 0 <= c -> c <= n -> 0 < acts c -> forall cols f R, arr cols L f -> (forall k, 0 <= k <= c -> f k = before k) -> acts c <= len R ->
  exists cols' f', push_vars w nav (acts c) (rev (zrange c)) cols (map Some (concat (map K (zrange c))) ++ R)
     = Ok (cols', map Some (concat (map dcol (zrange c))) ++ skipn (Z.to_nat (acts c)) R, 0)
    /\ arr cols' L f' /\ forall k, 0 <= k < L -> f' k = if k <=? c then after k else f k.
Proof.
  intros HL c Hc0. pattern c. apply natlike_ind; [| |exact Hc0].
  { intros _ H. unfold acts in H. cbn in H. lia. }
  clear c Hc0. intros x Hx IH Hxn Ha cols f R Hcols Hf HR. replace (Z.succ x) with (x + 1) in * by lia. rewrite zrange_succ, rev_app_distr by lia. cbn [rev app push_vars].
  rewrite (arr_get_arr _ _ _ x Hcols) by lia. rewrite (arr_get_arr _ _ _ (x + 1) Hcols) by lia. cbn [rbind]. rewrite !Hf by lia. rewrite before_succ by lia.
  rewrite map_app, concat_app. cbn [map concat]. rewrite app_nil_r. rewrite map_app, <- app_assoc.
  replace (before x + len (K x) - before x) with (len (K x)) by lia. pose proof (acts_succ x Hx) as HS. pose proof (acts_nonneg x) as Hnn.
  set (X := map Some (concat (map K (zrange x)))). assert (LX : before x = len X) by (unfold before, X; now rewrite map_length).
  rewrite LX.
  destruct (move_up_ok nav (acts (x + 1)) (K x) ltac:(lia) X (firstn (Z.to_nat (acts (x + 1))) R) (skipn (Z.to_nat (acts (x + 1))) R)) as (G & EG & LG).
  { rewrite firstn_length. lia. }
  rewrite firstn_skipn in EG. rewrite EG. cbn [rbind]. destruct (arr_set_arr cols L f (x + 1) (len X + len (K x) + acts (x + 1)) Hcols ltac:(lia)) as (c1 & E1 & A1). rewrite E1. cbn [rbind].
  destruct (Hact x ltac:(lia)) as (s & Es & Hs). rewrite Es. cbn [rbind]. rewrite Hs.
  assert (Hafter : forall k, 0 <= k <= x -> upd f (x + 1) (len X + len (K x) + acts (x + 1)) k = before k).
  { intros k Hk. unfold upd. destruct (Z.eqb_spec k (x + 1)); [lia|]. apply Hf. lia. }
  assert (Hlast : len X + len (K x) + acts (x + 1) = after (x + 1)) by (rewrite after_is, before_succ by lia; lia).
  assert (Hd : dcol x = (if act x then [(acts x, n1)] else []) ++ shifted nav (K x)) by (unfold dcol; destruct (Z.eqb_spec (acts (x + 1)) 0); [lia|reflexivity]).
  assert (HD : concat (map dcol (zrange x ++ [x])) = concat (map dcol (zrange x)) ++ dcol x) by (rewrite map_app, concat_app; cbn [map concat]; now rewrite app_nil_r).
  destruct (act x) eqn:Ax.
  - destruct (snoc_of G (acts x)) as (G' & g & EGg & LG'); [lia|lia|]. rewrite EGg. rewrite <- (app_assoc G'). cbn [app].
    replace (len X + acts (x + 1) - 1) with (len (X ++ G')) by (rewrite app_length; lia). rewrite app_assoc, arr_set_mid. cbn [rbind].
    replace (acts (x + 1) - 1) with (acts x) by lia. destruct (Z.eqb_spec (acts x) 0) as [E0|E0].
    + exists c1, (upd f (x + 1) (len X + len (K x) + acts (x + 1))). split; [|split; [exact A1|]].
      * destruct G' as [|g' G']; [|cbn [length] in LG'; lia]. rewrite app_nil_r. rewrite HD, left_same by lia. rewrite Hd. cbn [app map]. rewrite E0. rewrite !map_app. cbn [map]. rewrite <- app_assoc. reflexivity.
      * intros k Hk. unfold upd. destruct (Z.eqb_spec k (x + 1)) as [->|Hk']; [destruct (Z.leb_spec (x + 1) (x + 1)); [exact Hlast|lia]|].
        destruct (Z.leb_spec k (x + 1)); [|reflexivity]. rewrite Hf by lia. rewrite after_is by lia. pose proof (acts_le k x ltac:(lia)). pose proof (acts_nonneg k). lia.
    + rewrite <- app_assoc. destruct (IH ltac:(lia) ltac:(lia) c1 _ (G' ++ Some (acts x, n1) :: map Some (shifted nav (K x)) ++ skipn (Z.to_nat (acts (x + 1))) R) A1 Hafter) as (c2 & f2 & E2 & A2 & F2).
      { rewrite app_length. lia. }
      fold X in E2. rewrite E2. exists c2, f2. split; [|split; [exact A2|]].
      * rewrite HD, Hd. cbn [app]. rewrite map_app, <- app_assoc. cbn [map app]. do 3 f_equal. f_equal.
        rewrite <- LG', Nat2Z.id. rewrite skipn_app, Nat.sub_diag, skipn_all. reflexivity.
      * intros k Hk. rewrite F2 by lia. unfold upd. destruct (Z.leb_spec k x), (Z.leb_spec k (x + 1)), (Z.eqb_spec k (x + 1)); try lia; subst; auto.
  - destruct (IH ltac:(lia) ltac:(lia) c1 _ (G ++ map Some (shifted nav (K x)) ++ skipn (Z.to_nat (acts (x + 1))) R) A1 Hafter) as (c2 & f2 & E2 & A2 & F2).
    { rewrite app_length. lia. }
    assert (HE : acts (x + 1) = acts x) by lia. rewrite HE in *. fold X in E2. rewrite E2. exists c2, f2. split; [|split; [exact A2|]].
    * rewrite HD, Hd. cbn [app]. rewrite map_app, <- app_assoc. do 3 f_equal. f_equal.
      replace (acts x) with (len G) by lia. rewrite Nat2Z.id. rewrite skipn_app, Nat.sub_diag, skipn_all. reflexivity.
    * intros k Hk. rewrite F2 by lia. unfold upd. destruct (Z.leb_spec k x), (Z.leb_spec k (x + 1)), (Z.eqb_spec k (x + 1)); try lia; subst; auto.
Qed.
End Push.

Section Dir.
Context {N : Num}.
Variables (w : wset) (jac : mat) (cs : list (list (Z * num))).
Hypothesis C : consistent w.
Hypothesis I : in_order w.
Hypothesis HS : stores jac cs.
Hypothesis Hc : mnc jac = wnv w.
Hypothesis Hr : mnr jac = wnc w.
Let n := wnv w.
Let nc := wnc w.
Let nav := wnav w.

Lemma vcnt : len (filter (vact w) (zrange n)) = nav.
Proof.
  pose proof (evs_len w C) as H. fold n nav in H. rewrite <- H. unfold evs. clear H.
  generalize (zrange n) as zs. induction zs as [|j zs IH]; [reflexivity|]. cbn [filter map concat]. rewrite app_length. unfold vact at 1, ev_of at 1.
  destruct (vix w j =? none); cbn [negb length app]; lia.
Qed.
Lemma ccnt : len (filter (cact w) (zrange nc)) = wnac w.
Proof.
  pose proof (nv0 w C) as (N1 & N2 & N3 & N4). apply Z.le_antisymm.
  - apply (active_cons_bound w C).
    + apply NoDup_filter. eapply sorted_in_NoDup, zrange_sorted.
    + intros i Hi. apply filter_In in Hi as [Hi Ha]. apply zrange_In in Hi. split; [exact Hi|]. now apply cact_iff.
  - assert (HK : forall k, 0 <= k < wnac w -> 0 <= cont w (nav + k) - n < nc /\ cix w (cont w (nav + k) - n) = nav + k).
    { intros k Hk. unfold nav, n, nc in *. assert (Hs : 0 <= wnav w + k < ws_size w) by lia.
      destruct (Z.lt_ge_cases (cont w (wnav w + k)) (wnv w)) as [Hlt|Hge].
      - exfalso. destruct (cont_cases w C (wnav w + k) Hs) as [(R1 & R2)|(R1 & R2)]; [|lia].
        pose proof (vix_cont_id w C (wnav w + k) Hs Hlt) as Hv. pose proof (vix_range w C (cont w (wnav w + k)) ltac:(lia)) as Hx. rewrite Hv in Hx. unfold none in *. specialize (Hx ltac:(lia)). lia.
      - split; [|now apply cix_cont_id]. destruct (cont_cases w C (wnav w + k) Hs) as [(R1 & R2)|(R1 & R2)]; lia. }
    assert (Hn : NoDup (map (fun k => cont w (nav + k) - n) (zrange (wnac w)))).
    { apply (NoDup_map_inv (cix w)). rewrite map_map. rewrite (map_ext_in _ (fun k => nav + k)).
      - apply FinFun.Injective_map_NoDup; [intros a b; lia|]. eapply sorted_in_NoDup, zrange_sorted.
      - intros k Hk. apply zrange_In in Hk. now apply HK. }
    pose proof (NoDup_incl_length Hn (l' := filter (cact w) (zrange nc))) as H. rewrite map_length, zrange_length in H. 
    assert (Hi : incl (map (fun k => cont w (nav + k) - n) (zrange (wnac w))) (filter (cact w) (zrange nc))).
    { intros x Hx. apply in_map_iff in Hx as (k & <- & Hk). apply zrange_In in Hk. destruct (HK k Hk) as [H1 H2]. apply filter_In. split; [now apply zrange_In|].
      apply cact_iff. rewrite H2. unfold none, nav. lia. }
    specialize (H Hi). lia.
Qed.

Lemma vrank j : 0 <= j < n -> vact w j = true -> vix w j = acts (vact w) j.
Proof.
  intros Hj Ha. pose proof (nv0 w C) as (N1 & N2 & N3 & N4).
  pose proof (rank (vact w) (vix w) n 0 nav ltac:(unfold n; lia)) as H. rewrite Z.sub_0_r in H. unfold acts. rewrite (H) with (j := j); auto.
  - intros i Hi Pi. apply (vix_range w C i Hi). now apply vact_iff.
  - intros i k Hi Hk Pi Pk. apply (vix_lt w C I); try (unfold n in *; lia); now apply vact_iff.
  - apply vcnt.
Qed.
Lemma crank i : 0 <= i < nc -> cact w i = true -> cix w i = nav + len (filter (cact w) (zrange i)).
Proof.
  intros Hi Ha. pose proof (nv0 w C) as (N1 & N2 & N3 & N4).
  apply (rank (cact w) (cix w) nc nav (ws_size w)); auto; try (unfold nc; lia).
  - intros k Hk Pk. apply (cix_range w C k Hk). now apply cact_iff.
  - intros k l Hk Hl Pk Pl. apply (cix_lt w C I); try (unfold nc in *; lia); now apply cact_iff.
  - rewrite ccnt. unfold nav. lia.
Qed.

Definition removed : list Z := filter (fun i => negb (cact w i)) (zrange nc).
Lemma removed_sorted : sorted_in 0 nc removed.
Proof. apply sorted_filter, zrange_sorted. Qed.
Lemma removed_len : wnc w = wnac w + len removed.
Proof.
  rewrite <- ccnt. unfold removed. fold nc. pose proof (nv0 w C) as (_ & N2 & _). fold nc in N2. rewrite <- (Z2Nat.id nc) at 1 by exact N2. rewrite <- (zrange_length nc).
  generalize (zrange nc) as zs. induction zs as [|a zs IH]; [reflexivity|]. cbn [filter length]. destruct (cact w a); cbn [negb length]; lia.
Qed.
Lemma removed_lt i : 0 <= i < nc -> count_lt removed i = i - len (filter (cact w) (zrange i)).
Proof.
  intros Hi. unfold removed, count_lt. destruct (zrange_split nc i Hi) as (k & Ek). rewrite Ek.
  assert (Hk : forall z, In z (i :: k) -> i <= z).
  { intros z Hz. pose proof (zrange_sorted nc) as Hs. rewrite Ek in Hs. apply sorted_in_app in Hs as [_ Hs]. destruct Hz as [->|Hz]; [lia|].
    destruct Hs as [_ Hs]. pose proof (sorted_in_In _ _ _ _ Hs Hz). lia. }
  rewrite !filter_app, app_length. 
  assert (H2 : filter (fun f => f <? i) (filter (fun i => negb (cact w i)) (i :: k)) = []).
  { destruct (filter (fun f => f <? i) (filter (fun i => negb (cact w i)) (i :: k))) as [|z l] eqn:E; [reflexivity|]. exfalso.
    assert (Hz : In z (z :: l)) by now left. rewrite <- E in Hz. apply filter_In in Hz as [Hz Hlt]. apply filter_In in Hz as [Hz _]. specialize (Hk z Hz). apply Z.ltb_lt in Hlt. lia. }
  rewrite H2. cbn [length]. rewrite Nat.add_0_r.
  assert (H1 : filter (fun f => f <? i) (filter (fun i => negb (cact w i)) (zrange i)) = filter (fun i => negb (cact w i)) (zrange i)).
  { assert (Hall : forall z, In z (zrange i) -> z < i) by (intros z Hz; apply zrange_In in Hz; lia). revert Hall. generalize (zrange i) as zs.
    induction zs as [|z zs IH]; intros Hall; [reflexivity|]. cbn [filter]. destruct (cact w z); cbn [negb filter].
    - apply IH. intros; apply Hall; now right.
    - rewrite (proj2 (Z.ltb_lt z i)) by (apply Hall; now left). f_equal. apply IH. intros; apply Hall; now right. }
  rewrite H1. pose proof (zrange_length i) as L. assert (Hi0 : i = len (zrange i)) by lia. rewrite Hi0 at 2. generalize (zrange i) as zs.
  induction zs as [|z zs IH]; [reflexivity|]. cbn [filter length]. destruct (cact w z); cbn [negb length]; lia.
Qed.

Definition K (j : Z) : list (Z * num) := moved (cact w) (fun i => cix w i - nav) (nth (Z.to_nat j) cs []).

Lemma removed_ents es : (forall i, In i (keys es) -> 0 <= i < nc) -> remove_ents removed es = moved (cact w) (fun i => cix w i - nav) es.
Proof.
  induction es as [|[i x] es IH]; intros Hk; [reflexivity|]. cbn [remove_ents]. unfold moved. cbn [filter fst]. pose proof (Hk i ltac:(now left)) as Hi.
  assert (E : existsb (Z.eqb i) removed = negb (cact w i)).
  { destruct (existsb (Z.eqb i) removed) eqn:E.
    - apply existsb_In in E. apply filter_In in E as [_ E]. now rewrite E.
    - destruct (cact w i) eqn:A; [reflexivity|]. exfalso. assert (In i removed) by (apply filter_In; split; [now apply zrange_In|now rewrite A]). apply existsb_In in H. congruence. }
  rewrite E. fold (moved (cact w) (fun i => cix w i - nav) es). rewrite IH by (intros; apply Hk; now right). destruct (cact w i) eqn:A; cbn [negb]; [|reflexivity].
  cbn [map fst snd]. fold (moved (cact w) (fun i => cix w i - nav) es). f_equal. f_equal. rewrite removed_lt, crank by auto. unfold nav. lia.
Qed.

Lemma removed_cols : map (remove_ents removed) cs = map K (zrange n).
Proof.
  pose proof HS as [_ Hl]. rewrite <- (map_nth_zrange cs n) at 1 by (unfold n; lia). rewrite map_map. apply map_ext_in. intros j Hj. apply zrange_In in Hj.
  apply removed_ents. intros i Hi. destruct (jcol w jac cs HS Hc Hr j Hj) as [_ Hs]. now apply (sorted_in_In _ _ _ _ Hs).
Qed.

Lemma removed_loop rs : nc <= rs -> rfold (fun l i => s <- ws_cons_state w i ;; if active s then Ok l else check (len l <? rs) ;;; Ok (l ++ [i])) [] (zrange (mnr jac)) = Ok removed.
Proof.
  intros Hrs. pose proof (nv0 w C) as (_ & N2 & _). rewrite Hr. fold nc. fold nc in N2.
  destruct (zrange_loop (fun j l => l = filter (fun i => negb (cact w i)) (zrange j)) (fun l i => s <- ws_cons_state w i ;; if active s then Ok l else check (len l <? rs) ;;; Ok (l ++ [i])) nc []) as (l & E & Hl).
  - exact N2.
  - reflexivity.
  - intros j l Hj ->. destruct (cix_ok w C j Hj) as (_ & E & Hiff). rewrite E. cbn [rbind]. rewrite zrange_succ, filter_app by lia. cbn [filter].
    pose proof (filter_length_le (fun i => negb (cact w i)) (zrange j)) as HL. rewrite zrange_length in HL.
    change (cact w j) with (negb (cix w j =? none)). destruct (Z.eqb_spec (cix w j) none) as [E0|E0]; cbn [negb].
    + apply Hiff in E0. rewrite E0. cbn [active]. destruct (Z.ltb_spec (len (filter (fun i => negb (cact w i)) (zrange j))) rs); [|lia]. cbn [check rbind negb]. eexists. split; reflexivity.
    + assert (Ha : active (cstate w j) = true) by (destruct (cstate w j) eqn:Es; try reflexivity; exfalso; apply E0, Hiff; reflexivity). rewrite Ha. cbn [negb]. rewrite app_nil_r. eexists. split; reflexivity.
  - rewrite E. now subst.
Qed.

(** ** The rows built in place *)
Definition D (j : Z) : list (Z * num) := if acts (vact w) (j + 1) =? 0 then K j else wcol w cs 0 j.

Lemma shifted_K j : shifted nav (K j) = moved (cact w) (fun i => 0 + cix w i) (nth (Z.to_nat j) cs []).
Proof. unfold shifted, K, moved. rewrite map_map. apply map_ext. intros e. cbn [fst snd]. f_equal. lia. Qed.
Lemma dcol_D j : 0 <= j < n -> dcol (vact w) nav K j = D j.
Proof.
  intros Hj. unfold dcol, D. destruct (acts (vact w) (j + 1) =? 0); [reflexivity|]. unfold wcol. rewrite shifted_K. f_equal.
  destruct (vact w j) eqn:A; pose proof A as A'; unfold vact in A'; destruct (vix w j =? none); try discriminate; [|reflexivity]. rewrite Z.add_0_l, vrank; auto.
Qed.
Lemma K_sorted j : 0 <= j < n -> sorted_in 0 (wnac w) (keys (K j)).
Proof.
  intros Hj. pose proof (nv0 w C) as (_ & _ & _ & N4). destruct (jcol w jac cs HS Hc Hr j Hj) as [_ Hs]. eapply moved_sorted; [exact Hs| |].
  - intros i k Hi Hk Ai Ak Hik. apply (sorted_in_In _ _ _ _ Hs) in Hi. apply (sorted_in_In _ _ _ _ Hs) in Hk.
    pose proof (cix_lt w C I i k Hi Hk (proj1 (cact_iff w i) Ai) (proj1 (cact_iff w k) Ak) Hik). lia.
  - intros i Hi Ai. apply (sorted_in_In _ _ _ _ Hs) in Hi. pose proof (cix_range w C i Hi (proj1 (cact_iff w i) Ai)). unfold nav. lia.
Qed.
Lemma D_sorted j : 0 <= j < n -> sorted_in 0 (ws_size w) (keys (D j)).
Proof.
  intros Hj. pose proof (nv0 w C) as (_ & _ & N3 & N4). unfold D. destruct (_ =? 0).
  - eapply sorted_in_weaken; [| |apply (K_sorted j Hj)]; lia.
  - pose proof (wcol_sorted w jac cs C I HS Hc Hr 0 j Hj) as H. now rewrite Z.add_0_l in H.
Qed.

Lemma remove_any t fs : mat_remove_rows jac t fs = mat_remove_rows jac (mat_clear t) fs.
Proof.
  unfold mat_remove_rows, mat_reserve. cbn [mat_clear mcap]. destruct (0 <=? mnnz jac); cbn [check rbind]; [|reflexivity].
  destruct (mnnz jac <=? mcap t); reflexivity.
Qed.

Lemma acts_all : acts (vact w) n = nav.
Proof. apply vcnt. Qed.

Lemma working_jac_ok wj : mnr wj = wnac w -> mnc wj = n -> 0 <= mcap wj ->
  exists wj', working_jac w jac wj (mnr jac) = Ok wj' /\ stores wj' (map D (zrange n)) /\ mnr wj' = ws_size w /\ mnc wj' = n.
Proof.
  intros W1 W2 W3. pose proof (nv0 w C) as (N1 & N2 & N3 & N4). destruct (cs_bound w C) as [_ B2]. unfold working_jac.
  rewrite (removed_loop (mnr jac)) by (unfold nc; lia). cbn [rbind]. rewrite remove_any.
  destruct (mat_remove_rows_layout jac cs (mat_clear wj) removed HS) as (t1 & E1 & S1 & R1 & C1).
  { exists (repeat [] (Z.to_nat (mnc wj))). apply clear_stores; try lia; unfold n in *; lia. }
  { rewrite Hr. apply removed_sorted. }
  { cbn [mat_clear mnc]. unfold n in *. lia. }
  { cbn [mat_clear mnr]. rewrite Hr, W1. apply removed_len. }
  rewrite E1. cbn [rbind]. rewrite removed_cols in S1. cbn [mat_clear mnr mnc] in R1, C1. rewrite W1 in R1. rewrite W2 in C1.
  destruct (Z.eqb_spec (wnav w) 0) as [E0|E0].
  - exists t1. split; [reflexivity|]. split; [|split; [lia|exact C1]]. 
    rewrite (map_ext_in D K); [exact S1|]. intros j Hj. apply zrange_In in Hj. unfold D.
    pose proof (acts_le (vact w) (j + 1) n ltac:(lia)). rewrite acts_all in H. pose proof (acts_nonneg (vact w) (j + 1)). unfold nav in *. destruct (Z.eqb_spec (acts (vact w) (j + 1)) 0); [reflexivity|lia].
  - pose proof (layout_facts t1 _ S1) as (F1 & F2 & F3 & F4 & F5).
    destruct (mat_reserve_spec t1 (mnnz t1 + wnav w) _ (proj1 S1) ltac:(lia)) as (t2 & E2 & L2 & R2 & C2 & _ & K2). rewrite E2. cbn [rbind].
    assert (S2 : stores t2 (map K (zrange n))) by (split; [exact L2|rewrite C2; exact (proj2 S1)]).
    unfold mat_resize. rewrite Hc. fold n. destruct (Z.leb_spec 0 (ws_size w)), (Z.leb_spec 0 n); try (unfold n in *; lia). cbn [andb check rbind].
    rewrite C2, C1. rewrite Z.ltb_irrefl. cbn [rbind mcols mnr mnc mcap].
    set (t3 := mkmat (ws_size w) n (mnnz t2) (mcap t2) (mcols t2) (ment t2)).
    pose proof (layout_facts t2 _ S2) as (G1 & G2 & G3 & G4 & G5). destruct L2 as (_ & Q2 & Q3 & Q4 & (rest & Q5) & Q6 & Q7).
    assert (Qn : mnnz t2 = mnnz t1) by (rewrite F4, G4; reflexivity).
    set (L := len (mcols t2)).
    assert (Hstore : exists R, store_of t3 = map Some (concat (map K (zrange n))) ++ R /\ len R = mcap t2 - mnnz t2).
    { unfold store_of, t3. cbn [mcap ment]. rewrite Q5. assert (Hl : (length (concat (map K (zrange n))) <= Z.to_nat (mcap t2))%nat) by lia.
      rewrite firstn_app, firstn_all2 by exact Hl. rewrite map_app, <- app_assoc. eexists. split; [reflexivity|].
      rewrite app_length, map_length, repeat_length, firstn_length, app_length. lia. }
    destruct Hstore as (R & ER & LR). rewrite ER.
    assert (HA : acts (vact w) n = wnav w) by apply acts_all. 
    assert (Hcols : arr (mcols t2) L (fun k => nth (Z.to_nat k) (mcols t2) 0)).
    { split; [unfold L; lia|]. intros k Hk. apply nth_error_nth'. unfold L in Hk. lia. }
    assert (Hlen : length (map K (zrange n)) = Z.to_nat n) by (rewrite map_length, zrange_length; reflexivity).
    destruct (push_vars_ok w (vact w) n nav K) with (L := L) (c := n) (cols := mcols t2) (f := fun k => nth (Z.to_nat k) (mcols t2) 0) (R := R) as (cols' & f' & EP & A' & F'); auto.
    + intros j Hj. destruct (vix_ok w C j Hj) as (_ & Ev & Hiff). exists (vstate w j). split; [exact Ev|]. unfold vact.
      destruct (Z.eqb_spec (vix w j) none) as [Ez|Ez]; cbn [negb].
      * apply Hiff in Ez. now rewrite Ez.
      * destruct (vstate w j) eqn:Es; try reflexivity. exfalso. apply Ez, Hiff. reflexivity.
    + unfold L. lia.
    + lia.
    + rewrite HA. lia.
    + intros k Hk. specialize (Q3 (Z.to_nat k) ltac:(lia)). rewrite (nth_error_nth _ _ _ Q3). unfold before. f_equal. f_equal. rewrite concat_firstn_map by lia. reflexivity.
    + rewrite HA, LR, Qn. lia.
    + rewrite HA in EP. fold nav. fold nav in EP. change (mcols t3) with (mcols t2). rewrite EP. cbn [rbind]. rewrite Z.eqb_refl. cbn [check rbind].
      rewrite (map_ext_in (dcol (vact w) nav K) D) by (intros j Hj; apply zrange_In in Hj; now apply dcol_D).
      pose proof (after_is (vact w) nav K n ltac:(unfold n; lia)) as Haf. unfold after, before in Haf. rewrite (map_ext_in (dcol (vact w) nav K) D) in Haf by (intros j Hj; apply zrange_In in Hj; now apply dcol_D).
      rewrite HA in Haf. rewrite <- F4 in Haf.
      rewrite firstn_app, firstn_all2 by (rewrite map_length; unfold nav; lia). rewrite map_length.
      replace (Z.to_nat (mnnz t1 + nav) - length (concat (map D (zrange n))))%nat with 0%nat by (unfold nav; lia). cbn [firstn]. rewrite app_nil_r, rmapM_some. cbn [rbind].
      assert (S' : stores (mkmat (mnr t3) (mnc t3) (mnnz t1 + nav) (mcap t3) cols' (concat (map D (zrange n)))) (map D (zrange n))).
      { split; [|cbn [mnc]; rewrite map_length, zrange_length; unfold t3; cbn [mnc]; lia]. unfold layout, t3. cbn [mnr mnc mnnz mcap mcols ment]. destruct A' as [A1 A2].
        split; [lia|]. split; [rewrite map_length, zrange_length; unfold L in A1; lia|]. split.
        - intros j Hj. rewrite map_length, zrange_length in Hj. rewrite <- (Nat2Z.id j) at 1. rewrite A2 by (unfold L; lia). rewrite F' by (unfold L; lia).
          destruct (Z.leb_spec (Z.of_nat j) n); [|lia]. unfold after. f_equal. f_equal. f_equal. rewrite <- (Nat2Z.id j) at 2. rewrite concat_firstn_map by lia. f_equal.
          apply map_ext_in. intros i Hi. apply zrange_In in Hi. apply dcol_D. lia.
        - split; [unfold nav; lia|]. split; [exists []; now rewrite app_nil_r|]. split; [unfold nav in *; lia|].
          apply Forall_forall. intros c Hcin. apply in_map_iff in Hcin as (j & <- & Hj). apply zrange_In in Hj. now apply D_sorted. }
      unfold t3 in S'. cbn [mnr mnc mcap] in S'. fold nav in S'.  rewrite (valid_of_wf _ _ S'). cbn [check rbind]. eexists. split; [reflexivity|]. split; [exact S'|]. split; reflexivity.
Qed.

(** Where the rows of the working set end up *)
Lemma D_get j r : 0 <= j < n -> 0 <= r < ws_size w ->
  get (D j) r = if acts (vact w) (j + 1) =? 0 then (if r + nav <? ws_size w then row_entry w cs (r + nav) j else None) else row_entry w cs r j.
Proof.
  intros Hj Hr0. pose proof (nv0 w C) as (_ & _ & N3 & N4). unfold D. destruct (Z.eqb_spec (acts (vact w) (j + 1)) 0) as [E|E].
  - destruct (Z.ltb_spec (r + nav) (ws_size w)) as [Hl|Hl].
    + rewrite <- (wcol_get w jac cs C HS Hc Hr 0 j (r + nav) Hj) by (unfold nav in *; lia). rewrite Z.add_0_l. unfold wcol.
      assert (Ev : vix w j =? none = true).
      { rewrite acts_succ in E by lia. pose proof (acts_nonneg (vact w) j). unfold vact in E at 2. destruct (vix w j =? none); [reflexivity|]. cbn [negb] in E. lia. }
      rewrite Ev. cbn [app]. rewrite <- shifted_K. unfold shifted. generalize (K j) as es. induction es as [|[i x] es IH]; [reflexivity|]. cbn [map get fst snd].
      destruct (Z.eqb_spec i r), (Z.eqb_spec (i + nav) (r + nav)); try lia; auto.
    + apply get_None. intros Hin. pose proof (sorted_in_In _ _ _ _ (K_sorted j Hj) Hin). unfold nav in *. lia.
  - rewrite <- (wcol_get w jac cs C HS Hc Hr 0 j r Hj Hr0). now rewrite Z.add_0_l.
Qed.

Lemma direct_matrix_ok wj t : mwf wj -> mnc wj = 0 \/ mnc wj = n -> mwf t ->
  (ws_size w <= nc -> exists wj' t', direct_matrix w jac wj t = Ok (wj', t') /\ mwf wj' /\ mnc wj' = n
    /\ stores t' (trans_cols (map D (zrange n)) (ws_size w) n) /\ mnr t' = n /\ mnc t' = ws_size w)
  /\ (nc < ws_size w -> direct_matrix w jac wj t = Trap).
Proof.
  intros Hw Hn Ht. pose proof (nv0 w C) as (N1 & N2 & N3 & N4). destruct (cs_bound w C) as [_ B2]. destruct Hw as (ws & Sw). pose proof (layout_facts wj ws Sw) as (F1 & F2 & F3 & F4 & F5).
  assert (HR : exists wj1, mat_resize wj (wnac w) (mnc jac) = Ok wj1 /\ mnr wj1 = wnac w /\ mnc wj1 = n /\ 0 <= mcap wj1).
  { unfold mat_resize. rewrite Hc. fold n. destruct (Z.leb_spec 0 (wnac w)), (Z.leb_spec 0 n); try (unfold n in *; lia). cbn [andb check rbind].
    destruct (Z.ltb_spec (mnc wj) n).
    - destruct Hn as [Hn|Hn]; [|lia]. rewrite Hn. cbn [Z.eqb rbind]. eexists. split; [reflexivity|]. cbn [mnr mnc mcap]. repeat split; lia.
    - destruct (Z.ltb_spec n (mnc wj)); [lia|]. eexists. split; [reflexivity|]. cbn [mnr mnc mcap]. repeat split; lia. }
  destruct HR as (wj1 & E1 & R1 & C1 & K1). destruct (working_jac_ok wj1 R1 C1 K1) as (wj2 & E2 & S2 & R2 & C2).
  unfold direct_matrix. rewrite E1. cbn [rbind]. rewrite E2. cbn [rbind]. rewrite R2, Hr. fold nc. split; intros Hs.
  - destruct (Z.leb_spec (ws_size w) nc); [|lia]. cbn [check rbind]. destruct (mat_trans_spec wj2 _ t S2 Ht) as (t' & Et & St & Rt & Ct). rewrite Et. cbn [rbind].
    exists wj2, t'. split; [reflexivity|]. split; [eexists; exact S2|]. split; [exact C2|]. rewrite R2, C2 in St. rewrite Rt, Ct, C2, R2. auto.
  - destruct (Z.leb_spec (ws_size w) nc); [lia|]. reflexivity.
Qed.
End Dir.
