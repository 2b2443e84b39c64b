(** Property theorems C11-C14 and C50-C52: sparse matrices.

    Specification vocabulary (MatFacts.v, MatFacts2.v): [stores m cs] = the arrays of [m]
    hold exactly the columns [cs], each with strictly increasing in-range rows;
    [mwf m] = [m] stores some columns; [mget cs i j] = the stored entry at row [i], column
    [j]; [mdense] = its value, zero if absent. *)
From Coq Require Import Reals Lra.
From Verif Require Import Base Num Cmp Sparse Vec VecFacts Order VecFacts2 VecFacts3 RSum VecReal
  Mat MatFacts MatFacts2 MatFacts3 MatFacts4 PropsVec.
Local Open Scope Z_scope.

(** ** Histories of push operations *)
Section Histories.
Context {N : Num}.

(** Open the next column / push an entry into / push a vector as the column opened last. *)
Inductive bop := BCol | BPush (row : Z) (x : num) | BVec (v : vec).

Definition bstep (s : mat * Z) (o : bop) : res (mat * Z) :=
  let (m, n) := s in
  match o with
  | BCol => m' <- mat_push_col m n ;; Ok (m', n + 1)
  | BPush r x => m' <- mat_push m r (n - 1) x ;; Ok (m', n)
  | BVec v => m' <- mat_push_vec m (n - 1) v ;; Ok (m', n)
  end.

(** Documented preconditions, in terms of the columns pushed so far (reversed: the
    column opened last comes first). *)
Definition bpre (nr nc cap : Z) (rcs : list (list (Z * num))) (o : bop) : Prop :=
  match o, rcs with
  | BCol, _ => len rcs < nc
  | BPush r x, c :: _ => 0 <= r < nr /\ (forall i, In i (keys c) -> i < r) /\ len (concat rcs) < cap
  | BVec v, [] :: _ => wf v /\ vdim v = nr /\ len (concat rcs) + len (vent v) <= cap
  | _, _ => False
  end.

Definition babs (rcs : list (list (Z * num))) (o : bop) : list (list (Z * num)) :=
  match o, rcs with
  | BCol, _ => [] :: rcs
  | BPush r x, c :: rcs' => (c ++ [(r, x)]) :: rcs'
  | BVec v, _ :: rcs' => vent v :: rcs'
  | _, _ => rcs
  end.

Fixpoint bok (nr nc cap : Z) (rcs : list (list (Z * num))) (ops : list bop) : Prop :=
  match ops with
  | [] => True
  | o :: ops' => bpre nr nc cap rcs o /\ bok nr nc cap (babs rcs o) ops'
  end.

Lemma concat_rev_length {A} (l : list (list A)) : length (concat (rev l)) = length (concat l).
Proof.
  induction l as [|a l IH]; cbn [rev concat]; [reflexivity|].
  rewrite concat_app, !app_length, IH. cbn [concat]. rewrite app_nil_r. lia.
Qed.

Lemma bstep_ok nr nc cap m rcs o : layout m (rev rcs) -> mnr m = nr -> mnc m = nc -> mcap m = cap ->
  bpre nr nc cap rcs o ->
  exists m', bstep (m, len rcs) o = Ok (m', len (babs rcs o)) /\ layout m' (rev (babs rcs o))
    /\ mnr m' = nr /\ mnc m' = nc /\ mcap m' = cap.
Proof.
  intros HL Hr Hc Hk Hp. destruct o as [|r x|v]; cbn [bpre] in Hp.
  - destruct (layout_push_col m (rev rcs) HL) as (m' & E & HL' & S1 & S2 & S3); [rewrite rev_length; lia|].
    rewrite rev_length in E. exists m'. cbn [bstep babs rev]. rewrite E. cbn [rbind length].
    split; [do 2 f_equal; lia|]. split; [exact HL'|]. lia.
  - destruct rcs as [|c rcs]; [contradiction|]. destruct Hp as (H1 & H2 & H3). cbn [rev] in HL.
    destruct (layout_push m (rev rcs) c r x HL) as (m' & E & HL' & S1 & S2 & S3).
    + rewrite Hr, keys_app. cbn [keys map fst]. apply sorted_snoc; auto.
      destruct HL as (_ & _ & _ & _ & _ & _ & HF). apply Forall_app in HF. destruct HF as [_ HF]. rewrite Hr in HF. now inv HF.
    + destruct HL as (_ & _ & _ & -> & _). change (rev rcs ++ [c]) with (rev (c :: rcs)). rewrite concat_rev_length. lia.
    + rewrite rev_length in E. exists m'. cbn [bstep babs rev length]. replace (Z.of_nat (S (length rcs)) - 1) with (len rcs) by lia.
      rewrite E. cbn [rbind]. split; [reflexivity|]. split; [exact HL'|]. lia.
  - destruct rcs as [|[|e c] rcs]; try contradiction. destruct Hp as (H1 & H2 & H3). cbn [rev] in HL.
    destruct (layout_push_vec m (rev rcs) v HL) as (m' & E & HL' & S1 & S2 & S3); auto; try lia.
    + destruct HL as (_ & _ & _ & -> & _). change (rev rcs ++ [[]]) with (rev ([] :: rcs)). rewrite concat_rev_length. unfold vnnz. lia.
    + rewrite rev_length in E. exists m'. cbn [bstep babs rev length]. replace (Z.of_nat (S (length rcs)) - 1) with (len rcs) by lia.
      rewrite E. cbn [rbind]. split; [reflexivity|]. split; [exact HL'|]. lia.
Qed.

Lemma bruns nr nc cap ops : forall m rcs, layout m (rev rcs) -> mnr m = nr -> mnc m = nc -> mcap m = cap ->
  bok nr nc cap rcs ops ->
  exists m', rfold bstep (m, len rcs) ops = Ok (m', len (fold_left babs ops rcs))
    /\ layout m' (rev (fold_left babs ops rcs)) /\ mnr m' = nr /\ mnc m' = nc.
Proof.
  induction ops as [|o ops IH]; intros m rcs HL Hr Hc Hk Hok.
  - exists m. auto.
  - destruct Hok as [Hp Hok]. destruct (bstep_ok nr nc cap m rcs o) as (m1 & E & HL1 & R1 & C1 & K1); auto.
    cbn [rfold fold_left]. rewrite E. cbn [rbind]. apply IH; auto.
Qed.
End Histories.

(** ** C11 *)

(** Every push history respecting the preconditions succeeds; once all columns have been
    opened the matrix stores exactly what was pushed. *)
Theorem C11_build_history {N : Num} : forall nr nc cap ops, 0 <= nr -> 0 <= nc -> 0 <= cap ->
  bok nr nc cap [] ops ->
  exists m0 m n, mat_create nr nc cap = Ok m0 /\ rfold bstep (m0, 0) ops = Ok (m, n)
    /\ n = len (fold_left babs ops []) /\ mnr m = nr /\ mnc m = nc
    /\ (n = nc -> stores m (rev (fold_left babs ops []))).
Proof.
  intros nr nc cap ops Hr Hc Hk Hok. destruct (mat_create_spec nr nc cap Hr Hc Hk) as (m0 & E0 & HL & R & C & K).
  destruct (bruns nr nc cap ops m0 [] HL R C K Hok) as (m & E & HL' & R' & C').
  exists m0, m, (len (fold_left babs ops [])). repeat split; auto; try apply HL'. rewrite rev_length. lia.
Qed.
Print Assumptions C11_build_history.

Theorem C11_build {N : Num} : forall nr cap css, 0 <= nr -> len (concat css) <= cap ->
  Forall (fun c => sorted_in 0 nr (keys c)) css ->
  exists m, (m <- mat_create nr (len css) cap ;; build m css) = Ok m /\ stores m css.
Proof.
  intros nr cap css H1 H2 H3. destruct (build_spec nr (len css) cap css H1 eq_refl H2 H3) as (m & E & HS & _). eauto.
Qed.
Print Assumptions C11_build.

(** What is stored is what is read back, and the stored columns are unique. *)
Theorem C11_value_at {N : Num} : forall m cs i j, stores m cs -> 0 <= i < mnr m -> 0 <= j < mnc m ->
  mat_value_at m i j = Ok (mdense cs i j).
Proof.
  intros m cs i j Hs Hi Hj. destruct (stores_col m cs j Hs Hj) as (c & E1 & _).
  rewrite (mat_value_at_spec m cs i j c) by (auto; lia). unfold mdense, mget.
  now rewrite (nth_error_nth cs _ [] E1).
Qed.
Print Assumptions C11_value_at.

Theorem C11_stored_unique {N : Num} : forall m cs cs', stores m cs -> stores m cs' -> cs = cs'.
Proof. exact stores_unique. Qed.
Print Assumptions C11_stored_unique.

Theorem C11_col {N : Num} : forall m cs j v, stores m cs -> wf v -> vdim v = mnr m -> 0 <= j < mnc m ->
  exists v', mat_col m j v = Ok v' /\ wf v' /\ vdim v' = mnr m /\ forall i, get (vent v') i = mget cs i j.
Proof.
  intros m cs j v Hs Hw Hd Hj. destruct (stores_col m cs j Hs Hj) as (c & E1 & _).
  destruct (mat_col_spec m cs j v c Hs Hw Hd Hj E1) as (v' & E & W & D & V). exists v'. repeat split; auto; try apply W.
  intros i. unfold mget. rewrite (nth_error_nth cs _ [] E1), V. reflexivity.
Qed.
Print Assumptions C11_col.

(** The validity check accepts every well-formed matrix. *)
Theorem C11_valid_accepts {N : Num} : forall m, mwf m -> mat_is_valid m = Ok true.
Proof. intros m (cs & Hs). eapply valid_of_wf; eauto. Qed.
Print Assumptions C11_valid_accepts.

(** The converse needs a non-zero entry count and a zero first column pointer. *)
Theorem C11_valid_sound_partial {N : Num} : forall m, mat_is_valid m = Ok true -> mnnz m <> 0 ->
  mnc m < len (mcols m) -> nth_error (mcols m) 0 = Some 0 -> mwf m.
Proof. exact wf_of_valid. Qed.
Print Assumptions C11_valid_sound_partial.

(** A matrix reached through the API, accepted as valid, with a column pointer pointing
    past the stored entries: with entry count zero the column pointers are not checked. *)
Theorem C11_valid_refuted {N : Num} : forall x : num,
  exists m,
    (m <- mat_create 2 2 2 ;; m <- mat_push_col m 0 ;; m <- mat_push m 0 0 x ;;
     m <- mat_push_col m 1 ;; mat_pop_col m 0) = Ok m
    /\ mat_is_valid m = Ok true /\ ~ mwf m /\ mat_value_at m 0 1 = Ok x.
Proof.
  intros x. exists (mkmat 2 2 0 2 [0; 0; 1] [(0, x)]). split; [reflexivity|]. split; [reflexivity|]. split; [|reflexivity].
  intros (cs & (_ & _ & HC & HN & _) & Hn). cbn [mcols mnnz mnc] in *.
  assert (length cs = 2)%nat by lia. specialize (HC 2%nat ltac:(lia)). cbn [nth_error] in HC.
  rewrite firstn_all2 in HC by lia. injection HC as HC. lia.
Qed.
Print Assumptions C11_valid_refuted.

Definition fe (es : list (Z * Z)) : list (Z * f64) := map (fun e => (fst e, fz (snd e))) es.
Definition mcs : list (list (Z * f64)) := [fe [(0, 1); (2, 3)]; []; fe [(1, -2)]; fe [(0, 4); (1, 5); (2, 6)]].
Definition bops : list (@bop F64) :=
  [BCol; BPush 0 (fz 1); BPush 2 (fz 3); BCol; BCol; BVec (ve 3 [(1, -2)]); BCol; BPush 0 (fz 4); BPush 1 (fz 5); BPush 2 (fz 6)].
Example C11_example_history : bok 3 4 6 [] bops /\ rev (fold_left babs bops []) = mcs.
Proof. split; [|reflexivity]. unfold bops. cbn. repeat split; try lia; try (intros; cbn in *; intuition lia). Qed.
Example C11_example_build : Forall (fun c => sorted_in 0 3 (keys c)) mcs /\ len (concat mcs) <= 6.
Proof. split; [|cbn; lia]. unfold mcs. repeat constructor; cbn; lia. Qed.
Example C11_example_valid :
  match (m <- mat_create 3 4 6 ;; build m mcs) with
  | Ok m => (match mat_is_valid m with Ok b => b | _ => false end) && (mnnz m =? 6) | _ => false end = true.
Proof. vm_compute. reflexivity. Qed.

(** ** C12 *)

(** Bit-exact value of each component of the product. *)
Theorem C12_mult_vec_exact {N : Num} : forall m cs v, stores m cs -> wf v -> vdim v = mnc m ->
  exists r, mat_mult_vec m v = Ok r /\ length r = Z.to_nat (mnr m) /\
    forall i, 0 <= i < mnr m -> nth (Z.to_nat i) r n0 =
      fold_left (fun acc e => match mget cs i (fst e) with
                              | Some a => nadd acc (nmul (snd e) a) | None => acc end) (vent v) n0.
Proof. exact mat_mult_vec_spec. Qed.
Print Assumptions C12_mult_vec_exact.

Theorem C12_mult_vec : forall (m : rmat) cs (v : rvec), stores m cs -> wf v -> vdim v = mnc m ->
  exists r, mat_mult_vec m v = Ok r /\ length r = Z.to_nat (mnr m) /\
    forall i, 0 <= i < mnr m -> nth (Z.to_nat i) r 0%R = sumd (mnc m) (fun j => (@mdense RN cs i j * dense v j)%R).
Proof. exact mult_vec_real. Qed.
Print Assumptions C12_mult_vec.

Theorem C12_mult_vec_trans : forall (m : rmat) cs (v t : rvec), stores m cs -> wf v -> vdim v = mnr m ->
  wf t -> vdim t = mnc m ->
  exists r, mat_mult_vec_trans m v (0%R : @num RN) t = Ok r /\ wf r /\ vdim r = mnc m /\
    forall j, 0 <= j < mnc m -> dense r j = sumd (mnr m) (fun i => (@mdense RN cs i j * dense v i)%R).
Proof. exact mult_vec_trans_real. Qed.
Print Assumptions C12_mult_vec_trans.

Theorem C12_adjoint : forall (m : rmat) cs (x y t : rvec), stores m cs -> wf x -> wf y -> wf t ->
  vdim x = mnc m -> vdim y = mnr m -> vdim t = mnc m ->
  exists ax aty, mat_mult_vec m x = Ok ax /\ mat_mult_vec_trans m y (0%R : @num RN) t = Ok aty
    /\ sumd (mnr m) (fun i => (nth (Z.to_nat i) ax 0 * dense y i)%R)
       = sumd (mnc m) (fun j => (dense x j * dense aty j)%R).
Proof. exact adjoint. Qed.
Print Assumptions C12_adjoint.

(** The transposed product never overflows the storage it reserves (any arithmetic) as
    long as the tolerance drops an exact zero, and drops exactly the small sums. *)
Theorem C12_mult_vec_trans_storage {N : Num} : forall m cs v eps t, stores m cs -> wf v -> vdim v = mnr m ->
  wf t -> vdim t = mnc m -> is_zero n0 eps = true ->
  exists r, mat_mult_vec_trans m v eps t = Ok r /\ wf r /\ vdim r = mnc m /\
    forall j, 0 <= j < mnc m ->
      exists s c, vec_dot v (mkvec (mnr m) 0 c) = Ok s /\ (forall i, get c i = mget cs i j)
        /\ get (vent r) j = if is_zero s eps then None else Some s.
Proof.
  intros m cs v eps t Hs Hw Hd Ht Hdt Hz.
  destruct (mat_mult_vec_trans_spec m cs v eps t Hs Hw Hd Ht Hdt Hz) as (r & E & Wr & Dr & Hg).
  exists r. repeat split; auto; try apply Wr. intros j Hj.
  exists (mdot (vent v) (nth (Z.to_nat j) cs [])), (nth (Z.to_nat j) cs []). split; [|split].
  - unfold vec_dot. cbn [vdim vent]. rewrite Hd, Z.eqb_refl. reflexivity.
  - reflexivity.
  - rewrite Hg. destruct (Z.leb_spec 0 j), (Z.ltb_spec j (mnc m)); try lia. reflexivity.
Qed.
Print Assumptions C12_mult_vec_trans_storage.

(** Without that hypothesis the reserved storage can be exceeded: an empty column's zero
    sum is pushed although no space was reserved for it. *)
Example C12_negative_tolerance :
  (m <- mat_create 2 2 0 ;; m <- build m [[]; []] ;; r <- mat_mult_vec_trans m (ve 2 [(0, 1)]) (fz 0) (mkvec 2 0 []) ;; Ok (show r)) = Ok [] /\
  (m <- mat_create 2 2 0 ;; m <- build m [[]; []] ;; r <- mat_mult_vec_trans m (ve 2 [(0, 1)]) (fz (-1)) (mkvec 2 0 []) ;; Ok (show r)) = Trap.
Proof. split; vm_compute; reflexivity. Qed.

Example C12_example :
  match (m <- mat_create 3 4 6 ;; build m mcs) with
  | Ok m => (r <- mat_mult_vec m (ve 4 [(0, 2); (2, 1); (3, 1)]) ;; Ok (map (fun x => BinarySingleNaN.B2SF (x : f64)) r))
            = Ok (map (fun x => BinarySingleNaN.B2SF (fz x)) [6; 3; 12])
         /\ (r <- mat_mult_vec_trans m (ve 3 [(0, 1); (1, 1)]) (fz 0) (mkvec 4 0 []) ;; Ok (show r))
            = Ok (show (ve 4 [(0, 1); (2, -2); (3, 9)]))
  | _ => False end.
Proof. vm_compute. split; reflexivity. Qed.

(** ** C13 *)

(** A positive answer means entrywise closeness: equal up to the tolerance, or both
    (the absent one being zero) within the tolerance of zero. *)
Theorem C13_eq_sound {N : Num} : forall m1 m2 cs1 cs2 eps, stores m1 cs1 -> stores m2 cs2 ->
  mat_eq m1 m2 eps = Ok true ->
  forall i j, 0 <= j < mnc m1 ->
    match mget cs1 i j, mget cs2 i j with
    | Some x, Some y => is_eq x y eps = true \/ (is_zero x eps = true /\ is_zero y eps = true)
    | Some x, None | None, Some x => is_zero x eps = true
    | None, None => True
    end.
Proof.
  intros m1 m2 cs1 cs2 eps H1 H2 E i j Hj. pose proof (mat_eq_sound m1 m2 cs1 cs2 eps H1 H2 E i j Hj) as H.
  unfold olose in H. destruct (mget cs1 i j), (mget cs2 i j); auto.
Qed.
Print Assumptions C13_eq_sound.

(** For matrices with the same sparsity pattern the answer is exact. *)
Theorem C13_eq_exact_partial {N : Num} : forall m1 m2 cs1 cs2 eps, stores m1 cs1 -> stores m2 cs2 ->
  mnr m1 = mnr m2 -> map keys cs1 = map keys cs2 ->
  exists b, mat_eq m1 m2 eps = Ok b /\
   (b = true <-> forall i j x y, mget cs1 i j = Some x -> mget cs2 i j = Some y -> is_eq x y eps = true).
Proof. exact mat_eq_pattern. Qed.
Print Assumptions C13_eq_exact_partial.

Lemma stores_one {N : Num} (x : num) : stores (mkmat 3 1 1 1 [0; 1] [(1, x)]) [[(1, x)]].
Proof.
  destruct (build_spec 3 1 1 [[(1, x)]]) as (m & E & S & _).
  { lia. } { reflexivity. } { cbn. lia. } { repeat constructor; cbn; lia. }
  cbn in E. injection E as <-. exact S.
Qed.
Lemma stores_two {N : Num} (x y : num) : stores (mkmat 3 1 2 2 [0; 2] [(0, x); (1, y)]) [[(0, x); (1, y)]].
Proof.
  destruct (build_spec 3 1 2 [[(0, x); (1, y)]]) as (m & E & S & _).
  { lia. } { reflexivity. } { cbn. lia. } { repeat constructor; cbn; lia. }
  cbn in E. injection E as <-. exact S.
Qed.

(** In general it is not: two matrices with the same entries (one storing an explicit
    zero) compare different in one order and equal in the other. *)
Theorem C13_eq_refuted : exists (m1 m2 : @mat F64) cs1 cs2,
  stores m1 cs1 /\ stores m2 cs2 /\ mnr m1 = mnr m2 /\ mnc m1 = mnc m2
  /\ (forall i j, mdense cs1 i j = mdense cs2 i j)
  /\ mat_eq m1 m2 (fz 0) = Ok false /\ mat_eq m2 m1 (fz 0) = Ok true.
Proof.
  set (m1 := mkmat 3 1 1 1 [0; 1] [(1, fz 1)] : @mat F64).
  set (m2 := mkmat 3 1 2 2 [0; 2] [(0, n0); (1, fz 1)] : @mat F64).
  assert (S1 : stores m1 [[(1, fz 1)]]) by apply stores_one.
  assert (S2 : stores m2 [[(0, n0); (1, fz 1)]]) by apply stores_two.
  exists m1, m2, [[(1, fz 1)]], [[(0, n0); (1, fz 1)]]. split; [exact S1|]. split; [exact S2|].
  split; [reflexivity|]. split; [reflexivity|]. split.
  - intros i j. unfold mdense, mget. destruct (Z.to_nat j) as [|[|k]]; [|reflexivity|destruct k; reflexivity].
    cbn [nth get]. destruct (Z.eqb_spec 0 i) as [<-|]; [reflexivity|]. destruct (Z.eqb_spec 1 i); reflexivity.
  - split; vm_compute; reflexivity.
Qed.
Print Assumptions C13_eq_refuted.

Example C13_example :
  match (m <- mat_create 3 4 6 ;; build m mcs) with
  | Ok m => mat_eq m m (fz 0) | _ => Trap end = Ok true.
Proof. vm_compute. reflexivity. Qed.

(** ** C14 *)
Theorem C14_remove_rows {N : Num} : forall m cs t rows, stores m cs -> mwf t -> sorted_in 0 (mnr m) rows ->
  mnc t = mnc m -> mnr m = mnr t + len rows ->
  exists t' cs', mat_remove_rows m t rows = Ok t' /\ stores t' cs' /\ mnr t' = mnr t /\ mnc t' = mnc t
    /\ forall i i' j, kept rows i i' -> mget cs' i' j = mget cs i j.
Proof.
  intros m cs t rows Hs Ht Hr Hc Hn. destruct (mat_remove_rows_layout m cs t rows Hs Ht Hr Hc Hn) as (t' & E & S' & R & C).
  exists t', (map (remove_ents rows) cs). repeat split; auto; try apply S'. intros i i' j Hk.
  apply (remove_rows_entry cs rows (mnr m)); auto. apply (layout_facts m cs Hs).
Qed.
Print Assumptions C14_remove_rows.

Theorem C14_remove_cols {N : Num} : forall m cs t cols, stores m cs -> mwf t -> sorted_in 0 (mnc m) cols ->
  mnr t = mnr m -> mnc m = mnc t + len cols ->
  exists t' cs', mat_remove_cols m t cols = Ok t' /\ stores t' cs' /\ mnr t' = mnr t /\ mnc t' = mnc t
    /\ forall i j j', 0 <= j < mnc m -> kept cols j j' -> mget cs' i j' = mget cs i j.
Proof.
  intros m cs t cols Hs Ht Hc Hr Hn. destruct (mat_remove_cols_layout m cs t cols Hs Ht Hc Hn) as (t' & E & S' & R & C); [lia|].
  eexists t', _. split; [exact E|]. split; [exact S'|]. split; [exact R|]. split; [exact C|]. intros i j j' Hj Hk.
  apply (remove_both_entry cs [] cols (mnr m) (mnc m)); auto; try apply (layout_facts m cs Hs); try apply Hs; try exact I.
  unfold kept. rewrite count_lt_nil. split; [intros []|lia].
Qed.
Print Assumptions C14_remove_cols.

Theorem C14_remove_entries {N : Num} : forall m cs t rows cols, stores m cs -> mwf t ->
  sorted_in 0 (mnr m) rows -> sorted_in 0 (mnc m) cols ->
  mnr m = mnr t + len rows -> mnc m = mnc t + len cols ->
  exists t' cs', mat_remove_entries m t cols rows = Ok t' /\ stores t' cs' /\ mnr t' = mnr t /\ mnc t' = mnc t
    /\ forall i i' j j', 0 <= j < mnc m -> kept rows i i' -> kept cols j j' -> mget cs' i' j' = mget cs i j.
Proof.
  intros m cs t rows cols Hs Ht Hr Hc Hnr Hnc.
  destruct (mat_remove_entries_layout m cs t rows cols Hs Ht Hr Hc Hnc Hnr) as (t' & E & S' & R & C).
  eexists t', _. split; [exact E|]. split; [exact S'|]. split; [exact R|]. split; [exact C|]. intros i i' j j' Hj Hk Hk'.
  apply (remove_both_entry cs rows cols (mnr m) (mnc m)); auto; try apply (layout_facts m cs Hs); apply Hs.
Qed.
Print Assumptions C14_remove_entries.

Definition showm (m : @mat F64) := (mcols m, mnnz m, map (fun e => (fst e, BinarySingleNaN.B2SF (snd e : f64))) (ment m)).
Example C14_example :
  (m <- mat_create 3 4 6 ;; m <- build m mcs ;; t <- mat_create 2 2 0 ;; r <- mat_remove_entries m t [1; 2] [1] ;; Ok (showm r))
  = (m <- mat_create 2 2 4 ;; m <- build m [fe [(0, 1); (1, 3)]; fe [(0, 4); (1, 6)]] ;; Ok (showm m)).
Proof. vm_compute. reflexivity. Qed.

(** ** C50: transposition *)
Theorem C50_trans {N : Num} : forall m cs t, stores m cs -> mwf t ->
  exists t' cs', mat_trans m t = Ok t' /\ stores t' cs' /\ mnr t' = mnc m /\ mnc t' = mnr m
    /\ forall i j, 0 <= i < mnr m -> 0 <= j < mnc m -> mget cs' j i = mget cs i j.
Proof.
  intros m cs t Hs Ht. destruct (mat_trans_spec m cs t Hs Ht) as (t' & E & S' & R & C).
  exists t', (trans_cols cs (mnr m) (mnc m)). repeat split; auto; try apply S'. intros i j Hi Hj.
  apply trans_entry; auto. apply (layout_facts m cs Hs).
Qed.
Print Assumptions C50_trans.

(** Transposing twice gives back the same columns. *)
Theorem C50_trans_involutive {N : Num} : forall m cs t u, stores m cs -> mwf t -> mwf u ->
  exists t' u', mat_trans m t = Ok t' /\ mat_trans t' u = Ok u' /\ stores u' cs /\ mnr u' = mnr m /\ mnc u' = mnc m.
Proof.
  intros m cs t u Hs Ht Hu. destruct (C50_trans m cs t Hs Ht) as (t' & cs' & E & S' & R & C & G).
  destruct (C50_trans t' cs' u S' Hu) as (u' & cs'' & E2 & S2 & R2 & C2 & G2).
  exists t', u'. split; [exact E|]. split; [exact E2|]. split; [|split; congruence].
  assert (cs'' = cs) as <-; [|exact S2].
  destruct S2 as [HL2 Hn2]. destruct Hs as [HL Hn].
  assert (Hlen : length cs'' = length cs) by lia.
  apply (nth_ext _ _ [] []); auto. intros k Hk.
  destruct HL2 as (_ & _ & _ & _ & _ & _ & HF2). destruct HL as (_ & _ & _ & _ & _ & _ & HF).
  rewrite Forall_forall in HF2, HF.
  assert (A1 : sorted_in 0 (mnr m) (keys (nth k cs'' []))). { rewrite <- C, <- R2. apply HF2, nth_In. auto. }
  assert (A2 : sorted_in 0 (mnr m) (keys (nth k cs []))). { apply HF, nth_In. lia. }
  assert (Hget : forall i, get (nth k cs'' []) i = get (nth k cs []) i).
  { intros i. destruct (Z.lt_ge_cases i 0) as [Hlo|Hlo].
    - rewrite (get_below 0 (mnr m) _ i A1), (get_below 0 (mnr m) _ i A2); auto.
    - destruct (Z.lt_ge_cases i (mnr m)) as [Hhi|Hhi].
      + pose proof (G2 (Z.of_nat k) i ltac:(lia) ltac:(lia)) as H. rewrite (G i (Z.of_nat k)) in H by lia.
        unfold mget in H. rewrite Nat2Z.id in H. exact H.
      + destruct (get (nth k cs'' []) i) as [x|] eqn:E3.
        { apply get_Some_In, In_keys in E3. pose proof (sorted_in_In _ _ _ _ A1 E3). lia. }
        destruct (get (nth k cs []) i) as [x|] eqn:E4; auto.
        apply get_Some_In, In_keys in E4. pose proof (sorted_in_In _ _ _ _ A2 E4). lia. }
  clear -A1 A2 Hget. revert A1 A2 Hget. generalize (nth k cs'' []) as l1, (nth k cs []) as l2. generalize 0 as lo.
  intros lo l1; revert lo; induction l1 as [|[i x] l1 IH]; intros lo l2 A1 A2 Hget.
  - destruct l2 as [|[j y] l2]; auto. specialize (Hget j). cbn [get] in Hget. rewrite Z.eqb_refl in Hget. discriminate.
  - destruct l2 as [|[j y] l2]. { specialize (Hget i). cbn [get] in Hget. rewrite Z.eqb_refl in Hget. discriminate. }
    cbn [keys map fst sorted_in] in A1, A2. destruct A1 as [Hi A1], A2 as [Hj A2].
    assert (i = j) as <-.
    { destruct (Z.lt_trichotomy i j) as [H|[H|H]]; auto; exfalso.
      - specialize (Hget i). cbn [get] in Hget. rewrite Z.eqb_refl in Hget. destruct (Z.eqb_spec j i); [lia|].
        rewrite (get_below (j + 1) (mnr m) l2 i A2) in Hget by lia. discriminate.
      - specialize (Hget j). cbn [get] in Hget. rewrite Z.eqb_refl in Hget. destruct (Z.eqb_spec i j); [lia|].
        rewrite (get_below (i + 1) (mnr m) l1 j A1) in Hget by lia. discriminate. }
    f_equal.
    + specialize (Hget i). cbn [get] in Hget. rewrite Z.eqb_refl in Hget. congruence.
    + apply (IH (i + 1)); auto. intros q. specialize (Hget q). cbn [get] in Hget.
      destruct (Z.eqb_spec i q) as [Heq|]; auto. rewrite <- Heq.
      rewrite (get_below (i + 1) (mnr m) l1 i A1), (get_below (i + 1) (mnr m) l2 i A2) by lia. reflexivity.
Qed.
Print Assumptions C50_trans_involutive.

Example C50_example :
  (m <- mat_create 3 4 6 ;; m <- build m mcs ;; t <- mat_create 1 1 0 ;; t <- mat_trans m t ;; Ok (showm t))
  = (m <- mat_create 4 3 6 ;; m <- build m [fe [(0, 1); (3, 4)]; fe [(2, -2); (3, 5)]; fe [(0, 3); (3, 6)]] ;; Ok (showm m)).
Proof. vm_compute. reflexivity. Qed.

(** ** C51: vertical stacking *)
Theorem C51_vstack_partial {N : Num} : forall m1 m2 r cs1 cs2, stores m1 cs1 -> stores m2 cs2 -> mwf r ->
  mnc m1 = mnc m2 -> (mnc r <= mnc m1 \/ mnnz r = 0) ->
  exists t cs, mat_vstack m1 m2 r = Ok t /\ stores t cs /\ mnr t = mnr m1 + mnr m2 /\ mnc t = mnc m1
    /\ forall i j, 0 <= i < mnr m1 + mnr m2 -> 0 <= j < mnc m1 ->
         mget cs i j = if i <? mnr m1 then mget cs1 i j else mget cs2 (i - mnr m1) j.
Proof.
  intros m1 m2 r cs1 cs2 H1 H2 Hr Hc Hcase.
  destruct (mat_vstack_layout m1 m2 r cs1 cs2 H1 H2 Hr Hc Hcase) as (t & E & S' & R & C).
  eexists t, _. split; [exact E|]. split; [exact S'|]. split; [exact R|]. split; [exact C|]. intros i j Hi Hj.
  apply (stack_entry cs1 cs2 (mnr m1) (mnr m2)); auto; try apply (layout_facts _ _ H1); try apply (layout_facts _ _ H2);
   try apply H1. rewrite Hc. apply H2.
Qed.
Print Assumptions C51_vstack_partial.

(** A result matrix that is well formed, non-empty and wider than the operands is not
    emptied: [nnz] is reset before the resize, which restores it from the old column
    pointers; the stacked matrix is corrupt, or the pushes run past the reserved storage. *)
Theorem C51_vstack_refuted {N : Num} : forall x y z : num, exists m1 r1 r2 t, mwf m1 /\ mwf r1 /\ mwf r2
  /\ mat_vstack m1 m1 r1 = Ok t /\ ~ mwf t /\ mat_vstack m1 m1 r2 = Trap.
Proof.
  intros x y z.
  destruct (build_spec 1 1 1 [[(0, x)]]) as (m1 & E1 & S1 & _).
  { lia. } { reflexivity. } { cbn. lia. } { repeat constructor; cbn; lia. }
  destruct (build_spec 1 2 3 [[(0, y)]; [(0, z)]]) as (r1 & E2 & S2 & _).
  { lia. } { reflexivity. } { cbn. lia. } { repeat constructor; cbn; lia. }
  destruct (build_spec 1 2 2 [[(0, y)]; [(0, z)]]) as (r2 & E3 & S3 & _).
  { lia. } { reflexivity. } { cbn. lia. } { repeat constructor; cbn; lia. }
  cbn in E1, E2, E3. injection E1 as <-. injection E2 as <-. injection E3 as <-.
  eexists _, _, _, _. split; [eexists; exact S1|]. split; [eexists; exact S2|]. split; [eexists; exact S3|].
  split; [vm_compute; reflexivity|]. split; [|vm_compute; reflexivity].
  intros (cs & (_ & _ & HC & HN & _) & Hn). cbn [mcols mnnz mnc] in *.
  assert (length cs = 1)%nat by lia. specialize (HC 1%nat ltac:(lia)). cbn [nth_error] in HC.
  rewrite firstn_all2 in HC by lia. injection HC as HC. lia.
Qed.
Print Assumptions C51_vstack_refuted.

Example C51_example :
  (m <- mat_create 3 4 6 ;; m <- build m mcs ;; t <- mat_create 1 4 0 ;; t <- build t [[]; []; []; []] ;;
   u <- mat_create 1 4 2 ;; u <- build u [fe [(0, 8)]; []; []; fe [(0, 9)]] ;; t <- mat_vstack m u t ;; Ok (showm t))
  = (m <- mat_create 4 4 8 ;; m <- build m [fe [(0, 1); (2, 3); (3, 8)]; []; fe [(1, -2)]; fe [(0, 4); (1, 5); (2, 6); (3, 9)]] ;; Ok (showm m)).
Proof. vm_compute. reflexivity. Qed.

(** ** C52: scaling, resizing, copying *)
Theorem C52_scale {N : Num} : forall m cs f, stores m cs ->
  exists cs', stores (mat_scale m f) cs' /\ mnr (mat_scale m f) = mnr m /\ mnc (mat_scale m f) = mnc m
   /\ forall i j, mget cs' i j = if neqb f n0 then None else option_map (fun x => nmul x f) (mget cs i j).
Proof.
  intros m cs f Hs. destruct (neqb f n0) eqn:E.
  - exists (repeat [] (length cs)). split; [apply mat_scale_zero; assumption|]. unfold mat_scale. rewrite E. repeat split.
    intros i j. unfold mget. rewrite nth_repeat. reflexivity.
  - eexists. split; [exact (mat_scale_spec m cs f Hs E)|]. unfold mat_scale. rewrite E. repeat split.
    intros i j. unfold mget. change (@nil (Z * num)) with (map (fun e : Z * num => (fst e, nmul (snd e) f)) []) at 1.
    rewrite map_nth. apply (get_map_val (fun x => nmul x f)).
Qed.
Print Assumptions C52_scale.

Theorem C52_resize {N : Num} : forall m cs r c, stores m cs -> 0 <= r -> 0 <= c ->
  (forall i j, 0 <= j < c -> mget cs i j <> None -> i < r) ->
  exists m' cs', mat_resize m r c = Ok m' /\ stores m' cs' /\ mnr m' = r /\ mnc m' = c
    /\ forall i j, 0 <= j < c -> mget cs' i j = if j <? mnc m then mget cs i j else None.
Proof.
  intros m cs r c Hs Hr Hc Hrows. pose proof (layout_facts m cs Hs) as (_ & _ & _ & _ & HF). pose proof Hs as [_ Hn].
  rewrite Forall_forall in HF.
  destruct (mat_resize_spec m cs r c Hs Hc) as (m' & E & R & C & S'); auto.
  - intros j cc Hj Hcc. eapply sorted_in_shrink; [apply HF; eapply nth_error_In; eauto|].
    intros i Hi. apply (Hrows i (Z.of_nat j)); [lia|]. unfold mget. rewrite Nat2Z.id, (nth_error_nth cs _ [] Hcc).
    rewrite get_None. tauto.
  - eexists m', _. split; [exact E|]. split; [exact S'|]. split; [exact R|]. split; [exact C|]. intros i j Hj. unfold mget.
    destruct (Z.ltb_spec j (mnc m)).
    + rewrite app_nth1 by (rewrite firstn_length; lia). f_equal.
      rewrite <- (firstn_skipn (Z.to_nat c) cs) at 2. rewrite app_nth1 by (rewrite firstn_length; lia). reflexivity.
    + rewrite app_nth2 by (rewrite firstn_length; lia). rewrite nth_repeat. reflexivity.
Qed.
Print Assumptions C52_resize.

Theorem C52_copy {N : Num} : forall m cs t, stores m cs -> mwf t -> mnr t = mnr m -> mnc t = mnc m ->
  exists t', mat_copy m t = Ok t' /\ stores t' cs /\ mnr t' = mnr m /\ mnc t' = mnc m.
Proof. exact mat_copy_spec. Qed.
Print Assumptions C52_copy.

Example C52_example :
  (m <- mat_create 3 4 6 ;; m <- build m mcs ;; m <- mat_resize (mat_scale m (fz 2)) 3 2 ;; m <- mat_resize m 5 3 ;;
   t <- mat_create 5 3 0 ;; t <- mat_copy m t ;; Ok (mcols t, mnnz t))
  = Ok ([0; 2; 2; 2], 2).
Proof. vm_compute. reflexivity. Qed.
