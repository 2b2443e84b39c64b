(** Small scripted users for examples and counterexamples about the solver: a tape of numbers
    determines every answer.  Ones digit: 0 plain answer, 1 point rejected, 2 evaluation error, 3 the
    user requests an abort, 4 time limit; the other digits select the answer. *)
From Verif Require Import Base Num Cmp Sparse Vec Mat WorkingSet Feas TrustRadius Problem Restoration Solver PropsVec.
Local Open Scope Z_scope.

Definition tape := list Z.
Definition pop (w : tape) : Z * tape := match w with [] => (0, []) | c :: t => (c, t) end.
Definition act {A} (f : Z -> A) (w : tape) : res A * bool * tape :=
  let '(c, t) := pop w in
  (match c mod 10 with 2 => Err EFuncEval | 4 => Err EAbortTime | _ => Ok (f (c / 10)) end, c mod 10 =? 3, t).

(** One variable in [-10, 10], one constraint in [-10, 0]. *)
Definition tmat (r c : Z) : @mat F64 := mkmat r c 0 0 (repeat 0 (S (Z.to_nat c))) [].
Definition tevs (ph : phase) (v : Z) : @evals F64 :=
  match ph with
  | Opt => mkev (fz (match v with 1 => 10 | 3 => -100 | _ => 5 end))
                (match v with 0 => ve 1 [(0, 1)] | _ => ve 1 [] end)
                (match v with 1 | 3 => ve 1 [(0, 3)] | _ => ve 1 [] end) (tmat 1 1)
  | Rest => mkev (fz 4) (match v with 0 => ve 2 [(0, 1)] | _ => ve 2 [] end) (ve 0 []) (tmat 0 2)
  end.
Definition ttrial (ph : phase) (v : Z) (r : res unit) : @tans F64 :=
  let d := match ph with Opt => 1 | Rest => 2 end in
  let c := match ph with Opt => 1 | Rest => 0 end in
  let n := fz (match v with 1 => 0 | _ => 1 end) in
  mktans (ve c []) (ve d []) (ve c []) (ve d []) None
    (match r with Ok _ => Ok (mktrial (ve d [(0, 1 + v)]) (fz 1) false false false (fz 10) n n n n) | Err e => Err e | Trap => Trap end).
Definition toy (has : bool) : @oracles F64 tape :=
  mkor
    (fun w _ _ _ => let '(r, a, t) := act (fun _ => tt) w in
                    (match r with Ok _ => Ok (fst (pop w) mod 10 =? 1) | Err e => Err e | Trap => Trap end, a, t))
    (fun w ph => act (tevs ph) w)
    (fun w => act (fun v => match v with 1 => ve 1 [] | _ => ve 1 [(0, 3)] end) w)
    (fun w => act (fun _ => tmat 1 1) w)
    (fun w ph _ => let '(r, a, t) := act (fun _ => tt) w in (ttrial ph (fst (pop w) / 10) r, a, t))
    (fun w ph _ => act (fun v => mksoc (Some (ve 1 [(0, 2)])) (fz 1) (v =? 1)) w)
    (fun w _ _ _ _ => let '(c, t) := pop w in ((c =? 10, fz 1), t))
    (fun w => let '(c, t) := pop w in (c =? 4, t))
    (fun w _ x _ => (x, w))
    (fun w _ => act (fun _ => tt) w)
    (fun w _ => act (fun _ => tt) w)
    (fun _ => has).

Definition tcf (soc rest pre : bool) (low : Z) : @config F64 :=
  mkcf 1 1 (ve 1 [(0, -10)]) (ve 1 [(0, 10)]) (ve 1 [(0, -10)]) (ve 1 []) (ve 2 [(0, -10); (1, -10)]) (ve 2 [(0, 10)])
    (nlit 1 1000000) (nlit 1 1000000) (nlit 1 1000000) (nlit 1 1000000) (nlit 1 1000000) (fz low) (nlit 1 1000000000)
    true true soc true rest false pre.

Definition tit (ph : phase) : @iterate F64 :=
  match ph with
  | Opt => mkit (ve 1 []) (fz 0) (ve 1 []) (ve 1 []) (tmat 1 1) (ve 1 []) (ve 1 []) None None None None
  | Rest => mkit (ve 2 []) (fz 0) (ve 2 []) (ve 0 []) (tmat 0 2) (ve 0 []) (ve 2 []) None None None None
  end.
(** A freshly created solver. *)
Definition tps (ph : phase) : @ps F64 :=
  mkps (tit ph) (tit ph) (fz 0) (fz 0) (fz 0) (mkcnt 0 0 0 0 0 0) (fz 1) (nlit 8 10) (fz 10) PUnknown false false 0 0 StNone false false.
Definition tstart (t : tape) : @st F64 tape :=
  mkst t (tps Opt) (tps Rest) Opt None None None None SUnknown 0 (ve 1 []) (ve 2 []) false [].

(** What can be compared in a state. *)
Inductive tag := TIter | TCount | TDrop | TAbort | TStart | THess (ok : bool) | TEval (ok : bool) | TPhase | TLost.
Definition same (a : option (@pt F64)) (b : @pt F64) : bool :=
  match a with
  | Some l => (Nat.eqb (length l) (length b)) && forallb (fun e => (fst (fst e) =? fst (snd e)) && @neqb F64 (snd (fst e)) (snd (snd e))) (List.combine l b)
  | None => false
  end.
Definition tagof (cf : @config F64) (e : @ev F64) : tag * phase :=
  match e with
  | EIter p => (TIter, p) | ECount p => (TCount, p) | EDrop p => (TDrop, p) | EAbort p => (TAbort, p) | EStart p => (TStart, p)
  | EHess p u _ x => (THess (same u (upart cf p x)), p) | EEval p u _ x => (TEval (same u (upart cf p x)), p)
  | EPhase p => (TPhase, p) | ELost p _ => (TLost, p)
  end.
Definition view (cf : @config F64) (r : out unit * @st F64 tape) :=
  let '(o, s) := r in
  (o, s_status s, s_iters s, p_cnt (s_opt s), map (tagof cf) (rev (s_log s)), s_w s).
