(** Restoration over doubles: inputs for which the full claim C29 fails. *)
From Coq Require Import ZArith List Lia.
From Flocq Require Import IEEE754.BinarySingleNaN.
From Verif Require Import Base Num Cmp Sparse Vec Mat WorkingSet Problem Preproc Restore PropsPre2.
Import ListNotations.
Local Open Scope Z_scope.

(** A working set with the given members. *)
Definition ws_of (nv nc : Z) (vs cs : list (Z * ast)) : res wset :=
  w <- rfold (fun w e => ws_add_var w (fst e) (snd e)) (ws_create nv nc) vs ;;
  rfold (fun w e => ws_add_cons w (fst e) (snd e)) w cs.
(** Integer data of a reduced iterate. *)
Record zit := mkzi { zi_x : list Z; zi_vs : list (Z * ast); zi_cs : list (Z * ast); zi_z : list Z; zi_y : list Z }.
Definition fit (i : zit) : res (@diter F64) :=
  w <- ws_of (Z.of_nat (length (zi_z i))) (Z.of_nat (length (zi_y i))) (zi_vs i) (zi_cs i) ;;
  Ok (mkdi (fvec (zi_x i)) w (fvec (zi_y i)) (fvec (zi_z i))).
Definition blank (nv nc : Z) : @diter F64 := mkdi (evec nv) (ws_create nv nc) (evec nc) (evec nv).
(** Restoration for an objective with gradient [g]. *)
Definition restored_it (pp : @preproc F64) (junk : Z) (g : list Z) (t : @diter F64) : res (@diter F64) :=
  let p := pp_orig pp in
  restore_iterate pp junk (f64_lit 1 (10 ^ 20)) (fun _ => Ok (fvec g, p_lin p)) t (blank (uf_nv (p_func p)) (p_nl p)).
(** The signs of the multipliers agree with the working set, which is valid. *)
Definition supported (t : @diter F64) : res bool :=
  b <- ws_valid (di_ws t) ;; b1 <- supports_vars_dual (di_ws t) (di_vd t) ;; b2 <- supports_cons_dual (di_ws t) (di_cd t) ;; Ok (b && b1 && b2).
(** Which components of the stationarity residual of the original problem are 0. *)
Definition resid (pp : @preproc F64) (g : list Z) (t : @diter F64) : res (list bool) :=
  r <- compute_residuals (uf_nv (p_func (pp_orig pp))) (p_lin (pp_orig pp)) (fvec g) (di_vd t) (di_cd t) (f64_lit 1 (10 ^ 20)) ;;
  Ok (map (fun x => neqb x n0) r).

(** x + y <= 0 on [0, 1]^2 forces both variables to 0. *)
Definition one_forcing := mkzp [0; 0] [1; 1] [[(0, 1)]; [(0, 1)]] [- zinf] [0].
(** x + y <= 0 and x + 2y <= 0 on [0, 1]^2: both rows are recorded as forcing, for the same variables. *)
Definition two_forcing := mkzp [0; 0] [1; 1] [[(0, 1); (1, 1)]; [(0, 1); (1, 2)]] [- zinf; - zinf] [0; 0].
(** 2x <= 6 and x <= 2 on [0, 10]: both rows become bounds of x. *)
Definition two_rows := mkzp [0] [10] [[(0, 2); (1, 1)]] [- zinf; - zinf] [6; 2].
Definition no_it := mkzi [] [] [] [] [].

Definition isok {A} (r : res A) : bool := match r with Ok _ => true | _ => false end.
Definition istrap {A} (r : res A) : bool := match r with Trap => true | _ => false end.
Lemma istrap_trap {A} (r : res A) : istrap r = true -> r = Trap.
Proof. destruct r; [discriminate..|reflexivity]. Qed.

(** The gradient (0, 5) leaves the index [max_index] unassigned (restore.c:399-429): residual 0
    counts as wrong for a variable at its lower bound, but is not larger in absolute value than the initial
    0.  If the uninitialised index happens to be 1, the residual 5 of the second variable
    is dropped: no multiplier cancels it. *)
Theorem C29_index_refuted : exists pp t it, preprocess one_forcing = Ok pp /\ fit no_it = Ok t /\ supported t = Ok true
  /\ restored_it pp 1 [0; 5] t = Ok it /\ keys (pp_fixed pp) = [0; 1] /\ supported it = Ok true /\ resid pp [0; 5] it = Ok [true; false].
Proof.
  assert (K : match preprocess one_forcing, fit no_it with Ok pp, Ok t => isok (restored_it pp 1 [0; 5] t) | _, _ => false end = true) by (vm_compute; reflexivity).
  assert (K1 : (pp <- preprocess one_forcing ;; t <- fit no_it ;; b <- supported t ;; it <- restored_it pp 1 [0; 5] t ;; b' <- supported it ;; r <- resid pp [0; 5] it ;; Ok (b, keys (pp_fixed pp), b', r)) = Ok (true, [0; 1], true, [true; false])) by (vm_compute; reflexivity).
  destruct (preprocess one_forcing) as [pp | |] eqn:E1; try discriminate K. destruct (fit no_it) as [t | |] eqn:E2; try discriminate K. cbn [rbind] in K1.
  destruct (supported t) as [b | |] eqn:E3; try discriminate K1. cbn [rbind] in K1. destruct (restored_it pp 1 [0; 5] t) as [it | |] eqn:E4; try discriminate K. cbn [rbind] in K1.
  destruct (supported it) as [b' | |] eqn:E5; try discriminate K1. cbn [rbind] in K1. destruct (resid pp [0; 5] it) as [r | |] eqn:E6; try discriminate K1. cbn [rbind] in K1.
  injection K1 as -> Kf -> ->. exists pp, t, it. auto 10.
Qed.
Print Assumptions C29_index_refuted.

(** With any index outside of {0, 1} (here 7) the row and both variables become active, and the assertion
    on the size of the working set fails. *)
Theorem C29_size_refuted : exists pp t, preprocess one_forcing = Ok pp /\ fit no_it = Ok t /\ supported t = Ok true /\ restored_it pp 7 [0; 5] t = Trap.
Proof.
  assert (K : (pp <- preprocess one_forcing ;; t <- fit no_it ;; b <- supported t ;; Ok (b, istrap (restored_it pp 7 [0; 5] t))) = Ok (true, true)) by (vm_compute; reflexivity).
  destruct (preprocess one_forcing) as [pp | |] eqn:E1; try discriminate K. cbn [rbind] in K. destruct (fit no_it) as [t | |] eqn:E2; try discriminate K. cbn [rbind] in K.
  destruct (supported t) as [b | |] eqn:E3; try discriminate K. cbn [rbind] in K. injection K as -> K. exists pp, t. split; [reflexivity|]. split; [reflexivity|]. split; [exact E3|]. exact (istrap_trap _ K).
Qed.
Print Assumptions C29_size_refuted.

(** Two forcing constraints that share variables: no value of the uninitialised index helps. *)
Theorem C29_shared_refuted : exists pp t, preprocess two_forcing = Ok pp /\ fit no_it = Ok t /\ supported t = Ok true
  /\ Forall (fun junk => restored_it pp junk [2; 5] t = Trap) [-1; 0; 1; 2].
Proof.
  assert (K : (pp <- preprocess two_forcing ;; t <- fit no_it ;; b <- supported t ;; Ok (b, map (fun junk => istrap (restored_it pp junk [2; 5] t)) [-1; 0; 1; 2])) = Ok (true, [true; true; true; true])) by (vm_compute; reflexivity).
  destruct (preprocess two_forcing) as [pp | |] eqn:E1; try discriminate K. cbn [rbind] in K. destruct (fit no_it) as [t | |] eqn:E2; try discriminate K. cbn [rbind] in K.
  destruct (supported t) as [b | |] eqn:E3; try discriminate K. cbn [rbind map] in K. injection K as -> K1 K2 K3 K4. exists pp, t. split; [reflexivity|]. split; [reflexivity|]. split; [exact E3|].
  exact (Forall_cons _ (istrap_trap _ K1) (Forall_cons _ (istrap_trap _ K2) (Forall_cons _ (istrap_trap _ K3) (Forall_cons _ (istrap_trap _ K4) (Forall_nil _))))).
Qed.
Print Assumptions C29_shared_refuted.

(** The multiplier of a bound that stems from several converted rows goes to the first row (2x <= 6),
    not to the one that is tight at the solution x = 2: the restored working set contains an
    inactive constraint and violates complementarity. *)
Theorem C29_first_row_refuted : exists pp t it, preprocess two_rows = Ok pp /\ fit (mkzi [2] [(0, ActUpper)] [] [3] []) = Ok t /\ supported t = Ok true
  /\ restored_it pp 0 [-3] t = Ok it /\ resid pp [-3] it = Ok [true] /\ supported it = Ok true
  /\ wcst (di_ws it) = [ActUpper; Inactive] /\ zrow two_rows 0 [2] < nth 0 (z_lu two_rows) 0 /\ zrow two_rows 1 [2] = nth 1 (z_lu two_rows) 0.
Proof.
  set (i := mkzi [2] [(0, ActUpper)] [] [3] []).
  assert (K1 : (pp <- preprocess two_rows ;; t <- fit i ;; b <- supported t ;; it <- restored_it pp 0 [-3] t ;; b' <- supported it ;; r <- resid pp [-3] it ;; Ok (b, wcst (di_ws it), b', r)) = Ok (true, [ActUpper; Inactive], true, [true])) by (vm_compute; reflexivity).
  destruct (preprocess two_rows) as [pp | |] eqn:E1; try discriminate K1. cbn [rbind] in K1. destruct (fit i) as [t | |] eqn:E2; try discriminate K1. cbn [rbind] in K1.
  destruct (supported t) as [b | |] eqn:E3; try discriminate K1. cbn [rbind] in K1. destruct (restored_it pp 0 [-3] t) as [it | |] eqn:E4; try discriminate K1. cbn [rbind] in K1.
  destruct (supported it) as [b' | |] eqn:E5; try discriminate K1. cbn [rbind] in K1. destruct (resid pp [-3] it) as [r | |] eqn:E6; try discriminate K1. cbn [rbind] in K1.
  injection K1 as -> Kf -> ->. exists pp, t, it. repeat split; auto.
Qed.
Print Assumptions C29_first_row_refuted.

(** Multipliers that the working set does not support, as line 797 of restore.c allows for, violate the assertion in line 535:
    dual 3 at an inactive variable. *)
Theorem C29_unsupported_refuted : exists pp t, preprocess two_rows = Ok pp /\ fit (mkzi [2] [] [] [3] []) = Ok t /\ supported t = Ok false /\ restored_it pp 0 [-3] t = Trap.
Proof.
  set (i := mkzi [2] [] [] [3] []).
  assert (K : (pp <- preprocess two_rows ;; t <- fit i ;; b <- supported t ;; Ok (b, istrap (restored_it pp 0 [-3] t))) = Ok (false, true)) by (vm_compute; reflexivity).
  destruct (preprocess two_rows) as [pp | |] eqn:E1; try discriminate K. cbn [rbind] in K. destruct (fit i) as [t | |] eqn:E2; try discriminate K. cbn [rbind] in K.
  destruct (supported t) as [b | |] eqn:E3; try discriminate K. cbn [rbind] in K. injection K as -> K. exists pp, t. split; [reflexivity|]. split; [reflexivity|]. split; [exact E3|]. exact (istrap_trap _ K).
Qed.
Print Assumptions C29_unsupported_refuted.

(** Examples: the same rows when the theorem applies. *)
Definition ints (l : list f64) : list (option Z) := map (fun x : f64 => match x with B754_finite s m e _ => if e <? 0 then (if Zpos m mod 2 ^ (- e) =? 0 then Some ((if s then -1 else 1) * (Zpos m / 2 ^ (- e))) else None) else Some ((if s then -1 else 1) * Zpos m * 2 ^ e) | B754_zero _ => Some 0 | _ => None end) l.
Definition outcome (zp : zprob) (i : zit) (g : list Z) : res (list ast * list ast * list (option Z) * list (option Z) * list bool) :=
  pp <- preprocess zp ;; t <- fit i ;; it <- restored_it pp 7 g t ;; z <- vec_to_raw (di_vd it) ;; y <- vec_to_raw (di_cd it) ;; r <- resid pp g it ;;
  Ok (wvst (di_ws it), wcst (di_ws it), ints z, ints y, r).
Example C29_plain : outcome one_forcing no_it [3; 5] = Ok ([ActLower; ActLower], [Inactive], [Some (-3); Some (-5)], [Some 0], [true; true]).
Proof. vm_compute. reflexivity. Qed.
Example C29_row : outcome one_forcing no_it [-3; 5] = Ok ([Inactive; ActLower], [ActUpper], [Some 0; Some (-8)], [Some 3], [true; true]).
Proof. vm_compute. reflexivity. Qed.
Example C29_converted : outcome (mkzp [0] [10] [[(0, -2)]] [-4] [zinf]) (mkzi [2] [(0, ActUpper)] [] [6] []) [-6]
  = Ok ([Inactive], [ActLower], [Some 0], [Some (-3)], [true]).
Proof. vm_compute. reflexivity. Qed.
