(** Preprocessing over doubles: inputs for which the full claims fail (C27, C28). *)
From Coq Require Import ZArith List Lia.
From Flocq Require Import IEEE754.BinarySingleNaN.
From Verif Require Import Base Num Cmp Sparse Vec Mat Problem Preproc.
Import ListNotations.
Local Open Scope Z_scope.

(** Integer data of a problem without general constraints: bounds of the variables, columns of the
    linear coefficients, bounds of the rows. *)
Record zprob := mkzp { z_vl : list Z; z_vu : list Z; z_cols : list (list (Z * Z)); z_ll : list Z; z_lu : list Z }.
Definition zinf : Z := 10 ^ 100.

(** Exact feasibility of an integer point. *)
Definition zrow (zp : zprob) (i : Z) (x : list Z) : Z :=
  fold_right Z.add 0 (map (fun cx => fold_right Z.add 0 (map (fun e => if fst e =? i then snd e * snd cx else 0) (fst cx))) (List.combine (z_cols zp) x)).
Definition zbetween (l x u : list Z) : bool :=
  forallb (fun lxu => (fst (fst lxu) <=? snd (fst lxu)) && (snd (fst lxu) <=? snd lxu)) (List.combine (List.combine l x) u).
Definition zsat (zp : zprob) (x : list Z) : bool :=
  (length x =? length (z_cols zp))%nat && zbetween (z_vl zp) x (z_vu zp)
  && zbetween (z_ll zp) (map (fun i => zrow zp (Z.of_nat i) x) (seq 0 (length (z_ll zp)))) (z_lu zp).

(** The problem over doubles. *)
Definition fz (z : Z) : f64 := f64_of_Z z.
Definition idx (l : list Z) : list (Z * Z) := List.combine (map Z.of_nat (seq 0 (length l))) l.
Definition fvec (l : list Z) : @vec F64 := mkvec (Z.of_nat (length l)) (Z.of_nat (length l)) (map (fun e => (fst e, fz (snd e))) (filter (fun e => negb (snd e =? 0)) (idx l))).
Definition fmat (nl : Z) (cols : list (list (Z * Z))) : @mat F64 :=
  let ents := map (fun e => (fst e, fz (snd e))) (concat cols) in let n := Z.of_nat (length ents) in
  mkmat nl (Z.of_nat (length cols)) n n (fold_left (fun l c => l ++ [last l 0 + Z.of_nat (length c)]) cols [0]) ents.
Definition ffunc (nv : Z) : @ufunc F64 := mkufunc nv 0 (fun _ v => Ok v) (fun _ m => Ok m) (fun _ _ _ r => Ok r).
Definition fprob (zp : zprob) : res (@problem F64) :=
  problem_create (ffunc (Z.of_nat (length (z_cols zp)))) (fvec (z_vl zp)) (fvec (z_vu zp)) (evec 0) (evec 0)
    (fmat (Z.of_nat (length (z_ll zp))) (z_cols zp)) (fvec (z_ll zp)) (fvec (z_lu zp)) (f64_lit 1 (10 ^ 20)).
(** Default settings: feas_tol = 1e-6, zero_eps = 1e-20 (settings.c:21, 31). *)
Definition fpre (p : @problem F64) : res (@preproc F64) := pre_create p (f64_lit 1 (10 ^ 6)) (f64_lit 1 (10 ^ 20)).

(** Bounds and linear constraints, checked with floating-point arithmetic; exact for small integers. *)
Definition within (p : @problem F64) (x : @vec F64) : res bool :=
  v <- vec_to_raw x ;; vl <- vec_to_raw (p_vlb p) ;; vu <- vec_to_raw (p_vub p) ;;
  a <- mat_mult_vec (p_lin p) x ;; ll <- vec_to_raw (p_llb p) ;; lu <- vec_to_raw (p_lub p) ;;
  Ok (forallb (fun lxu => Bleb (fst (fst lxu)) (snd (fst lxu)) && Bleb (snd (fst lxu)) (snd lxu))
        (List.combine (List.combine (vl ++ ll) (v ++ a)) (vu ++ lu))).

Definition preprocess (zp : zprob) : res (@preproc F64) := p <- fprob zp ;; fpre p.
Definition restored (pp : @preproc F64) (y : @vec F64) : res (@vec F64) := restore_primal pp y (evec (uf_nv (p_func (pp_orig pp)))).

Ltac witness zp y x := 
  let K := fresh "K" in
  assert (K : match preprocess zp with Ok pp =>
      match pre_result pp with PreSuccess => true | _ => false end
      && match within (pp_trans pp) y with Ok true => true | _ => false end
      && match restored pp y with Ok x => match within (pp_orig pp) x with Ok false => true | _ => false end | _ => false end
    | _ => false end = true) by (vm_compute; reflexivity);
  destruct (preprocess zp) as [pp | |] eqn:?; try discriminate K;
  destruct (pre_result pp) eqn:?; try discriminate K;
  destruct (within (pp_trans pp) y) as [[|] | |] eqn:?; try discriminate K;
  destruct (restored pp y) as [x | |] eqn:?; try discriminate K;
  destruct (within (pp_orig pp) x) as [[|] | |] eqn:?; try discriminate K.

(** *** C28: restored points of infeasible problems *)

(** x - 2y >= 1, y - 2x >= 1 on [0, 10]^2.  Each lower bound is implied by a row and the other lower
    bound, both are dropped, and (-1, -1) satisfies the reduced problem. *)
Definition circular := mkzp [0; 0] [10; 10] [[(0, 1); (1, -2)]; [(0, -2); (1, 1)]] [1; 1] [zinf; zinf].
(** x + y >= 2 and x + y <= 0 on [0, 1]^2: both rows force all variables, to different bounds. *)
Definition forcing2 := mkzp [0; 0] [1; 1] [[(0, 1); (1, 1)]; [(0, 1); (1, 1)]] [2; - zinf] [zinf; 0].
(** 2x >= 1 and x + y <= 0 on [0, 1]^2: x is fixed to 0 although its converted bound is 1/2. *)
Definition converted_forced := mkzp [0; 0] [1; 1] [[(0, 2); (1, 1)]; [(1, 1)]] [1; - zinf] [zinf; 0].

Theorem C28_circular_refuted : exists pp y x, preprocess circular = Ok pp /\ pre_result pp = PreSuccess
  /\ within (pp_trans pp) y = Ok true /\ restored pp y = Ok x /\ within (pp_orig pp) x = Ok false.
Proof. witness circular (fvec [-1; -1]) x. exists pp, (fvec [-1; -1]), x. auto. Qed.
Print Assumptions C28_circular_refuted.

Theorem C28_forcing_refuted : exists pp y x, preprocess forcing2 = Ok pp /\ pre_result pp = PreSuccess
  /\ within (pp_trans pp) y = Ok true /\ restored pp y = Ok x /\ within (pp_orig pp) x = Ok false.
Proof. witness forcing2 (fvec []) x. exists pp, (fvec []), x. auto. Qed.
Print Assumptions C28_forcing_refuted.

Theorem C28_converted_refuted : exists pp y x, preprocess converted_forced = Ok pp /\ pre_result pp = PreSuccess
  /\ within (pp_trans pp) y = Ok true /\ restored pp y = Ok x /\ within (pp_orig pp) x = Ok false.
Proof. witness converted_forced (fvec []) x. exists pp, (fvec []), x. auto. Qed.
Print Assumptions C28_converted_refuted.

(** *** C28: preprocessing does not complete *)

(** Three rows with redundant lower bounds 0, one removed variable bound: room for one entry only, the
    second [sleqp_vec_push] in transform.c:241 violates its capacity assertion.  The problem is feasible. *)
Theorem C28_room_refuted : exists zp x p, zsat zp x = true /\ fprob zp = Ok p /\ fpre p = Trap.
Proof.
  pose (zp := mkzp [1; 1] [3; 2] [[(0, 1); (1, 1); (2, 2)]; [(0, 1); (1, 2); (2, 1)]] [0; 0; 0] [3; 6; 7]).
  assert (K : match fprob zp with Ok p => match fpre p with Trap => true | _ => false end | _ => false end = true) by (vm_compute; reflexivity).
  destruct (fprob zp) as [p | |] eqn:E; try discriminate K. exists zp, [1; 1], p.
  destruct (fpre p); try discriminate K. repeat split; try exact E; vm_compute; reflexivity.
Qed.
Print Assumptions C28_room_refuted.

(** x in [1, 1], 2x >= 4: instead of reporting infeasibility an assertion fails. *)
Theorem C28_fixed_refuted : exists zp p, fprob zp = Ok p /\ fpre p = Trap.
Proof.
  pose (zp := mkzp [1] [1] [[(0, 2)]] [4] [zinf]).
  assert (K : match fprob zp with Ok p => match fpre p with Trap => true | _ => false end | _ => false end = true) by (vm_compute; reflexivity).
  destruct (fprob zp) as [p | |] eqn:E; try discriminate K. exists zp, p.
  destruct (fpre p); try discriminate K. auto.
Qed.
Print Assumptions C28_fixed_refuted.

(** 2x >= 8, x <= 3 on [0, 10]: the converted bounds contradict each other and creating the reduced
    problem fails with an error. *)
Theorem C28_conflict_refuted : exists zp p, fprob zp = Ok p /\ fpre p = Err EIllegalArg.
Proof.
  pose (zp := mkzp [0] [10] [[(0, 2); (1, 1)]] [8; - zinf] [zinf; 3]).
  assert (K : match fprob zp with Ok p => match fpre p with Err EIllegalArg => true | _ => false end | _ => false end = true) by (vm_compute; reflexivity).
  destruct (fprob zp) as [p | |] eqn:E; try discriminate K. exists zp, p.
  destruct (fpre p) as [ | [] | ]; try discriminate K. auto.
Qed.
Print Assumptions C28_conflict_refuted.

(** *** C27: feasible problems reported as infeasible *)

Ltac flagged zp x := let K := fresh "K" in
  assert (K : match preprocess zp with Ok pp => match pre_result pp with PreInfeasible => true | _ => false end | _ => false end = true)
    by (vm_compute; reflexivity);
  destruct (preprocess zp) as [pp | |] eqn:?; try discriminate K;
  destruct (pre_result pp) eqn:?; try discriminate K; exists zp, x, pp;
  repeat split; try assumption; vm_compute; reflexivity.

(** 2x + 2y >= 0 with x in [-2^331, -b], y in [b, 2^331]: the contributions exceed half of
    [sleqp_infinity] and are taken for infinite bounds.  All numbers are exact doubles. *)
Theorem C27_overflow_refuted : exists zp x pp, zsat zp x = true /\ preprocess zp = Ok pp /\ pre_result pp = PreInfeasible.
Proof.
  pose (a := 2 ^ 331). pose (b := 2 ^ 331 - 2 ^ 328).
  flagged (mkzp [- a; b] [- b; a] [[(0, 2)]; [(0, 2)]] [0] [zinf]) [- b; b].
Qed.
Print Assumptions C27_overflow_refuted.

(** x0 + x1 - x2 >= 1 with x0 = x2 = 1e17 and x1 = 1 fixed: 1e17 + 1 rounds to 1e17.  The
    difference exceeds the tolerance 1e-6. *)
Theorem C27_rounding_refuted : exists zp x pp, zsat zp x = true /\ preprocess zp = Ok pp /\ pre_result pp = PreInfeasible.
Proof.
  pose (e := 10 ^ 17).
  flagged (mkzp [e; 1; e] [e; 1; e] [[(0, 1)]; [(0, 1)]; [(0, -1)]] [1] [zinf]) [e; 1; e].
Qed.
Print Assumptions C27_rounding_refuted.
