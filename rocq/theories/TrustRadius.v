(** Model of /repo/src/main/problem_solver/trust_radius.c and /repo/src/main/penalty.c. *)
From Verif Require Import Base Num Cmp.

Section Model.
Context {N : Num}.
Local Open Scope num_scope.

(** trust_radius.c:5-44 *)
Definition update_lp_radius (accepted : bool) (trial_inf cauchy_inf : num) (full : bool) (r : num) : num :=
  if accepted then
    let trial := trial_inf * nlit 12 10 in
    let cauchy := cauchy_inf * nlit 12 10 in
    let scaled := nlit 1 10 * r in
    let lhs := nmax trial cauchy in
    let lhs := nmax lhs scaled in
    let r := if full then r * nlit 7 1 else r in
    nmin lhs r
  else
    let half := nlit 1 2 * trial_inf in
    let small := nlit 1 10 * r in
    nmin (nmax half small) r.

(** trust_radius.c:46-83 *)
Definition update_radius (eps ratio : num) (accepted : bool) (norm r : num) : num :=
  if ratio >=? nlit 9 10 then nmax r (nlit 7 1 * norm)
  else if ratio >=? nlit 3 10 then nmax r (nlit 2 1 * norm)
  else if accepted then r
  else if is_zero norm eps then r * nlit 1 2
  else nmin (nlit 1 2 * r) (nlit 1 2 * norm).

(** ** Penalty update.  The Cauchy (LP) solver is an oracle: [solve] answers the
    violation after re-solving for feasibility ([None]) or for the given penalty, and may
    change its answers over time (argument: number of solves so far). *)
Definition violation_tolerance : num := nlit 1 (10 ^ 8).
Definition penalty_increase : num := nlit 10 1.
Definition min_decrease : num := nlit 1 10.
Definition max_increases : nat := 100.

(** penalty.c:59-95 and 110-149; the two loops differ in the stopping test. *)
Fixpoint penalty_loop (solve : nat -> option num -> num) (m : num) (ok : num -> bool) (fuel : nat) (n : nat) (p : num) : num :=
  match fuel with
  | O => p
  | S fuel' =>
    let p := p * penalty_increase in
    let next := solve n (Some p) / m in
    if ok next then p else penalty_loop solve m ok fuel' (S n) p
  end.

(** penalty.c:11-151; [m] is the number of constraints as a double, [current0] the
    violation reported before any re-solve. *)
Definition update_penalty (solve : nat -> option num -> num) (m current0 p : num) : num :=
  let current := current0 / m in
  if current <=? violation_tolerance then p else
  let inf := solve O None / m in
  if inf <=? violation_tolerance then
    penalty_loop solve m (fun next => next <=? violation_tolerance) max_increases 1 p
  else if current - inf <=? violation_tolerance then p
  else penalty_loop solve m (fun next => (current - next) >=? (min_decrease * (current - inf))) max_increases 1 p.

End Model.
