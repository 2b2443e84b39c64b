(** Model of /repo/src/main/cmp.c (tolerance comparisons). *)
From Verif Require Import Base Num.
Local Open Scope num_scope.

Section Cmp.
Context {N : Num}.

(** cmp.c:7-17 *)
Definition rel_diff (x y : num) : num :=
  let d := x - y in
  let m := nmax (nabs x) (nabs y) in
  let m := nmax m n1 in
  d / m.

(** cmp.c:5,19-23; the literal 1e100 *)
Definition sleqp_infinity : num := nlit (10 ^ 100) 1.

(** cmp.c:25-34 *)
Definition is_infinite (value : num) : bool :=
  if nisnan value then false else value >=? (sleqp_infinity / nlit 2 1).

(** cmp.c:36-40 *)
Definition is_finite (value : num) : bool := negb (is_infinite (nabs value)).

(** cmp.c:42-72 *)
Definition is_eq (x y eps : num) : bool := nabs (rel_diff x y) <=? eps.
Definition is_lt (x y eps : num) : bool := rel_diff x y <? (- eps).
Definition is_gt (x y eps : num) : bool := rel_diff x y >? eps.
Definition is_leq (x y eps : num) : bool := rel_diff x y <=? eps.
Definition is_geq (x y eps : num) : bool := rel_diff x y >=? (- eps).

(** cmp.c:77-93 *)
Definition is_neg (x eps : num) : bool := x <? (- eps).
Definition is_pos (x eps : num) : bool := x >? eps.
Definition is_zero (x eps : num) : bool := nabs x <=? eps.

End Cmp.
