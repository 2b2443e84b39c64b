(** The derivative check (/repo/src/main/deriv_check.c). *)
From Verif Require Import Base Num Cmp Sparse Vec Mat Flags.
Local Open Scope Z_scope.

Section Deriv.
Context {N : Num}.
Local Open Scope num_scope.

(** The problem as functions of the point last set; [dp_set] returns whether it is rejected. *)
Record dprob := mkdprob {
  dp_n : Z; dp_m : Z;
  dp_set : vec -> res bool; dp_obj : vec -> res num; dp_grad : vec -> res vec; dp_cons : vec -> res vec; dp_jac : vec -> res mat;
  dp_hess : vec -> vec -> vec -> res vec }.   (* point, direction, multipliers *)
Record diter := mkditer { di_x : vec; di_obj : num; di_grad : vec; di_cons : vec; di_jac : mat; di_duals : vec }.
(** settings: perturbation, tolerance, zero_eps *)
Record dset := mkdset { ds_base : num; ds_tol : num; ds_zero : num }.

(** pub_types.h:90-102 *)
Definition first_obj f := has_flags f 1.
Definition first_cons f := has_flags f 2.
Definition second_simple f := has_flags f 4.
Definition second_obj f := has_flags f 8.
Definition second_cons f := has_flags f 16.

(** Storage that is overwritten before being read is allocated afresh. *)
Definition room (d : Z) : vec := mkvec d 0 [].
Definition upto (k : Z) : list Z := map Z.of_nat (seq 0 (Z.to_nat k)).

(** deriv_check.c:87-106 *)
Definition perturbation (S : dset) (x : vec) (j : Z) : res num :=
  v <- vec_value_at x j ;; Ok (nmax (nabs v) n1 * ds_base S).
(** deriv_check.c:108-116, 118-133: vectors with room for one entry *)
Definition unit_dir (d j : Z) (a : num) : res vec := vec_push (mkvec d 1 []) j a.

(** deriv_check.c:227-248 *)
Definition check_point (P : dprob) (S : dset) (x : vec) (j : Z) : res (vec * num) :=
  h <- perturbation S x j ;; e <- unit_dir (dp_n P) j h ;;
  y <- vec_add x e (ds_zero S) (room (dp_n P)) ;; Ok (y, h).

(** deriv_check.c:135-184; the columns of the matrix [hessian_cons_prods] are kept as a list. *)
Definition cons_products (P : dprob) (S : dset) (p e hf : vec) : res (list vec) :=
  rmapM (fun k => u <- unit_dir (dp_m P) k n1 ;; q <- dp_hess P p e u ;;
                  vec_add_scaled q hf n1 (nlit (-1) 1) (ds_zero S) (room (dp_n P))) (upto (dp_m P)).

Definition need {A} (b : bool) (m : res A) : res (option A) := if b then a <- m ;; Ok (Some a) else Ok None.
(** A value that was not computed *)
Definition given {A} (o : option A) : res A := match o with Some a => Ok a | None => Trap end.

(** deriv_check.c:186-225 *)
Definition hess_products (P : dprob) (S : dset) (f : Z) (it : diter) (p : vec) (j : Z) : res (option vec * option (list vec) * option vec) :=
  e <- unit_dir (dp_n P) j n1 ;;
  hf <- need (second_cons f || second_obj f) (dp_hess P p e (mkvec (dp_m P) 1 [])) ;;
  hc <- need (second_cons f) (h <- given hf ;; cons_products P S p e h) ;;
  hl <- need (second_simple f) (dp_hess P p e (di_duals it)) ;;
  Ok (hf, hc, hl).

(** deriv_check.c:250-294 *)
Definition eval_point (P : dprob) (f : Z) (p : vec) : res (option num * option vec * option vec * option mat) :=
  o <- need (first_obj f) (dp_obj P p) ;;
  g <- need (second_obj f || second_simple f) (dp_grad P p) ;;
  c <- need (first_cons f) (dp_cons P p) ;;
  J <- need (second_cons f || second_simple f) (dp_jac P p) ;;
  Ok (o, g, c, J).

(** deriv_check.c:296-328; each check returns whether it succeeds, the caller clears [valid_deriv]. *)
Definition check_first_obj (S : dset) (it : diter) (o : num) (j : Z) (h : num) : res bool :=
  ex <- vec_value_at (di_grad it) j ;; Ok (is_eq ex ((o - di_obj it) / h) (ds_tol S)).
(** deriv_check.c:330-374 *)
Definition check_first_cons (P : dprob) (S : dset) (it : diter) (c : vec) (j : Z) (h : num) : res bool :=
  rfold (fun ok i => ex <- mat_value_at (di_jac it) i j ;; lo <- vec_value_at (di_cons it) i ;; up <- vec_value_at c i ;;
                     Ok (ok && is_eq ex ((up - lo) / h) (ds_tol S))%bool) true (upto (dp_m P)).
(** deriv_check.c:376-428 *)
Definition check_second_obj (P : dprob) (S : dset) (it : diter) (g hf : vec) (h : num) : res bool :=
  est <- vec_add_scaled (di_grad it) g (nlit (-1) 1) n1 n0 (room (dp_n P)) ;;
  let est := vec_scale est (n1 / h) in
  rfold (fun ok k => left <- unit_dir (dp_n P) k n1 ;; ex <- vec_dot left hf ;; ac <- vec_value_at est k ;;
                     Ok (ok && is_eq ex ac (ds_tol S))%bool) true (upto (dp_n P)).
(** deriv_check.c:430-506 *)
Definition check_second_cons (P : dprob) (S : dset) (it : diter) (J : mat) (hc : list vec) (h : num) : res bool :=
  rfold (fun ok i =>
    ex <- given (nth_error hc (Z.to_nat i)) ;; u <- unit_dir (dp_m P) i n1 ;;
    r0 <- mat_mult_vec_trans (di_jac it) u (ds_zero S) (room (dp_n P)) ;; r1 <- mat_mult_vec_trans J u (ds_zero S) (room (dp_n P)) ;;
    a <- vec_add_scaled r1 r0 n1 (nlit (-1) 1) (ds_zero S) (room (dp_n P)) ;;
    let a := vec_scale a (n1 / h) in
    rfold (fun ok k => e <- vec_value_at ex k ;; b <- vec_value_at a k ;; Ok (ok && is_eq e b (ds_tol S))%bool) ok (upto (dp_n P)))
    true (upto (dp_m P)).
(** deriv_check.c:508-530 *)
Definition combined_grad (P : dprob) (S : dset) (duals g : vec) (J : mat) : res vec :=
  t <- mat_mult_vec_trans J duals (ds_zero S) (room (dp_n P)) ;; vec_add g t (ds_zero S) (room (dp_n P)).
(** deriv_check.c:532-599; line 555 computes the perturbed point once more *)
Definition check_second_simple (P : dprob) (S : dset) (it : diter) (g : vec) (J : mat) (hl : vec) (j : Z) : res bool :=
  a <- combined_grad P S (di_duals it) (di_grad it) (di_jac it) ;;
  yh <- check_point P S (di_x it) j ;;
  b <- combined_grad P S (di_duals it) g J ;;
  est <- vec_add_scaled a b (nlit (-1) 1) n1 n0 (room (dp_n P)) ;;
  let est := vec_scale est (n1 / snd yh) in
  rfold (fun ok k => ac <- vec_value_at est k ;; ex <- vec_value_at hl k ;; Ok (ok && is_eq ex ac (ds_tol S))%bool) true (upto (dp_n P)).

Definition skip_unless (b : bool) (m : res bool) : res bool := if b then m else Ok true.
(** deriv_check.c:601-639, with the calls at 661-665 *)
Definition check_deriv (P : dprob) (S : dset) (f : Z) (it : diter) (p : vec) (j : Z) (h : num) : res bool :=
  hp <- hess_products P S f it p j ;; v <- eval_point P f p ;;
  let '(hf, hc, hl) := hp in let '(o, g, c, J) := v in
  b1 <- skip_unless (first_obj f) (o <- given o ;; check_first_obj S it o j h) ;;
  b2 <- skip_unless (first_cons f) (c <- given c ;; check_first_cons P S it c j h) ;;
  b3 <- skip_unless (second_obj f) (g <- given g ;; hf <- given hf ;; check_second_obj P S it g hf h) ;;
  b4 <- skip_unless (second_cons f) (J <- given J ;; hc <- given hc ;; check_second_cons P S it J hc h) ;;
  b5 <- skip_unless (second_simple f) (g <- given g ;; J <- given J ;; hl <- given hl ;; check_second_simple P S it g J hl j) ;;
  Ok (b1 && b2 && b3 && b4 && b5)%bool.

(** deriv_check.c:641-671, 50-69, 71-85; the state: [valid_deriv] and the point of the problem *)
Definition check_var (P : dprob) (S : dset) (f : Z) (it : diter) (s : bool * vec) (j : Z) : res (bool * vec) :=
  yh <- check_point P S (di_x it) j ;;
  rej <- dp_set P (fst yh) ;;
  let p := fst yh in
  ok <- (if (rej : bool) then Ok true else check_deriv P S f it p j (snd yh)) ;;
  rej <- dp_set P (di_x it) ;;
  if (rej : bool) then Err EInternal else Ok ((fst s && ok)%bool, di_x it).

(** deriv_check.c:742-792 *)
Definition deriv_loop (P : dprob) (S : dset) (f : Z) (it : diter) (p : vec) : res (bool * vec) :=
  rfold (check_var P S f it) (true, p) (upto (dp_n P)).
Definition deriv_check (P : dprob) (S : dset) (f : Z) (it : diter) (p : vec) : res vec :=
  if (f =? 0)%Z then Ok p
  else s <- deriv_loop P S f it p ;; if (fst s : bool) then Ok (snd s) else Err EInvalidDeriv.
End Deriv.
