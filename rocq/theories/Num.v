(** Arithmetic: a record of operations without laws, and its two instances. *)
From Coq Require Import Reals ZArith Bool List.
From Flocq Require Import Core IEEE754.BinarySingleNaN.
From Verif Require Import Base.

(** The operations of C [double] that the modelled code uses.  No laws are
    assumed: a theorem over an arbitrary [Num] holds for IEEE doubles ([F64]) and
    for exact real arithmetic ([RN]). *)
Class Num := {
  num : Type;
  nadd : num -> num -> num;
  nsub : num -> num -> num;
  nmul : num -> num -> num;
  ndiv : num -> num -> num;
  nopp : num -> num;
  nsqrt : num -> num;
  nltb : num -> num -> bool;   (* C: x < y  (false on NaN) *)
  nleb : num -> num -> bool;   (* C: x <= y (false on NaN) *)
  neqb : num -> num -> bool;   (* C: x == y (false on NaN) *)
  nlit : Z -> Z -> num;        (* literal p/q, correctly rounded *)
  nisnan : num -> bool;
  nisinf : num -> bool         (* C: isinf *)
}.

Declare Scope num_scope.
Delimit Scope num_scope with num.
Notation "x + y" := (nadd x y) : num_scope.
Notation "x - y" := (nsub x y) : num_scope.
Notation "x * y" := (nmul x y) : num_scope.
Notation "x / y" := (ndiv x y) : num_scope.
Notation "- x" := (nopp x) : num_scope.
Notation "x <? y" := (nltb x y) : num_scope.
Notation "x <=? y" := (nleb x y) : num_scope.
Notation "x =? y" := (neqb x y) : num_scope.
Notation "x >? y" := (nltb y x) : num_scope.
Notation "x >=? y" := (nleb y x) : num_scope.

Definition n0 {N : Num} : num := nlit 0 1.
Definition n1 {N : Num} : num := nlit 1 1.

(** SLEQP_MAX, SLEQP_MIN, SLEQP_ABS: /repo/src/main/cmp.h:35-39 *)
Definition nmax {N : Num} (a b : num) : num := if nltb b a then a else b.
Definition nmin {N : Num} (a b : num) : num := if nltb a b then a else b.
Definition nabs {N : Num} (a : num) : num := if nltb n0 a then a else nopp a.

(** ** Doubles *)
Lemma prec53 : FLX.Prec_gt_0 53. Proof. reflexivity. Qed.
Lemma emax1024 : (53 < 1024)%Z. Proof. reflexivity. Qed.
#[export] Existing Instance prec53.
#[export] Instance prec_lt_emax_53_1024 : BinarySingleNaN.Prec_lt_emax 53 1024.
Proof. reflexivity. Qed.

Definition f64 := binary_float 53 1024.
Definition f64_of_Z (z : Z) : f64 := binary_normalize 53 1024 prec53 prec_lt_emax_53_1024 mode_NE z 0 false.
Definition f64_lit (p q : Z) : f64 :=
  if (q =? 1)%Z then f64_of_Z p else Bdiv mode_NE (f64_of_Z p) (f64_of_Z q).

Definition f64_isinf (x : f64) : bool := match x with B754_infinity _ => true | _ => false end.

#[export] Instance F64 : Num := {|
  num := f64;
  nadd := Bplus mode_NE;
  nsub := Bminus mode_NE;
  nmul := Bmult mode_NE;
  ndiv := Bdiv mode_NE;
  nopp := Bopp;
  nsqrt := Bsqrt mode_NE;
  nltb := Bltb;
  nleb := Bleb;
  neqb := Beqb;
  nlit := f64_lit;
  nisnan := BinarySingleNaN.is_nan;
  nisinf := f64_isinf
|}.

(** ** Exact arithmetic *)
Definition rn_lit (p q : Z) : R := (IZR p / IZR q)%R.
Definition rn_false (x : R) : bool := false.

#[export] Instance RN : Num := {|
  num := R;
  nadd := Rplus;
  nsub := Rminus;
  nmul := Rmult;
  ndiv := Rdiv;
  nopp := Ropp;
  nsqrt := sqrt;
  nltb := Rlt_bool;
  nleb := Rle_bool;
  neqb := Req_bool;
  nlit := rn_lit;
  nisnan := rn_false;
  nisinf := rn_false
|}.

(** So that [f64] and [R] elaborate as the carriers of their instances. *)
Canonical Structure F64.
Canonical Structure RN.
