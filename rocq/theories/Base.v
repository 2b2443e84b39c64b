(** Outcomes of modelled C functions. *)
From Coq Require Export List Arith ZArith Lia Bool.
Export ListNotations.

(** Error types of /repo/src/main/pub_types.h:34-44 (SLEQP_ERROR_TYPE) plus the
    time-limit return code of pub_types.h:27-32. *)
Inductive code : Type :=
| EInternal | EFuncEval | ECallback | EMath | EInvalidDeriv | EIllegalArg | EAbortTime.

(** [Ok a]: the C function returns SLEQP_OKAY with effect/value [a].
    [Err c]: it returns an error of type [c].
    [Trap]: a violated [assert] (with NDEBUG: undefined or unspecified behaviour),
    an out-of-bounds or uninitialised access, or a loop that does not terminate. *)
Inductive res (A : Type) : Type :=
| Ok (a : A) | Err (c : code) | Trap.
Arguments Ok {A} a.  Arguments Err {A} c.  Arguments Trap {A}.

Definition rbind {A B} (m : res A) (k : A -> res B) : res B :=
  match m with Ok a => k a | Err c => Err c | Trap => Trap end.

(** SLEQP_CALL, /repo/src/main/pub_types.h:75-88: any non-OKAY code is propagated. *)
Declare Scope res_scope.
Notation "x <- m ;; k" := (rbind m (fun x => k))
  (at level 61, m at next level, right associativity) : res_scope.
Notation "m ;;; k" := (rbind m (fun _ => k))
  (at level 61, right associativity) : res_scope.
Open Scope res_scope.

(** [assert(b)] *)
Definition check (b : bool) : res unit := if b then Ok tt else Trap.

Definition rmap {A B} (f : A -> B) (m : res A) : res B :=
  match m with Ok a => Ok (f a) | Err c => Err c | Trap => Trap end.

(** A loop over a list whose body may fail. *)
Fixpoint rfold {A S} (f : S -> A -> res S) (s : S) (l : list A) : res S :=
  match l with
  | [] => Ok s
  | a :: l' => s' <- f s a ;; rfold f s' l'
  end.

Fixpoint rmapM {A B} (f : A -> res B) (l : list A) : res (list B) :=
  match l with
  | [] => Ok []
  | a :: l' => b <- f a ;; bs <- rmapM f l' ;; Ok (b :: bs)
  end.

Lemma rbind_ok {A B} (m : res A) (k : A -> res B) b :
  rbind m k = Ok b -> exists a, m = Ok a /\ k a = Ok b.
Proof. destruct m as [a| |]; simpl; intros H; try discriminate. eauto. Qed.

Lemma check_ok b u : check b = Ok u -> b = true.
Proof. destruct b; simpl; [auto|discriminate]. Qed.

Lemma rfold_app {A S} (f : S -> A -> res S) l1 l2 s :
  rfold f s (l1 ++ l2) = (s' <- rfold f s l1 ;; rfold f s' l2).
Proof.
  revert s; induction l1 as [|a l1 IH]; intros s; simpl; [reflexivity|].
  destruct (f s a) as [s'| |]; simpl; auto.
Qed.

(** Invariant rule for [rfold]. *)
Lemma rfold_inv {A S} (I : S -> Prop) (f : S -> A -> res S) l s s' :
  I s -> (forall t a t', I t -> In a l -> f t a = Ok t' -> I t') ->
  rfold f s l = Ok s' -> I s'.
Proof.
  revert s; induction l as [|a l IH]; intros s Hs Hstep H; simpl in H.
  - injection H as <-; exact Hs.
  - destruct (f s a) as [t| |] eqn:E; simpl in H; try discriminate.
    apply (IH t); auto.
    + apply (Hstep s a t); auto. now left.
    + intros u b u' Hu Hb; apply Hstep; auto. now right.
Qed.

Ltac inv H := inversion H; subst; clear H.
