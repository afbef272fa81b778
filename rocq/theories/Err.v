(** Python exceptions as values. *)

Inductive exn : Type :=
| ValueError | TypeError | IndexError | UnboundLocalError | NameError
| AttributeError | KeyError | LinAlgError | MyException | AssertionError
| NotFittedError | ZeroDivisionError | OverflowError.

Inductive res (A : Type) : Type :=
| Ok (a : A)
| Err (e : exn).
Arguments Ok {A} a.
Arguments Err {A} e.

Definition bind {A B} (x : res A) (f : A -> res B) : res B :=
  match x with Ok a => f a | Err e => Err e end.

Declare Scope res_scope.
Delimit Scope res_scope with res.
Notation "x <- e ;; k" := (bind e (fun x => k))
  (at level 61, e at next level, right associativity) : res_scope.
Notation "' pat <- e ;; k" := (bind e (fun x => match x with pat => k end))
  (at level 61, pat pattern, e at next level, right associativity) : res_scope.

(** [raise_if b e]: [if b: raise e] *)
Definition raise_if (b : bool) (e : exn) : res unit := if b then Err e else Ok tt.

(** [assert b] *)
Definition py_assert (b : bool) : res unit := if b then Ok tt else Err AssertionError.

Definition is_ok {A} (x : res A) : bool := match x with Ok _ => true | Err _ => false end.

Lemma Ok_inj : forall {A} (a b : A), Ok a = Ok b -> a = b.
Proof. intros A a b E; injection E; auto. Qed.
