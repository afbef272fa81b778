(** Specification of a constrained optimiser. *)

From Coq Require Import Reals List.
Import ListNotations.
From Verif Require Import Err.
Open Scope R_scope.

(** every constraint holds at [x] *)
Definition admissible (cons : list (list R -> res R)) (x : list R) : Prop := forall c, In c cons -> c x = Ok 0.
(** [x] is admissible, and no admissible point of the same dimension at which the
    objective is defined has a smaller value *)
Definition constrained_minimum (f : list R -> res R) (cons : list (list R -> res R)) (x : list R) : Prop :=
  admissible cons x /\ forall z w, length z = length x -> admissible cons z -> f z = Ok w -> exists v, f x = Ok v /\ v <= w.
(** whenever the optimiser returns a point, it is such a minimum, in the dimension
    of the starting value *)
Definition optimal {D : Type} (ipopt : D -> (list R -> res R) -> list (list R -> res R) -> list R -> res (list R)) : Prop :=
  forall d f cons x0 x, ipopt d f cons x0 = Ok x -> length x = length x0 /\ constrained_minimum f cons x.
