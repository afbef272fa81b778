(** Specifications for C184: the same data set with every case counted k times. *)

From Coq Require Import Reals List Arith Permutation.
Import ListNotations.
From Verif Require Import Num Err Vec S_Stats S_Order.
Open Scope R_scope.

(** [o] lists every one of the cases 0..n-1 exactly [k] times, in any order *)
Definition case_copies (n k : nat) (o : list nat) : Prop := Permutation (concat (repeat (seq 0 n) k)) o.
(** the routine that inverts matrices: the inverse of c M is the inverse of M divided by c *)
Definition inv_homogeneous (inv : list (list R) -> res (list (list R))) : Prop :=
  forall c M, c <> 0 -> inv (map (map (Rmult c)) M) = match inv M with Ok G => Ok (map (map (Rmult (/ c))) G) | Err e => Err e end.
