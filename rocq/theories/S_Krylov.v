(** Krylov spaces, and data seen through their inner products only *)
From Coq Require Import Reals List Arith.
Import ListNotations.
From Verif Require Import Num Err Vec S_Stats S_Sudire.
Open Scope R_scope.

(** the inner products of the columns of [X] with each other and with [y] *)
Definition gram_of (p : nat) (X : list (list R)) : list (list R) := matrix_of p (fun i j => inner (column i X) (column j X)).
Definition cross_of (p : nat) (X : list (list R)) (y : list R) : list R := map (fun j => inner (column j X) y) (seq 0 p).
(** [b] is a linear combination of s, M s, ..., M^(k-1) s *)
Definition in_krylov (p k : nat) (M : list (list R)) (s b : list R) : Prop :=
  length b = p /\ exists z : nat -> R, forall j, (j < p)%nat -> nth j b 0 = sum_to k (fun t => z t * nth j (power_times p M t s) 0).
