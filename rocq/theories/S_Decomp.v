(** Vocabulary for "scores times loadings" *)
From Coq Require Import Reals List Arith.
Import ListNotations.
From Verif Require Import Num Err Vec S_Stats S_Sudire.
Open Scope R_scope.

(** entry (i, j) of T P', with h columns in both *)
Definition product (h : nat) (T P : list (list R)) (i j : nat) : R := sum_to h (fun a => cell T i a * cell P j a).
(** sum of the squares of the entries of Z - T P' *)
Definition misfit (n p h : nat) (Z T P : list (list R)) : R :=
  sum_to n (fun i => sum_to p (fun j => (cell Z i j - product h T P i j) * (cell Z i j - product h T P i j))).
