(** Specifications for projection pursuit with a (co)variance as projection index. *)

From Coq Require Import Reals List Arith.
Import ListNotations.
From Verif Require Import Num Err Vec M_Ppdire S_Stats S_Dicomo S_Sudire S_Ppdire2.
Open Scope R_scope.

(** whenever the optimiser returns a point, it minimises over the unit vectors *)
Definition exact_optimiser (env : pp_env R) (o : optim) : Prop :=
  forall dd g x0 x, pe_opt env o dd g x0 = Ok x -> unit_minimiser (length x0) g x.

(** sample covariance matrix of the columns of [Z], with or without the finite-sample factor *)
Definition sample_cov (b : bool) (n : nat) (Z : list (list R)) (j k : nat) : R := bessel b n * covariance_of (column j Z) (column k Z).
(** M v = l v for a p x p matrix M *)
Definition eigen_pair (p : nat) (M : nat -> nat -> R) (v : list R) (l : R) : Prop :=
  forall j, (j < p)%nat -> sum_to p (fun k => M j k * nth k v 0) = l * nth j v 0.
(** u' M u *)
Definition quadratic (p : nat) (M : nat -> nat -> R) (u : list R) : R :=
  sum_to p (fun j => sum_to p (fun k => nth j u 0 * M j k * nth k u 0)).
