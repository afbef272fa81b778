(** Specification of the starting value of sudire's optimisation (C195) *)
From Coq Require Import Reals List Bool.
Import ListNotations.
From Verif Require Import Num Err Vec M_Utils M_SdrUtils M_Sudire.
Open Scope R_scope.

(** the squared distance covariance between the response and the data projected
    on an orthonormal basis of the columns of B *)
Definition start_quality (env : sd_env R) (Xs : list (list R)) (ys : list R) (B : list (list R)) (a : R) : Prop :=
  exists Q Z, se_orth env B = Ok Q /\ npmatmul Xs Q = Ok Z /\ se_dcov env Z ys = Ok a.
(** directions of a method, multiplied by N2 if the data are standardised *)
Definition candidate (s : bool) (N2 : list (list R)) (directions : res (list (list R))) (B : list (list R)) : Prop :=
  exists P, directions = Ok P /\ (if s then npmatmul N2 P = Ok B else B = P).
(** v is the column-wise vector of the best of three candidates; ties go to the earlier one *)
Definition best_of_three (quality : list (list R) -> R -> Prop) (B1 B2 B3 : list (list R)) (v : list R) : Prop :=
  exists a1 a2 a3, quality B1 a1 /\ quality B2 a2 /\ quality B3 a3 /\
    ((v = flatF B1 /\ a2 <= a1 /\ a3 <= a1) \/ (v = flatF B2 /\ a1 < a2 /\ a3 <= a2) \/ (v = flatF B3 /\ a1 < a3 /\ a2 < a3)).
(** another optimiser *)
Definition with_optimiser (env : sd_env R) (ip : M_Ipopt.dict -> (list R -> res R) -> list (list R -> res R) -> list R -> res (list R)) : sd_env R :=
  mk_sdenv (se_prep env) (se_eigh env) (se_isqrt env) (se_inv env) (se_svd env) (se_orth env) (se_dcov env) (se_ols env) ip.
