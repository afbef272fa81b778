(** When the refinement of the grid optimiser of ppdire ends (C206). *)
From Coq Require Import Reals List Arith ZArith.
Import ListNotations.
From Verif Require Import Num Err Vec M_Utils M_Dicomo M_Ppdire S_Stats S_Regress S_Ppdire.
Open Scope R_scope.

(** the cases of Z projected on the direction w *)
Definition projections (Z : list (list R)) (w : list R) : list R := map (fun r => inner r w) Z.
(** [o] is the index of these projections, squared if square_pi *)
Definition objective_at (most : arr R -> dkw R -> res R) (g : gargs R) (Z : list (list R)) (w : list R) (o : R) : Prop :=
  exists u, most (A2 (map (fun v => [v]) (projections Z w))) (ga_kw g) = Ok u /\ o = if ga_square g then u * u else u.
(** one pass over all columns of Z leads from direction w to direction w' *)
Definition one_sweep (most : arr R -> dkw R -> res R) (g2 : gargs R) (Z : list (list R)) (p : nat) (w w' : list R) : Prop :=
  sweep2 trigR most g2 Z (seq 0 p) (projections Z w) w = Ok (projections Z w', w').
Definition rel_change (old new : R) : R := Rabs (old - new) / Rabs new.

(** [ws] are the directions after the first sweep and after each pass, [os] the
    objectives after each pass.  At least two passes are made and at most
    maxiter + 1; after the second, a pass is made if and only if the last one has
    changed the objective by more than 1e-4 and fewer than maxiter + 1 were made *)
Definition grid_stopping (most : arr R -> dkw R -> res R) (g g2 : gargs R) (Z : list (list R)) (p : nat) (maxiter : BinNums.Z) (w : list R) (o : R) : Prop :=
  exists ws os, let passes := length os in
    length ws = S passes /\ (exists z, first_sweep trigR most g Z p = Ok (z, nth 0 ws [])) /\
    (forall k, (k < passes)%nat -> one_sweep most g2 Z p (nth k ws []) (nth (S k) ws []) /\ objective_at most g Z (nth (S k) ws []) (nth k os 0)) /\
    w = nth passes ws [] /\ o = nth (passes - 1) os 0 /\
    (2 <= passes <= S (Z.to_nat maxiter))%nat /\
    (forall k, (S (S k) < passes)%nat -> 1 / 10000 < rel_change (nth k os 0) (nth (S k) os 0)) /\
    (passes = S (Z.to_nat maxiter) \/ rel_change (nth (passes - 2) os 0) (nth (passes - 1) os 0) <= 1 / 10000).
