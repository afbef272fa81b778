(** The values of an affine function at the cases *)
From Coq Require Import Reals List.
Import ListNotations.
From Verif Require Import Num Err Vec S_Stats.
Open Scope R_scope.

(** b0 + x'b for each row x of [X] *)
Definition line (b0 : R) (b : list R) (X : list (list R)) : list R := map (fun r => b0 + inner r b) X.
