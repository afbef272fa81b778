(** Specifications for C185 and further parts of C87 *)

From Coq Require Import Reals List Arith.
Import ListNotations.
Open Scope R_scope.

(** the number of values smaller than value number [i] *)
Definition rank (b : list R) (i : nat) : nat := length (filter (fun v => if Rlt_dec v (nth i b 0) then true else false) b).
(** among the first or the last [left] of [p] *)
Definition at_the_ends (left p i : nat) : Prop := (i < left)%nat \/ (p - left <= i < p)%nat.
