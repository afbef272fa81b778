(** Specification for C165: one case with an arbitrarily large response. *)

From Coq Require Import Reals List.
Import ListNotations.
From Verif Require Import Num Err Vec M_Rm.
Open Scope R_scope.

(** np.linalg.lstsq for a single column: the slope of the regression through the origin *)
Fixpoint sum_products (x y : list R) : R :=
  match x, y with a :: x', b :: y' => a * b + sum_products x' y' | _, _ => 0 end.
Definition exact_slope (env : rm_env R) : Prop := forall x y, length x = length y -> sum_products x x <> 0 ->
  re_lstsq env (map (fun v => [v]) x) y = Ok [sum_products x y / sum_products x x].
(** five cases on the line y = x, the fourth response replaced by [M] *)
Definition line5 : list (list R) := [[-2]; [-1]; [0]; [1]; [2]].
Definition line5_y (M : R) : list R := [-2; -1; 0; M; 2].
