(** Specifications for the helper functions. *)

From Coq Require Import Reals List Arith.
Import ListNotations.
From Verif Require Import Num.
Open Scope R_scope.

(** products over the positions at which neither factor is missing *)
Fixpoint observed_products (u v : list XR) : list R :=
  match u, v with
  | Fin x :: u', Fin y :: v' => x * y :: observed_products u' v'
  | _ :: u', _ :: v' => observed_products u' v'
  | _, _ => []
  end.

Definition symmetric_fun (f : R -> R) : Prop := forall x, f (- x) = f x.
