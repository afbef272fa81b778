(** Specifications for latent-variable regression. *)

From Coq Require Import Reals List Arith.
Import ListNotations.
From Verif Require Import Err S_Stats.
Open Scope R_scope.

(** a square matrix is inverted correctly whenever the routine returns *)
Definition inverse_ok (inv : list (list R) -> res (list (list R))) : Prop :=
  forall k M N, is_matrix k k M -> inv M = Ok N ->
    is_matrix k k N /\
    forall i j, (i < k)%nat -> (j < k)%nat ->
      sum_of (map (fun a => cell M i a * cell N a j) (seq 0 k)) = if Nat.eqb i j then 1 else 0.
(** 1 x 1 matrices with a non-zero entry are inverted *)
Definition inverts_scalars (inv : list (list R) -> res (list (list R))) : Prop :=
  forall a, a <> 0 -> exists N, inv [[a]] = Ok N.

(** y minus its part explained by the first [i] score vectors (columns of T)
    with coefficients C *)
Definition partial_residual (y : list R) (T : list (list R)) (C : list R) (i : nat) : list R :=
  map (fun a => nth a y 0 - sum_of (map (fun k => nth k C 0 * cell T a k) (seq 0 i))) (seq 0 (length y)).

(** X b *)
Definition fitted_by (X : list (list R)) (b : list R) : list R := map (fun r => inner r b) X.
(** W z: combination of the columns of W *)
Definition in_span (W : list (list R)) (b : list R) : Prop := exists z, b = fitted_by W z /\ forall r, In r W -> length z = length r.

Definition sign_of (x : R) : R := if Rlt_dec 0 x then 1 else if Rlt_dec x 0 then -1 else 0.
Definition is_max (l : list R) (m : R) : Prop := In m l /\ forall x, In x l -> x <= m.
