(** Specifications for the behaviour of sufficient dimension reduction under
    linear changes of the data *)

From Coq Require Import Reals List Arith Bool.
Import ListNotations.
From Verif Require Import Err S_Stats S_Sudire M_Sudire.
Open Scope R_scope.

(** X' = X A + 1 c' *)
Definition linear_change (n p : nat) (X A : list (list R)) (c : nat -> R) (X' : list (list R)) : Prop :=
  is_matrix n p X' /\ forall i j, (i < n)%nat -> (j < p)%nat -> cell X' i j = sum_to p (fun a => cell X i a * cell A a j) + c j.
(** the d largest eigenvalues of M are separated from the others: off the leading
    eigenvectors, the quadratic form stays strictly below all of them *)
Definition isolated (p d : nat) (M : list (list R)) : Prop :=
  exists V, leading_eigenvectors p M d V /\
    forall v, length v = p -> sqlen v <> 0 -> (forall i, (i < d)%nat -> inner v (column i V) = 0) ->
      forall c, (c < d)%nat -> quad_form p M v < quad_form p M (column c V) * sqlen v.
(** the matrix whose eigenvectors a direct method takes, as a function of the
    standardised data; [k] slices, [continuous]: the type of the response *)
Definition method_matrix (mt : meth R) (k : nat) (continuous : bool) (p : nat) (y : list R) (kernel : list (list R) -> nat -> nat -> R) : Prop :=
  let labelled (f : list R -> list R -> list (list R) -> nat -> nat -> R) :=
    exists labels, case_labels y k continuous labels /\ kernel = f labels (firstn k (distinct labels)) in
  match mt with
  | MSir => labelled between
  | MSave => labelled (fun l u Z => average_variance l u Z p)
  | MDr => labelled (fun l u Z => directional l u Z p)
  | MPhd => kernel = (fun Z => response_weighted Z y)
  | MIht => kernel = iterated p y
  | _ => False
  end.
(** some standardisation of the data separates the d leading eigenvalues of the
    method's matrix *)
Definition separated (n p d : nat) (X : list (list R)) (kernel : list (list R) -> nat -> nat -> R) : Prop :=
  exists S Z, standardises p S (covariance_matrix p X) /\ prepared_data n p X S Z true true /\ isolated p d (matrix_of p (kernel Z)).
(** sum of squared residuals *)
Definition rss (n k : nat) (Z : list (list R)) (y b : list R) : R :=
  sum_to n (fun i => (nth i y 0 - sum_to k (fun a => cell Z i a * nth a b 0)) ^ 2).
(** the routine for least squares is correct whenever it returns *)
Definition least_squares (ols : list (list R) -> list R -> res (list R)) : Prop :=
  forall n k Z y b, is_matrix n k Z -> length y = n -> ols Z y = Ok b ->
    length b = k /\ forall c, length c = k -> rss n k Z y b <= rss n k Z y c.
