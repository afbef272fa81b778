(** Specifications for the optimality of the direct dimension reduction methods (C191) *)
From Coq Require Import Reals List Arith.
Import ListNotations.
From Verif Require Import S_Stats S_Sudire.
Open Scope R_scope.

(** T: the scores of the n cases X along the m directions in the columns of U *)
Definition scores_along (n p m : nat) (X U T : list (list R)) : Prop :=
  is_matrix p m U /\ is_matrix n m T /\
  forall i c, (i < n)%nat -> (c < m)%nat -> cell T i c = sum_to p (fun a => cell X i a * cell U a c).
(** the first m columns of T have variance one and are uncorrelated *)
Definition standard_scores (m : nat) (T : list (list R)) : Prop :=
  forall c c', (c < m)%nat -> (c' < m)%nat -> cov_of (column c T) (column c' T) = delta c c'.
(** the values of the cases with label a *)
Definition slice_values (labels t : list R) (a : R) : list R :=
  map snd (filter (fun vr => if Req_EM_T (fst vr) a then true else false) (combine labels t)).
(** variance between slices: the mean squared distance of the slice means from the overall mean *)
Definition between_slices (labels used t : list R) : R :=
  sum_of (map (fun a => fraction labels a * (mean_of (slice_values labels t a) - mean_of t) ^ 2) used).
(** covariance of the response with the squared deviation of t from its mean *)
Definition curvature (y t : list R) : R :=
  sum_to (length t) (fun r => (nth r y 0 - mean_of y) * (nth r t 0 - mean_of t) ^ 2) / INR (length t).
