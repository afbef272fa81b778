(** Specifications for sufficient dimension reduction, in plain mathematics. *)

From Coq Require Import Reals List Arith ZArith Bool Permutation Sorted.
Import ListNotations.
From Verif Require Import Err S_Stats.
Open Scope R_scope.

(** number of cases that carry label [k] *)
Definition size_of (k : nat) (labels : list nat) : nat := length (filter (Nat.eqb k) labels).
(** strictly increasing *)
Definition increasing (f : R -> R) : Prop := forall x y, x < y -> f x < f y.
(** the distinct values of a vector in order of first appearance *)
Fixpoint distinct (l : list R) : list R :=
  match l with
  | [] => []
  | a :: l' => a :: filter (fun v => if Req_EM_T v a then false else true) (distinct l')
  end.
(** fraction of the cases with label [a] *)
Definition fraction (labels : list R) (a : R) : R :=
  INR (length (filter (fun v => if Req_EM_T v a then true else false) labels)) / INR (length labels).

(** sums over 0, ..., n-1 *)
Definition sum_to (n : nat) (f : nat -> R) : R := sum_of (map f (seq 0 n)).
Definition delta (i j : nat) : R := if Nat.eqb i j then 1 else 0.
Definition symmetric (p : nat) (M : list (list R)) : Prop := forall i j, (i < p)%nat -> (j < p)%nat -> cell M i j = cell M j i.
(** v' M v *)
Definition quad_form (p : nat) (M : list (list R)) (v : list R) : R :=
  sum_to p (fun i => sum_to p (fun j => nth i v 0 * cell M i j * nth j v 0)).
Definition orthogonal_matrix (p : nat) (V : list (list R)) : Prop :=
  is_matrix p p V /\
  forall i j, (i < p)%nat -> (j < p)%nat ->
    sum_to p (fun a => cell V a i * cell V a j) = delta i j /\ sum_to p (fun a => cell V i a * cell V j a) = delta i j.
(** the routine for symmetric eigenproblems is correct whenever it returns *)
Definition eigh_ok (eigh : list (list R) -> res (list R * list (list R))) : Prop :=
  forall p M vals V, (0 < p)%nat -> is_matrix p p M -> symmetric p M -> eigh M = Ok (vals, V) ->
    length vals = p /\ orthogonal_matrix p V /\
    forall i j, (i < p)%nat -> (j < p)%nat -> sum_to p (fun a => cell M i a * cell V a j) = nth j vals 0 * cell V i j.
(** the routine for inverse square roots is correct whenever it returns *)
Definition isqrt_ok (isqrt : list (list R) -> res (list (list R))) : Prop :=
  forall p M N, (0 < p)%nat -> is_matrix p p M -> symmetric p M -> isqrt M = Ok N ->
    is_matrix p p N /\ symmetric p N /\
    forall i j, (i < p)%nat -> (j < p)%nat ->
      sum_to p (fun a => sum_to p (fun b => cell N i a * cell M a b * cell N b j)) = delta i j.

(** sample covariance, divisor n-1 *)
Definition cov_of (u v : list R) : R :=
  sum_of (map (fun xy => (fst xy - mean_of u) * (snd xy - mean_of v)) (combine u v)) / (INR (length u) - 1).
(** the rows whose label is [a] *)
Definition slice (labels : list R) (X : list (list R)) (a : R) : list (list R) :=
  map snd (filter (fun vr => if Req_EM_T (fst vr) a then true else false) (combine labels X)).
(** covariance of the slice means *)
Definition between (labels used : list R) (X : list (list R)) (i j : nat) : R :=
  sum_of (map (fun a => fraction labels a * mean_of (column i (slice labels X a)) * mean_of (column j (slice labels X a))) used).
(** covariance within a slice; the identity if the slice has a single case *)
Definition within (labels : list R) (X : list (list R)) (a : R) (i j : nat) : R :=
  if (1 <? length (slice labels X a))%nat then cov_of (column i (slice labels X a)) (column j (slice labels X a)) else delta i j.
(** mean square of (within - identity) *)
Definition average_variance (labels used : list R) (X : list (list R)) (p i j : nat) : R :=
  sum_of (map (fun a => fraction labels a *
    sum_to p (fun b => (within labels X a i b - delta i b) * (within labels X a b j - delta b j))) used).
(** covariance weighted with the centred response *)
Definition response_weighted (X : list (list R)) (y : list R) (i j : nat) : R :=
  sum_to (length X) (fun r => (nth r y 0 - mean_of y) * cell X r i * cell X r j) / INR (length X).
(** the matrix of directional regression *)
Definition second_moment (labels : list R) (X : list (list R)) (a : R) (i j : nat) : R :=
  within labels X a i j + mean_of (column i (slice labels X a)) * mean_of (column j (slice labels X a)).
Definition directional (labels used : list R) (X : list (list R)) (p i j : nat) : R :=
  2 * sum_of (map (fun a => fraction labels a * sum_to p (fun b => second_moment labels X a i b * second_moment labels X a b j)) used)
  + 2 * sum_to p (fun b => between labels used X i b * between labels used X b j)
  + 2 * sum_to p (fun b => between labels used X b b) * between labels used X i j - 2 * delta i j.

(** the [d] leading eigenvectors of a symmetric matrix, as columns of [B]:
    orthonormal eigenvectors, each maximising the quadratic form among the unit
    vectors orthogonal to the previous ones *)
Definition leading_eigenvectors (p : nat) (M : list (list R)) (d : nat) (B : list (list R)) : Prop :=
  is_matrix p d B /\
  (forall i j, (i < d)%nat -> (j < d)%nat -> sum_to p (fun a => cell B a i * cell B a j) = delta i j) /\
  (forall i c, (i < p)%nat -> (c < d)%nat -> sum_to p (fun a => cell M i a * cell B a c) = quad_form p M (column c B) * cell B i c) /\
  (forall c v, (c < d)%nat -> length v = p -> (forall i, (i < c)%nat -> inner v (column i B) = 0) ->
     quad_form p M v <= quad_form p M (column c B) * sqlen v).
(** the p x p matrix with the given entries *)
Definition matrix_of (p : nat) (f : nat -> nat -> R) : list (list R) := map (fun i => map (f i) (seq 0 p)) (seq 0 p).
Definition positive_definite (p : nat) (M : list (list R)) : Prop := forall v, length v = p -> sqlen v <> 0 -> 0 < quad_form p M v.
(** S M S = I *)
Definition standardises (p : nat) (S M : list (list R)) : Prop :=
  is_matrix p p S /\ symmetric p S /\
  forall i j, (i < p)%nat -> (j < p)%nat -> sum_to p (fun a => sum_to p (fun b => cell S i a * cell M a b * cell S b j)) = delta i j.
(** the sample covariance matrix of the columns of X *)
Definition covariance_matrix (p : nat) (X : list (list R)) : list (list R) := matrix_of p (fun i j => cov_of (column i X) (column j X)).
(** M^t s *)
Fixpoint power_times (p : nat) (M : list (list R)) (t : nat) (s : list R) : list R :=
  match t with
  | O => s
  | S u => map (fun i => sum_to p (fun a => cell M i a * nth a (power_times p M u s) 0)) (seq 0 p)
  end.
(** sum over t < p of (M^t s)(M^t s)' *)
Definition krylov (p : nat) (M : list (list R)) (s : list R) (i j : nat) : R :=
  sum_to p (fun t => nth i (power_times p M t s) 0 * nth j (power_times p M t s) 0).

(** Z: the data, centred at the column means if [center], times S if [scale] *)
Definition prepared_data (n p : nat) (X S Z : list (list R)) (center scale : bool) : Prop :=
  is_matrix n p Z /\
  forall i j, (i < n)%nat -> (j < p)%nat ->
    let c a := cell X i a - (if center then mean_of (column a X) else 0) in
    cell Z i j = if scale then sum_to p (fun a => c a * cell S a j) else c j.
(** B = S V if [scale], V otherwise *)
Definition back_transformed (p d : nat) (S V B : list (list R)) (scale : bool) : Prop :=
  is_matrix p d B /\
  forall i j, (i < p)%nat -> (j < d)%nat -> cell B i j = if scale then sum_to p (fun a => cell S i a * cell V a j) else cell V i j.
(** B is obtained from the leading eigenvectors of the matrix with entries
    [kernel Z], Z the standardised data *)
Definition eigen_basis (n p d : nat) (X B : list (list R)) (center scale : bool) (kernel : list (list R) -> nat -> nat -> R) : Prop :=
  exists S Z V, is_matrix p p S /\ symmetric p S /\
    (positive_definite p (covariance_matrix p X) -> standardises p S (covariance_matrix p X)) /\
    prepared_data n p X S Z center scale /\
    leading_eigenvectors p (matrix_of p (kernel Z)) d V /\ back_transformed p d S V B scale.

(** The h-1 cut points of a response: the values at the positions m, 2m, ...,
    (h-1)m (from 0) of the sorted response [s], m = n/h rounded down. *)
Definition cut_points (s : list R) (h : nat) : list R := map (fun i => nth (i * (length s / h)) s 0) (seq 1 (h - 1)).
(** slice number: one plus the number of cut points that do not exceed the value *)
Definition slice_number (cuts : list R) (v : R) : nat := S (length (filter (fun a => if Rle_dec a v then true else false) cuts)).
Definition sorted_version (y s : list R) : Prop := Permutation y s /\ StronglySorted Rle s.
(** the labels of the cases: slice numbers for a continuous response, the
    response itself otherwise *)
Definition case_labels (y : list R) (h : nat) (continuous : bool) (labels : list R) : Prop :=
  if continuous then (2 <= h)%nat /\ exists s, sorted_version y s /\ labels = map (fun v => INR (slice_number (cut_points s h) v)) y
  else labels = y.
(** covariances of the columns with the response *)
Definition cov_with (p : nat) (Z : list (list R)) (y : list R) : list R := map (fun i => cov_of (column i Z) y) (seq 0 p).
(** sum over t < p of (S^t c)(S^t c)', S the covariance matrix of the data, c the
    covariances with the response *)
Definition iterated (p : nat) (y : list R) (Z : list (list R)) : nat -> nat -> R := krylov p (covariance_matrix p Z) (cov_with p Z y).
(** Q is symmetric, idempotent, and leaves the columns of P as they are *)
Definition projects_onto (p : nat) (Q P : list (list R)) : Prop :=
  is_matrix p p Q /\ symmetric p Q /\
  (forall i j, (i < p)%nat -> (j < p)%nat -> sum_to p (fun a => cell Q i a * cell Q a j) = cell Q i j) /\
  (forall h i c, is_matrix p h P -> (i < p)%nat -> (c < h)%nat -> sum_to p (fun a => cell Q i a * cell P a c) = cell P i c).

(** shapes of the routines for inverse square roots and for the economy
    singular value decomposition A = V diag(s) U *)
Definition square_shape (isqrt : list (list R) -> res (list (list R))) : Prop :=
  forall p M N, is_matrix p p M -> isqrt M = Ok N -> is_matrix p p N.
Definition svd_shapes (svd : list (list R) -> res (list (list R) * list R * list (list R))) : Prop :=
  forall a b M V s U, is_matrix a b M -> svd M = Ok (V, s, U) ->
    is_matrix a (Nat.min a b) V /\ length s = Nat.min a b /\ is_matrix (Nat.min a b) b U.
(** P' C P = I, C the covariance matrix of the data *)
Definition sigma_orthonormal (p h : nat) (X P : list (list R)) : Prop :=
  forall i j, (i < h)%nat -> (j < h)%nat -> sum_to p (fun a => sum_to p (fun b => cell P a i * cov_of (column a X) (column b X) * cell P b j)) = delta i j.
Definition orthonormal_columns (p h : nat) (P : list (list R)) : Prop :=
  forall i j, (i < h)%nat -> (j < h)%nat -> sum_to p (fun a => cell P a i * cell P a j) = delta i j.
(** the columns are uncorrelated and have variance one *)
Definition uncorrelated_unit (h : nat) (T : list (list R)) : Prop :=
  forall i j, (i < h)%nat -> (j < h)%nat -> cov_of (column i T) (column j T) = delta i j.
(** the optimiser's solutions satisfy its equality constraints *)
Definition feasible {D F : Type} (ipopt : D -> F -> list (list R -> res R) -> list R -> res (list R)) : Prop :=
  forall d f cons x0 x, ipopt d f cons x0 = Ok x -> forall c, In c cons -> c x = Ok 0.
(** [k] is the first position of the smallest element *)
Definition first_smallest (l : list R) (k : nat) : Prop :=
  (k < length l)%nat /\ (forall i, (i < length l)%nat -> nth k l 0 <= nth i l 0) /\ (forall i, (i < k)%nat -> nth k l 0 < nth i l 0).
