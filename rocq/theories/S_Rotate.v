(** Rotations (and reflections), translations and changes of the unit of all
    coordinates, for rows of length p. *)

From Coq Require Import Reals List Arith.
Import ListNotations.
From Verif Require Import S_Stats.
Open Scope R_scope.

(** the rows and the columns of the p x p matrix [Q] are orthonormal *)
Definition rotation (p : nat) (Q : list (list R)) : Prop :=
  is_matrix p p Q /\
  forall a b, (a < p)%nat -> (b < p)%nat ->
    inner (nth a Q []) (nth b Q []) = (if (a =? b)%nat then 1 else 0) /\
    inner (column a Q) (column b Q) = (if (a =? b)%nat then 1 else 0).

(** the row vector r Q *)
Definition rotated (p : nat) (Q : list (list R)) (r : list R) : list R :=
  map (fun j => inner r (column j Q)) (seq 0 p).
(** c r Q + v *)
Definition moved (p : nat) (c : R) (Q : list (list R)) (v r : list R) : list R :=
  map (fun j => c * nth j (rotated p Q r) 0 + nth j v 0) (seq 0 p).
(** [a] minimises the sum of distances to the rows of [X] *)
Definition spatial_median_of (p : nat) (X : list (list R)) (a : list R) : Prop :=
  length a = p /\ forall b, length b = p -> total_distance X a <= total_distance X b.
(** all rows lie on one line *)
Definition on_a_line (p : nat) (X : list (list R)) : Prop :=
  exists a d, forall r, In r X -> exists t, forall j, (j < p)%nat -> nth j r 0 = nth j a 0 + t * nth j d 0.
(** c r + v, without a rotation *)
Definition rescaled (p : nat) (c : R) (v r : list R) : list R := map (fun j => c * nth j r 0 + nth j v 0) (seq 0 p).
