(** Specifications in plain real-number mathematics, independent of the model:
    sums, means, variances, medians, order statistics, columns. *)

From Coq Require Import Reals List Arith ZArith Bool Permutation Sorted.
Import ListNotations.
Open Scope R_scope.

Definition sum_of (l : list R) : R := fold_right Rplus 0 l.
Definition mean_of (l : list R) : R := sum_of l / INR (length l).
(** population variance *)
Definition variance_of (l : list R) : R := mean_of (map (fun x => (x - mean_of l) ^ 2) l).
Definition inner (u v : list R) : R :=
  sum_of (map (fun xy => fst xy * snd xy) (combine u v)).
Definition orthogonal (u v : list R) : Prop := inner u v = 0.
Definition sqlen (u : list R) : R := inner u u.

(** [m] is the median of [l]: with [s] the values in increasing order,
    the average of the values at positions (n-1)/2 and n/2 (equal if n is odd) *)
Definition is_median (l : list R) (m : R) : Prop :=
  exists s, Permutation l s /\ StronglySorted Rle s /\ l <> [] /\
    m = (nth ((length l - 1) / 2) s 0 + nth (length l / 2) s 0) / 2.

(** [v] is the k-th smallest value of [l], counting from 0 *)
Definition is_order_stat (l : list R) (k : nat) (v : R) : Prop :=
  exists s, Permutation l s /\ StronglySorted Rle s /\ (k < length l)%nat /\ v = nth k s 0.

(** MAD with consistency constant [c] *)
Definition is_mad (c : R) (l : list R) (d : R) : Prop :=
  exists m e, is_median l m /\ is_median (map (fun x => Rabs (x - m)) l) e /\ d = e / c.

(** trimmed mean dropping [g] values at each end *)
Definition is_trimmed_mean (g : nat) (l : list R) (m : R) : Prop :=
  exists s, Permutation l s /\ StronglySorted Rle s /\
    m = mean_of (firstn (length l - 2 * g) (skipn g s)).

(** n x p matrices as lists of rows *)
Definition is_matrix (n p : nat) (X : list (list R)) : Prop :=
  length X = n /\ Forall (fun r => length r = p) X.
Definition cell (X : list (list R)) (i j : nat) : R := nth j (nth i X []) 0.
Definition column (j : nat) (X : list (list R)) : list R := map (fun r => nth j r 0) X.

(** at most [k] entries of [l'] differ from the entry of [l] at that position *)
Definition differ_at_most (k : nat) (l l' : list R) : Prop :=
  length l = length l' /\
  (length (filter (fun xy => if Req_EM_T (fst xy) (snd xy) then false else true)
             (combine l l')) <= k)%nat.

(** [a] and [b] bound all entries that [l] and [l'] have in common positionwise *)
Definition bounds_common (a b : R) (l l' : list R) : Prop :=
  forall i, (i < length l)%nat -> nth i l 0 = nth i l' 0 -> a <= nth i l 0 <= b.

(** standardised value: a zero scale counts as one *)
Definition standardised (x m s r : R) : Prop :=
  (s = 0 -> r = x - m) /\ (s <> 0 -> r = (x - m) / s).

(** Euclidean geometry of rows *)
Definition vdiff (u v : list R) : list R := map (fun xy => fst xy - snd xy) (combine u v).
Definition sqdist (u v : list R) : R := sqlen (vdiff u v).
Definition edist (u v : list R) : R := sqrt (sqdist u v).
(** sum of the Euclidean distances of the rows of [X] to [a] *)
Definition total_distance (X : list (list R)) (a : list R) : R := sum_of (map (fun r => edist r a) X).
(** sum of the [h] smallest squared distances of the rows of [X] to [m] *)
Definition is_trimmed_objective (h : nat) (X : list (list R)) (m : list R) (v : R) : Prop :=
  exists s, Permutation (map (fun r => sqdist r m) X) s /\ StronglySorted Rle s /\ v = sum_of (firstn h s).
