(** Specifications for projection pursuit (ppdire), continued: the data a
    component is computed from, maximisation over unit vectors. *)

From Coq Require Import Reals List Arith ZArith Bool.
Import ListNotations.
From Verif Require Import Num Err Vec M_Utils M_Preproc M_Robcent M_Dicomo M_Ppdire S_Stats L_Scaling.
Open Scope R_scope.

(** [Z] is [X] with column j standardised by the j-th entries of [loc] and [sca] *)
Definition scaled_by (n p : nat) (X : list (list R)) (loc sca : list R) (Z : list (list R)) : Prop :=
  is_matrix n p Z /\ forall i j, (i < n)%nat -> (j < p)%nat -> standardised (cell X i j) (nth j loc 0) (nth j sca 0) (cell Z i j).

(** what is left of the columns of [E] after regressing each on [t] *)
Definition deflate (p : nat) (E : list (list R)) (t : list R) : list (list R) :=
  map (fun rt => map (fun j => nth j (fst rt) 0 - snd rt * (inner (column j E) t / sqlen t)) (seq 0 p)) (combine E t).
Definition deflate_all (p : nat) (E : list (list R)) (ts : list (list R)) : list (list R) := fold_left (deflate p) ts E.
(** the first [i] columns of [T] *)
Definition first_columns (i : nat) (T : list (list R)) : list (list R) := map (fun k => column k T) (seq 0 i).

(** among the vectors of length [p] and norm 1, [x] minimises [f] *)
Definition unit_minimiser (p : nat) (f : list R -> res R) (x : list R) : Prop :=
  length x = p /\ sqlen x = 1 /\ exists v, f x = Ok v /\ forall u w, length u = p -> sqlen u = 1 -> f u = Ok w -> v <= w.

(** the centring and scaling that fit is documented to apply to a column [x] for
    center='mean' or 'median' (no trimming): [m] is subtracted, then [s] divided by.
    Without centring there is no scaling either. *)
Definition scaling_of (prm : pparams R) (x : list R) (m s : R) : Prop :=
  if pp_center_data prm then
    match pp_center prm with
    | CMean => m = mean_of x /\ (pp_scale_data prm = true -> s = sqrt (variance_of x))
    | CMedian => is_median x m /\ (pp_scale_data prm = true -> is_mad madcR x s)
    | _ => False
    end /\ (pp_scale_data prm = false -> s = 1)
  else m = 0 /\ s = 1.

(** [prm] with other values of center_data, scale_data and compression *)
Definition other_scaling (prm : pparams R) (cd sd co : bool) : pparams R :=
  mk_pp (pp_idx prm) (pp_ncomp prm) (pp_trim prm) (pp_alpha prm) (pp_optim prm) (pp_regopt prm) (pp_center prm) cd sd (pp_whiten prm) (pp_square prm) co.
