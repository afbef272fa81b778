(** Specifications of sudire in terms of fits: the search for the structural
    dimension, scores, methods. *)

From Coq Require Import Reals List Arith Bool.
Import ListNotations.
From Verif Require Import Num Err Vec M_Ipopt M_Utils M_Preproc M_Robcent M_Dicomo M_SdrUtils M_Sudire S_Stats S_Sudire.
Open Scope R_scope.

(** the cases with the given numbers *)
Definition resample (X : list (list R)) (idx : list nat) : list (list R) := map (fun i => nth i X []) idx.
(** [P] is the proj_mat_ of a fresh object with parameters [prm] fitted to X, y *)
Definition fitted_projector (env : sd_env R) (prm : sparams R) (X : list (list R)) (y : list R) (P : list (list R)) : Prop :=
  exists d st st' m, sd_init prm None None None d = Ok st /\ sd_fit env st X (A1 y) euclid false = (st', Ok m) /\ sm_proj m = P.
(** [v] is the largest singular value ([sv]) of the difference between the
    projector of the data and that of the b-th resample, the response being the
    same, with k components *)
Definition discrepancy (env : sd_env R) (prm : nat -> sparams R) (draw : nat -> nat -> list nat) (sv : list (list R) -> res R)
    (X : list (list R)) (y : list R) (k b : nat) (v : R) : Prop :=
  exists P Pb, fitted_projector env (prm k) X y P /\ fitted_projector env (prm k) (resample X (draw k b)) y Pb /\
    sv (map (fun rs => map (fun ab => fst ab - snd ab) (combine (fst rs) (snd rs))) (combine P Pb)) = Ok v.
(** the average of D over the dimensions 1, ..., k and the resamples 0, ..., B-1 *)
Definition pooled_average (D : nat -> nat -> R) (B k : nat) : R :=
  sum_to k (fun i => sum_to B (fun b => D (S i) b)) / (INR k * INR B).
(** the average over the resamples for dimension k alone *)
Definition own_average (D : nat -> nat -> R) (B k : nat) : R := sum_to B (fun b => D k b) / INR B.

(** the methods that call the optimiser *)
Definition optimised (mt : meth R) : Prop := match mt with MDcov | MBcov | MMdd | MUser _ => True | _ => False end.
(** one of the h columns has the same nonzero value in all n rows *)
Definition constant_column (n h : nat) (T : list (list R)) : Prop := exists j v, (j < h)%nat /\ v <> 0 /\ forall i, (i < n)%nat -> cell T i j = v.
