(** Notions for the theorems on refused arguments (T_Errors). *)

From Coq Require Import Reals List.
Import ListNotations.
From Verif Require Import Num Vec S_Stats M_Utils M_Sudire.
Open Scope R_scope.

(** the number of variables of new data; a vector is one case *)
Definition variables {A} (x : arr A) : nat :=
  match x with A1 v => length v | A2 (r :: _) => length r | A2 [] => 0%nat end.

(** the same instance with another method *)
Definition with_method (st : sstate R) (mt : meth R) : sstate R :=
  let q := ss_prm st in
  mk_ss (mk_sp mt (sp_ncomp q) (sp_trim q) (sp_center q) (sp_center_data q) (sp_scale_data q) (sp_whiten q) (sp_compress q) (sp_slices q) (sp_copy q) (sp_cont q) (sp_return q))
    (ss_X0 st) (ss_start st) (ss_cons st) (ss_args st) (ss_dict st).

(** the tau scale about the median: the raw median absolute deviation times the root
    of the mean of the truncated squares, divided by k instead of the number of cases *)
Definition tau_about_median (k c2 : R) (x : list R) (s : R) : Prop :=
  exists med s0, is_median x med /\ is_median (map (fun y => Rabs (y - med)) x) s0 /\
    s = s0 * sqrt (sum_of (map (fun y => Rmin (((y - med) / s0) * ((y - med) / s0)) (c2 * c2)) x) / k).
