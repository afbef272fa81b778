(** Specifications for C136-C138: sufficient dimension reduction with the same
    cases in another order. *)

From Coq Require Import Reals List Arith Permutation.
Import ListNotations.
From Verif Require Import Num Err Vec M_Utils M_Preproc M_SdrUtils M_Sudire S_Stats S_Sudire S_Order.
Open Scope R_scope.

(** the number of slices suffices for the distinct labels: always so for a
    response that is cut into slices *)
Definition slices_suffice (y : list R) (slices : nat) (continuous : bool) : Prop :=
  continuous = true \/ (length (distinct y) <= slices)%nat.
(** the external routines do not look at the order of the cases: least squares,
    and the economy decomposition transpose X = V diag(s) U, where the columns of
    U go with the cases *)
Definition ols_order_free (ols : list (list R) -> list R -> res (list R)) : Prop :=
  forall n p o Z y, case_order n o -> is_matrix n p Z -> length y = n -> ols (reorder o Z) (reorder o y) = ols Z y.
Definition economy_svd_order_free (svd : list (list R) -> res (list (list R) * list R * list (list R))) : Prop :=
  forall n p o X, case_order n o -> is_matrix n p X ->
    match svd (transpose X) with
    | Err e => svd (transpose (reorder o X)) = Err e
    | Ok (V, s, U) => exists U', svd (transpose (reorder o X)) = Ok (V, s, U') /\ transpose U' = reorder o (transpose U)
    end.
(** the data handed to an objective function, with the cases reordered *)
Definition reorder_args (o : list nat) (a : sargs R) : sargs R :=
  mk_sargs (reorder o (sg_X a)) (reorder o (sg_y a)) (sg_h a) (sg_trim a) (sg_center a) (sg_metric a) (sg_bias a).
Definition objective_order_free (f : list R -> sargs R -> res R) : Prop :=
  forall n p o b a, case_order n o -> is_matrix n p (sg_X a) -> length (sg_y a) = n -> f b (reorder_args o a) = f b a.
(** the fitted model with scores and fitted values in the order [o]; loadings,
    projection, whitening, location, scale and regression coefficients have no cases *)
Definition reorder_sd (o : list nat) (m : smodel R) : smodel R :=
  mk_sm (sm_P m) (reorder o (sm_T m)) (sm_proj m) (sm_K m) (sm_loc m) (sm_sca m) (sm_ols m) (reorder o (sm_fitted m)).
(** the settings under which the basis is chosen without regard to the order:
    enough slices for the labels in the sliced methods; a given start in the
    optimised methods, an objective of the user's that does not look at the order *)
Definition order_settings (st : sstate R) (ys : list R) : Prop :=
  match sp_meth (ss_prm st) with
  | MSir | MSave | MDr => slices_suffice ys (sp_slices (ss_prm st)) (sp_cont (ss_prm st))
  | MPhd | MIht => True
  | MDcov | MBcov | MMdd => ss_start st <> None
  | MUser f => ss_start st <> None /\ objective_order_free f
  end.
