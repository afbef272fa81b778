(** Specification notions for T_Options: moves of a location estimate, and the
    parameters of the estimators as their constructors declare them *)

From Coq Require Import String Reals List ZArith.
Import List. Import ListNotations.
From Verif Require Import M_Params.

(** no coordinate moved by more than tol *)
Definition moved_at_most (tol : R) (p : nat) (a b : list R) : Prop := forall j, (j < p)%nat -> (Rabs (nth j b 0 - nth j a 0) <= tol)%R.

(** the values of the parameters (sorted by name) of an instance created with the
    required arguments only; pi: the required argument of ppdire.  Default
    objects (classes, dictionaries, lists) are opaque. *)
Open Scope string_scope.
Definition default_params (c : cls) (pi : val) : list (string * val) :=
  match c with
  | Capi => [("centring", WBool false); ("max_degree", WInt 2); ("options", WStr "all"); ("pi_arguments", WOther 0); ("projection_index", WClass 0); ("scaling", WBool true); ("weights", WOther 1)]
  | Ppdire => [("alpha", WInt 1); ("center", WStr "mean"); ("center_data", WBool true); ("compression", WBool false); ("copy", WBool true); ("n_components", WInt 1);
               ("optimizer", WStr "SLSQP"); ("optimizer_constraints", WNone); ("optimizer_options", WOther 3); ("pi_arguments", WOther 2); ("projection_index", pi);
               ("regopt", WStr "OLS"); ("return_scaling_object", WBool true); ("scale_data", WBool true); ("square_pi", WBool false); ("trimming", WInt 0); ("verbose", WBool true);
               ("whiten_data", WBool false)]
  | Sudire => [("center", WStr "mean"); ("center_data", WBool true); ("compression", WBool false); ("copy", WBool true); ("dmetric", WStr "euclidean"); ("fit_ols", WBool true);
               ("n_components", WInt 2); ("n_slices", WInt 6); ("optimizer_arguments", WNone); ("optimizer_constraints", WNone); ("optimizer_options", WOther 4); ("optimizer_start", WNone);
               ("response_type", WStr "continuous"); ("return_scaling_object", WBool true); ("scale_data", WBool true); ("sudiremeth", WStr "dcov-sdr"); ("trimming", WInt 0); ("verbose", WBool true);
               ("whiten_data", WBool false)]
  end.
