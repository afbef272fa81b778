(** A response that is exactly linear in the variables (C200). *)
From Coq Require Import Reals List Arith.
Import ListNotations.
From Verif Require Import Num Err Vec S_Stats M_Utils M_Preproc M_Robcent.
Open Scope R_scope.

(** numbers that are neither missing nor infinite *)
Definition finite_vec (v : list R) : list XR := map Fin v.
Definition finite_mat (X : list (list R)) : list (list XR) := map finite_vec X.
(** every response is the linear combination of its row with coefficients b *)
Definition exact_fit (X : list (list R)) (y b : list R) : Prop :=
  y = map (fun r => sum_of (map (fun xb => fst xb * snd xb) (combine r b))) X.
(** X0 is X centred and scaled *)
Definition xscaled (env : prep_env XR) (c : centre_opt XR) (s : scale_opt XR) (X X0 : list (list XR)) : Prop :=
  exists st, sc_fit_transform env (new_scaler c s (Fin 0)) (A2 X) = (st, Ok X0).
(** the solver reports missing values as an error (as LAPACK does) *)
Definition rejects_missing (solve : list (list XR) -> list XR -> res (list XR)) : Prop :=
  forall X y r, In r X -> In NaN r -> solve X y = Err LinAlgError.
