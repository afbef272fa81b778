(** Specification vocabulary for robust M-regression. *)

From Coq Require Import Reals List Arith.
Import ListNotations.
From Verif Require Import Num M_Msupport S_Weights M_Robcent M_Rm.
Open Scope R_scope.

(** an extended real that is missing or a number in [0,1] *)
Definition unit_or_nan (v : XR) : Prop := v = NaN \/ exists r, v = Fin r /\ 0 <= r <= 1.
(** missing, zero, or a number in [1e-6, 1] *)
Definition caseweight_ok (v : XR) : Prop :=
  v = NaN \/ v = Fin 0 \/ exists r, v = Fin r /\ 1 / 1000000 <= r <= 1.

(** missing, or the square root of a weight in [1e-6, 1] *)
Definition inner_weight (v : XR) : Prop := v = NaN \/ exists r, v = Fin r /\ 1 / 1000 <= r <= 1.

(** the cut-offs used by the fit are real numbers on which the weight functions
    are the textbook ones *)
Definition finite_cutoffs (f : mfun) (c b r : XR) : Prop :=
  exists c' b' r', c = Fin c' /\ b = Fin b' /\ r = Fin r' /\ cutoffs_ok f c' b' r'.

(** the parameter combinations that the documentation declares invalid *)
Definition invalid_rm (P : rm_par R) : Prop :=
  r_fun P = None \/ ~ (0 < r_p1 P <= 1) \/
  (r_fun P = Some MHampel /\ ~ (r_p1 P < r_p2 P /\ r_p2 P < r_p3 P /\ r_p3 P <= 1)).
