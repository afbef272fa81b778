(** Data in which more than half of the cases coincide with the centre (C201). *)
From Coq Require Import Reals List Arith.
Import ListNotations.
From Verif Require Import Num M_Robcent M_Preproc M_Msupport M_Rm.
Open Scope R_scope.

(** the rows with all entries zero *)
Definition zero_row (r : list R) : bool := forallb (fun x => if Req_EM_T x 0 then true else false) r.
Definition zero_rows (X : list (list R)) : list (list R) := filter zero_row X.
(** some row is missing altogether *)
Definition row_missing (X : list (list XR)) : Prop := exists r, In r X /\ r <> [] /\ Forall (eq NaN) r.
(** parameters accepted by fit *)
Definition valid_params (P : rm_par XR) : Prop :=
  exists f q1 q2 q3, r_fun P = Some f /\ r_p1 P = Fin q1 /\ r_p2 P = Fin q2 /\ r_p3 P = Fin q3 /\ 0 < q1 <= 1 /\ (f = MHampel -> q1 < q2 /\ q2 < q3 /\ q3 <= 1).
(** the variables [js] of a matrix (C202) *)
Definition kept_vars (js : list nat) (X : list (list XR)) : list (list XR) := map (fun r => map (fun j => nth j r (Fin 0)) js) X.
