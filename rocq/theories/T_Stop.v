(** Property theorem C203: when the reweighting of rm ends. *)
From Coq Require Import Reals List Arith Bool Lia Lra.
Import ListNotations.
From Verif Require Import Num Err Vec VecR L_Mat S_Stats S_Weights S_Regress M_Utils M_Preproc M_Robcent M_Msupport M_Rm S_Rm L_Scaling T_Scaling L_Snipls L_Rm L_Rm2 T_Rm S_Irls L_Irls T_Irls S_Stop L_Stop.
Open Scope R_scope.

Theorem C203_rm : forall (env : rm_env R) P f n p X y m calls X0 y0, is_matrix n p X -> (2 <= n)%nat -> (1 <= p)%nat -> length y = n ->
  r_fun P = Some f -> cuts_ok f (resid_cuts env P) -> cuts_ok f (lever_cuts env P p) ->
  rm_scaled env P X y X0 y0 -> rm_run env P X y = (calls, Ok m) ->
  stopping env P f p X0 y0 calls (rm_coef_scaled m) (rm_cw m).
Proof. exact stop_l. Qed.
Print Assumptions C203_rm.

(** a fit that meets the hypotheses *)
Example C203_case : exists calls m X0 y0, rm_run rmR (PR CMean SStd) X3 y3' = (calls, Ok m) /\ stopping rmR (PR CMean SStd) MHampel 2 X0 y0 calls (rm_coef_scaled m) (rm_cw m).
Proof.
  destruct C197_case as ((calls & m & E) & HX & Hf & C1 & C2 & X0 & y0 & HS). exists calls, m, X0, y0. split; [exact E|].
  apply (C203_rm rmR (PR CMean SStd) MHampel 3 2 X3 y3' m calls X0 y0); auto; lia.
Qed.
