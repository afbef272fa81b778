(** Property theorem C204: when the reweighting of sprm ends. *)
From Coq Require Import Reals String List Arith ZArith Bool Lia Lra.
Import ListNotations.
Import List.
From Verif Require Import Num Err Vec VecR L_Mat S_Stats S_Weights S_Regress M_Utils M_Preproc M_Robcent M_Msupport M_Rm M_Snipls S_Rm L_Scaling L_Scaling2 T_Scaling L_Snipls L_Snipls2 L_Snipls3 L_Rm L_Rm2 T_Rm
  M_Sprm S_Sprm L_Sprm L_Sprm2 L_Sprm3 L_Sprm4 T_Sprm S_Irls S_IrlsSp L_IrlsSp T_IrlsSp S_Stop S_StopSp L_StopSp.
Open Scope R_scope.

(** [P'] are the parameters of the instance after the fit *)
Theorem C204_sprm : forall (env : sp_env R) P df f h n p X y P' m calls X0 y0, is_matrix n p X -> (2 <= n)%nat -> (1 <= p)%nat -> svd_rows env ->
  s_fun P' = Some f -> s_ncomp P' = NInt (Z.of_nat h) -> cuts_ok f (normal_cuts env P') -> (forall d, (1 <= d)%nat -> cuts_ok f (chi2_cuts env P' d)) ->
  sprm_run env P df X y = (P', (calls, Ok m)) -> rm_scaled (se_rm env) (sp_rm P') X y X0 y0 -> length (sp_xsca m) = p ->
  stopping_sp env P' f h (select (nonzero_positions (sp_xsca m)) X0) y0 calls (sp_coef_scaled m) (sp_cw m).
Proof. exact stop_sp_l. Qed.
Print Assumptions C204_sprm.

(** a fit that meets the hypotheses *)
Example C204_case : exists calls m X0 y0, sprm_run spR S8 None X3 y3' = (S8, (calls, Ok m)) /\
  stopping_sp spR S8 MHampel 1 (select (nonzero_positions (sp_xsca m)) X0) y0 calls (sp_coef_scaled m) (sp_cw m).
Proof.
  destruct C198_case as ((calls & m & E & L) & HX & Hr & Hf & Hh & C1 & C2 & X0 & y0 & HS). exists calls, m, X0, y0. split; [exact E|].
  apply (C204_sprm spR S8 None MHampel 1 3 2 X3 y3' S8 m calls X0 y0); auto; lia.
Qed.
