(** Property theorem C197: the reweighting of rm. *)
From Coq Require Import Reals List Arith Bool Lia Lra.
Import ListNotations.
From Verif Require Import Num Err Vec VecR L_Mat S_Stats S_Weights S_Regress M_Utils M_Preproc M_Robcent M_Msupport M_Rm S_Rm L_Scaling T_Scaling L_Snipls L_Rm L_Rm2 T_Rm S_Irls L_Irls.
Open Scope R_scope.

Theorem C197_rm : forall (env : rm_env R) P f n p X y m calls X0 y0, is_matrix n p X -> (2 <= n)%nat -> (1 <= p)%nat -> length y = n ->
  r_fun P = Some f -> cuts_ok f (resid_cuts env P) -> cuts_ok f (lever_cuts env P p) ->
  rm_scaled env P X y X0 y0 -> rm_run env P X y = (calls, Ok m) ->
  reweighting env P f p y X0 y0 calls (rm_coef_scaled m) (rm_cw m).
Proof. exact irls_l. Qed.
Print Assumptions C197_rm.

(** a fit that meets the hypotheses *)
Example C197_case : (exists calls m, rm_run rmR (PR CMean SStd) X3 y3' = (calls, Ok m)) /\ is_matrix 3 2 X3 /\
  r_fun (PR CMean SStd) = Some MHampel /\ cuts_ok MHampel (resid_cuts rmR (PR CMean SStd)) /\ cuts_ok MHampel (lever_cuts rmR (PR CMean SStd) 2) /\
  exists X0 y0, rm_scaled rmR (PR CMean SStd) X3 y3' X0 y0.
Proof.
  split.
  { destruct rm_case with (c := @CMean R) (s := @SStd R) as [m E]; [left; auto|left; auto|intros [E _]; discriminate|]. unfold rm_fit in E.
    destruct (rm_run rmR (PR CMean SStd) X3 y3') as [calls r]. cbn in E. subst r. eauto. }
  split; [apply X3_matrix|]. split; [reflexivity|].
  split; [unfold cuts_ok, resid_cuts; cbn; lra|]. split; [unfold cuts_ok, lever_cuts, resid_cuts; cbn; lra|].
  destruct (ft_plain env0 (new_scaler CMean SStd 0) 3 2 (A2 X3) X3) as (st & Y & _ & _ & E & _); auto; try lia; [apply X3_matrix|left; auto|left; auto|].
  destruct (ft_plain env0 (new_scaler CMean SStd 0) 3 1 (A2 (as_column y3')) (as_column y3')) as (st' & Y' & _ & _ & E' & W' & _); auto; try lia; [apply (as_column_wf y3')|left; auto|left; auto|].
  exists Y, (col 0 Y'). split; [exists st; exact E|]. exists st'. rewrite (as_column_col 3 Y' W'). exact E'.
Qed.
