(** Property theorem C198: the reweighting of sprm. *)
From Coq Require Import Reals String List Arith ZArith Bool Lia Lra.
Import ListNotations.
Import List.
From Verif Require Import Num Err Vec VecR L_Mat S_Stats S_Weights S_Regress M_Utils M_Preproc M_Robcent M_Msupport M_Rm M_Snipls S_Rm L_Scaling L_Scaling2 T_Scaling L_Snipls L_Snipls2 L_Snipls3 L_Rm L_Rm2 T_Rm
  M_Sprm S_Sprm L_Sprm L_Sprm2 L_Sprm3 L_Sprm4 T_Sprm S_Irls S_IrlsSp L_IrlsSp.
Open Scope R_scope.

(** [P'] are the parameters of the instance after the fit *)
Theorem C198_sprm : forall (env : sp_env R) P df f h n p X y P' m calls X0 y0, is_matrix n p X -> (2 <= n)%nat -> (1 <= p)%nat -> svd_rows env ->
  s_fun P' = Some f -> s_ncomp P' = NInt (Z.of_nat h) -> cuts_ok f (normal_cuts env P') -> (forall d, (1 <= d)%nat -> cuts_ok f (chi2_cuts env P' d)) ->
  sprm_run env P df X y = (P', (calls, Ok m)) -> rm_scaled (se_rm env) (sp_rm P') X y X0 y0 -> length (sp_xsca m) = p ->
  reweighting_sp env P' f h y (select (nonzero_positions (sp_xsca m)) X0) y0 calls (sp_coef_scaled m) (sp_cw m).
Proof. exact irls_sp_l. Qed.
Print Assumptions C198_sprm.

(** a fit that meets the hypotheses *)
Definition S8 : sp_par R := SR 1 CMean SNone true true (ColBool false).
Example C198_case : (exists calls m, sprm_run spR S8 None X3 y3' = (S8, (calls, Ok m)) /\ length (sp_xsca m) = 2%nat) /\ is_matrix 3 2 X3 /\ svd_rows spR /\
  s_fun S8 = Some MHampel /\ s_ncomp S8 = NInt (Z.of_nat 1) /\ cuts_ok MHampel (normal_cuts spR S8) /\ (forall d, (1 <= d)%nat -> cuts_ok MHampel (chi2_cuts spR S8 d)) /\
  exists X0 y0, rm_scaled (se_rm spR) (sp_rm S8) X3 y3' X0 y0.
Proof.
  split.
  { destruct (sp_case CMean true true (ColBool false) None) as [m E]; [left; auto|intros [H _]; discriminate|apply SR_names|left; discriminate|].
    assert (L : length (sp_xsca m) = 2%nat).
    { apply (C46_fit_l spR S8 None 3 2 X3 y3' m); auto. - apply X3_matrix. - left; auto. - right; right; auto. }
    unfold sprm_fit in E. destruct (sprm_run spR S8 None X3 y3') as [P' [calls r]] eqn:ER. unfold S8 in ER. rewrite ER in E. cbn [snd] in E. subst r.
    exists calls, m. split; [|exact L]. assert (EP : P' = S8); [|rewrite EP in *; reflexivity].
    pose proof (C93_unchanged R Num_R spR S8 None X3 y3' eq_refl ltac:(discriminate)) as H. unfold S8 in H at 1. rewrite ER in H. exact H. }
  split; [apply X3_matrix|]. split; [apply spR_rows|]. split; [reflexivity|]. split; [reflexivity|].
  split; [unfold cuts_ok, normal_cuts, resid_cuts; cbn; lra|]. split; [intros d _; unfold cuts_ok, chi2_cuts; cbn; lra|].
  destruct (ft_plain env0 (new_scaler CMean SNone 0) 3 2 (A2 X3) X3) as (st & Y & _ & _ & E & _); auto; try lia; [apply X3_matrix|left; auto|right; right; auto|].
  destruct (ft_plain env0 (new_scaler CMean SNone 0) 3 1 (A2 (as_column y3')) (as_column y3')) as (st' & Y' & _ & _ & E' & W' & _); auto; try lia; [apply (as_column_wf y3')|left; auto|right; right; auto|].
  exists Y, (col 0 Y'). split; [exists st; exact E|]. exists st'. rewrite (as_column_col 3 Y' W'). exact E'.
Qed.
