(** C177: the first components do not depend on how many are asked for *)
From Coq Require Import String Reals List Arith ZArith Bool Lia Lra.
Import List. Import ListNotations.
From Verif Require Import Num Err Vec M_Utils M_Preproc M_Robcent M_Dicomo M_Snipls M_Ppdire M_SdrUtils M_Sudire S_Stats S_Regress S_Nested L_Scaling L_Snipls2 L_Snipls3
  L_Nested L_Nested2 L_Nested3 L_NestedEx L_PcaEx L_PlsEx L_SdrEx T_Sudire.
Open Scope R_scope.

(** snipls, for any number system (missing values included): the smaller of two
    fits is the first columns of the larger.  [map (firstn k)] of a matrix given
    by its rows keeps its first k columns. *)
Theorem C177_snipls : forall (A : Type) (NA : Num A) (env : prep_env A) inv eta k k' c s X y m m',
  (k' <= k)%nat -> snipls_fit env inv eta k c s X y = Ok m -> snipls_fit env inv eta k' c s X y = Ok m' ->
  sn_W m' = map (firstn k') (sn_W m) /\ sn_P m' = map (firstn k') (sn_P m) /\ sn_T m' = map (firstn k') (sn_T m) /\
  sn_C m' = firstn k' (sn_C m) /\ sn_xev m' = firstn k' (sn_xev m) /\ sn_yev m' = firstn k' (sn_yev m) /\
  sn_retained m' = firstn k' (sn_retained m) /\
  sn_xloc m' = sn_xloc m /\ sn_xsca m' = sn_xsca m /\ sn_yloc m' = sn_yloc m /\ sn_ysca m' = sn_ysca m.
Proof. intros A NA. exact C177_snipls_l. Qed.
Print Assumptions C177_snipls.

(** a further component never makes the fit to the training data worse *)
Theorem C177_more_fit_better : forall env inv eta k k' c s n p X y f f' X0 y0, (k' <= k)%nat -> inverse_ok inv ->
  snipls_run env inv eta k c s n p X y f X0 y0 -> snipls_run env inv eta k' c s n p X y f' X0 y0 ->
  sqlen (vdiff y0 (fitted_by X0 (sn_coef_scaled f))) <= sqlen (vdiff y0 (fitted_by X0 (sn_coef_scaled f'))).
Proof. exact C177_better_l. Qed.
Print Assumptions C177_more_fit_better.
Theorem C177_residuals_shrink : forall (env : pp_env R) inv eta k k' s n p X y f f' X0 y0, (k' <= k)%nat -> plain_scale s -> inverse_ok inv ->
  snipls_run (pe_prep env) inv eta k CMean s n p X y f X0 y0 -> snipls_run (pe_prep env) inv eta k' CMean s n p X y f' X0 y0 ->
  nonzero_scores f -> (forall j, (j < p)%nat -> nth j (sn_xsca f) 0 <> 0) -> nth 0 (sn_ysca f) 0 <> 0 ->
  sqlen (sn_resid f) <= sqlen (sn_resid f').
Proof. exact C177_residuals_l. Qed.
Print Assumptions C177_residuals_shrink.
Example C177_snipls_case : inverse_ok inv2 /\ plain_scale (@SNone R) /\ exists f1 f2, snipls_run (pe_prep envC) inv2 (3/4) 1 CMean SNone 4 2 XP yN f1 XP yN /\ snipls_run (pe_prep envC) inv2 (3/4) 2 CMean SNone 4 2 XP yN f2 XP yN /\
  sn_W f2 = [[1/5; 0]; [0; 1/4]] /\ sn_W f1 = [[1/5]; [0]] /\ nonzero_scores f2 /\ sn_xsca f2 = [1; 1] /\ sn_ysca f2 = [1].
Proof. split; [exact inv2_ok|]. split; [right; right; reflexivity|exact fit_N]. Qed.

(** ppdire, for any projection index, optimiser and regression option: the fit
    with fewer components is the first columns of the larger (and exists, next theorem); the
    columns of coef_ of the larger are the coefficients of the smaller fits *)
Theorem C177_ppdire : forall (env : pp_env R) prm prm' d X f f' q1 d1 m q2 d2 m', same_call prm prm' f f' -> (asked prm' f' <= asked prm f)%nat ->
  pp_fit env prm d X f = (q1, d1, Ok m) -> pp_fit env prm' d X f' = (q2, d2, Ok m') ->
  let k := asked prm' f' in
  pm_W m' = map (firstn k) (pm_W m) /\ pm_P m' = map (firstn k) (pm_P m) /\ pm_T m' = map (firstn k) (pm_T m) /\
  pm_max m' = firstn k (pm_max m) /\ pm_crit m' = firstn k (pm_crit m) /\ pm_loc m' = pm_loc m /\ pm_sca m' = pm_sca m /\
  match pm_y m, pm_y m' with
  | None, None => True
  | Some u, Some v => ym_coef v = map (firstn k) (ym_coef u) /\ ym_coef_scaled v = map (firstn k) (ym_coef_scaled u) /\ ym_C v = firstn k (ym_C u) /\
      ym_loc v = ym_loc u /\ ym_sca v = ym_sca u
  | _, _ => False
  end.
Proof. exact C177_ppdire_l. Qed.
Print Assumptions C177_ppdire.
Theorem C177_ppdire_fewer : forall (env : pp_env R) prm prm' d X f f' q1 d1 m, same_call prm prm' f f' -> (0 < asked prm' f' <= asked prm f)%nat ->
  pp_fit env prm d X f = (q1, d1, Ok m) -> exists q2 d2 m', pp_fit env prm' d X f' = (q2, d2, Ok m').
Proof. exact C177_fewer_l. Qed.
Print Assumptions C177_ppdire_fewer.
Definition fP1 : fkw R := mk_fkw YNone (Some 1%nat) false None None.
Example C177_ppdire_case : same_call prmP prmP fP fP1 /\ asked prmP fP = 2%nat /\ asked prmP fP1 = 1%nat /\
  exists m, pp_fit envP prmP [] XP fP = (prmP, [], Ok m) /\ pm_W m = [[1; 0]; [0; 1]] /\
  exists q2 d2 m', pp_fit envP prmP [] XP fP1 = (q2, d2, Ok m') /\ pm_W m' = [[1]; [0]].
Proof.
  assert (HS : same_call prmP prmP fP fP1) by (repeat split).
  split; [exact HS|]. split; [reflexivity|]. split; [reflexivity|]. destruct fit_P as (m & E & EW & _). exists m. split; [exact E|]. split; [exact EW|].
  destruct (C177_fewer_l envP prmP prmP [] XP fP fP1 _ _ _ HS ltac:(cbn; lia) E) as (q2 & d2 & m' & E'). exists q2, d2, m'. split; [exact E'|].
  destruct (C177_ppdire_l envP prmP prmP [] XP fP fP1 _ _ _ _ _ _ HS ltac:(cbn; lia) E E') as (H & _). rewrite H, EW. reflexivity.
Qed.

(** sudire: the same for the methods without optimisation *)
Theorem C177_sudire : forall (env : sd_env R) st st' X y metric bias s1 m s2 m',
  same_sudire (ss_prm st) (ss_prm st') -> direct_method (sp_meth (ss_prm st)) -> sp_copy (ss_prm st) = true ->
  (sp_ncomp (ss_prm st') <= sp_ncomp (ss_prm st))%nat ->
  sd_fit env st X y metric bias = (s1, Ok m) -> sd_fit env st' X y metric bias = (s2, Ok m') ->
  let k := sp_ncomp (ss_prm st') in
  sm_P m' = map (firstn k) (sm_P m) /\ sm_T m' = map (firstn k) (sm_T m) /\ sm_K m' = sm_K m /\ sm_loc m' = sm_loc m /\ sm_sca m' = sm_sca m.
Proof. exact C177_sudire_l. Qed.
Print Assumptions C177_sudire.
Example C177_sudire_case : same_sudire (ss_prm (ex_st (@MPhd R) 2 false false [])) (ss_prm (ex_st (@MPhd R) 1 false false [])) /\
  (exists st' m, sd_fit ex_env1 (ex_st MPhd 1 false false []) X7 (A1 y7) euclid false = (st', Ok m)) /\
  (exists st' m, sd_fit ex_env1 (ex_st MPhd 2 false false []) X7 (A1 y7) euclid false = (st', Ok m)).
Proof. split; [repeat split|]. apply C76_case. Qed.
