(** Property theorems C175-C176: projection pursuit with a (co)variance as
    projection index. *)

From Coq Require Import String Reals List Arith ZArith Bool Lia Lra.
Import List. Import ListNotations.
From Verif Require Import Num Err Vec S_Stats S_Dicomo S_Regress M_Utils M_Preproc M_Robcent M_Dicomo M_Ppdire M_PpWorld S_Ppdire S_Ppdire2 S_Pca M_Snipls L_Snipls2 L_Scaling2 L_Pca2 L_PcaEx L_Pls L_Pls2 L_PlsEx.
Import List. Open Scope R_scope.

(* ------------------------------------------------------------------ *)
(** C175: with the variance as index, mean centring and an optimiser that is right
    whenever it answers, the weights are unit eigenvectors of the sample
    covariance matrix of the scaled data, mutually orthogonal; Maxobjf_ holds the
    eigenvalues; the scores are the projections of the scaled data (not only of the
    deflated data) and mutually orthogonal; component i has the largest variance
    among the directions orthogonal to the earlier ones. *)
Theorem C175_principal_components : forall (env : pp_env R) prm d X f prm' d' m n p dc s, is_matrix n p X -> (2 <= n)%nat -> direct_fit prm n p -> pp_init prm = Ok prm ->
  pp_optim prm <> OGrid -> exact_optimiser env (pp_optim prm) -> pp_center prm = CMean -> pp_center_data prm = true -> pp_trim prm = 0 ->
  ix_new (pp_idx prm) = Ok (fit_result dc s) -> configured s "arithmetic" "var" "mean" ->
  pp_fit env prm d X f = (prm', d', Ok m) -> (0 < pp_ncomp prm')%nat ->
  (forall i, (i < pp_ncomp prm')%nat -> 0 < nth i (pm_max m) 0) ->
  exists Z, scaled_by n p X (pm_loc m) (pm_sca m) Z /\
    forall i, (i < pp_ncomp prm')%nat ->
      let w := column i (pm_W m) in let C := sample_cov (f_bias f) n Z in
      length w = p /\ sqlen w = 1 /\ eigen_pair p C w (nth i (pm_max m) 0) /\
      column i (pm_T m) = map (fun r => inner r w) Z /\
      (forall k, (k < i)%nat -> orthogonal w (column k (pm_W m)) /\ orthogonal (column i (pm_T m)) (column k (pm_T m))) /\
      (forall u, length u = p -> sqlen u = 1 -> (forall k, (k < i)%nat -> orthogonal u (column k (pm_W m))) -> quadratic p C u <= nth i (pm_max m) 0).
Proof. exact C175_l. Qed.
Print Assumptions C175_principal_components.
(** in particular Maxobjf_ decreases *)
Theorem C175_decreasing : forall (env : pp_env R) prm d X f prm' d' m n p dc s, is_matrix n p X -> (2 <= n)%nat -> direct_fit prm n p -> pp_init prm = Ok prm ->
  pp_optim prm <> OGrid -> exact_optimiser env (pp_optim prm) -> pp_center prm = CMean -> pp_center_data prm = true -> pp_trim prm = 0 ->
  ix_new (pp_idx prm) = Ok (fit_result dc s) -> configured s "arithmetic" "var" "mean" ->
  pp_fit env prm d X f = (prm', d', Ok m) -> (0 < pp_ncomp prm')%nat ->
  (forall i, (i < pp_ncomp prm')%nat -> 0 < nth i (pm_max m) 0) ->
  forall i k, (i <= k)%nat -> (k < pp_ncomp prm')%nat -> nth k (pm_max m) 0 <= nth i (pm_max m) 0.
Proof. exact C175_decreasing_l. Qed.
Print Assumptions C175_decreasing.
(** four cases, two components with variances 9/2 and 1/2 *)
Example C175_case : is_matrix 4 2 XP /\ direct_fit prmP 4 2 /\ pp_init prmP = Ok prmP /\ pp_optim prmP <> OGrid /\ exact_optimiser envP (pp_optim prmP) /\
  pp_center prmP = CMean /\ pp_center_data prmP = true /\ pp_trim prmP = 0 /\ ix_new (pp_idx prmP) = Ok (fit_result dcP stP) /\ configured stP "arithmetic" "var" "mean" /\
  exists m, pp_fit envP prmP [] XP fP = (prmP, [], Ok m) /\ pm_W m = [[1; 0]; [0; 1]] /\ pm_max m = [9 / 2; 1 / 2] /\ forall i, (i < pp_ncomp prmP)%nat -> 0 < nth i (pm_max m) 0.
Proof.
  split; [exact XP_wf|]. split; [split; [reflexivity|left; reflexivity]|]. split; [reflexivity|]. split; [discriminate|]. split; [apply envP_exact|].
  repeat (split; [reflexivity|]). split; [repeat split|]. destruct fit_P as (m & E & HW & Hm). exists m. split; [exact E|]. split; [exact HW|]. split; [exact Hm|].
  rewrite Hm. intros [|[|i]] Hi; cbn in *; [lra|lra|lia].
Qed.

(* ------------------------------------------------------------------ *)
(** C176: with the covariance with the response as index, mean centring and an
    optimiser that is right whenever it answers, ppdire is partial least squares.
    Weight i is the vector of covariances of the response with the columns of the
    data deflated by the earlier scores, divided by its length; Maxobjf_ is that
    length times the finite-sample factor over n. *)
Theorem C176_pls_weights : forall (env : pp_env R) prm d X f prm' d' m n p dc s v, is_matrix n p X -> (2 <= n)%nat -> direct_fit prm n p -> pp_init prm = Ok prm ->
  pp_optim prm <> OGrid -> exact_optimiser env (pp_optim prm) -> pp_center prm = CMean -> pp_center_data prm = true -> pp_trim prm = 0 ->
  ix_new (pp_idx prm) = Ok (fit_result dc s) -> configured s "arithmetic" "cov" "mean" -> has_response (f_y f) v ->
  pp_fit env prm d X f = (prm', d', Ok m) -> (0 < pp_ncomp prm')%nat ->
  (forall i, (i < pp_ncomp prm')%nat -> 0 < nth i (pm_max m) 0) ->
  exists Z ym, scaled_by n p X (pm_loc m) (pm_sca m) Z /\ pm_y m = Some ym /\
    let ys := map (fun a => (a - ym_loc ym) / (if Req_EM_T (ym_sca ym) 0 then 1 else ym_sca ym)) v in
    forall i, (i < pp_ncomp prm')%nat ->
      let E := deflate_all p Z (first_columns i (pm_T m)) in
      let c := map (fun j => inner (column j E) ys) (seq 0 p) in
      0 < sqlen c /\ column i (pm_W m) = map (fun a => a / sqrt (sqlen c)) c /\
      inner (column i (pm_T m)) ys = sqrt (sqlen c) /\
      nth i (pm_max m) 0 = bessel (f_bias f) n * (sqrt (sqlen c) / INR n).
Proof. exact C176_weights_l. Qed.
Print Assumptions C176_pls_weights.
(** the other implementation of partial least squares, snipls without sparsity
    (eta = 0), has the same weights, scores and (for regopt 'OLS') inner coefficients;
    the same loadings too unless the first weight vector has a zero entry. *)
Theorem C176_same_as_snipls : forall (env : pp_env R) prm d X f prm' d' m n p dc s inv v fs, is_matrix n p X -> (2 <= n)%nat -> direct_fit prm n p -> pp_init prm = Ok prm ->
  pp_optim prm <> OGrid -> exact_optimiser env (pp_optim prm) -> pp_center prm = CMean -> pp_center_data prm = true -> pp_trim prm = 0 ->
  ix_new (pp_idx prm) = Ok (fit_result dc s) -> configured s "arithmetic" "cov" "mean" -> has_response (f_y f) v ->
  pp_fit env prm d X f = (prm', d', Ok m) -> (0 < pp_ncomp prm')%nat ->
  (forall i, (i < pp_ncomp prm')%nat -> 0 < nth i (pm_max m) 0) ->
  snipls_fit (pe_prep env) inv 0 (pp_ncomp prm') CMean (if pp_scale_data prm then SStd else SNone) X v = Ok fs ->
  sn_W fs = pm_W m /\ sn_T fs = pm_T m /\ length (sn_C fs) = pp_ncomp prm' /\
  ((forall j, (j < p)%nat -> nth j (column 0 (pm_W m)) 0 <> 0) -> sn_P fs = pm_P m) /\
  (pp_regopt prm = "OLS"%string -> exists ym, pm_y m = Some ym /\ sn_C fs = ym_C ym).
Proof. exact C176_l. Qed.
Print Assumptions C176_same_as_snipls.
(** and the same fitted values, when both matrix inverses are right and no scale is zero *)
Theorem C176_same_fitted_values : forall (env : pp_env R) prm d X f prm' d' m n p dc s inv v fs, is_matrix n p X -> (2 <= n)%nat -> direct_fit prm n p -> pp_init prm = Ok prm ->
  pp_optim prm <> OGrid -> exact_optimiser env (pp_optim prm) -> pp_center prm = CMean -> pp_center_data prm = true -> pp_trim prm = 0 ->
  ix_new (pp_idx prm) = Ok (fit_result dc s) -> configured s "arithmetic" "cov" "mean" -> has_response (f_y f) v ->
  pp_fit env prm d X f = (prm', d', Ok m) -> (0 < pp_ncomp prm')%nat ->
  (forall i, (i < pp_ncomp prm')%nat -> 0 < nth i (pm_max m) 0) ->
  snipls_fit (pe_prep env) inv 0 (pp_ncomp prm') CMean (if pp_scale_data prm then SStd else SNone) X v = Ok fs ->
  penrose (pe_pinv env) -> inverse_ok inv -> pp_regopt prm = "OLS"%string ->
  (forall j, (j < p)%nat -> nth j (pm_sca m) 0 <> 0) -> (forall ym, pm_y m = Some ym -> ym_sca ym <> 0) ->
  exists ym, pm_y m = Some ym /\ sn_fitted fs = ym_fitted ym.
Proof. exact C176_fitted_l. Qed.
Print Assumptions C176_same_fitted_values.
(** four cases; the response has covariance 5/2 with the direction (3/5, 4/5) *)
Example C176_case : is_matrix 4 2 XP /\ direct_fit prmC 4 2 /\ pp_init prmC = Ok prmC /\ pp_optim prmC <> OGrid /\ exact_optimiser envC (pp_optim prmC) /\
  pp_center prmC = CMean /\ pp_center_data prmC = true /\ pp_trim prmC = 0 /\ ix_new (pp_idx prmC) = Ok (fit_result dcP stC) /\ configured stC "arithmetic" "cov" "mean" /\
  has_response (f_y fC) yC /\ penrose (pe_pinv envC) /\ inverse_ok invC /\ pp_regopt prmC = "OLS"%string /\
  exists m fs, pp_fit envC prmC [] XP fC = (prmC, [], Ok m) /\ pm_W m = [[3/5]; [4/5]] /\ (forall i, (i < pp_ncomp prmC)%nat -> 0 < nth i (pm_max m) 0) /\
    snipls_fit (pe_prep envC) invC 0 (pp_ncomp prmC) CMean (if pp_scale_data prmC then SStd else SNone) XP yC = Ok fs /\
    (forall j, (j < 2)%nat -> nth j (column 0 (pm_W m)) 0 <> 0) /\ (forall j, (j < 2)%nat -> nth j (pm_sca m) 0 <> 0) /\ (forall ym, pm_y m = Some ym -> ym_sca ym <> 0).
Proof.
  split; [exact XP_wf|]. split; [split; [reflexivity|left; reflexivity]|]. split; [reflexivity|]. split; [discriminate|]. split; [apply envC_exact|].
  repeat (split; [reflexivity|]). split; [repeat split|]. split; [exists (A1 yC); split; [left; reflexivity|left; reflexivity]|].
  split; [apply invC_ok|]. split; [apply invC_ok|]. split; [reflexivity|].
  destruct fit_C as (m & ym & E & HW & Hm & Hs & Hy & Hys).
  destruct (one_component (pe_prep envC) invC 0 CMean SNone 4 2 XP yC XP_wf ltac:(lia) ltac:(lia) eq_refl ltac:(left; reflexivity) ltac:(right; right; reflexivity) ltac:(lra) ltac:(apply invC_ok)) as (fs & Efs & _).
  exists m, fs. split; [exact E|]. split; [exact HW|]. split; [rewrite Hm; intros [|i] Hi; cbn in *; [lra|lia]|]. split; [exact Efs|].
  split; [rewrite HW; intros [|[|j]] Hj; cbn; [lra|lra|lia]|]. split; [rewrite Hs; intros [|[|j]] Hj; cbn; [lra|lra|lia]|].
  intros ym' Hy'. rewrite Hy in Hy'. injection Hy' as <-. rewrite Hys. lra.
Qed.
