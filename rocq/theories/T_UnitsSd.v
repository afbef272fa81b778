(** Theorems: sufficient dimension reduction under linear changes of the data (C159) *)

From Coq Require Import String Reals List Arith ZArith Bool Lra Lia.
Import List. Import ListNotations.
From Verif Require Import Num Err Vec VecR S_Stats M_Utils M_Preproc M_Robcent M_Dicomo M_Ipopt M_SdrUtils M_Sudire S_Sudire S_UnitsSd L_SdrMat L_SdrEig L_SdrCov L_SdrEx L_EqMat L_EqKer L_EqFit L_EqSd L_EqEx.
Open Scope R_scope.

(* ------------------------------------------------------------------ *)
(** C159: X is replaced by X A + 1 c', the response stays.  The new directions
    are the old ones expressed in the new variables, up to an orthogonal matrix
    (a sign for one component), and the scores change by the same orthogonal
    matrix and a constant row.  A singular A is excluded by the second fit. *)
Theorem C159_directions : forall env st X X' A c y metric bias st1 st2 m m' n p kernel,
  svd_shapes (se_svd env) -> isqrt_ok (se_isqrt env) -> eigh_ok (se_eigh env) ->
  is_matrix n p X -> linear_change n p X A c X' -> (2 <= n)%nat -> (0 < p)%nat ->
  sp_copy (ss_prm st) = true -> sp_whiten (ss_prm st) = false -> sp_center (ss_prm st) = CMean -> sp_center_data (ss_prm st) = true -> sp_scale_data (ss_prm st) = true ->
  method_matrix (sp_meth (ss_prm st)) (sp_slices (ss_prm st)) (sp_cont (ss_prm st)) p y kernel -> separated n p (sp_ncomp (ss_prm st)) X kernel ->
  sd_fit env st X (A1 y) metric bias = (st1, Ok m) -> sd_fit env st X' (A1 y) metric bias = (st2, Ok m') ->
  let h := sp_ncomp (ss_prm st) in
  exists C, orthogonal_matrix h C /\
    (forall i j, (i < p)%nat -> (j < h)%nat -> sum_to p (fun a => cell A i a * cell (sm_P m') a j) = sum_to h (fun a => cell (sm_P m) i a * cell C a j)) /\
    (forall i j, (i < n)%nat -> (j < h)%nat -> cell (sm_T m') i j = sum_to h (fun a => cell (sm_T m) i a * cell C a j) + sum_to p (fun a => c a * cell (sm_P m') a j)).
Proof. exact fit_linear. Qed.
Print Assumptions C159_directions.

(** With a correct routine for least squares, the fitted values are the same, and
    so are the predictions for new data in the new variables. *)
Theorem C159_predictions : forall env st X X' A c y metric bias st1 st2 m m' n p kernel,
  svd_shapes (se_svd env) -> isqrt_ok (se_isqrt env) -> eigh_ok (se_eigh env) ->
  is_matrix n p X -> linear_change n p X A c X' -> (2 <= n)%nat -> (0 < p)%nat ->
  sp_copy (ss_prm st) = true -> sp_whiten (ss_prm st) = false -> sp_center (ss_prm st) = CMean -> sp_center_data (ss_prm st) = true -> sp_scale_data (ss_prm st) = true ->
  method_matrix (sp_meth (ss_prm st)) (sp_slices (ss_prm st)) (sp_cont (ss_prm st)) p y kernel -> separated n p (sp_ncomp (ss_prm st)) X kernel ->
  sd_fit env st X (A1 y) metric bias = (st1, Ok m) -> sd_fit env st X' (A1 y) metric bias = (st2, Ok m') ->
  least_squares (se_ols env) ->
  sm_fitted m' = sm_fitted m /\
  forall k Y Y' z z', (0 < k)%nat -> is_matrix k p Y -> linear_change k p Y A c Y' -> sd_predict m Y = Ok z -> sd_predict m' Y' = Ok z' -> z' = z.
Proof. exact fit_predictions. Qed.
Print Assumptions C159_predictions.

Example C159_case : exists st1 st2 m m', let env := ex_env inv_id e1_opt ols_line in let st := ex_st MPhd 1 true true [] in
  svd_shapes (se_svd env) /\ isqrt_ok (se_isqrt env) /\ eigh_ok (se_eigh env) /\ least_squares (se_ols env) /\ is_matrix 5 2 X5 /\ linear_change 5 2 X5 rot (fun _ => 0) X5r /\
  method_matrix MPhd 2 true 2 y5r (fun Z => response_weighted Z y5r) /\ separated 5 2 1 X5 (fun Z => response_weighted Z y5r) /\
  sd_fit env st X5 (A1 y5r) euclid false = (st1, Ok m) /\ sd_fit env st X5r (A1 y5r) euclid false = (st2, Ok m').
Proof.
  destruct (ex_fit_std X5 X5_wf X5_mean X5_cov_entry e1_opt ols_line y5r 1 euclid false [] ltac:(intros B WB OB; apply ols_line_total; auto using X5_wf, X5_mean, X5_cov_entry) eq_refl ltac:(lia)) as [st1 [m E1]].
  destruct (ex_fit_std X5r (proj1 X5r_change) X5r_mean X5r_cov e1_opt ols_line y5r 1 euclid false [] ltac:(intros B WB OB; apply ols_line_total; auto using X5r_mean, X5r_cov; exact (proj1 X5r_change)) eq_refl ltac:(lia)) as [st2 [m' E2]].
  exists st1, st2, m, m'. cbv zeta. split; [exact no_svd2_ok|]. split; [exact inv_id_isqrt|]. split; [exact eigh2_ok|]. split; [exact ols_line_ok|]. split; [exact X5_wf|]. split; [exact X5r_change|].
  split; [reflexivity|]. split; [exact X5_separated|]. split; [exact E1|exact E2].
Qed.
