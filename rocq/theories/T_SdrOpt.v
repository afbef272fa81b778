(** Property theorems C173: the optimised methods of sudire attain the optimum of
    the criterion they are named after. *)

From Coq Require Import String Reals QArith List Arith ZArith Bool Lia Lra.
Import List. Import ListNotations.
From Verif Require Import Num Err Vec VecR S_Stats S_Regress M_Utils M_Preproc M_Robcent M_Dicomo M_Ipopt M_SdrUtils M_Sudire S_Dicomo S_Sudire S_SdrDim S_SdrOpt
  L_SdrEx L_SdrFit L_SdrFit2 L_SdrFit3 L_SdrOpt L_SdrOptEx T_Sudire.
Import List. Open Scope R_scope.

(** Given a solver whose answers are constrained minima, a successful fit with
    sudiremeth 'dcov-sdr' has directions P with P' cov(X) P = I, and its scores
    have the largest distance covariance with the response among the scores X C of
    all matrices C with C' cov(X) C = I: whatever scale_data, center_data and
    compression are, for every starting value and every response. *)
Theorem C173_dcov : forall env st st' X y bias m n p,
  svd_shapes (se_svd env) -> isqrt_ok (se_isqrt env) -> eigh_ok (se_eigh env) -> optimal (se_ipopt env) ->
  is_matrix n p X -> (2 <= n)%nat -> (0 < p)%nat ->
  sp_copy (ss_prm st) = true -> sp_whiten (ss_prm st) = false -> sp_center (ss_prm st) = CMean -> sp_trim (ss_prm st) = 0 -> ss_cons st = None -> ss_args st = None ->
  sp_meth (ss_prm st) = MDcov -> sd_fit env st X y euclid bias = (st', Ok m) ->
  let h := sp_ncomp (ss_prm st) in
  sigma_orthonormal p h X (sm_P m) /\
  forall C, is_matrix p h C -> sigma_orthonormal p h X C ->
    dcov_sq n (matmul X C) (map (fun v => [v]) (M_Dicomo.flat y)) <= dcov_sq n (sm_T m) (map (fun v => [v]) (M_Dicomo.flat y)).
Proof. exact maximal_dcov. Qed.
Print Assumptions C173_dcov.

(** the same for 'mdd-sdr' and the martingale difference divergence *)
Theorem C173_mdd : forall env st st' X y metric m n p,
  svd_shapes (se_svd env) -> isqrt_ok (se_isqrt env) -> eigh_ok (se_eigh env) -> optimal (se_ipopt env) ->
  is_matrix n p X -> (2 <= n)%nat -> (0 < p)%nat ->
  sp_copy (ss_prm st) = true -> sp_whiten (ss_prm st) = false -> sp_center (ss_prm st) = CMean -> sp_trim (ss_prm st) = 0 -> ss_cons st = None -> ss_args st = None ->
  sp_meth (ss_prm st) = MMdd -> sd_fit env st X y metric false = (st', Ok m) ->
  let h := sp_ncomp (ss_prm st) in
  sigma_orthonormal p h X (sm_P m) /\
  forall C, is_matrix p h C -> sigma_orthonormal p h X C -> mdd_sq n (matmul X C) (M_Dicomo.flat y) <= mdd_sq n (sm_T m) (M_Dicomo.flat y).
Proof. exact maximal_mdd. Qed.
Print Assumptions C173_mdd.

(** Five points in the plane with unit covariance, a response which singles out
    the point in the centre: the solver answers, and the optimum is the first axis. *)
Example C173_case : svd_shapes (se_svd (ex_env inv_id (sure [1; 0]) zero_ols)) /\ isqrt_ok (se_isqrt (ex_env inv_id (sure [1; 0]) zero_ols)) /\
  eigh_ok (se_eigh (ex_env inv_id (sure [1; 0]) zero_ols)) /\ optimal (se_ipopt (ex_env inv_id (sure [1; 0]) zero_ols)) /\ is_matrix 5 2 X5 /\
  (forall meth, meth = MDcov \/ meth = MMdd ->
    exists st' m, sd_fit (ex_env inv_id (sure [1; 0]) zero_ols) (mk_ss (ex_prm meth 1 false false) None (Some [1; 0]) None None []) X5 (A1 y5e) euclid false = (st', Ok m) /\ sm_P m = [[1]; [0]]) /\
  dcov_sq 5 (matmul X5 [[3 / 5]; [4 / 5]]) (map (fun v => [v]) y5e) < dcov_sq 5 (matmul X5 [[1]; [0]]) (map (fun v => [v]) y5e).
Proof.
  split; [exact no_svd2_ok|]. split; [exact inv_id_isqrt|]. split; [exact eigh2_ok|]. split; [apply sure_optimal|]. split; [exact X5_wf|].
  split; [intros meth Hm; apply (ex_fit_sure zero_ols [] meth zero_ols_total Hm)|].
  rewrite !X5_dcov. unfold Rabs. repeat destruct (Rcase_abs _); lra.
Qed.
