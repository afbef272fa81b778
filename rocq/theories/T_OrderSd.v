(** Property theorems C136-C138: sufficient dimension reduction with the same
    cases in another order. *)

From Coq Require Import String Reals List Arith Bool Lia Lra Permutation.
Import List. Import ListNotations.
From Verif Require Import Num Err Vec VecR S_Stats L_Mat S_Order L_Order M_Utils M_Preproc M_Robcent M_Dicomo L_OrderDi M_Ipopt M_SdrUtils M_Sudire S_Sudire L_Sdr L_SdrMat L_SdrFit L_SdrFit2 L_SdrFit3
  L_SdrEx S_OrderSd L_OrderSd L_OrderSf L_OrderSx T_Sudire.
Import List. Open Scope R_scope.

(* ------------------------------------------------------------------ *)
(** C136: the sliced methods, with slices for all labels *)
Theorem C136_sliced : forall eigh n p o X y k d continuous center scale,
  eigh_ok eigh -> is_matrix n p X -> (0 < n)%nat -> (0 < p)%nat -> length y = n -> case_order n o -> slices_suffice y k continuous ->
  SIR eigh (reorder o X) (reorder o y) k d continuous center scale = SIR eigh X y k d continuous center scale /\
  SAVE eigh (reorder o X) (reorder o y) k d continuous center scale = SAVE eigh X y k d continuous center scale /\
  DR eigh (reorder o X) (reorder o y) k d continuous center scale = DR eigh X y k d continuous center scale.
Proof. exact sliced_order. Qed.
Print Assumptions C136_sliced.
(** principal Hessian directions, iterative Hessian transformations *)
Theorem C136_moments : forall eigh n p o X y d center scale,
  eigh_ok eigh -> is_matrix n p X -> (0 < n)%nat -> (0 < p)%nat -> length y = n -> case_order n o ->
  PHD eigh (reorder o X) (reorder o y) d center scale = PHD eigh X y d center scale /\
  IHT eigh (reorder o X) (reorder o y) d center scale = IHT eigh X y d center scale.
Proof. exact moments_order. Qed.
Print Assumptions C136_moments.
Definition o7 : list nat := [6; 0; 5; 1; 4; 2; 3]%nat.
Lemma o7_order : case_order 7 o7.
Proof. apply NoDup_Permutation; [apply seq_NoDup|unfold o7; repeat constructor; cbn; intuition lia|]. intros i. rewrite in_seq. unfold o7. cbn. lia. Qed.
Example C136_case : eigh_ok eigh2 /\ is_matrix 7 2 X7 /\ length y7 = 7%nat /\ case_order 7 o7 /\ slices_suffice y7 7 false /\ slices_suffice y7 3 true /\
  (exists B, SIR eigh2 X7 y7 7 1 false true true = Ok B) /\ (exists B, SAVE eigh2 X7 y7 7 1 false true true = Ok B) /\
  (exists B, DR eigh2 X7 y7 7 1 false true true = Ok B) /\ reorder o7 y7 <> y7.
Proof.
  pose proof y7_distinct. pose proof X7_matrix as W. split; [exact eigh2_ok|]. split; [exact W|]. split; [reflexivity|]. split; [exact o7_order|].
  split; [right; lia|]. split; [left; reflexivity|].
  split; [apply (ex_SIR 7); auto; lia|]. split; [apply (ex_SAVE 7); auto; lia|]. split; [apply (ex_DR 7); auto; lia|].
  intros E. unfold y7, o7 in E. cbn in E. injection E. intros. lra.
Qed.
(** with fewer slices than categories the order decides which categories are
    used: two cases of two categories, one slice *)
Theorem C136_categories_refuted :
  ~ (forall eigh n p o X y k d center scale, eigh_ok eigh -> is_matrix n p X -> length y = n -> case_order n o ->
     SIR eigh (reorder o X) (reorder o y) k d false center scale = SIR eigh X y k d false center scale) /\
  (forall eigh B B', eigh_ok eigh -> SIR eigh [[1; 0]; [0; 1]] [1; 2] 1 1 false false false = Ok B ->
     SIR eigh [[0; 1]; [1; 0]] [2; 1] 1 1 false false false = Ok B' -> B' <> B).
Proof. exact categories_refuted. Qed.
Print Assumptions C136_categories_refuted.
Example C136_categories_case : eigh_ok eigh2 /\ exists B B', SIR eigh2 [[1; 0]; [0; 1]] [1; 2] 1 1 false false false = Ok B /\ SIR eigh2 [[0; 1]; [1; 0]] [2; 1] 1 1 false false false = Ok B'.
Proof. split; [exact eigh2_ok|exact few_slices_ok]. Qed.

(* ------------------------------------------------------------------ *)
(** C137: the whole fit *)
Theorem C137_sudire : forall env st n p o X y metric bias,
  eigh_ok (se_eigh env) -> square_shape (se_isqrt env) -> svd_shapes (se_svd env) -> ols_order_free (se_ols env) ->
  (sp_compress (ss_prm st) = true \/ sp_whiten (ss_prm st) = true -> economy_svd_order_free (se_svd env)) -> sp_copy (ss_prm st) = true ->
  sp_center (ss_prm st) = CMean \/ sp_center (ss_prm st) = CMedian -> symmetric_metric metric ->
  is_matrix n p X -> (2 <= n)%nat -> (0 < p)%nat -> cases n y -> (forall ys, sd_response n y = Ok ys -> order_settings st ys) -> case_order n o ->
  match snd (sd_fit env st X y metric bias) with
  | Ok m => snd (sd_fit env st (reorder o X) (areorder o y) metric bias) = Ok (reorder_sd o m)
  | Err e => snd (sd_fit env st (reorder o X) (areorder o y) metric bias) = Err e
  end.
Proof. exact sudire_order_match. Qed.
Print Assumptions C137_sudire.
Lemma mean_ols_total : forall M v, exists b, mean_ols M v = Ok b. Proof. intros; eexists; reflexivity. Qed.
Lemma o5_order : case_order 5 [4; 0; 3; 1; 2]%nat.
Proof. apply NoDup_Permutation; [apply seq_NoDup|repeat constructor; cbn; intuition lia|]. intros i. rewrite in_seq. cbn. lia. Qed.
Definition start5 : sstate R := mk_ss (ex_prm MDcov 1 false false) None (Some [1; 0]) None None [].
Example C137_case : forall ip, eigh_ok (se_eigh (ex_env inv_id ip mean_ols)) /\ square_shape (se_isqrt (ex_env inv_id ip mean_ols)) /\ svd_shapes (se_svd (ex_env inv_id ip mean_ols)) /\
  ols_order_free (se_ols (ex_env inv_id ip mean_ols)) /\ symmetric_metric (euclid (A := R)) /\ is_matrix 5 2 X5 /\ cases 5 (A1 y5) /\ case_order 5 [4; 0; 3; 1; 2]%nat /\
  (forall ys, sd_response 5 (A1 y5) = Ok ys -> order_settings (ex_st MPhd 2 true true []) ys /\ order_settings start5 ys) /\
  (exists st' m, sd_fit (ex_env inv_id ip mean_ols) (ex_st MPhd 2 true true []) X5 (A1 y5) euclid false = (st', Ok m)) /\
  (exists st' m, sd_fit (ex_env inv_id e1_feasible mean_ols) start5 X5 (A1 y5) euclid false = (st', Ok m)).
Proof.
  intros ip. split; [exact eigh2_ok|]. split; [exact inv_id_square|]. split; [exact no_svd2_ok|]. split; [exact mean_ols_free|]. split; [exact euclid_sym|].
  split; [split; [reflexivity|repeat constructor]|]. split; [reflexivity|]. split; [exact o5_order|]. split; [intros ys _; split; [exact I|discriminate]|].
  split; [apply ex_fit_scaled; [exact mean_ols_total|reflexivity|lia]|]. apply ex_fit_feasible; [exact mean_ols_total|reflexivity].
Qed.
(** a decomposition that moves with the cases (exact for data whose first column
    alone is not zero) *)
Example C137_svd_case : economy_svd_order_free svd_first.
Proof. exact svd_first_free. Qed.

(* ------------------------------------------------------------------ *)
(** C138: without a start of the user's, and whatever the dependence measure [dc]
    that chooses among the candidates for the start: 24 cases and their reversal,
    fitted with an optimiser that returns its start *)
Theorem C138_start_refuted : forall dc, exists n o X y st m m',
  (eigh_ok (se_eigh (stay_env dc)) /\ square_shape (se_isqrt (stay_env dc)) /\ svd_shapes (se_svd (stay_env dc)) /\ ols_order_free (se_ols (stay_env dc))) /\
  (sp_meth (ss_prm st) = MDcov /\ ss_start st = None /\ sp_copy (ss_prm st) = true /\ sp_center (ss_prm st) = CMean /\ sp_compress (ss_prm st) = false /\ sp_whiten (ss_prm st) = false) /\
  is_matrix n 2 X /\ length y = n /\ case_order n o /\
  snd (sd_fit (stay_env dc) st X (A1 y) euclid false) = Ok m /\ snd (sd_fit (stay_env dc) st (reorder o X) (A1 (reorder o y)) euclid false) = Ok m' /\
  sm_P m = [[1]; [0]] /\ sm_P m' = [[0]; [1]].
Proof. exact start_refuted. Qed.
Print Assumptions C138_start_refuted.
