(** Property theorems C73-C79, C111-C120: sufficient dimension reduction (sudire). *)

From Coq Require Import String Reals QArith List Arith ZArith Bool Lia Lra.
Import List. Import ListNotations.
From Verif Require Import Num Err Vec VecR S_Stats S_Regress M_Utils M_Preproc M_Robcent M_Dicomo M_Ipopt M_SdrUtils M_Sudire S_Dicomo S_Sudire S_SdrDim
  L_Mat L_SdrMat L_Sdr L_SdrMeth L_SdrFit L_SdrFit2 L_SdrFit3 L_SdrCov L_SdrEst L_SdrMore L_SdrEx L_SdrFin T_Scaling.
Import List. Open Scope R_scope.

(* ------------------------------------------------------------------ *)
(** Concrete cases use L_SdrEx: eigenvectors of symmetric 2 x 2 matrices, the
    inverse and inverse square root of the identity, a constant OLS routine. *)
Definition zero_ols (_ : list (list R)) (_ : list R) : res (list R) := Ok [0; 0].
Lemma zero_ols_total : forall M v, exists b, zero_ols M v = Ok b. Proof. intros; eexists; reflexivity. Qed.
Definition id_isqrt (M : list (list R)) : res (list (list R)) := Ok M.
Lemma id_isqrt_total : forall M, exists N, id_isqrt M = Ok N. Proof. intros; eexists; reflexivity. Qed.
Lemma id_isqrt_shape : square_shape id_isqrt. Proof. intros p M N W E. injection E as <-. exact W. Qed.
Definition y5 : list R := [4; 4; 2; 2; 3].
Definition X7 : list (list R) := [[1; 0]; [0; 2]; [3; 1]; [1; 1]; [2; 5]; [0; 0]; [4; 1]].
Definition y7 : list R := [1; 2; 3; 4; 5; 6; 7].
Lemma X7_matrix : is_matrix 7 2 X7. Proof. split; [reflexivity|repeat constructor]. Qed.
Lemma y7_distinct : length (distinct y7) = 7%nat.
Proof. unfold y7. cbn [distinct filter]. repeat (destruct (Req_EM_T _ _); [exfalso; lra|cbn [filter]]). reflexivity. Qed.

(* ------------------------------------------------------------------ *)
(** C73: slicing a response *)
Theorem C73_labels : forall (y : list R) h, (2 <= h)%nat -> y <> [] ->
  exists s, sorted_version y s /\ discretize y h = Ok (map (slice_number (cut_points s h)) y).
Proof. exact discretize_slices. Qed.
Print Assumptions C73_labels.
Theorem C73_monotone : forall (y : list R) h l, (2 <= h)%nat -> discretize y h = Ok l ->
  length l = length y /\ (forall i, (i < length y)%nat -> (1 <= nth i l 0 <= h)%nat) /\
  (forall i j, (i < length y)%nat -> (j < length y)%nat -> nth i y 0 <= nth j y 0 -> (nth i l 0 <= nth j l 0)%nat).
Proof. exact discretize_monotone. Qed.
Print Assumptions C73_monotone.
(** without ties the slices but the last have floor(n/h) cases *)
Theorem C73_sizes : forall (y : list R) h l, (2 <= h)%nat -> NoDup y -> (h <= length y)%nat -> discretize y h = Ok l ->
  (forall k, (1 <= k < h)%nat -> size_of k l = (length y / h)%nat) /\ size_of h l = (length y - (h - 1) * (length y / h))%nat.
Proof. exact discretize_sizes. Qed.
Print Assumptions C73_sizes.
(** fewer cases than slices: all cases in the last slice; fewer than two slices fail *)
Theorem C73_degenerate : forall (y : list R) h, ((0 < length y < h)%nat -> (2 <= h)%nat -> discretize y h = Ok (repeat h (length y))) /\
  ((h < 2)%nat -> exists e, discretize y h = Err e).
Proof. exact discretize_degenerate. Qed.
Print Assumptions C73_degenerate.
Example C73_case : discretize [5; 1; 4; 2; 3; 9; 7]%Q 3 = Ok [3; 1; 2; 1; 2; 3; 3]%nat /\ discretize [1; 1; 1; 2]%Q 2 = Ok [2; 2; 2; 2]%nat /\ discretize [1; 2]%Q 4 = Ok [4; 4]%nat.
Proof. repeat split; vm_compute; reflexivity. Qed.

(* ------------------------------------------------------------------ *)
(** C74: the slices.  The slice labels are the distinct case labels in order of
    appearance, of which the first n_slices are used. *)
Theorem C74_distinct : forall (l : list R), l <> [] -> slice_labels (length l) l = Ok (distinct l) /\ NoDup (distinct l) /\ (forall v, In v (distinct l) <-> In v l).
Proof. exact labels_distinct. Qed.
Print Assumptions C74_distinct.
Theorem C74_fractions : forall (l : list R) k, l <> [] ->
  ((length (distinct l) <= k)%nat -> sum_of (map (fraction l) (firstn k (distinct l))) = 1) /\
  ((k < length (distinct l))%nat -> sum_of (map (fraction l) (firstn k (distinct l))) < 1).
Proof. exact fractions_used. Qed.
Print Assumptions C74_fractions.
(** too few distinct labels *)
Theorem C74_too_few : forall eigh n p X y k d continuous center scale S labels, eigh_ok eigh -> (0 < n)%nat -> (0 < p)%nat -> is_matrix n p X -> length y = n ->
  signsqrt eigh X = Ok S -> response_labels y k continuous = Ok labels -> (length (distinct labels) < k)%nat ->
  SIR eigh X y k d continuous center scale = Err IndexError /\ SAVE eigh X y k d continuous center scale = Err IndexError /\ DR eigh X y k d continuous center scale = Err IndexError.
Proof. exact too_few_labels. Qed.
Print Assumptions C74_too_few.
Definition y74 : list R := [1; 1; 1; 1; 2; 2; 2].
Example C74_case : (exists S, signsqrt eigh2 X7 = Ok S) /\ response_labels y74 3 false = Ok y74 /\ (length (distinct y74) < 3)%nat.
Proof.
  split; [apply (ex_signsqrt 7); [lia|exact X7_matrix]|]. split; [reflexivity|]. unfold y74. cbn [distinct filter]. repeat (destruct (Req_EM_T _ _); try (exfalso; lra); cbn [filter length]); lia.
Qed.

(* ------------------------------------------------------------------ *)
(** C75: the bases of the direct methods are leading eigenvectors of the
    textbook matrices *)
Theorem C75_SIR : forall eigh n p X y k d continuous center scale B, eigh_ok eigh -> (0 < n)%nat -> (0 < p)%nat -> is_matrix n p X -> length y = n ->
  SIR eigh X y k d continuous center scale = Ok B ->
  exists labels, case_labels y k continuous labels /\ (0 < k <= length (distinct labels))%nat /\
    eigen_basis n p (Nat.min d p) X B center scale (between labels (firstn k (distinct labels))).
Proof. exact SIR_spec. Qed.
Print Assumptions C75_SIR.
Theorem C75_SAVE : forall eigh n p X y k d continuous center scale B, eigh_ok eigh -> (0 < n)%nat -> (0 < p)%nat -> is_matrix n p X -> length y = n ->
  SAVE eigh X y k d continuous center scale = Ok B ->
  exists labels, case_labels y k continuous labels /\ (k <= length (distinct labels))%nat /\
    eigen_basis n p (Nat.min d p) X B center scale (fun Z => average_variance labels (firstn k (distinct labels)) Z p).
Proof. exact SAVE_spec. Qed.
Print Assumptions C75_SAVE.
Theorem C75_DR : forall eigh n p X y k d continuous center scale B, eigh_ok eigh -> (0 < n)%nat -> (0 < p)%nat -> is_matrix n p X -> length y = n ->
  DR eigh X y k d continuous center scale = Ok B ->
  exists labels, case_labels y k continuous labels /\ (0 < k <= length (distinct labels))%nat /\
    eigen_basis n p (Nat.min d p) X B center scale (fun Z => directional labels (firstn k (distinct labels)) Z p).
Proof. exact DR_spec. Qed.
Print Assumptions C75_DR.
Theorem C75_PHD : forall eigh n p X y d center scale B, eigh_ok eigh -> (0 < n)%nat -> (0 < p)%nat -> is_matrix n p X -> length y = n ->
  PHD eigh X y d center scale = Ok B -> eigen_basis n p (Nat.min d p) X B center scale (fun Z => response_weighted Z y).
Proof. exact PHD_spec. Qed.
Print Assumptions C75_PHD.
Theorem C75_IHT : forall eigh n p X y d center scale B, eigh_ok eigh -> (0 < n)%nat -> (0 < p)%nat -> is_matrix n p X -> length y = n ->
  IHT eigh X y d center scale = Ok B -> eigen_basis n p (Nat.min d p) X B center scale (iterated p y).
Proof. exact IHT_spec. Qed.
Print Assumptions C75_IHT.
(** SIR, SAVE and IHT matrices are positive semi-definite *)
Theorem C75_semidefinite : forall labels used X y p v,
  0 <= quad_form p (matrix_of p (between labels used X)) v /\ 0 <= quad_form p (matrix_of p (average_variance labels used X p)) v /\
  0 <= quad_form p (matrix_of p (iterated p y X)) v.
Proof. exact kernels_nonneg. Qed.
Print Assumptions C75_semidefinite.
Example C75_case : eigh_ok eigh2 /\ is_matrix 7 2 X7 /\ (exists B, SIR eigh2 X7 y7 3 1 false true true = Ok B) /\ (exists B, SAVE eigh2 X7 y7 3 1 false true true = Ok B) /\
  (exists B, DR eigh2 X7 y7 3 1 false true true = Ok B) /\ exists B, PHD eigh2 X7 y7 1 false false = Ok B.
Proof.
  pose proof y7_distinct. pose proof X7_matrix as W. split; [exact eigh2_ok|]. split; [exact W|].
  split; [apply (ex_SIR 7); auto; lia|]. split; [apply (ex_SAVE 7); auto; lia|]. split; [apply (ex_DR 7); auto; lia|].
  destruct (ex_phd 7 X7 y7 1) as [P [E _]]; auto; [lia|eauto].
Qed.

(* ------------------------------------------------------------------ *)
(** C76: the projection matrix *)
Theorem C76_projector : forall env st X y metric bias st' m n p, eigh_ok (se_eigh env) -> square_shape (se_isqrt env) -> svd_shapes (se_svd env) -> inverse_ok (se_inv env) ->
  is_matrix n p X -> (2 <= n)%nat -> (0 < p)%nat -> sp_copy (ss_prm st) = true -> (0 < sp_ncomp (ss_prm st))%nat -> sd_fit env st X y metric bias = (st', Ok m) ->
  is_matrix p (sp_ncomp (ss_prm st)) (sm_P m) /\ projects_onto p (sm_proj m) (sm_P m) /\
  sum_to p (fun i => cell (sm_proj m) i i) = INR (sp_ncomp (ss_prm st)).
Proof. exact fit_projector. Qed.
Print Assumptions C76_projector.
(** all components: the identity *)
Theorem C76_full : forall env st X y metric bias st' m n p, eigh_ok (se_eigh env) -> square_shape (se_isqrt env) -> svd_shapes (se_svd env) -> inverse_ok (se_inv env) ->
  is_matrix n p X -> (2 <= n)%nat -> (0 < p)%nat -> sp_copy (ss_prm st) = true -> sp_ncomp (ss_prm st) = p -> sd_fit env st X y metric bias = (st', Ok m) ->
  forall i j, (i < p)%nat -> (j < p)%nat -> cell (sm_proj m) i j = delta i j.
Proof. exact fit_projector_full. Qed.
Print Assumptions C76_full.
Definition ex_env1 : sd_env R := ex_env id_isqrt e1_opt zero_ols.
Example C76_case : eigh_ok (se_eigh ex_env1) /\ square_shape (se_isqrt ex_env1) /\ svd_shapes (se_svd ex_env1) /\ inverse_ok (se_inv ex_env1) /\
  (exists st' m, sd_fit ex_env1 (ex_st MPhd 1 false false []) X7 (A1 y7) euclid false = (st', Ok m)) /\
  (exists st' m, sd_fit ex_env1 (ex_st MPhd 2 false false []) X7 (A1 y7) euclid false = (st', Ok m)).
Proof.
  split; [exact eigh2_ok|]. split; [exact id_isqrt_shape|]. split; [exact no_svd2_ok|]. split; [exact inv_id_ok|].
  split; (edestruct (ex_fit id_isqrt e1_opt zero_ols zero_ols_total 7 X7 y7) as [m E]; [apply id_isqrt_total|lia| exact X7_matrix|reflexivity| |eexists; eexists; exact E]; lia).
Qed.

(* ------------------------------------------------------------------ *)
(** C77: transform and predict *)
Theorem C77_training : forall env st X y metric bias st' m n p, eigh_ok (se_eigh env) -> square_shape (se_isqrt env) -> svd_shapes (se_svd env) ->
  is_matrix n p X -> (2 <= n)%nat -> (0 < p)%nat -> sp_copy (ss_prm st) = true -> sd_fit env st X y metric bias = (st', Ok m) ->
  sd_transform m X = Ok (sm_T m) /\
  (forall i k, (i < n)%nat -> (k < sp_ncomp (ss_prm st))%nat -> cell (sm_T m) i k = sum_to p (fun a => cell X i a * cell (sm_P m) a k)) /\
  ((forall Z v b, se_ols env Z v = Ok b -> length b = ncols Z) -> sd_predict m X = Ok (sm_fitted m)).
Proof. exact fit_training. Qed.
Print Assumptions C77_training.
(** the coefficients are those of the regression of y on an intercept and the scores *)
Theorem C77_regression : forall env st X y metric bias st' m n p, eigh_ok (se_eigh env) -> square_shape (se_isqrt env) -> svd_shapes (se_svd env) ->
  is_matrix n p X -> (2 <= n)%nat -> (0 < p)%nat -> sp_copy (ss_prm st) = true -> sd_fit env st X (A1 y) metric bias = (st', Ok m) ->
  ~ constant_column n (sp_ncomp (ss_prm st)) (sm_T m) -> se_ols env (map (cons 1) (sm_T m)) y = Ok (sm_ols m).
Proof. exact fit_regression. Qed.
Print Assumptions C77_regression.
Theorem C77_wrong_columns : forall (m : smodel R) X, ncols X <> length (sm_P m) -> sd_transform m X = Err ValueError /\ sd_predict m X = Err ValueError.
Proof. exact transform_bad. Qed.
Print Assumptions C77_wrong_columns.
Definition zeros_ols (Z : list (list R)) (_ : list R) : res (list R) := Ok (repeat 0 (ncols Z)).
Example C77_case : (forall Z v b, zeros_ols Z v = Ok b -> length b = ncols Z) /\
  exists st' m, sd_fit (ex_env id_isqrt e1_opt zeros_ols) (ex_st MPhd 1 false false []) X7 (A1 y7) euclid false = (st', Ok m).
Proof.
  split; [intros Z v b E; injection E as <-; apply repeat_length|].
  edestruct (ex_fit id_isqrt e1_opt zeros_ols ltac:(intros; eexists; reflexivity) 7 X7 y7) as [m E]; [apply id_isqrt_total|lia| exact X7_matrix|reflexivity| |eexists; eexists; exact E]; lia.
Qed.

(* ------------------------------------------------------------------ *)
(** C78: the search for the structural dimension returns the first minimum of
    averages pooled over all smaller dimensions *)
Theorem C78_pooled : forall env mt c cd sd slices X y B draw sv d d' k means,
  estimate_structural_dim env mt c cd sd slices X y B draw sv d = (d', Ok (k, means)) ->
  (1 <= k <= ncols X)%nat /\ length means = ncols X /\ first_smallest means (k - 1) /\
  exists D, (forall i b, (1 <= i <= ncols X)%nat -> (b < B)%nat -> discrepancy env (fun h => {| sp_meth := mt; sp_ncomp := h; sp_trim := 0; sp_center := c; sp_center_data := cd; sp_scale_data := sd; sp_whiten := false;
       sp_compress := false; sp_slices := slices; sp_copy := true; sp_cont := true; sp_return := true |}) draw sv X y i b (D i b)) /\
    means = map (pooled_average D B) (seq 1 (ncols X)).
Proof. exact estimate_pooled. Qed.
Print Assumptions C78_pooled.
(** hence p-1 is never chosen unless its average vanishes *)
Theorem C78_last : forall env mt c cd sd slices n p X y B draw sv d d' k means,
  svd_shapes (se_svd env) -> square_shape (se_isqrt env) -> eigh_ok (se_eigh env) -> inverse_ok (se_inv env) -> (forall p, sv (matrix_of p (fun _ _ => 0)) = Ok 0) ->
  is_matrix n p X -> (2 <= n)%nat -> (2 <= p)%nat -> (0 < B)%nat -> (forall b, (b < B)%nat -> length (draw p b) = n /\ Forall (fun i => (i < n)%nat) (draw p b)) ->
  estimate_structural_dim env mt c cd sd slices X y B draw sv d = (d', Ok (k, means)) ->
  nth (p - 1) means 0 = INR (p - 1) / INR p * nth (p - 2) means 0 /\ (0 < nth (p - 2) means 0 -> k <> (p - 1)%nat).
Proof. exact estimate_last. Qed.
Print Assumptions C78_last.
(** the averages are not those of the dimensions themselves *)
Theorem C78_refuted : exists (D : nat -> nat -> R) B p, (forall b, D p b = 0) /\ (forall i b, 0 <= D i b) /\
  own_average D B 2 < own_average D B 1 /\ own_average D B 2 < own_average D B 3 /\ pooled_average D B 3 < pooled_average D B 2 /\ (3 <= p)%nat.
Proof. exact pooled_not_own. Qed.
Print Assumptions C78_refuted.
Definition draw_id (_ _ : nat) : list nat := seq 0 7.
Definition sv0 (M : list (list R)) : res R := Ok (sum_of (map (fun r => sum_of (map (fun v => v * v) r)) M)).
Example C78_case : (forall p, sv0 (matrix_of p (fun _ _ => 0)) = Ok 0) /\
  exists k means, estimate_structural_dim ex_env1 MPhd CMean false false 2 X7 y7 3 draw_id sv0 [] = ([], Ok (k, means)).
Proof.
  split.
  - intros p. unfold sv0. f_equal. unfold matrix_of. rewrite map_map. change (sum_of (map ?f (seq 0 p))) with (sumn p f). apply sumn_zero. intros i Hi.
    rewrite map_map. change (sum_of (map ?f (seq 0 p))) with (sumn p f). apply sumn_zero. intros; ring.
  - apply (ex_estimate id_isqrt e1_opt zero_ols id_isqrt_total zero_ols_total 7); [lia|exact X7_matrix|reflexivity|intros; exact X7_matrix|intros; eexists; reflexivity].
Qed.

(* ------------------------------------------------------------------ *)
(** C79: bases as vectors *)
Theorem C79_round_trip : forall p h (B : list (list R)), (0 < p)%nat -> (0 < h)%nat -> is_matrix p h B ->
  length (flatF B) = (h * p)%nat /\ (forall i j, (i < p)%nat -> (j < h)%nat -> nth (j * p + i) (flatF B) 0 = cell B i j) /\ unvec h (flatF B) = Ok B.
Proof. exact flat_round_trip. Qed.
Print Assumptions C79_round_trip.
Theorem C79_unvec : forall h (b : list R), ((h = 0 \/ length b mod h <> 0)%nat -> unvec h b = Err ValueError) /\ (forall B, unvec h b = Ok B -> b <> [] -> flatF B = b).
Proof. exact unvec_round_trip. Qed.
Print Assumptions C79_unvec.
(** the constraints are all h*h entries of B'SB - I (S the covariance matrix of
    the data) or, if the data are scaled, of B'B - I *)
Theorem C79_constraints : forall n p h X (B : list (list R)) i j scale, (0 < n)%nat -> (2 <= p)%nat -> (0 < h)%nat -> is_matrix n p X -> is_matrix p h B -> (i < h)%nat -> (j < h)%nat ->
  length (constraints scale X h) = (h * h)%nat /\
  exists c, nth_error (constraints scale X h) (i * h + j) = Some c /\
    c (flatF B) = Ok ((if scale then sum_to p (fun a => cell B a i * cell B a j)
                       else sum_to p (fun a => sum_to p (fun b => cell B a i * cov_of (column a X) (column b X) * cell B b j))) - delta i j).
Proof. exact constraints_spec. Qed.
Print Assumptions C79_constraints.
Example C79_case : flatF [[1; 2]; [3; 4]; [5; 6]]%Q = [1; 3; 5; 2; 4; 6]%Q /\ unvec 2 [1; 3; 5; 2; 4; 6]%Q = Ok [[1; 2]; [3; 4]; [5; 6]]%Q /\ unvec 2 [1; 3; 5]%Q = Err ValueError.
Proof. repeat split. Qed.

(* ------------------------------------------------------------------ *)
(** C111: the methods with optimisation need six distinct responses for their
    starting value *)
Theorem C111_six_responses : forall env st st' X y metric bias m n p, eigh_ok (se_eigh env) -> square_shape (se_isqrt env) -> svd_shapes (se_svd env) ->
  is_matrix n p X -> (2 <= n)%nat -> (0 < p)%nat -> sp_copy (ss_prm st) = true -> optimised (sp_meth (ss_prm st)) -> ss_start st = None ->
  sd_fit env st X (A1 y) metric bias = (st', Ok m) -> (6 <= length (distinct y))%nat.
Proof. exact fit_start. Qed.
Print Assumptions C111_six_responses.
Example C111_case : exists st' m, sd_fit ex_env1 (ex_st MDcov 1 false false []) X7 (A1 y7) euclid false = (st', Ok m).
Proof. apply (ex_fit_dcov id_isqrt zero_ols 7); [apply id_isqrt_total|apply zero_ols_total|lia|exact X7_matrix|reflexivity|rewrite y7_distinct; lia]. Qed.

(* ------------------------------------------------------------------ *)
(** C112: orthogonality of the directions and the scores *)
Theorem C112_direct : forall env st st' X y metric bias m n p, svd_shapes (se_svd env) -> isqrt_ok (se_isqrt env) -> eigh_ok (se_eigh env) ->
  is_matrix n p X -> (2 <= n)%nat -> (0 < p)%nat -> sp_copy (ss_prm st) = true -> sp_whiten (ss_prm st) = false -> sp_center (ss_prm st) = CMean ->
  sd_fit env st X y metric bias = (st', Ok m) -> ~ optimised (sp_meth (ss_prm st)) ->
  (sp_scale_data (ss_prm st) = true -> sigma_orthonormal p (sp_ncomp (ss_prm st)) X (sm_P m) /\ uncorrelated_unit (sp_ncomp (ss_prm st)) (sm_T m)) /\
  (sp_scale_data (ss_prm st) = false -> orthonormal_columns p (sp_ncomp (ss_prm st)) (sm_P m)).
Proof. exact fit_orthonormal. Qed.
Print Assumptions C112_direct.
Theorem C112_optimised : forall env st st' X y metric bias m n p, svd_shapes (se_svd env) -> isqrt_ok (se_isqrt env) -> eigh_ok (se_eigh env) -> feasible (se_ipopt env) ->
  is_matrix n p X -> (2 <= n)%nat -> (0 < p)%nat -> sp_copy (ss_prm st) = true -> sp_whiten (ss_prm st) = false -> sp_center (ss_prm st) = CMean \/ sp_center (ss_prm st) = CMedian ->
  ss_cons st = None -> optimised (sp_meth (ss_prm st)) -> sd_fit env st X y metric bias = (st', Ok m) ->
  sigma_orthonormal p (sp_ncomp (ss_prm st)) X (sm_P m) /\ uncorrelated_unit (sp_ncomp (ss_prm st)) (sm_T m).
Proof. exact fit_optimised_orthonormal. Qed.
Print Assumptions C112_optimised.
Example C112_case : isqrt_ok inv_id /\ feasible e1_feasible /\
  (exists st' m, sd_fit (ex_env inv_id e1_opt zero_ols) (ex_st MPhd 2 true true []) X5 (A1 y5) euclid false = (st', Ok m)) /\
  (exists st' m, sd_fit (ex_env inv_id e1_feasible zero_ols) (mk_ss (ex_prm MDcov 1 false false) None (Some [1; 0]) None None []) X5 (A1 y5) euclid false = (st', Ok m)).
Proof.
  split; [exact inv_id_isqrt|]. split; [exact e1_feasible_ok|]. split; [apply ex_fit_scaled; [exact zero_ols_total|reflexivity|lia]|].
  apply ex_fit_feasible; [exact zero_ols_total|reflexivity].
Qed.

(* ------------------------------------------------------------------ *)
(** C113: compressed fits (n < p, an SVD without zero MADs) never succeed *)
Theorem C113_refuted : forall env st X y metric bias st' m n p V s U, eigh_ok (se_eigh env) -> square_shape (se_isqrt env) -> svd_shapes (se_svd env) ->
  is_matrix n p X -> (2 <= n < p)%nat -> sp_copy (ss_prm st) = true -> sp_compress (ss_prm st) = true -> sp_whiten (ss_prm st) = false ->
  se_svd env (transpose X) = Ok (V, s, U) -> Forall (fun v => v <> 0) (mad (map (fun r => map2 Rmult r s) (transpose U))) ->
  sd_fit env st X y metric bias <> (st', Ok m).
Proof. exact fit_compressed. Qed.
Print Assumptions C113_refuted.
(** three columns, two cases: an SVD of the stated shapes without zero MADs *)
Definition q_env : sd_env Q := mk_sdenv {| env_l1opt := fun _ x => x; env_es2 := 1%Q |} (fun M => Ok (repeat 1%Q (length M), identity (length M))) (fun M => Ok (identity (length M))) (fun M => Ok M)
  (fun _ => Ok ([[1; 0]; [0; 1]; [0; 0]]%Q, [2; 1]%Q, [[1; 0]; [0; 1]]%Q)) (fun B => Ok B) (fun _ _ => Ok 0%Q) (fun Z _ => Ok (repeat 0%Q (ncols Z))) (fun _ _ _ x => Ok x).
Definition q_st (c : bool) : sstate Q := mk_ss (mk_sp MPhd 1 0%Q CMean false false false c 2 true true true) None None None None [].
Example C113_case : let X := [[2; 0; 0]; [0; 1; 0]]%Q in
  forallb (fun v => negb (Qeq_bool v 0)) (mad (map (fun r => map2 Qmult r [2; 1]%Q) [[1; 0]; [0; 1]]%Q)) = true /\
  is_ok (snd (sd_fit q_env (q_st true) X (A1 [1; 2]%Q) (fun _ _ => 0%Q) false)) = false /\ is_ok (snd (sd_fit q_env (q_st false) X (A1 [1; 2]%Q) (fun _ _ => 0%Q) false)) = true.
Proof. repeat split; vm_compute; reflexivity. Qed.

(* ------------------------------------------------------------------ *)
(** C114: predictions for new cases: those of the regression unless a column of
    the scores is constant (as for a single case), which fails *)
Theorem C114_predictions : forall (m : smodel R) n p h X, (0 < n)%nat -> (0 < p)%nat -> is_matrix p h (sm_P m) -> length (sm_ols m) = S h -> is_matrix n p X ->
  let T := matmul X (sm_P m) in
  (constant_column n h T -> sd_predict m X = Err ValueError) /\
  (~ constant_column n h T -> exists z, sd_predict m X = Ok z /\ length z = n /\
     forall i, (i < n)%nat -> nth i z 0 = nth 0 (sm_ols m) 0 + sum_to h (fun k => cell T i k * nth (S k) (sm_ols m) 0)).
Proof. exact predict_cases. Qed.
Print Assumptions C114_predictions.
Example C114_case : let m := mk_sm [[1; 0]; [0; 1]]%Q [] [] None [] [] [5; 2; 3]%Q [] in
  sd_predict m [[1; 2]; [3; 4]]%Q = Ok [13; 23]%Q /\ sd_predict m [[1; 2]]%Q = Err ValueError /\ sd_predict m [[0; 0]]%Q = Ok [5]%Q.
Proof. repeat split; vm_compute; reflexivity. Qed.

(* ------------------------------------------------------------------ *)
(** C115: copy=False never fits *)
Theorem C115_refuted : forall (env : sd_env R) st X y metric bias, sp_copy (ss_prm st) = false -> ss_X0 st = None -> exists st' e, sd_fit env st X y metric bias = (st', Err e).
Proof. exact fit_no_copy. Qed.
Print Assumptions C115_refuted.
(** the same fit with and without a copy *)
Example C115_case : let fit c := snd (sd_fit q_env (mk_ss (mk_sp MPhd 1 0%Q CMean false false false false 2 c true true) None None None None []) [[2; 0]; [0; 1]; [1; 1]]%Q (A1 [1; 2; 4]%Q) (fun _ _ => 0%Q) false) in
  fit false = Err AttributeError /\ is_ok (fit true) = true.
Proof. split; vm_compute; reflexivity. Qed.

(* ------------------------------------------------------------------ *)
(** C116: refits of the methods with optimisation ignore the new data *)
Theorem C116_refuted : forall env st X y X1 y1 X2 y2 mt bi mt1 bi1 mt2 bi2 st1 m st2 m1 st3 m2 n p n1 p1 n2 p2,
  eigh_ok (se_eigh env) -> square_shape (se_isqrt env) -> svd_shapes (se_svd env) -> is_matrix n p X -> is_matrix n1 p1 X1 -> is_matrix n2 p2 X2 ->
  (2 <= n)%nat -> (0 < p)%nat -> (2 <= n1)%nat -> (0 < p1)%nat -> (2 <= n2)%nat -> (0 < p2)%nat ->
  sp_copy (ss_prm st) = true -> optimised (sp_meth (ss_prm st)) -> sp_scale_data (ss_prm st) = false -> sp_whiten (ss_prm st) = false ->
  sd_fit env st X y mt bi = (st1, Ok m) -> sd_fit env st1 X1 y1 mt1 bi1 = (st2, Ok m1) -> sd_fit env st1 X2 y2 mt2 bi2 = (st3, Ok m2) -> sm_P m1 = sm_P m2 /\ p1 = p2.
Proof. exact refits_agree. Qed.
Print Assumptions C116_refuted.
Example C116_case : exists st1 m st2 m1 st3 m2, sd_fit ex_env1 (ex_st MDcov 1 false false []) X7 (A1 y7) euclid false = (st1, Ok m) /\
  sd_fit ex_env1 st1 X7 (A1 y7) euclid false = (st2, Ok m1) /\ sd_fit ex_env1 st1 X5 (A1 y5) euclid false = (st3, Ok m2).
Proof. apply (ex_refits id_isqrt zero_ols 7 X7 y7 5 X5 y5); [apply id_isqrt_total|apply zero_ols_total|lia|exact X7_matrix|reflexivity|rewrite y7_distinct; lia|lia|exact X5_wf|reflexivity]. Qed.

(* ------------------------------------------------------------------ *)
(** C117: option values that never work: method bcov-sdr; a center other than
    the mean with neither centring nor scaling nor whitening *)
Theorem C117_bcov_refuted : forall (env : sd_env R) st X y metric bias, sp_meth (ss_prm st) = MBcov -> exists st' e, sd_fit env st X y metric bias = (st', Err e).
Proof. exact fit_bcov. Qed.
Print Assumptions C117_bcov_refuted.
Theorem C117_center_refuted : forall (env : sd_env R) st X y metric bias, sp_return (ss_prm st) = true -> sp_center (ss_prm st) <> CMean -> sp_center_data (ss_prm st) = false ->
  sp_scale_data (ss_prm st) = false -> sp_whiten (ss_prm st) = false -> exists st' e, sd_fit env st X y metric bias = (st', Err e).
Proof. exact fit_no_scaler. Qed.
Print Assumptions C117_center_refuted.
Example C117_case : let fit c := snd (sd_fit q_env (mk_ss (mk_sp MPhd 1 0%Q c false false false false 2 true true true) None None None None []) [[2; 0]; [0; 1]; [1; 1]]%Q (A1 [1; 2; 4]%Q) (fun _ _ => 0%Q) false) in
  fit CMedian = Err UnboundLocalError /\ is_ok (fit CMean) = true.
Proof. split; vm_compute; reflexivity. Qed.

(* ------------------------------------------------------------------ *)
(** C118: monotone transformations of a continuous response *)
Theorem C118_order_only : forall eigh f X (y : list R) k d c s, increasing f ->
  SIR eigh X (map f y) k d true c s = SIR eigh X y k d true c s /\ SAVE eigh X (map f y) k d true c s = SAVE eigh X y k d true c s /\ DR eigh X (map f y) k d true c s = DR eigh X y k d true c s.
Proof. exact sliced_incr. Qed.
Print Assumptions C118_order_only.
Example C118_case : increasing exp. Proof. intros a b Hab. apply exp_increasing. exact Hab. Qed.

(* ------------------------------------------------------------------ *)
(** C119: translation of the data *)
Theorem C119_translation : forall env st X X' y metric bias st1 m st2 m' n p c,
  eigh_ok (se_eigh env) -> square_shape (se_isqrt env) -> svd_shapes (se_svd env) -> is_matrix n p X -> is_matrix n p X' -> (2 <= n)%nat -> (0 < p)%nat ->
  (forall i j, (i < n)%nat -> (j < p)%nat -> cell X' i j = cell X i j + c j) ->
  sp_copy (ss_prm st) = true -> sp_center (ss_prm st) = CMean -> sp_center_data (ss_prm st) = true -> sp_trim (ss_prm st) = 0 -> sp_compress (ss_prm st) = false ->
  sd_fit env st X y metric bias = (st1, Ok m) -> sd_fit env st X' y metric bias = (st2, Ok m') ->
  sm_P m' = sm_P m /\ sm_proj m' = sm_proj m /\
  forall i k, (i < n)%nat -> (k < sp_ncomp (ss_prm st))%nat -> cell (sm_T m') i k = cell (sm_T m) i k + sum_to p (fun j => c j * cell (sm_P m) j k).
Proof. exact fit_shift. Qed.
Print Assumptions C119_translation.
Example C119_case : exists st' m, sd_fit (ex_env inv_id e1_opt zero_ols) (ex_st MPhd 2 true true []) X5 (A1 y5) euclid false = (st', Ok m).
Proof. apply ex_fit_scaled; [exact zero_ols_total|reflexivity|lia]. Qed.

(* ------------------------------------------------------------------ *)
(** C120: the objective functions *)
Theorem C120_values : forall n p h X B y (a : sargs R), (0 < n)%nat -> (0 < p)%nat -> (0 < h)%nat -> sg_X a = X -> sg_y a = y -> sg_h a = h -> sg_trim a = 0 -> sg_center a = "mean"%string ->
  is_matrix n p X -> length y = n -> is_matrix p h B ->
  (sg_metric a = euclid -> dcov_trim (flatF B) a = Ok (- 10 * sqrt (dcov_sq n (matmul X B) (map (fun v => [v]) y)))) /\
  (sg_bias a = false -> mdd_trim (flatF B) a = Ok (- 10 * sqrt (mdd_sq n (matmul X B) y))).
Proof. exact objective_values. Qed.
Print Assumptions C120_values.
Theorem C120_rotation : forall n p h X B O (a : sargs R), (0 < n)%nat -> (0 < p)%nat -> (0 < h)%nat -> sg_X a = X -> sg_h a = h -> is_matrix n p X -> is_matrix p h B -> orthogonal_matrix h O ->
  (sg_metric a = euclid -> dcov_trim (flatF (matmul B O)) a = dcov_trim (flatF B) a) /\ mdd_trim (flatF (matmul B O)) a = mdd_trim (flatF B) a.
Proof. exact objective_rotate. Qed.
Print Assumptions C120_rotation.
Example C120_case : orthogonal_matrix 2 [[0; 1]; [-1; 0]].
Proof.
  split; [split; [reflexivity|repeat constructor]|]. intros i j Hi Hj.
  destruct (two_cases i Hi) as [->| ->], (two_cases j Hj) as [->| ->]; unfold sum_to, sum_of, cell, delta; cbn; split; ring.
Qed.
