(** Property theorem C184: every case counted the same number of times. *)

From Coq Require Import String Reals QArith List Arith ZArith Bool Lia Lra Permutation.
Import List. Import ListNotations.
From Verif Require Import Num Err Vec S_Stats S_Dicomo S_Order S_Vars S_Copies M_Utils M_Preproc M_Robcent M_Snipls M_Dicomo T_Scaling T_Snipls L_Snipls2 L_Copies L_CopiesSn L_CopiesDi.
Import List. Open Scope R_scope.

Definition twice3 : list nat := [0; 1; 2; 2; 1; 0]%nat.
Lemma twice3_ok : case_copies 3 2 twice3.
Proof. unfold case_copies, twice3. cbn. do 3 apply perm_skip. apply perm_trans with [0; 2; 1]%nat; [apply perm_skip, perm_swap|]. apply perm_trans with [2; 0; 1]%nat; [apply perm_swap|apply perm_skip, perm_swap]. Qed.
Lemma inv1_homogeneous : inv_homogeneous inv1.
Proof.
  intros c M Hc. destruct M as [|[|a [|b r]] [|r' M]]; try reflexivity. cbn. destruct (Req_EM_T (c * a) 0) as [E|E], (Req_EM_T a 0) as [E'|E']; try reflexivity.
  - apply Rmult_integral in E. tauto.
  - subst a. rewrite Rmult_0_r in E. contradiction.
  - cbn. rewrite Rinv_mult. reflexivity.
Qed.

(* ------------------------------------------------------------------ *)
(** C184: data in which every case occurs k times, in any order, give the same
    locations and scales *)
Theorem C184_scaler : forall env c s n p k o X, column_centre c -> column_scale s -> is_matrix n p X -> (2 <= n)%nat -> case_copies n k o -> (1 <= k)%nat ->
  sc_fit env (new_scaler c s 0) (A2 (reorder o X)) = sc_fit env (new_scaler c s 0) (A2 X) /\
  snd (sc_fit_transform env (new_scaler c s 0) (A2 (reorder o X))) = match snd (sc_fit_transform env (new_scaler c s 0) (A2 X)) with Ok Z => Ok (reorder o Z) | Err e => Err e end.
Proof. exact C184_scaler_l. Qed.
Print Assumptions C184_scaler.
(** and the same snipls model: coefficients, weights, loadings, explained variances,
    intercept, locations, scales; every copy of a case has its scores, fitted value and residual *)
Theorem C184_snipls : forall env inv eta h c s n p k o X y, column_centre c -> column_scale s -> inv_homogeneous inv ->
  is_matrix n p X -> (2 <= n)%nat -> (1 <= p)%nat -> length y = n -> case_copies n k o -> (1 <= k)%nat ->
  snipls_fit env inv eta h c s (reorder o X) (reorder o y) =
  match snipls_fit env inv eta h c s X y with Ok f => Ok (reorder_model o f) | Err e => Err e end.
Proof. exact snipls_copies_l. Qed.
Print Assumptions C184_snipls.
(** the variance is the same exactly if there is no bias correction (or nothing varies) *)
Theorem C184_variance_iff : forall dc s xa x kw k o, configured s "arithmetic" "var" "mean" -> sample xa x -> no_trimming kw -> (2 <= length x)%nat ->
  case_copies (length x) k o -> (2 <= k)%nat ->
  (fit_result dc s (areorder o xa) kw = fit_result dc s xa kw <-> biascorr kw = false \/ constant x).
Proof. exact C184_variance_l. Qed.
Print Assumptions C184_variance_iff.
(** skewness and kurtosis *)
Theorem C184_shape : forall dc s xa x kw c m k o, m = "skew"%string \/ m = "kurt"%string -> configured s "arithmetic" m c -> sample xa x -> no_trimming kw -> k_option kw = None -> biascorr kw = false ->
  x <> [] -> ~ constant x -> case_copies (length x) k o -> (1 <= k)%nat ->
  fit_result dc s (areorder o xa) kw = fit_result dc s xa kw.
Proof. exact C184_shape_l. Qed.
Print Assumptions C184_shape.
(** distance covariance *)
Theorem C184_dcov : forall dc s kw n p q k o X Y, configured s "distance" "cov" "mean" -> no_trimming kw -> biascorr kw = false -> k_metric kw = None ->
  naive_mode kw -> is_matrix n p X -> is_matrix n q Y -> (0 < n)%nat -> k_y kw = Some (A2 Y) -> case_copies n k o -> (1 <= k)%nat ->
  fit_result dc s (A2 (reorder o X)) (kw_reorder o kw) = fit_result dc s (A2 X) kw.
Proof. exact C184_dcov_l. Qed.
Print Assumptions C184_dcov.
(** the trimmed mean is not: the number of cases cut off is rounded down *)
Theorem C184_trimmed_refuted : exists (X : list (list Q)) o u v, length X = 3%nat /\ case_copies 3 2 o /\
  mean X (3 # 10)%Q = Ok [u] /\ mean (reorder o X) (3 # 10)%Q = Ok [v] /\ ~ Qeq u v.
Proof.
  exists [[0%Q]; [0%Q]; [9%Q]], twice3. do 2 eexists. split; [reflexivity|]. split; [apply twice3_ok|].
  split; [vm_compute; reflexivity|]. split; [vm_compute; reflexivity|]. vm_compute. discriminate.
Qed.
Print Assumptions C184_trimmed_refuted.
(** three cases, each twice *)
Example C184_case : column_centre CMean /\ column_scale SStd /\ inv_homogeneous inv1 /\ is_matrix 3 2 X3 /\ length y3 = 3%nat /\ case_copies 3 2 twice3 /\
  reorder twice3 X3 = [[1; 2]; [3; 5]; [4; 9]; [4; 9]; [3; 5]; [1; 2]] /\ (exists f, snipls_fit env0 inv1 (1/2) 1 CMean SStd X3 y3 = Ok f) /\
  configured (@mk_dstate R "arithmetic" "var" "mean" None None None None) "arithmetic" "var" "mean" /\ ~ constant y3.
Proof.
  split; [left; reflexivity|]. split; [left; reflexivity|]. split; [apply inv1_homogeneous|]. split; [apply X3_matrix|]. split; [reflexivity|]. split; [apply twice3_ok|].
  split; [reflexivity|]. split; [destruct case_run as (f & X0 & y0 & H & _); exists f; apply H|]. split; [repeat split|].
  intros C. specialize (C 1 0 (or_introl eq_refl) (or_intror (or_introl eq_refl))). lra.
Qed.
