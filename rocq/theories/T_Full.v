(** Property theorems C179: with as many components as variables. *)

From Coq Require Import String Reals QArith List Arith ZArith Bool Lia Lra.
Import List. Import ListNotations.
From Verif Require Import Num Err Vec S_Stats S_Regress M_Utils M_Preproc M_Robcent M_Dicomo M_Snipls M_Ppdire M_PpWorld S_Ppdire S_Full L_Scaling L_Scaling2 L_Snipls2 L_Snipls3 L_PcaEx L_PlsEx L_NestedEx L_Full
  T_Scaling T_Snipls T_Ppdire.
Import List. Open Scope R_scope.

(* ------------------------------------------------------------------ *)
(** C179: with as many components as variables and mean centring, snipls is ordinary
    least squares with an intercept, whatever the sparsity parameter: no affine
    function of the variables has smaller residuals. *)
Theorem C179_snipls_least_squares : forall (env : pp_env R) inv eta k s n p X y f X0 y0, snipls_run (pe_prep env) inv eta k CMean s n p X y f X0 y0 -> plain_scale s -> inverse_ok inv ->
  nonzero_scores f -> length (sn_C f) = p -> (forall j, (j < p)%nat -> nth j (sn_xsca f) 0 <> 0) -> nth 0 (sn_ysca f) 0 <> 0 ->
  forall b0 b, length b = p -> sqlen (sn_resid f) <= sqlen (vdiff y (line b0 b X)).
Proof. exact C179_snipls_l. Qed.
Print Assumptions C179_snipls_least_squares.
(** for other centrings: least squares for the scaled data *)
Theorem C179_snipls_scaled : forall env inv eta k c s n p X y f X0 y0, snipls_run env inv eta k c s n p X y f X0 y0 -> inverse_ok inv -> nonzero_scores f -> length (sn_C f) = p ->
  forall b, length b = p -> sqlen (vdiff y0 (fitted_by X0 (sn_coef_scaled f))) <= sqlen (vdiff y0 (fitted_by X0 b)).
Proof. exact C179_scaled_l. Qed.
Print Assumptions C179_snipls_scaled.
(** eta = 3/4, two components for two variables *)
Example C179_snipls_case : inverse_ok inv2 /\ plain_scale (@SNone R) /\ exists f, snipls_run (pe_prep envC) inv2 (3/4) 2 CMean SNone 4 2 XP yN f XP yN /\
  nonzero_scores f /\ length (sn_C f) = 2%nat /\ (forall j, (j < 2)%nat -> nth j (sn_xsca f) 0 <> 0) /\ nth 0 (sn_ysca f) 0 <> 0.
Proof.
  split; [exact inv2_ok|]. split; [right; right; reflexivity|]. destruct fit_N as (_ & f & _ & H & HW & _ & Hz & Hx & Hy). exists f. split; [exact H|]. split; [exact Hz|].
  split.
  - destruct H as (HX & Hn & Hp & Hly & Hf & HX0 & Hy0). destruct (fit_attrs _ _ _ _ _ _ _ _ _ _ _ _ _ HX Hn Hp Hly Hf HX0 Hy0) as (_ & _ & _ & EW & _ & EC & _). rewrite EC, map_length. rewrite HW in EW.
    apply (f_equal (fun M => length (nth 0 M []))) in EW. unfold of_cols in EW. cbn [seq map nth length] in EW. rewrite !map_length in EW. symmetry. exact EW.
  - split; [rewrite Hx; intros [|[|j]] Hj; cbn; [lra|lra|lia]|rewrite Hy; cbn; lra].
Qed.

(** so is ppdire with regopt 'OLS', whatever the projection index and optimiser; its
    residuals are orthogonal to every variable *)
Theorem C179_ppdire_least_squares : forall (env : pp_env R) prm d X f prm' d' m n p v, is_matrix n p X -> (2 <= n)%nat -> direct_fit prm n p -> has_response (f_y f) v -> penrose (pe_pinv env) -> pp_init prm = Ok prm ->
  pp_center_data prm = true -> pp_center prm = CMean -> pp_trim prm = 0 -> pp_regopt prm = "OLS"%string ->
  pp_fit env prm d X f = (prm', d', Ok m) -> (0 < p)%nat -> pp_ncomp prm' = p -> nonzero_cols (pm_T m) p ->
  (forall j, (j < p)%nat -> nth j (pm_sca m) 0 <> 0) -> (forall ym, pm_y m = Some ym -> ym_sca ym <> 0) ->
  exists ym r, pm_y m = Some ym /\ ym_resid ym = A1 r /\ length v = n /\ (forall i, (i < n)%nat -> nth i r 0 = nth i v 0 - nth i (ym_fitted ym) 0) /\
    (forall j, (j < p)%nat -> orthogonal r (column j X)) /\
    forall b0 b, length b = p -> sqlen r <= sqlen (vdiff v (line b0 b X)).
Proof. exact C179_ppdire_l. Qed.
Print Assumptions C179_ppdire_least_squares.

(** hence both estimators, for every sparsity parameter, projection index and
    optimiser, have the same fitted values *)
Theorem C179_same_fitted_values : forall (env : pp_env R) prm d X f prm' d' m n p v inv eta k s fs X0 y0, is_matrix n p X -> (2 <= n)%nat -> direct_fit prm n p -> has_response (f_y f) v -> penrose (pe_pinv env) -> pp_init prm = Ok prm ->
  pp_center_data prm = true -> pp_center prm = CMean -> pp_trim prm = 0 -> pp_regopt prm = "OLS"%string ->
  pp_fit env prm d X f = (prm', d', Ok m) -> (0 < p)%nat -> pp_ncomp prm' = p -> nonzero_cols (pm_T m) p ->
  (forall j, (j < p)%nat -> nth j (pm_sca m) 0 <> 0) -> (forall ym, pm_y m = Some ym -> ym_sca ym <> 0) ->
  snipls_run (pe_prep env) inv eta k CMean s n p X v fs X0 y0 -> plain_scale s -> inverse_ok inv ->
  nonzero_scores fs -> length (sn_C fs) = p -> (forall j, (j < p)%nat -> nth j (sn_xsca fs) 0 <> 0) -> nth 0 (sn_ysca fs) 0 <> 0 ->
  exists ym, pm_y m = Some ym /\ sn_fitted fs = ym_fitted ym.
Proof. exact C179_same_l. Qed.
Print Assumptions C179_same_fitted_values.
(** two variables, five cases: a ppdire fit whose directions are those of the first
    rows, and a sparse snipls fit; neither fits perfectly *)
Definition X52 : list (list Q) := [[3; 4]; [-3; -4]; [25; 25]; [-25; -25]; [0; 0]]%Q.
Definition y5 : list Q := [1; 2; 6; 3; 8]%Q.
Example C179_case : exists m ym r fs, snd (pp_fit (ppQ invQ no_svd) (prmQ 2 true) [] X52 (f0 (YPos (A1 y5)))) = Ok m /\ pm_y m = Some ym /\ ym_resid ym = A1 r /\ qz (pm_sca m) = [1; 1]%Q /\
  map (fun a => Qeq_bool (dotQ (col a (pm_T m)) (col a (pm_T m))) 0) [0; 1]%nat = [false; false] /\ map (fun j => dotQ r (col j X52)) [0; 1]%nat = [0; 0]%Q /\ Qeq_bool (dotQ r r) 0 = false /\
  snipls_fit envQ invQ (1#5)%Q 2 CMean SNone X52 y5 = Ok fs /\ qz (sn_fitted fs) = qz (ym_fitted ym).
Proof. do 4 eexists. split; [vm_compute; reflexivity|]. split; [vm_compute; reflexivity|]. split; [vm_compute; reflexivity|]. split; [vm_compute; reflexivity|]. split; [vm_compute; reflexivity|]. split; [vm_compute; reflexivity|].
  split; [vm_compute; reflexivity|]. split; [vm_compute; reflexivity|]. vm_compute. reflexivity. Qed.
