(** Property theorems C178: the scores and loadings of ppdire decompose the scaled data. *)

From Coq Require Import String Reals List Arith ZArith Bool Lia Lra.
Import List. Import ListNotations.
From Verif Require Import Num Err Vec S_Stats S_Dicomo S_Regress S_Sudire M_Utils M_Preproc M_Robcent M_Dicomo M_Ppdire M_PpWorld S_Ppdire S_Ppdire2 S_Pca S_Decomp
  VecR L_Stats L_PcaEx L_Pls2 L_PlsEx L_Decomp2 L_Decomp3.
Import List. Open Scope R_scope.

(* ------------------------------------------------------------------ *)
(** C178: whatever the projection index and the optimiser (the grid included), a fit
    without whitening and compression writes the scaled data as
    scores times loadings plus a remainder that is orthogonal to every score vector.
    The squared lengths add up, and no other loadings leave a smaller remainder. *)
Theorem C178_decomposition : forall (env : pp_env R) prm d X f prm' d' m n p, is_matrix n p X -> (2 <= n)%nat -> direct_fit prm n p -> pp_init prm = Ok prm ->
  pp_fit env prm d X f = (prm', d', Ok m) -> (0 < pp_ncomp prm')%nat -> nonzero_cols (pm_T m) (pp_ncomp prm') ->
  let h := pp_ncomp prm' in let T := pm_T m in let P := pm_P m in
  exists Z, scaled_by n p X (pm_loc m) (pm_sca m) Z /\
    (forall a j, (a < h)%nat -> (j < p)%nat -> sum_to n (fun i => cell T i a * (cell Z i j - product h T P i j)) = 0) /\
    sum_to n (fun i => sum_to p (fun j => cell Z i j * cell Z i j)) = sum_to h (fun a => sqlen (column a T) * sqlen (column a P)) + misfit n p h Z T P /\
    (forall Q, misfit n p h Z T P <= misfit n p h Z T Q).
Proof. exact C178_l. Qed.
Print Assumptions C178_decomposition.
(** one component for two variables: something is left *)
Example C178_decomposition_case : is_matrix 4 2 XP /\ direct_fit prmC 4 2 /\ pp_init prmC = Ok prmC /\
  exists m, pp_fit envC prmC [] XP fC = (prmC, [], Ok m) /\ pp_ncomp prmC = 1%nat /\ nonzero_cols (pm_T m) (pp_ncomp prmC).
Proof.
  split; [exact XP_wf|]. split; [split; [reflexivity|left; reflexivity]|]. split; [reflexivity|].
  destruct fit_C as (m & ym & E & HW & Hm & Hs & Hy & Hys). exists m. split; [exact E|]. split; [reflexivity|].
  assert (Hpos : forall i, (i < pp_ncomp prmC)%nat -> 0 < nth i (pm_max m) 0) by (rewrite Hm; intros [|i] Hi; cbn in *; [lra|lia]).
  destruct (C176_weights_l envC prmC [] XP fC prmC [] m 4 2 dcP stC yC XP_wf ltac:(lia) ltac:(split; [reflexivity|left; reflexivity]) eq_refl ltac:(discriminate) (envC_exact _) eq_refl eq_refl eq_refl eq_refl
    ltac:(repeat split) ltac:(exists (A1 yC); split; left; reflexivity) E ltac:(cbn; lia) Hpos) as (Z & ym1 & _ & _ & HW1). cbv zeta in HW1.
  intros i Hi Hz. destruct (HW1 i Hi) as (Hc1 & _ & Hc2 & _). rewrite sqlen_dot in Hz. apply dot_self_zero in Hz. rewrite inner_dot, dot_zero_l in Hc2 by exact Hz. apply sqrt_lt_R0 in Hc1. lra.
Qed.

(** with as many components as variables the data themselves are recovered: centre
    plus scale times scores times loadings *)
Theorem C178_exact : forall (env : pp_env R) prm d X f prm' d' m n p, is_matrix n p X -> (2 <= n)%nat -> direct_fit prm n p -> pp_init prm = Ok prm ->
  pp_fit env prm d X f = (prm', d', Ok m) -> (0 < p)%nat -> pp_ncomp prm' = p -> nonzero_cols (pm_T m) p ->
  forall i j, (i < n)%nat -> (j < p)%nat ->
    cell X i j = nth j (pm_loc m) 0 + (if Req_EM_T (nth j (pm_sca m) 0) 0 then 1 else nth j (pm_sca m) 0) * product p (pm_T m) (pm_P m) i j.
Proof. exact C178_exact_l. Qed.
Print Assumptions C178_exact.

(** with the variance as index, mean centring and an optimiser that is right whenever
    it answers, the loadings are the weights and the variances add up: the
    total variance of the scaled data is the sum of Maxobjf_ plus the variance left
    over, and there is nothing left over with as many components as variables *)
Theorem C178_explained_variance : forall (env : pp_env R) prm d X f prm' d' m n p dc s, is_matrix n p X -> (2 <= n)%nat -> direct_fit prm n p -> pp_init prm = Ok prm ->
  pp_optim prm <> OGrid -> exact_optimiser env (pp_optim prm) -> pp_center prm = CMean -> pp_center_data prm = true -> pp_trim prm = 0 ->
  ix_new (pp_idx prm) = Ok (fit_result dc s) -> configured s "arithmetic" "var" "mean" ->
  pp_fit env prm d X f = (prm', d', Ok m) -> (0 < pp_ncomp prm')%nat ->
  (forall i, (i < pp_ncomp prm')%nat -> 0 < nth i (pm_max m) 0) ->
  let h := pp_ncomp prm' in let b := f_bias f in
  exists Z, scaled_by n p X (pm_loc m) (pm_sca m) Z /\ nonzero_cols (pm_T m) h /\ pm_P m = pm_W m /\
    sum_to p (fun j => sample_cov b n Z j j) = sum_to h (fun a => nth a (pm_max m) 0) + bessel b n / INR n * misfit n p h Z (pm_T m) (pm_P m) /\
    (h = p -> sum_to p (fun j => sample_cov b n Z j j) = sum_to h (fun a => nth a (pm_max m) 0)).
Proof. exact C178_variance_l. Qed.
Print Assumptions C178_explained_variance.
(** two components for two variables, variances 9/2 and 1/2 *)
Example C178_case : is_matrix 4 2 XP /\ direct_fit prmP 4 2 /\ pp_init prmP = Ok prmP /\ pp_optim prmP <> OGrid /\ exact_optimiser envP (pp_optim prmP) /\
  pp_center prmP = CMean /\ pp_center_data prmP = true /\ pp_trim prmP = 0 /\ ix_new (pp_idx prmP) = Ok (fit_result dcP stP) /\ configured stP "arithmetic" "var" "mean" /\
  exists m, pp_fit envP prmP [] XP fP = (prmP, [], Ok m) /\ pp_ncomp prmP = 2%nat /\ (forall i, (i < pp_ncomp prmP)%nat -> 0 < nth i (pm_max m) 0) /\ nonzero_cols (pm_T m) 2.
Proof.
  assert (H : exists m, pp_fit envP prmP [] XP fP = (prmP, [], Ok m) /\ pp_ncomp prmP = 2%nat /\ (forall i, (i < pp_ncomp prmP)%nat -> 0 < nth i (pm_max m) 0)).
  { destruct fit_P as (m & E & HW & Hm). exists m. split; [exact E|]. split; [reflexivity|]. rewrite Hm. intros [|[|i]] Hi; cbn in *; [lra|lra|lia]. }
  split; [exact XP_wf|]. split; [split; [reflexivity|left; reflexivity]|]. split; [reflexivity|]. split; [discriminate|]. split; [apply envP_exact|].
  repeat (split; [reflexivity|]). split; [repeat split|]. destruct H as (m & E & Hh & Hpos). exists m. split; [exact E|]. split; [exact Hh|]. split; [exact Hpos|].
  destruct (C178_variance_l envP prmP [] XP fP prmP [] m 4 2 dcP stP XP_wf ltac:(lia) ltac:(split; [reflexivity|left; reflexivity]) eq_refl ltac:(discriminate) (envP_exact _) eq_refl eq_refl eq_refl eq_refl
    ltac:(repeat split) E ltac:(cbn; lia) Hpos) as (Z & _ & Hz & _). exact Hz.
Qed.
