(** Property theorems C183: the components of ppdire with the variance as index are
    the best approximation of their rank. *)

From Coq Require Import String Reals List Arith ZArith Bool Lia Lra.
Import List. Import ListNotations.
From Verif Require Import Num Err Vec S_Stats S_Dicomo S_Sudire S_Decomp M_Utils M_Preproc M_Robcent M_Dicomo M_Ppdire M_PpWorld S_Ppdire S_Ppdire2 S_Pca L_PcaEx L_Young.
Import List. Open Scope R_scope.

(* ------------------------------------------------------------------ *)
(** C183: no k mutually orthogonal directions of length 1, taken together, have a larger
    total variance than the first k components. *)
Theorem C183_most_variance : forall (env : pp_env R) prm d X f prm' d' m n p dc s, is_matrix n p X -> (2 <= n)%nat -> direct_fit prm n p -> pp_init prm = Ok prm ->
  pp_optim prm <> OGrid -> exact_optimiser env (pp_optim prm) -> pp_center prm = CMean -> pp_center_data prm = true -> pp_trim prm = 0 ->
  ix_new (pp_idx prm) = Ok (fit_result dc s) -> configured s "arithmetic" "var" "mean" ->
  pp_fit env prm d X f = (prm', d', Ok m) -> (0 < pp_ncomp prm')%nat ->
  (forall i, (i < pp_ncomp prm')%nat -> 0 < nth i (pm_max m) 0) ->
  exists Z, scaled_by n p X (pm_loc m) (pm_sca m) Z /\
    forall k us, (k <= pp_ncomp prm')%nat -> (length us <= k)%nat ->
      (forall u, In u us -> length u = p /\ sqlen u = 1) ->
      (forall a b, (a < b)%nat -> (b < length us)%nat -> orthogonal (nth a us []) (nth b us [])) ->
      sum_to (length us) (fun a => quadratic p (sample_cov (f_bias f) n Z) (nth a us [])) <= sum_to k (fun a => nth a (pm_max m) 0).
Proof. exact C183_explained_l. Qed.
Print Assumptions C183_most_variance.

(** For every k up to the number of components, the first k scores times the first k
    loadings are at least as close to the scaled data (sum of squared errors) as any
    product of an n x k and a k x p matrix. *)
Theorem C183_low_rank : forall (env : pp_env R) prm d X f prm' d' m n p dc s, is_matrix n p X -> (2 <= n)%nat -> direct_fit prm n p -> pp_init prm = Ok prm ->
  pp_optim prm <> OGrid -> exact_optimiser env (pp_optim prm) -> pp_center prm = CMean -> pp_center_data prm = true -> pp_trim prm = 0 ->
  ix_new (pp_idx prm) = Ok (fit_result dc s) -> configured s "arithmetic" "var" "mean" ->
  pp_fit env prm d X f = (prm', d', Ok m) -> (0 < pp_ncomp prm')%nat ->
  (forall i, (i < pp_ncomp prm')%nat -> 0 < nth i (pm_max m) 0) ->
  exists Z, scaled_by n p X (pm_loc m) (pm_sca m) Z /\
    forall k S Q, (k <= pp_ncomp prm')%nat -> misfit n p k Z (pm_T m) (pm_P m) <= misfit n p k Z S Q.
Proof. exact C183_low_rank_l. Qed.
Print Assumptions C183_low_rank.

(** four cases, two components with variances 9/2 and 1/2; two other directions *)
Example C183_case : is_matrix 4 2 XP /\ direct_fit prmP 4 2 /\ pp_init prmP = Ok prmP /\ pp_optim prmP <> OGrid /\ exact_optimiser envP (pp_optim prmP) /\
  pp_center prmP = CMean /\ pp_center_data prmP = true /\ pp_trim prmP = 0 /\ ix_new (pp_idx prmP) = Ok (fit_result dcP stP) /\ configured stP "arithmetic" "var" "mean" /\
  (exists m, pp_fit envP prmP [] XP fP = (prmP, [], Ok m) /\ pp_ncomp prmP = 2%nat /\ forall i, (i < pp_ncomp prmP)%nat -> 0 < nth i (pm_max m) 0) /\
  let us := [[3 / 5; 4 / 5]; [4 / 5; - (3 / 5)]] in
  (forall u, In u us -> length u = 2%nat /\ sqlen u = 1) /\ (forall a b, (a < b)%nat -> (b < length us)%nat -> orthogonal (nth a us []) (nth b us [])).
Proof.
  split; [exact XP_wf|]. split; [split; [reflexivity|left; reflexivity]|]. split; [reflexivity|]. split; [discriminate|]. split; [apply envP_exact|].
  repeat (split; [reflexivity|]). split; [repeat split|]. split.
  { destruct fit_P as (m & E & HW & Hm). exists m. split; [exact E|]. split; [reflexivity|]. rewrite Hm. intros [|[|i]] Hi; cbn in *; [lra|lra|lia]. }
  cbv zeta. split.
  - intros u [<-|[<-|[]]]; (split; [reflexivity|unfold sqlen, inner; cbn; field]).
  - intros [|[|a]] [|[|b]] Hab Hb; cbn in Hb; try lia. unfold orthogonal, inner; cbn; field.
Qed.
