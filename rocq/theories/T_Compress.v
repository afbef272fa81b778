(** Property theorems C171: compression that is abandoned. *)

From Coq Require Import String Reals QArith List Arith ZArith Bool Lia Lra.
Import List. Import ListNotations.
From Verif Require Import Num Err Vec VecR S_Stats S_Regress M_Utils M_Preproc M_Robcent M_Dicomo M_Ipopt M_Ppdire M_Sudire S_Ppdire S_Sudire S_Compress L_Compress
  T_Scaling T_Snipls T_Ppdire T_Sudire.
Import List. Open Scope R_scope.

(** C171: the data compressed by their singular value decomposition have a
    column of zero MAD; the code announces that it goes on without compression.
    ppdire keeps the number of variables of the compressed data, so that no fit
    of one component or more succeeds, whatever the optimiser *)
Theorem C171_ppdire_refuted : forall (env : pp_env R) prm d X f prm' d' m n p V s U, is_matrix n p X -> (2 <= n < p)%nat -> pp_whiten prm = false -> pp_compress prm = true -> economy_shapes (pe_svd env) ->
  pe_svd env (transpose X) = Ok (V, s, U) -> Exists (fun v => v = 0) (mad (map (fun r => map2 Rmult r s) (transpose U))) ->
  (0 < match f_h f with Some h => h | None => pp_ncomp prm end)%nat -> pp_fit env prm d X f <> (prm', d', Ok m).
Proof. exact abandoned_pp. Qed.
Print Assumptions C171_ppdire_refuted.
(** a matrix of rank one and its singular value decomposition; without
    compression the same fit succeeds *)
Definition svd1 (_ : list (list Q)) : res (list (list Q) * list Q * list (list Q)) := Ok ([[1; 0]; [0; 1]; [0; 0]], [5; 0], [[3/5; 4/5]; [-(4/5); 3/5]])%Q.
Definition X23 : list (list Q) := [[3; 0; 0]; [4; 0; 0]]%Q.
Example C171_ppdire_case :
  let prm b := mk_pp (mk_ppindex false None (Ok ssq)) 1 0%Q 1%Q (OScipy "SLSQP") "OLS" CMean false false false false b in
  Qred (nth 1 (mad (map (fun r => map2 Qmult r [5; 0]%Q) (transpose [[3/5; 4/5]; [-(4/5); 3/5]]%Q))) 1%Q) = 0%Q /\
  snd (pp_fit (ppQ invQ svd1) (prm true) [] X23 (f0 YNone)) = Err ValueError /\ is_ok (snd (pp_fit (ppQ invQ svd1) (prm false) [] X23 (f0 YNone))) = true.
Proof. repeat split; vm_compute; reflexivity. Qed.

(** sudire does what it announces: the fit with compression is the fit without.
    Only the stored location and scale can differ, and only without centring *)
Theorem C171_sudire : forall (env : sd_env R) st X y metric bias n p V s U, is_matrix n p X -> (2 <= n < p)%nat -> sp_whiten (ss_prm st) = false ->
  se_svd env (transpose X) = Ok (V, s, U) -> Exists (fun v => v = 0) (mad (map (fun r => map2 Rmult r s) (transpose U))) ->
  match snd (sd_fit env (with_compression st true) X y metric bias), snd (sd_fit env (with_compression st false) X y metric bias) with
  | Ok m, Ok m' => sm_P m = sm_P m' /\ sm_T m = sm_T m' /\ sm_proj m = sm_proj m' /\ sm_ols m = sm_ols m' /\ sm_fitted m = sm_fitted m' /\ (sp_center_data (ss_prm st) = true -> m = m')
  | Err e, Err e' => e = e'
  | _, _ => False
  end.
Proof. exact abandoned_sd. Qed.
Print Assumptions C171_sudire.
Example C171_sudire_case :
  let env := mk_sdenv {| env_l1opt := fun _ x => x; env_es2 := 1%Q |} (fun M => Ok (repeat 1%Q (length M), identity (length M))) (fun M => Ok (identity (length M))) (fun M => Ok M) svd1
     (fun B => Ok B) (fun _ _ => Ok 0%Q) (fun Z _ => Ok (repeat 0%Q (ncols Z))) (fun _ _ _ x => Ok x) in
  is_ok (snd (sd_fit env (q_st true) X23 (A1 [1; 2]%Q) (fun _ _ => 0%Q) false)) = true /\
  match snd (sd_fit env (q_st true) X23 (A1 [1; 2]%Q) (fun _ _ => 0%Q) false), snd (sd_fit env (q_st false) X23 (A1 [1; 2]%Q) (fun _ _ => 0%Q) false) with
  | Ok m, Ok m' => sm_P m = sm_P m' | _, _ => False end.
Proof. split; vm_compute; reflexivity. Qed.
