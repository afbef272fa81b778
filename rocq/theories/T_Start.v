(** C195: where the optimised sudire methods start *)
From Coq Require Import Reals String List Arith ZArith Bool Lia Lra.
Import ListNotations.
Import List.
From Verif Require Import Num Err Vec VecR OrdR L_Mat M_Utils M_Preproc M_Robcent M_Ipopt M_SdrUtils M_Sudire S_Start L_Start L_SdrEx M_Dicomo S_Sudire S_Errors T_Sudire T_Errors.
Open Scope R_scope.

(** without optimizer_start, the vector stored in optimizer_start by fit holds the
    best of the directions of SAVE (3 slices), SIR and DR (6 slices) on the
    prepared data; the stored vector is what the optimiser gets *)
Theorem C195_start : forall (env : sd_env R) st X y metric bias st' r v, sp_meth (ss_prm st) = MDcov -> ss_start st = None ->
  sd_fit env st X y metric bias = (st', r) -> ss_start st' = Some v ->
  let prm := sd_whitening (ss_prm st) in let h := sp_ncomp prm in let s := sp_scale_data prm in
  exists pd ys save sir dr, sd_prepare env prm X = Ok pd /\ sd_response (length X) y = Ok ys /\
    candidate s (pd_N2 pd) (SAVE (se_eigh env) (pd_Xs pd) ys 3 h false s true) save /\
    candidate s (pd_N2 pd) (SIR (se_eigh env) (pd_Xs pd) ys 6 h false s true) sir /\
    candidate s (pd_N2 pd) (DR (se_eigh env) (pd_Xs pd) ys 6 h false s true) dr /\
    best_of_three (start_quality env (pd_Xs pd) ys) save sir dr v.
Proof.
  intros env st X y metric bias st' r v Hm Hs E Hv prm h s. destruct (fit_start env st X y metric bias st' r Hm E) as [F _].
  destruct (F Hs v Hv) as (pd & ys & E1 & E2 & EV). apply start_best in EV as (save & sir & dr & A & B & C & D).
  exists pd, ys, save, sir, dr. do 5 (split; [assumption|]). assumption.
Qed.
Print Assumptions C195_start.
(** a fit that succeeds has stored one; a given one is kept *)
Theorem C195_kept : forall (env : sd_env R) st X y metric bias st' r, sp_meth (ss_prm st) = MDcov -> sd_fit env st X y metric bias = (st', r) ->
  (forall m, r = Ok m -> ss_start st' <> None) /\ (forall v, ss_start st = Some v -> ss_start st' = Some v).
Proof.
  intros env st X y metric bias st' r Hm E. destruct (fit_start env st X y metric bias st' r Hm E) as (_ & F & G). split; [|exact G].
  intros m Hr. destruct (ss_start st) as [v|] eqn:Hs; [rewrite (G v eq_refl); discriminate|exact (F eq_refl m Hr)].
Qed.
Print Assumptions C195_kept.
(** the optimiser is run from that vector and no other: only its behaviour there
    matters *)
Theorem C195_used : forall (env : sd_env R) ip st X y metric bias st' r v, sp_meth (ss_prm st) = MDcov ->
  sd_fit env st X y metric bias = (st', r) -> ss_start st' = Some v ->
  (forall d f cons, ip d f cons v = se_ipopt env d f cons v) ->
  sd_fit (with_optimiser env ip) st X y metric bias = (st', r).
Proof. exact start_used. Qed.
Print Assumptions C195_used.
Example C195_case : exists st' m v, sd_fit ex_env1 (ex_st MDcov 1 false false []) X7 (A1 y7) euclid false = (st', Ok m) /\ ss_start st' = Some v.
Proof.
  destruct C117_bcov_name_case as (st' & m & E). exists st', m. change (with_method (ex_st MDcov 1 false false []) MDcov) with (ex_st MDcov 1 false false []) in E.
  destruct (C195_kept ex_env1 (ex_st MDcov 1 false false []) _ _ _ _ _ _ eq_refl E) as [A _]. specialize (A m eq_refl). destruct (ss_start st') as [v|]; [exists v; auto|congruence].
Qed.
