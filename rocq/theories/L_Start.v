(** The starting value of the optimised sudire methods; refused parameter values *)
From Coq Require Import Reals String List Arith ZArith Bool Lia Lra.
Import ListNotations.
Import List.
From Verif Require Import Num Err Vec VecR OrdR L_Mat M_Utils M_Preproc M_Robcent M_Ipopt M_SdrUtils M_Sudire S_Start L_Snipls.
Open Scope R_scope.

Lemma n2_candidate : forall s N2 d B, bind d (n2_times s N2) = Ok B -> candidate s N2 d B.
Proof.
  intros s N2 d B E. apply bind_Ok in E as (P & E1 & E2). exists P. split; [exact E1|]. unfold n2_times in E2. destruct s; [exact E2|]. apply Ok_inj in E2. auto.
Qed.
Lemma orth_quality : forall (env : sd_env R) Xs ys B a, bind (se_orth env B) (fun q => bind (npmatmul Xs q) (fun Z => se_dcov env Z ys)) = Ok a -> start_quality env Xs ys B a.
Proof. intros env Xs ys B a E. apply bind_Ok in E as (Q & E1 & E). apply bind_Ok in E as (Z & E2 & E). exists Q, Z. auto. Qed.

Lemma start_best : forall (env : sd_env R) prm Xs ys N2 v, start_value env prm Xs ys N2 = Ok v ->
  let h := sp_ncomp prm in let s := sp_scale_data prm in
  exists save sir dr,
    candidate s N2 (SAVE (se_eigh env) Xs ys 3 h false s true) save /\
    candidate s N2 (SIR (se_eigh env) Xs ys 6 h false s true) sir /\
    candidate s N2 (DR (se_eigh env) Xs ys 6 h false s true) dr /\
    best_of_three (start_quality env Xs ys) save sir dr v.
Proof.
  intros env prm Xs ys N2 v E h s. unfold start_value in E. cbv zeta in E. fold h s in E.
  apply bind_Ok in E as (save & E1 & E). apply bind_Ok in E as (sir & E2 & E). apply bind_Ok in E as (a & E3 & E). apply bind_Ok in E as (b & E4 & E).
  apply bind_Ok in E as (dr & E5 & E). apply bind_Ok in E as (c & E6 & E). apply Ok_inj in E. exists save, sir, dr.
  split; [apply n2_candidate, E1|]. split; [apply n2_candidate, E2|]. split; [apply n2_candidate, E5|]. exists a, b, c.
  split; [apply orth_quality, E3|]. split; [apply orth_quality, E4|]. split; [apply orth_quality, E6|]. rnum.
  destruct (Rleb b a) eqn:B1; destruct (Rleb c a) eqn:B2; destruct (Rleb a b) eqn:B3; destruct (Rleb c b) eqn:B4; cbn [andb] in E; subst v; rcmp_all;
    first [left; split; [reflexivity|lra]|right; left; split; [reflexivity|lra]|right; right; split; [reflexivity|lra]].
Qed.

Lemma optimise_start : forall (env : sd_env R) st Xs ys N2 metric bias st' r, sp_meth (ss_prm st) = MDcov -> sd_optimise env st Xs ys N2 metric bias = (st', r) ->
  (ss_start st = None -> ss_start st' = None /\ (exists e, r = Err e) \/ exists v, start_value env (ss_prm st) Xs ys N2 = Ok v /\ ss_start st' = Some v) /\
  (forall v, ss_start st = Some v -> ss_start st' = Some v).
Proof.
  intros env st Xs ys N2 metric bias st' r Hm E. unfold sd_optimise in E. cbv zeta in E. rewrite Hm in E. split.
  - intros Hs. rewrite Hs in E. destruct (start_value env (ss_prm st) Xs ys N2) as [v|e] eqn:EV.
    + right. exists v. split; [reflexivity|]. destruct (bind (se_ipopt _ _ _ _ _) _) as [B|e]; injection E as <- <-; reflexivity.
    + left. injection E as <- <-. split; [exact Hs|eauto].
  - intros v Hs. rewrite Hs in E. destruct (bind (se_ipopt _ _ _ _ _) _) as [B|e]; injection E as <- <-; reflexivity.
Qed.
Lemma fit_start : forall (env : sd_env R) st X y metric bias st' r, sp_meth (ss_prm st) = MDcov -> sd_fit env st X y metric bias = (st', r) ->
  (ss_start st = None -> forall v, ss_start st' = Some v ->
     exists pd ys, sd_prepare env (sd_whitening (ss_prm st)) X = Ok pd /\ sd_response (length X) y = Ok ys /\ start_value env (sd_whitening (ss_prm st)) (pd_Xs pd) ys (pd_N2 pd) = Ok v) /\
  (ss_start st = None -> forall m, r = Ok m -> ss_start st' <> None) /\
  (forall v, ss_start st = Some v -> ss_start st' = Some v).
Proof.
  intros env st X y metric bias st' r Hm E. unfold sd_fit in E. cbv zeta in E.
  destruct (_ <? _)%nat. { injection E as <- <-. cbn [ss_start]. split; [intros H v E; congruence|]. split; [discriminate|auto]. }
  assert (Hw : sp_meth (sd_whitening (ss_prm st)) = MDcov) by (unfold sd_whitening; destruct (sp_whiten _); cbn; exact Hm).
  destruct (sd_prepare env (sd_whitening (ss_prm st)) X) as [pd|e] eqn:EP; cbn [bind] in E.
  2:{ injection E as <- <-. cbn [ss_start]. split; [intros H v E; congruence|]. split; [discriminate|auto]. }
  destruct (sd_response (length X) y) as [ys|e] eqn:ER; cbn [bind] in E.
  2:{ injection E as <- <-. cbn [ss_start]. split; [intros H v E; congruence|]. split; [discriminate|auto]. }
  unfold sd_direct in E. rewrite Hw in E.
  match type of E with context [sd_optimise env ?s ?a ?b ?c ?d ?e] => destruct (sd_optimise env s a b c d e) as [st1 r1] eqn:EO end. injection E as <- <-.
  apply optimise_start in EO as [O1 O2]; [|exact Hw]. cbn [ss_start ss_prm] in *. split; [|split].
  - intros Hs v Hv. destruct (O1 Hs) as [[E0 _]|(v' & EV & E1)]; [congruence|]. exists pd, ys. split; [reflexivity|]. split; [reflexivity|]. congruence.
  - intros Hs m Hr E0. destruct (O1 Hs) as [[_ [e He]]|(v' & EV & E1)]; [rewrite He in Hr; discriminate|congruence].
  - exact O2.
Qed.

Lemma start_used : forall (env : sd_env R) ip st X y metric bias st' r v, sp_meth (ss_prm st) = MDcov ->
  sd_fit env st X y metric bias = (st', r) -> ss_start st' = Some v ->
  (forall d f cons, ip d f cons v = se_ipopt env d f cons v) ->
  sd_fit (with_optimiser env ip) st X y metric bias = (st', r).
Proof.
  intros env ip st X y metric bias st' r v Hm E Hv Hip. unfold sd_fit in *. cbv zeta in *.
  destruct (_ <? _)%nat; [exact E|].
  assert (Hw : sp_meth (sd_whitening (ss_prm st)) = MDcov) by (unfold sd_whitening; destruct (sp_whiten _); cbn; exact Hm).
  change (sd_prepare (with_optimiser env ip)) with (sd_prepare env).
  destruct (bind (sd_prepare env (sd_whitening (ss_prm st)) X) _) as [[pd ys]|e]; [|exact E].
  unfold sd_direct in *. rewrite Hw in *.
  unfold sd_optimise in *. cbv zeta in *. cbn [ss_prm ss_start ss_cons ss_args ss_dict ss_X0] in *. rewrite Hw in *.
  change (start_value (with_optimiser env ip)) with (start_value env).
  destruct (match ss_start st with Some b => Ok b | None => _ end) as [start|e]; [|exact E].
  cbn [se_ipopt with_optimiser].
  assert (Es : start = v).
  { destruct (bind (se_ipopt env _ _ _ _) _) as [B|e]; injection E as <- <-; cbn [ss_start] in Hv; congruence. }
  subst start. rewrite Hip. exact E.
Qed.
