(** C186, C187: what a snipls fit depends on, and the space of its coefficients *)
From Coq Require Import String Reals List Arith Bool Lia Lra.
Import List. Import ListNotations.
From Verif Require Import Num Err Vec S_Stats S_Regress M_Utils M_Preproc M_Robcent M_Snipls M_Ppdire L_Snipls L_Snipls2 L_Snipls3 L_PcaEx L_PlsEx L_NestedEx S_Sudire S_Krylov L_Krylov L_Cross L_KrylovEx.
Open Scope R_scope.

(** C186: without sparsity (eta = 0), with X0 and y0 the scaled data, the
    combinations of the h weight vectors are exactly the combinations of
    X0'y0, (X0'X0) X0'y0, ..., (X0'X0)^(h-1) X0'y0, and coef_scaled_ has the
    smallest residual sum of squares among these *)
Theorem C186_weights : forall env inv k c s n p X y f X0 y0, snipls_run env inv 0 k c s n p X y f X0 y0 -> nonzero_scores f ->
  forall b, in_span (sn_W f) b <-> in_krylov p (length (sn_C f)) (gram_of p X0) (cross_of p X0 y0) b.
Proof. exact C186_span_l. Qed.
Print Assumptions C186_weights.
Theorem C186_coefficients : forall env inv k c s n p X y f X0 y0, snipls_run env inv 0 k c s n p X y f X0 y0 -> nonzero_scores f -> inverse_ok inv ->
  in_krylov p (length (sn_C f)) (gram_of p X0) (cross_of p X0 y0) (sn_coef_scaled f) /\
  forall b, in_krylov p (length (sn_C f)) (gram_of p X0) (cross_of p X0 y0) b ->
    sqlen (vdiff y0 (fitted_by X0 (sn_coef_scaled f))) <= sqlen (vdiff y0 (fitted_by X0 b)).
Proof.
  intros env inv k c s n p X y f X0 y0 H Hz Hi. destruct (C38_l _ _ _ _ _ _ _ _ _ _ _ _ _ H Hi) as (H1 & _ & H3 & _). split.
  - eapply C186_span_l; eauto.
  - intros b Hb. apply H3. eapply C186_span_l; eauto.
Qed.
Print Assumptions C186_coefficients.
Example C186_case : inverse_ok inv2 /\ exists f, snipls_run (pe_prep envC) inv2 0 2 CMean SNone 4 2 XP yN f XP yN /\ nonzero_scores f /\ length (sn_C f) = 2%nat /\ sn_W f = [[4/5; -3/5]; [3/5; 4/5]].
Proof. split; [exact inv2_ok|exact fit_K]. Qed.

(** C187: two fits whose scaled data have the same inner products between the
    variables and with the response agree in everything that is not per case,
    even if the numbers of cases and the centre and scale options differ *)
Theorem C187_products : forall env env' inv eta k c c' s s' n n' p X X' y y' f f' X0 X0' y0 y0',
  snipls_run env inv eta k c s n p X y f X0 y0 -> snipls_run env' inv eta k c' s' n' p X' y' f' X0' y0' ->
  gram_of p X0 = gram_of p X0' -> cross_of p X0 y0 = cross_of p X0' y0' ->
  sn_W f = sn_W f' /\ sn_P f = sn_P f' /\ sn_C f = sn_C f' /\ sn_R f = sn_R f' /\ sn_coef_scaled f = sn_coef_scaled f' /\
  sn_retained f = sn_retained f' /\ sn_colret f = sn_colret f' /\ sn_xev f = sn_xev f' /\ (inner y0 y0 = inner y0' y0' -> sn_yev f = sn_yev f').
Proof. exact C187_l. Qed.
Print Assumptions C187_products.
(** four centred cases and two uncentred ones *)
Example C187_case : exists f f', snipls_run (pe_prep envC) inv2 (3/4) 1 CMean SNone 4 2 XP yN f XP yN /\ snipls_run (pe_prep envC) inv2 (3/4) 1 CNone SNone 2 2 X22 y22 f' X22 y22 /\
  gram_of 2 XP = gram_of 2 X22 /\ cross_of 2 XP yN = cross_of 2 X22 y22 /\ inner yN yN = inner y22 y22 /\ sn_W f' = [[1/5]; [0]].
Proof.
  destruct fit_N as (f & _ & H & _ & _ & HW & _). destruct fit_22 as (f' & H'). destruct same_products as (G1 & G2 & G3). exists f, f'. do 5 (split; [assumption|]).
  destruct (C187_products _ _ _ _ _ _ _ _ _ _ _ _ _ _ _ _ _ _ _ _ _ _ H H' G1 G2) as (E & _). rewrite <- E. exact HW.
Qed.
