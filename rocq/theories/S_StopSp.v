(** When the reweighting of sprm ends (C204). *)
From Coq Require Import Reals List Arith.
Import ListNotations.
From Verif Require Import Num Err M_Preproc M_Robcent M_Msupport M_Rm M_Snipls M_Sprm S_Stats S_Irls S_IrlsSp S_Stop.
Open Scope R_scope.

(** [fits] are the inner fits for the problems [calls], with weights [ws] *)
Definition stopping_sp (env : sp_env R) (P : sp_par R) (f : mfun) (h : nat) (Xs : list (list R)) (ys : list R) (calls : list (list (list R) * list R)) (coef cw : list R) : Prop :=
  exists rc Us ws fits, start_data env P Xs rc Us /\
    let bs := map sn_coef fits in
    let last_pass := (length calls - 1)%nat in
    (1 <= length calls < s_maxit P)%nat /\ s_tol P < 1 /\ length ws = length calls /\ length fits = length calls /\
    (forall k, (k < length calls)%nat -> nth k calls ([], []) = weighted_problem (nth k ws []) Xs ys) /\
    (forall k m, nth_error fits k = Some m -> snipls_fit (re_prep (se_rm env)) (se_inv env) (s_eta P) h CMean SNone (fst (nth k calls ([], []))) (snd (nth k calls ([], []))) = Ok m) /\
    coef = nth last_pass bs [] /\
    (forall k m, (k < last_pass)%nat -> nth_error fits k = Some m -> s_tol P < change bs k /\
       exists wt wr, pass_weights env P f (pass_cuts env P f h rc) ys m (nth k ws []) wt wr /\ (2 * length (zeros (final_weights wt wr)) < length Xs)%nat) /\
    (change bs last_pass <= s_tol P \/ length calls = (s_maxit P - 1)%nat \/ (length Xs <= 2 * length (zeros cw))%nat).
