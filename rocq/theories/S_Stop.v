(** When the reweighting of rm ends (C203). *)
From Coq Require Import Reals List Arith.
Import ListNotations.
From Verif Require Import Num Err M_Preproc M_Robcent M_Msupport M_Rm S_Stats S_Irls.
Open Scope R_scope.

Definition size2 (b : list R) : R := sum_of (map (fun x => x * x) b).
(** the squared length of the coefficients before pass k; 1e-5 before the first *)
Definition size_before (bs : list (list R)) (k : nat) : R := match k with O => 1 / 100000 | S j => size2 (nth j bs []) end.
(** the relative change made by pass k *)
Definition change (bs : list (list R)) (k : nat) : R := Rabs (size2 (nth k bs []) - size_before bs k) / size_before bs k.
(** after coefficients b fewer than half of the weights of the cases are zero *)
Definition few_zero (env : rm_env R) (P : rm_par R) (f : mfun) (wx : list R) (Xs : list (list R)) (ys b : list R) : Prop :=
  exists wr, resid_weights env P f Xs ys b wr /\ (2 * length (zeros (final_weights wx wr)) < length Xs)%nat.

(** [bs] are the solutions of the problems [calls]; no pass is the last unless one
    of the three conditions holds after it, and the last is the first such pass *)
Definition stopping (env : rm_env R) (P : rm_par R) (f : mfun) (p : nat) (Xs : list (list R)) (ys : list R) (calls : list (list (list R) * list R)) (coef cw : list R) : Prop :=
  exists md bs, is_median (map norm2 Xs) md /\
    let wx := map (fun r => weight_at f (lever_cuts env P p) (norm2 r / md)) Xs in
    let last_pass := (length calls - 1)%nat in
    (1 <= length calls < r_maxit P)%nat /\ r_tol P < 1 /\ length bs = length calls /\
    (forall k, (k < length calls)%nat -> re_lstsq env (fst (nth k calls ([], []))) (snd (nth k calls ([], []))) = Ok (nth k bs [])) /\
    coef = nth last_pass bs [] /\
    (forall k, (k < last_pass)%nat -> r_tol P < change bs k /\ few_zero env P f wx Xs ys (nth k bs [])) /\
    (change bs last_pass <= r_tol P \/ length calls = (r_maxit P - 1)%nat \/ (length Xs <= 2 * length (zeros cw))%nat).
