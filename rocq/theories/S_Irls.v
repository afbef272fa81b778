(** Iterative reweighting, stated without the code's vocabulary (C197). *)
From Coq Require Import Reals List Arith.
Import ListNotations.
From Verif Require Import Num Err M_Msupport S_Stats S_Weights M_Robcent M_Rm.
Open Scope R_scope.

(** the three cut-offs of a weight function *)
Definition cuts : Type := (R * R * R)%type.
Definition weight_at (f : mfun) (c : cuts) (v : R) : R := textbook f (fst (fst c)) (snd (fst c)) (snd c) v.
Definition cuts_ok (f : mfun) (c : cuts) : Prop := cutoffs_ok f (fst (fst c)) (snd (fst c)) (snd c).
(** normal quantiles for the residuals; for the leverages chi-square quantiles if 'specific' *)
Definition resid_cuts (env : rm_env R) (P : rm_par R) : cuts := (re_normppf env (r_p1 P), re_normppf env (r_p2 P), re_normppf env (r_p3 P)).
Definition lever_cuts (env : rm_env R) (P : rm_par R) (p : nat) : cuts :=
  if r_specific P then (re_chi2ppf env (r_p1 P) p, re_chi2ppf env (r_p2 P) p, re_chi2ppf env (r_p3 P) p) else resid_cuts env P.

Definition norm2 (r : list R) : R := sqrt (sum_of (map (fun x => x * x) r)).
(** the weights of the cases: product of leverage and residual weights, at least 1e-6 *)
Definition case_weights (wx wr : list R) : list R := map (fun i => Rmax (1 / 1000000) (nth i wx 0 * nth i wr 0)) (seq 0 (length wx)).
(** the weights reported: those below 1e-6 are zero *)
Definition final_weights (wx wr : list R) : list R := map (fun i => if Rlt_dec (nth i wx 0 * nth i wr 0) (1 / 1000000) then 0 else nth i wx 0 * nth i wr 0) (seq 0 (length wx)).

(** the starting distances of the responses *)
Definition start_distances (P : rm_par R) (y ys d : list R) : Prop :=
  (r_centre P = CMedian /\ r_scale P = SMad -> d = map Rabs ys) /\
  (~ (r_centre P = CMedian /\ r_scale P = SMad) ->
   exists m e, is_median y m /\ is_median (map (fun v => Rabs (v - m)) y) e /\ d = map (fun v => (v - m) / (14826 / 10000 * e)) y).
(** the scale of residuals: the median of the absolute values, or of those that are
    not zero if at least half of them are *)
Definition zeros (e : list R) : list R := filter (fun v => if Req_EM_T v 0 then true else false) e.
Definition nonzeros (e : list R) : list R := filter (fun v => if Req_EM_T v 0 then false else true) e.
Definition resid_scale (e : list R) (s : R) : Prop :=
  ((2 * length (zeros e) < length e)%nat -> is_median (map Rabs e) s) /\
  ((length e <= 2 * length (zeros e))%nat -> nonzeros e <> [] -> is_median (map Rabs (nonzeros e)) s).

(** the least-squares problem for given weights: rows and responses times the square
    roots of the weights *)
Definition weighted_problem (w : list R) (Xs : list (list R)) (ys : list R) : list (list R) * list R :=
  (map (fun i => map (fun x => sqrt (nth i w 0) * x) (nth i Xs [])) (seq 0 (length Xs)),
   map (fun i => nth i ys 0 * sqrt (nth i w 0)) (seq 0 (length Xs))).
(** residuals of coefficients b *)
Definition resid_of (Xs : list (list R)) (ys b : list R) : list R := map (fun i => nth i ys 0 - sum_of (map (fun xb => fst xb * snd xb) (combine (nth i Xs []) b))) (seq 0 (length Xs)).

(** the residual weights after a pass that found coefficients b *)
Definition resid_weights (env : rm_env R) (P : rm_par R) (f : mfun) (Xs : list (list R)) (ys b wr : list R) : Prop :=
  exists s, resid_scale (resid_of Xs ys b) s /\ wr = map (fun e => weight_at f (resid_cuts env P) (Rabs e / (14826 / 10000 * s))) (resid_of Xs ys b).
Definition next_weights (env : rm_env R) (P : rm_par R) (f : mfun) (wx : list R) (Xs : list (list R)) (ys b w : list R) : Prop :=
  exists wr, resid_weights env P f Xs ys b wr /\ w = case_weights wx wr.

(** the whole history: [calls] are the least-squares problems solved, [coef] the
    scaled coefficients and [cw] the case weights reported *)
Definition reweighting (env : rm_env R) (P : rm_par R) (f : mfun) (p : nat) (y : list R) (Xs : list (list R)) (ys : list R) (calls : list (list (list R) * list R)) (coef cw : list R) : Prop :=
  exists md d ws, is_median (map norm2 Xs) md /\ start_distances P y ys d /\
    let wx := map (fun r => weight_at f (lever_cuts env P p) (norm2 r / md)) Xs in
    let call k := nth k calls ([], []) in
    calls <> [] /\ length ws = length calls /\
    nth 0 ws [] = case_weights wx (map (weight_at f (resid_cuts env P)) d) /\
    (forall k, (k < length calls)%nat -> call k = weighted_problem (nth k ws []) Xs ys) /\
    (forall k, (S k < length calls)%nat -> exists b, re_lstsq env (fst (call k)) (snd (call k)) = Ok b /\ next_weights env P f wx Xs ys b (nth (S k) ws [])) /\
    re_lstsq env (fst (last calls ([], []))) (snd (last calls ([], []))) = Ok coef /\
    exists wr, resid_weights env P f Xs ys coef wr /\ cw = final_weights wx wr.
