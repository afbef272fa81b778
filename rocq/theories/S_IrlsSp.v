(** The reweighting of sprm, stated without the code's vocabulary (C198). *)
From Coq Require Import Reals List Arith.
Import ListNotations.
From Verif Require Import Num Err M_Msupport S_Stats S_Weights S_Regress L_Snipls M_Robcent M_Rm M_Snipls M_Sprm S_Sprm S_Irls.
Open Scope R_scope.

(** cut-offs from the chi-square distribution with d degrees of freedom *)
Definition chi2_cuts (env : sp_env R) (P : sp_par R) (d : nat) : cuts :=
  (re_chi2ppf (se_rm env) (s_p1 P) d, re_chi2ppf (se_rm env) (s_p2 P) d, re_chi2ppf (se_rm env) (s_p3 P) d).
Definition normal_cuts (env : sp_env R) (P : sp_par R) : cuts := resid_cuts (se_rm env) (sp_rm P).
(** at the start chi-square with as many degrees of freedom as starting components if
    'specific'; in the loop, for Hampel, always chi-square with h degrees of freedom *)
Definition start_cuts (env : sp_env R) (P : sp_par R) (rc : nat) : cuts := if s_specific P then chi2_cuts env P rc else normal_cuts env P.
Definition pass_cuts (env : sp_env R) (P : sp_par R) (f : mfun) (h rc : nat) : cuts := match f with MHampel => chi2_cuts env P h | _ => start_cuts env P rc end.

(** the broken-stick share of component j (from 0) of n *)
Definition stick (n j : nat) : R := sum_of (map (fun k => 1 / INR k) (seq (S j) (n - j))) / INR n.
(** the number of starting components: those before the first whose share of the
    variance does not exceed the broken stick, at least one *)
Definition start_count (share : list R) (rc : nat) : Prop :=
  exists j, rc = Nat.max j 1 /\ (j < length share)%nat /\ nth j share 0 <= stick (length share) j /\ forall i, (i < j)%nat -> stick (length share) i < nth i share 0.
Definition shares (sv : list R) : list R := map (fun s => s * s / sum_of (map (fun v => v * v) sv)) sv.
(** the data whose row norms give the starting leverages *)
Definition start_data (env : sp_env R) (P : sp_par R) (Xs : list (list R)) (rc : nat) (Us : list (list R)) : Prop :=
  if s_pcapp P then exists U sv, se_svd env Xs = Ok (U, sv) /\ start_count (shares sv) rc /\
    scaled_by (re_prep (se_rm env)) (s_centre P) (s_scale P) (map (firstn rc) U) Us
  else Us = Xs.

(** leverage weights of rows *)
Definition leverage_weights (f : mfun) (c : cuts) (T : list (list R)) (w : list R) : Prop :=
  exists md, is_median (map norm2 T) md /\ w = map (fun r => weight_at f c (norm2 r / md)) T.
(** rows of scores divided by the square roots of the weights *)
Definition unweighted (w : list R) (T : list (list R)) : list (list R) := map (fun i => map (fun v => v / sqrt (nth i w 0)) (nth i T [])) (seq 0 (length T)).
Definition diff_at (a b : list R) : list R := map (fun i => nth i a 0 - nth i b 0) (seq 0 (length a)).
(** the scale of the scores: that of the data, mad if the data were not scaled *)
Definition score_scale (P : sp_par R) : scale_opt R := match s_scale P with SNone => SMad | s => s end.

(** the leverage and residual weights after a pass with weights w whose inner fit is m *)
Definition pass_weights (env : sp_env R) (P : sp_par R) (f : mfun) (c : cuts) (ys : list R) (m : snipls_model R) (w wt wr : list R) : Prop :=
  exists T s, scaled_by (re_prep (se_rm env)) (s_centre P) (score_scale P) (unweighted w (sn_T m)) T /\ leverage_weights f c T wt /\
    resid_scale (diff_at ys (sn_fitted m)) s /\
    wr = map (fun e => weight_at f (normal_cuts env P) (Rabs e / (14826 / 10000 * s))) (diff_at ys (sn_fitted m)).
Definition next_sp (env : sp_env R) (P : sp_par R) (f : mfun) (c : cuts) (ys : list R) (m : snipls_model R) (w w' : list R) : Prop :=
  exists wt wr, pass_weights env P f c ys m w wt wr /\ w' = case_weights wt wr.

(** the whole history: [calls] are the data of the inner snipls fits *)
Definition reweighting_sp (env : sp_env R) (P : sp_par R) (f : mfun) (h : nat) (y : list R) (Xs : list (list R)) (ys : list R) (calls : list (list (list R) * list R)) (coef cw : list R) : Prop :=
  exists rc Us wx d ws fits, start_data env P Xs rc Us /\ leverage_weights f (start_cuts env P rc) Us wx /\ start_distances (sp_rm P) y ys d /\
    calls <> [] /\ length ws = length calls /\ length fits = length calls /\
    nth 0 ws [] = case_weights wx (map (weight_at f (normal_cuts env P)) d) /\
    (forall k, (k < length calls)%nat -> nth k calls ([], []) = weighted_problem (nth k ws []) Xs ys) /\
    (forall k m, nth_error fits k = Some m -> snipls_fit (re_prep (se_rm env)) (se_inv env) (s_eta P) h CMean SNone (fst (nth k calls ([], []))) (snd (nth k calls ([], []))) = Ok m) /\
    (forall k m, (S k < length calls)%nat -> nth_error fits k = Some m -> next_sp env P f (pass_cuts env P f h rc) ys m (nth k ws []) (nth (S k) ws [])) /\
    exists m, nth_error fits (length calls - 1) = Some m /\ coef = sn_coef m /\
      exists wt wr, pass_weights env P f (pass_cuts env P f h rc) ys m (nth (length calls - 1) ws []) wt wr /\ cw = final_weights wt wr.
