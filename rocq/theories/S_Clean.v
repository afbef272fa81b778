(** Data without outlying cases (C199): no distance exceeds its first cut-off. *)
From Coq Require Import Reals List Arith.
Import ListNotations.
From Verif Require Import Num Err M_Msupport S_Stats S_Weights S_Regress L_Snipls M_Robcent M_Rm M_Snipls M_Sprm S_Sprm S_Irls S_IrlsSp.
Open Scope R_scope.

Definition first_cut (c : cuts) : R := fst (fst c).
(** norms of the rows, relative to their median, within the cut-off *)
Definition rows_within (c : cuts) (T : list (list R)) : Prop := forall md r, is_median (map norm2 T) md -> In r T -> norm2 r / md <= first_cut c.
(** residuals, relative to their scale, within the cut-off *)
Definition residuals_within (c : cuts) (e : list R) : Prop := forall s v, resid_scale e s -> In v e -> Rabs v / (14826 / 10000 * s) <= first_cut c.
Definition responses_within (P : rm_par R) (c : cuts) (y ys : list R) : Prop := forall d v, start_distances P y ys d -> In v d -> v <= first_cut c.
(** rows, starting responses and least-squares residuals of the scaled data *)
Definition clean_rm (env : rm_env R) (P : rm_par R) (p : nat) (y : list R) (Xs : list (list R)) (ys b : list R) : Prop :=
  rows_within (lever_cuts env P p) Xs /\ responses_within P (resid_cuts env P) y ys /\ residuals_within (resid_cuts env P) (resid_of Xs ys b).
(** starting data, starting responses, scores and residuals of the snipls fit to the scaled data *)
Definition clean_sp (env : sp_env R) (P : sp_par R) (f : mfun) (h : nat) (y : list R) (Xs : list (list R)) (ys : list R) (m : snipls_model R) : Prop :=
  (forall rc Us, start_data env P Xs rc Us -> rows_within (start_cuts env P rc) Us) /\ responses_within (sp_rm P) (normal_cuts env P) y ys /\
  (forall rc T, scaled_by (re_prep (se_rm env)) (s_centre P) (score_scale P) (sn_T m) T -> rows_within (pass_cuts env P f h rc) T) /\
  residuals_within (normal_cuts env P) (diff_at ys (sn_fitted m)).
Definition ones (n : nat) : list R := repeat 1 n.
