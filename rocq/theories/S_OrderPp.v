(** Specifications for C152, C153: projection pursuit with the same cases in
    another order. *)

From Coq Require Import String Reals List Arith Permutation.
Import List.
Import ListNotations.
From Verif Require Import Num Err Vec M_Utils M_Preproc M_Dicomo M_Capi M_Ppdire S_Stats S_Order.
Open Scope R_scope.

(** a projection index that does not look at the order of the cases *)
Definition index_order_free (most : arr R -> dkw R -> res R) : Prop :=
  forall n o x kw, case_order n o -> cases n x -> (forall y, k_y kw = Some y -> cases n y) -> (forall d, k_metric kw = Some d -> symmetric_metric d) ->
    most (areorder o x) (kw_reorder o kw) = most x kw.
(** a regression routine that does not look at the order of the cases *)
Definition regression_order_free (reg : list R -> list R -> res (list R)) : Prop :=
  forall n o u v, case_order n o -> length u = n -> length v = n -> reg (reorder o u) (reorder o v) = reg u v.
(** the optimiser's answer does not depend on where it starts *)
Definition start_free (env : pp_env R) (opt : optim) : Prop :=
  forall d f x x', length x = length x' -> pe_opt env opt d f x = pe_opt env opt d f x'.

(** intercepts, residuals: one value, or one value per case *)
Definition reorder_inter (o : list nat) (i : inter R) : inter R := match i with IOne a => IOne a | IMany v => IMany (reorder o v) end.
Definition reorder_resid (o : list nat) (r : arr R) : arr R := match r with A1 v => A1 (reorder o v) | A2 M => A2 (reorder o (map (reorder o) M)) end.
(** the fitted model with its per-case attributes in the order [o] *)
Definition reorder_ym (o : list nat) (m : pp_ymodel R) : pp_ymodel R :=
  mk_ym (ym_coef m) (ym_coef_scaled m) (reorder_inter o (ym_intercept m)) (reorder_inter o (ym_intercept_scaled m)) (reorder o (ym_fitted m)) (reorder_resid o (ym_resid m))
    (ym_C m) (ym_loc m) (ym_sca m).
Definition reorder_pp (o : list nat) (m : pp_model R) : pp_model R :=
  mk_pm (pm_p m) (pm_W m) (pm_P m) (pm_R m) (reorder o (pm_T m)) (pm_crit m) (pm_max m) (pm_loc m) (pm_sca m) (pm_2d m) (option_map (reorder_ym o) (pm_y m)).
(** the arguments of fit with the cases of y reordered *)
Definition reorder_fkw (o : list nat) (f : fkw R) : fkw R :=
  mk_fkw (match f_y f with YNone => YNone | YPos y => YPos (areorder o y) | YKw y => YKw (areorder o y) end) (f_h f) (f_bias f) (f_option f) (f_dmetric f).
Definition fkw_cases (n : nat) (f : fkw R) : Prop := match f_y f with YNone => True | YPos y | YKw y => cases n y end.
(** a projection index class for capi that does not look at the order *)
Definition pindex_order_free {St} (pi : pindex R St) : Prop :=
  forall n o s x y i j kw, case_order n o -> cases n x -> cases n y -> (forall d, k_metric kw = Some d -> symmetric_metric d) ->
    pi_fit pi s (areorder o x) (areorder o y) i j (kw_reorder o kw) = pi_fit pi s x y i j kw.

(** the regression of the response on the scores that [regopt] names returns one
    coefficient for samples of size n; "robust" and "quantile" only work when the
    response was passed by keyword *)
Definition answers (n : nat) (reg : list R -> list R -> res (list R)) : Prop := forall u v, length u = n -> length v = n -> exists b, reg u v = Ok [b].
Definition regression_answers (env : pp_env R) (prm : pparams R) (n : nat) (y : yarg R) : Prop :=
  pp_regopt prm = "OLS"%string \/
  (exists a, y = YKw a) /\ (pp_regopt prm = "robust"%string /\ answers n (pe_rm env) \/ pp_regopt prm = "quantile"%string /\ answers n (pe_qr env)).
