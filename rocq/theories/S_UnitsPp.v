(** Specifications for C155, C156: projection pursuit of the same data in other
    units. *)

From Coq Require Import String Reals List Arith.
Import List. Import ListNotations.
From Verif Require Import Num Err Vec M_Utils M_Preproc M_Robcent M_Dicomo M_Ppdire S_Stats S_Regress S_Dicomo S_Units.
Import List. Open Scope R_scope.

(** the scale estimate ppdire pairs with the centre (ppdire.py:316-321) *)
Definition pscale (ce : centre_opt R) : scale_opt R := match ce with CMean => SStd | _ => SMad end.

(** the response measured as c y + e *)
Definition unit_arr (c e : R) (y : arr R) : arr R := match y with A1 v => A1 (affine c e v) | A2 Y => A2 (map (affine c e) Y) end.
Definition unit_fkw (c e : R) (f : fkw R) : fkw R :=
  mk_fkw (match f_y f with YNone => YNone | YPos y => YPos (unit_arr c e y) | YKw y => YKw (unit_arr c e y) end) (f_h f) (f_bias f) (f_option f) (f_dmetric f).

(** [m'] describes in the new units what [m] describes in the old ones: the
    components are the same, the coefficients (one column per number of
    components), the intercept, the fitted values and the residuals are those
    of the same regression surfaces *)
Definition same_response (a b : list R) (c e : R) (h : nat) (y y' : pp_ymodel R) : Prop :=
  is_matrix (length a) h (ym_coef y) /\ is_matrix (length a) h (ym_coef y') /\
  (forall i, (i < h)%nat -> column i (ym_coef y') = unit_coef a c (column i (ym_coef y))) /\
  ym_coef_scaled y' = ym_coef_scaled y /\ ym_C y' = ym_C y /\
  (exists i, ym_intercept y = IOne i /\ ym_intercept y' = IOne (unit_icpt a b c e (column (h - 1) (ym_coef y)) i)) /\
  ym_fitted y' = affine c e (ym_fitted y) /\
  (exists r, ym_resid y = A1 r /\ ym_resid y' = A1 (affine c 0 r)) /\
  ym_loc y' = c * ym_loc y + e /\ ym_sca y' = c * ym_sca y.
Definition same_components (a b : list R) (m m' : pp_model R) : Prop :=
  pm_p m' = pm_p m /\ pm_W m' = pm_W m /\ pm_P m' = pm_P m /\ pm_R m' = pm_R m /\ pm_T m' = pm_T m /\ pm_crit m' = pm_crit m /\ pm_max m' = pm_max m /\
  pm_loc m' = unit_loc a b (pm_loc m) /\ pm_sca m' = unit_sca a (pm_sca m) /\ pm_2d m' = pm_2d m.
Definition same_in_units (a b : list R) (c e : R) (h : nat) (m m' : pp_model R) : Prop :=
  same_components a b m m' /\
  match pm_y m, pm_y m' with
  | None, None => True
  | Some y, Some y' => same_response a b c e h y y'
  | _, _ => False
  end.
(** intercept_scaled_ *)
Definition scaled_icpt (m : pp_model R) : option (inter R) := option_map ym_intercept_scaled (pm_y m).

(** quantile regression without intercept: multiplying the response by c > 0
    multiplies the coefficient by c *)
Definition homogeneous_qr (qr : list R -> list R -> res (list R)) : Prop :=
  forall c y t, 0 < c -> qr (affine c 0 y) t = match qr y t with Ok l => Ok (map (Rmult c) l) | Err e => Err e end.
(** the coefficients multiplied by c again *)
Definition twice_scaled (a : list R) (c : R) (h : nat) (m m' : pp_model R) : Prop :=
  match pm_y m, pm_y m' with
  | Some y, Some y' => is_matrix (length a) h (ym_coef y) /\ is_matrix (length a) h (ym_coef y') /\
      forall i, (i < h)%nat -> column i (ym_coef y') = map (Rmult c) (unit_coef a c (column i (ym_coef y)))
  | _, _ => False
  end.
