(** Specifications for C133-C135: the same data in other units. *)

From Coq Require Import Reals List Arith.
Import ListNotations.
From Verif Require Import Num Err Vec M_Utils M_Preproc M_Robcent M_Rm M_Snipls M_Sprm S_Stats S_Dicomo.
Open Scope R_scope.

(** variable j measured as a_j x + b_j instead of x; the response as c y + d is
    [affine c d y] *)
Definition unit_row (a b r : list R) : list R := map2 Rplus (map2 Rmult a r) b.
Definition units (a b : list R) (X : list (list R)) : list (list R) := map (unit_row a b) X.
(** a change of units for p variables: positive factors, any origin *)
Definition unit_change (p : nat) (a b : list R) : Prop :=
  length a = p /\ length b = p /\ Forall (fun v => 0 < v) a.
(** the centre and scale estimates that follow a change of units *)
Definition unit_centre (c : centre_opt R) : Prop := c = CMean \/ c = CMedian.
Definition unit_scale (s : scale_opt R) : Prop := s = SStd \/ s = SMad.
(** the spread of a sample as measured by the scale option *)
Definition has_spread (s : scale_opt R) (v : list R) : Prop :=
  match s with SStd => variance_of v <> 0 | _ => ~ is_mad 1 v 0 end.
(** it is [q] *)
Definition is_spread (s : scale_opt R) (v : list R) (q : R) : Prop :=
  match s with SStd => q = sqrt (variance_of v) | _ => is_mad (6744897501960817 / 10000000000000000) v q end.

(** coefficients, intercept: the same regression surface in the new units *)
Definition unit_coef (a : list R) (c : R) (beta : list R) : list R := map2 (fun aj bj => c / aj * bj) a beta.
Definition unit_icpt (a b : list R) (c d : R) (beta : list R) (i : R) : R := c * i + d - inner b (unit_coef a c beta).
Definition unit_loc (a b m : list R) : list R := map2 Rplus (map2 Rmult a m) b.
Definition unit_sca (a s : list R) : list R := map2 Rmult a s.

(** the same fitted models: everything about the scaled data (weights, loadings,
    scores, coefficients of the scaled data, explained variances, retained
    variables, case weights) is the same *)
Definition unit_model (a b : list R) (c d : R) (f : snipls_model R) : snipls_model R :=
  mk_snipls (sn_eta f) (sn_ncomp f) (sn_p f) (sn_W f) (sn_P f) (sn_C f) (sn_T f)
    (unit_coef a c (sn_coef f)) (sn_coef_scaled f) (unit_icpt a b c d (sn_coef f) (sn_intercept f))
    (sn_xev f) (sn_yev f) (affine c d (sn_fitted f)) (affine c 0 (sn_resid f)) (sn_R f) (sn_retained f) (sn_colret f)
    (unit_loc a b (sn_xloc f)) (unit_loc [c] [d] (sn_yloc f)) (unit_sca a (sn_xsca f)) (unit_sca [c] (sn_ysca f)).
Definition unit_rm (a b : list R) (c d : R) (m : rm_model R) : rm_model R :=
  mk_rm (rm_p m) (unit_coef a c (rm_coef m)) (unit_icpt a b c d (rm_coef m) (rm_intercept m)) (rm_coef_scaled m) (rm_intercept_scaled m)
    (affine c 0 (rm_resid m)) (affine c d (rm_fitted m)) (rm_xcw m) (rm_ycw m) (rm_cw m)
    (unit_loc a b (rm_xloc m)) (unit_loc [c] [d] (rm_yloc m)) (unit_sca a (rm_xsca m)) (unit_sca [c] (rm_ysca m)).
Definition unit_sp (a b : list R) (c d : R) (m : sp_model R) : sp_model R :=
  mk_sp (sp_p m) (sp_keep m) (unit_coef a c (sp_coef m)) (unit_icpt a b c d (sp_coef m) (sp_intercept m)) (sp_coef_scaled m) (sp_intercept_scaled m)
    (affine c 0 (sp_resid m)) (affine c d (sp_fitted m)) (sp_W m) (sp_P m) (sp_R m) (sp_T m) (sp_xcw m) (sp_ycw m) (sp_cw m)
    (unit_loc a b (sp_xloc m)) (unit_loc [c] [d] (sp_yloc m)) (unit_sca a (sp_xsca m)) (unit_sca [c] (sp_ysca m))
    (sp_colret m) (sp_fun m) (sp_ctx m) (sp_cbx m) (sp_crx m) (sp_tcentre m) (sp_tscale m).
(** the spread of the sample is not below 1e-5 *)
Definition visible (s : scale_opt R) (v : list R) : Prop := forall q, is_spread s v q -> 1 / 100000 <= q.
