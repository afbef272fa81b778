(** Specifications for C129-C135: the same cases in another order, and data in
    other units. *)

From Coq Require Import Reals List Arith Permutation.
Import ListNotations.
From Verif Require Import Num Err Vec M_Utils M_Preproc M_Robcent M_Rm M_Snipls M_Sprm M_Dicomo S_Stats.
Open Scope R_scope.

(** [o] lists the cases 0..n-1 in some order *)
Definition case_order (n : nat) (o : list nat) : Prop := Permutation (seq 0 n) o.
(** the entries of [l] taken in the order [o] *)
Definition reorder {T} (o : list nat) (l : list T) : list T :=
  flat_map (fun i => match nth_error l i with Some x => [x] | None => [] end) o.

(** an array of [n] cases: a vector, or a matrix with one row per case *)
Definition cases (n : nat) (x : arr R) : Prop :=
  match x with A1 v => length v = n | A2 X => exists p, is_matrix n p X end.
Definition areorder (o : list nat) (x : arr R) : arr R :=
  match x with A1 v => A1 (reorder o v) | A2 X => A2 (reorder o X) end.
(** the keyword arguments of dicomo.fit with the cases of y reordered *)
Definition kw_reorder (o : list nat) (kw : dkw R) : dkw R :=
  mk_dkw (option_map (areorder o) (k_y kw)) (k_trim kw) (k_bias kw) (k_alpha kw) (k_calc kw) (k_order kw) (k_option kw) (k_fisher kw) (k_std kw) (k_metric kw).
(** d(u,v) = d(v,u) *)
Definition symmetric_metric (d : list R -> list R -> R) : Prop := forall u v, d u v = d v u.

(** the names documented for the centre and the scale *)
Definition documented_centre (c : centre_opt R) : Prop :=
  c = CMean \/ c = CMedian \/ c = CL1median \/ c = CKstepLTS \/ c = CNone.
Definition documented_scale (s : scale_opt R) : Prop := s = SStd \/ s = SMad \/ s = STau2 \/ s = SNone.

(** the external routines do not look at the order of the cases: the optimiser
    behind the spatial median, least squares, and the leading left singular
    vectors (rows are reordered with the cases; numpy returns the full n x n
    matrix, of which only the columns of singular values matter) *)
Definition l1opt_order_free (env : prep_env R) : Prop :=
  forall X Y a, Permutation X Y -> env_l1opt env X a = env_l1opt env Y a.
Definition lstsq_order_free (env : rm_env R) : Prop :=
  forall n p o X y, case_order n o -> is_matrix n p X -> length y = n -> re_lstsq env (reorder o X) (reorder o y) = re_lstsq env X y.
Definition svd_order_free (env : sp_env R) : Prop :=
  forall n p o X, case_order n o -> is_matrix n p X ->
    match se_svd env X with
    | Err e => se_svd env (reorder o X) = Err e
    | Ok (U, s) => is_matrix n n U /\ (length s <= n)%nat /\ exists U', se_svd env (reorder o X) = Ok (U', s) /\
                     forall k, (k <= length s)%nat -> map (firstn k) U' = reorder o (map (firstn k) U)
    end.
(** the distance covariances of the dcor package *)
Definition dcor_order_free (dc : dcor_env R) : Prop :=
  forall n o x y, case_order n o -> cases n x -> cases n y ->
    dc_v dc (areorder o x) (areorder o y) = dc_v dc x y /\ dc_u dc (areorder o x) (areorder o y) = dc_u dc x y.

(** the same fitted model with its per-case attributes in the order [o]: scores,
    fitted values, residuals and case weights.  Loadings, coefficients,
    intercepts, retained variables, locations, scales and cut-offs have no cases
    and are the same *)
Definition reorder_model (o : list nat) (f : snipls_model R) : snipls_model R :=
  mk_snipls (sn_eta f) (sn_ncomp f) (sn_p f) (sn_W f) (sn_P f) (sn_C f) (reorder o (sn_T f)) (sn_coef f) (sn_coef_scaled f) (sn_intercept f)
    (sn_xev f) (sn_yev f) (reorder o (sn_fitted f)) (reorder o (sn_resid f)) (sn_R f) (sn_retained f) (sn_colret f) (sn_xloc f) (sn_yloc f) (sn_xsca f) (sn_ysca f).
Definition reorder_rm (o : list nat) (m : rm_model R) : rm_model R :=
  mk_rm (rm_p m) (rm_coef m) (rm_intercept m) (rm_coef_scaled m) (rm_intercept_scaled m) (reorder o (rm_resid m)) (reorder o (rm_fitted m))
    (reorder o (rm_xcw m)) (reorder o (rm_ycw m)) (reorder o (rm_cw m)) (rm_xloc m) (rm_yloc m) (rm_xsca m) (rm_ysca m).
Definition reorder_sp (o : list nat) (m : sp_model R) : sp_model R :=
  mk_sp (sp_p m) (sp_keep m) (sp_coef m) (sp_intercept m) (sp_coef_scaled m) (sp_intercept_scaled m) (reorder o (sp_resid m)) (reorder o (sp_fitted m))
    (sp_W m) (sp_P m) (sp_R m) (reorder o (sp_T m)) (reorder o (sp_xcw m)) (reorder o (sp_ycw m)) (reorder o (sp_cw m))
    (sp_xloc m) (sp_yloc m) (sp_xsca m) (sp_ysca m) (sp_colret m) (sp_fun m) (sp_ctx m) (sp_cbx m) (sp_crx m) (sp_tcentre m) (sp_tscale m).
Definition reorder_res (o : list nat) (r : res (sp_model R)) : res (sp_model R) := match r with Ok m => Ok (reorder_sp o m) | Err e => Err e end.
(** the least-squares problems posed, with their rows in the order [o] *)
Definition reorder_calls (o : list nat) (cs : list (list (list R) * list R)) := map (fun c => (reorder o (fst c), reorder o (snd c))) cs.
