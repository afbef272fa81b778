(** Specifications for C162-C164: the same variables in another order, and some of
    them counted in the opposite direction. *)

From Coq Require Import Reals List Arith Permutation.
Import ListNotations.
From Verif Require Import Num Err Vec M_Utils M_Preproc M_Robcent M_Rm M_Snipls M_Sprm S_Stats.
Open Scope R_scope.

(** a relabelling lists, for every new position, the old position of the variable
    and 1, or -1 if its direction is reversed *)
Definition relabelling (p : nat) (q : list (nat * R)) : Prop :=
  Permutation (map fst q) (seq 0 p) /\ Forall (fun je => snd je = 1 \/ snd je = -1) q.
(** one number per variable that changes its sign with the variable: a case, coefficients, locations *)
Definition relabel_row (q : list (nat * R)) (r : list R) : list R := map (fun je => snd je * nth (fst je) r 0) q.
(** one number per variable that does not: scales *)
Definition relabel_pos (q : list (nat * R)) (r : list R) : list R := map (fun je => nth (fst je) r 0) q.
(** data, and matrices with a row for each variable *)
Definition relabel (q : list (nat * R)) (X : list (list R)) : list (list R) := map (relabel_row q) X.
Definition relabel_rows (q : list (nat * R)) (M : list (list R)) : list (list R) := map (fun je => map (Rmult (snd je)) (nth (fst je) M [])) q.
(** a set of variables, as the increasing list of their positions *)
Definition relabel_set (q : list (nat * R)) (l : list nat) : list nat :=
  filter (fun k => existsb (Nat.eqb (fst (nth k q (0%nat, 1)))) l) (seq 0 (length q)).

(** the estimates for one column at a time, of an odd centre and an even scale *)
Definition column_centre (c : centre_opt R) : Prop := c = CMean \/ c = CMedian \/ c = CNone.
Definition column_scale (s : scale_opt R) : Prop := s = SStd \/ s = SMad \/ s = SNone.

Definition relabel_model (q : list (nat * R)) (f : snipls_model R) : snipls_model R :=
  mk_snipls (sn_eta f) (sn_ncomp f) (sn_p f) (relabel_rows q (sn_W f)) (relabel_rows q (sn_P f)) (sn_C f) (sn_T f)
    (relabel_row q (sn_coef f)) (relabel_row q (sn_coef_scaled f)) (sn_intercept f)
    (sn_xev f) (sn_yev f) (sn_fitted f) (sn_resid f) (relabel_rows q (sn_R f)) (map (relabel_set q) (sn_retained f)) (option_map (relabel_set q) (sn_colret f))
    (relabel_row q (sn_xloc f)) (sn_yloc f) (relabel_pos q (sn_xsca f)) (sn_ysca f).
(** least squares on the relabelled variables returns the relabelled coefficients, as the solution of minimal norm does *)
Definition lstsq_relabel_free (env : rm_env R) : Prop := forall n p q X y, relabelling p q -> is_matrix n p X -> (0 < n)%nat -> length y = n ->
  match re_lstsq env X y with
  | Ok b => length b = p /\ re_lstsq env (relabel q X) y = Ok (relabel_row q b)
  | Err e => re_lstsq env (relabel q X) y = Err e
  end.
Definition relabel_calls (q : list (nat * R)) (l : list (list (list R) * list R)) : list (list (list R) * list R) := map (fun c => (relabel q (fst c), snd c)) l.
Definition relabel_rm (q : list (nat * R)) (m : rm_model R) : rm_model R :=
  mk_rm (rm_p m) (relabel_row q (rm_coef m)) (rm_intercept m) (relabel_row q (rm_coef_scaled m)) (rm_intercept_scaled m) (rm_resid m) (rm_fitted m) (rm_xcw m) (rm_ycw m) (rm_cw m)
    (relabel_row q (rm_xloc m)) (rm_yloc m) (relabel_pos q (rm_xsca m)) (rm_ysca m).
(** singular values that do not depend on the labels; the left singular vectors may change their signs *)
Definition svd_relabel_free (env : sp_env R) : Prop := forall n p q X, relabelling p q -> is_matrix n p X -> (0 < n)%nat ->
  match se_svd env X with
  | Err e => se_svd env (relabel q X) = Err e
  | Ok (U, s) => is_matrix n n U /\ (length s <= n)%nat /\
                 exists e, length e = n /\ Forall (fun x => x = 1 \/ x = -1) e /\ se_svd env (relabel q X) = Ok (map (map2 Rmult e) U, s)
  end.
(** the relabelling of the variables kept, in terms of their positions among those kept *)
Definition restrict (q : list (nat * R)) (keep : list nat) : list (nat * R) :=
  map (fun je => (length (filter (fun i => (i <? fst je)%nat) keep), snd je)) (filter (fun je => existsb (Nat.eqb (fst je)) keep) q).
Definition relabel_colret (q : list (nat * R)) (c : colret) : colret := match c with CrPos l => CrPos (relabel_set q l) | _ => c end.
Definition relabel_sp (q : list (nat * R)) (m : sp_model R) : sp_model R :=
  let q' := restrict q (sp_keep m) in
  mk_sp (sp_p m) (relabel_set q (sp_keep m)) (relabel_row q' (sp_coef m)) (sp_intercept m) (relabel_row q' (sp_coef_scaled m)) (sp_intercept_scaled m)
    (sp_resid m) (sp_fitted m) (relabel_rows q' (sp_W m)) (relabel_rows q' (sp_P m)) (relabel_rows q' (sp_R m)) (sp_T m)
    (sp_xcw m) (sp_ycw m) (sp_cw m) (relabel_row q (sp_xloc m)) (sp_yloc m) (relabel_pos q (sp_xsca m)) (sp_ysca m)
    (relabel_colret q' (sp_colret m)) (sp_fun m) (sp_ctx m) (sp_cbx m) (sp_crx m) (sp_tcentre m) (sp_tscale m).
