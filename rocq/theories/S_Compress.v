(** Notions for abandoned compression (C171). *)
From Coq Require Import Reals List.
Import ListNotations.
From Verif Require Import Num Vec S_Stats M_Sudire.
Open Scope R_scope.
(** the same instance with another value of compression *)
Definition with_compression (st : sstate R) (b : bool) : sstate R :=
  let q := ss_prm st in
  mk_ss (mk_sp (sp_meth q) (sp_ncomp q) (sp_trim q) (sp_center q) (sp_center_data q) (sp_scale_data q) (sp_whiten q) b (sp_slices q) (sp_copy q) (sp_cont q) (sp_return q))
    (ss_X0 st) (ss_start st) (ss_cons st) (ss_args st) (ss_dict st).
