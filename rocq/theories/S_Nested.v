(** Vocabulary for "the same call, with another number of components" *)
From Coq Require Import String List Arith Bool.
Import ListNotations. Import List.
From Verif Require Import Num Err Vec M_Preproc M_Dicomo M_Ppdire M_SdrUtils M_Sudire.

(** the number of components fit works with: the keyword h if given, n_components otherwise *)
Definition asked {A} (prm : pparams A) (f : fkw A) : nat := match f_h f with Some k => k | None => pp_ncomp prm end.

(** two ppdire estimators and calls of fit which differ in the number of components at most *)
Definition same_call {A} (prm prm' : pparams A) (f f' : fkw A) : Prop :=
  pp_idx prm' = pp_idx prm /\ pp_trim prm' = pp_trim prm /\ pp_alpha prm' = pp_alpha prm /\ pp_optim prm' = pp_optim prm /\
  pp_regopt prm' = pp_regopt prm /\ pp_center prm' = pp_center prm /\ pp_center_data prm' = pp_center_data prm /\
  pp_scale_data prm' = pp_scale_data prm /\ pp_whiten prm' = pp_whiten prm /\ pp_square prm' = pp_square prm /\ pp_compress prm' = pp_compress prm /\
  f_y f' = f_y f /\ f_bias f' = f_bias f.

(** two sudire estimators which differ in the number of components at most *)
Definition same_sudire {A} (a b : sparams A) : Prop :=
  sp_meth b = sp_meth a /\ sp_trim b = sp_trim a /\ sp_center b = sp_center a /\ sp_center_data b = sp_center_data a /\
  sp_scale_data b = sp_scale_data a /\ sp_whiten b = sp_whiten a /\ sp_compress b = sp_compress a /\ sp_slices b = sp_slices a /\
  sp_copy b = sp_copy a /\ sp_cont b = sp_cont a /\ sp_return b = sp_return a.

(** sir, save, dr, phd and iht: no optimisation *)
Definition direct_method {A} (m : meth A) : Prop := m = MSir \/ m = MSave \/ m = MDr \/ m = MPhd \/ m = MIht.
