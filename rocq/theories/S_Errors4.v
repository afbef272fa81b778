(** Specification for C193: the same ppdire object with another regression option *)
From Coq Require Import String.
From Verif Require Import Num M_Ppdire.

Section Regopt.
  Context {A : Type}.
  Definition with_regopt (r : string) (prm : pparams A) : pparams A :=
    mk_pp (pp_idx prm) (pp_ncomp prm) (pp_trim prm) (pp_alpha prm) (pp_optim prm) r (pp_center prm) (pp_center_data prm)
      (pp_scale_data prm) (pp_whiten prm) (pp_square prm) (pp_compress prm).
End Regopt.
