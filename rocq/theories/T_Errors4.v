(** Theorems on the regression options of ppdire (C193), on data of different
    lengths in MDDM (C60) and on an unfitted sign preprocessor (C24) *)
From Coq Require Import String Reals QArith List Arith ZArith Bool Lia.
Import List. Import ListNotations.
From Verif Require Import Num Err Vec S_Stats M_Utils M_Preproc M_Robcent M_Dicomo M_Gsspp M_Ppdire M_PpWorld S_Ppdire S_Errors4 L_Errors4 T_Scaling T_Snipls T_Ppdire.
Import List.

(* ------------------------------------------------------------------ *)
(** C193: data that ppdire fits with regopt='OLS' cannot be fitted with an unknown
    option, nor with 'robust' or 'quantile' when the response is passed by
    position: fit ends with UnboundLocalError, after the directions have been
    computed. *)
Theorem C193_refuted : forall (A : Type) (N : Num A) (env : pp_env A) prm d X f r m,
  pp_regopt prm = "OLS"%string -> (0 < match f_h f with Some h => h | None => pp_ncomp prm end)%nat ->
  snd (pp_fit env prm d X f) = Ok m ->
  r <> "OLS"%string ->
  match f_y f with YNone => False | YPos _ => True | YKw _ => r <> "robust"%string /\ r <> "quantile"%string end ->
  snd (pp_fit env (with_regopt r prm) d X f) = Err UnboundLocalError.
Proof. exact @regopt_fails. Qed.
Print Assumptions C193_refuted.
(** without a response the option has no effect *)
Theorem C193_one_block : forall (A : Type) (N : Num A) (env : pp_env A) prm d X f r,
  f_y f = YNone -> snd (pp_fit env (with_regopt r prm) d X f) = snd (pp_fit env prm d X f).
Proof. exact @regopt_ignored. Qed.
Print Assumptions C193_one_block.
Example C193_case : let f := f0 (YPos (A1 [1; 2; 6; 3]%Q)) in pp_regopt (prmQ 2 true) = "OLS"%string /\ (0 < pp_ncomp (prmQ 2 true))%nat /\ (exists m, snd (pp_fit (ppQ invQ no_svd) (prmQ 2 true) [] X42 f) = Ok m) /\
  snd (pp_fit (ppQ invQ no_svd) (with_regopt "robust" (prmQ 2 true)) [] X42 f) = Err UnboundLocalError.
Proof. intros f. split; [reflexivity|]. split; [cbn; lia|]. split; [eexists|]; vm_compute; reflexivity. Qed.

(* ------------------------------------------------------------------ *)
(** C60: MDDM refuses predictors and responses of different lengths *)
Theorem C60_lengths : forall (A : Type) (N : Num A) (X Y : list (list A)), length X <> length Y -> MDDM X Y = Err ValueError.
Proof. exact @MDDM_lengths. Qed.
Print Assumptions C60_lengths.

(* ------------------------------------------------------------------ *)
(** C24: before fit, and after a fit that failed, transform is NotFittedError *)
Theorem C24_unfitted : forall (A : Type) (N : Num A) (env : prep_env A) c f X x,
  gss_transform (new_gss c f) x = Err NotFittedError /\
  (forall e, snd (gss_fit env (new_gss c f) X) = Err e -> gss_transform (fst (gss_fit env (new_gss c f) X)) x = Err NotFittedError).
Proof. exact @unfitted. Qed.
Print Assumptions C24_unfitted.
Example C60_lengths_case : MDDM [[1; 2]; [3; 4]; [0; 1]]%Q [[1]; [2]]%Q = Err ValueError. Proof. reflexivity. Qed.
Example C24_unfitted_case : snd (gss_fit envQ (new_gss CNone FBadStr) (A2 [[3; 4]; [-3; -4]]%Q)) = Err NameError /\
  gss_transform (fst (gss_fit envQ (new_gss CNone FBadStr) (A2 [[3; 4]; [-3; -4]]%Q))) (A2 [[1; 2]]%Q) = Err NotFittedError.
Proof. split; reflexivity. Qed.
