(** Further theorems for C08, C55, C87, C144, C146 and C174. *)

From Coq Require Import String Reals QArith List Arith ZArith Bool Lia Lra Permutation Sorted.
Import List. Import ListNotations.
From Verif Require Import Num Err Vec VecR S_Stats M_Utils M_Preproc M_Robcent M_Dicomo M_Rm M_Snipls M_Sprm M_Plot M_Ppdire M_Sudire M_Plot2 S_Plot S_Extra
  L_Mat L_Scaling L_Extra T_Scaling T_Dicomo T_Snipls T_Rm T_Sprm T_Ppdire T_Plot.
Import List. Open Scope R_scope.

(* ------------------------------------------------------------------ *)
(** C08: datas_ is what the last successful transform or fit_transform returned,
    whatever fits, predictions, inverse transforms and changes of parameters
    followed, so that inverse_transform() is inverse_transform of that result;
    datans_ is what the last successful predict returned. *)
Theorem C08_stored : forall {A} `{Num A} (env : prep_env A) st x st' Xs os, sc_transform st x = (st', Ok Xs) \/ sc_fit_transform env st x = (st', Ok Xs) -> Forall not_transform os ->
  a_datas (sc_run env st' os) = Some Xs /\
  ((2 <= length Xs)%nat -> sc_inverse_transform (sc_run env st' os) None = sc_inverse_transform (sc_run env st' os) (Some (A2 Xs))).
Proof. exact @stored_l. Qed.
Print Assumptions C08_stored.
Theorem C08_predicted : forall {A} `{Num A} (env : prep_env A) st x st' Xs os, sc_predict st x = (st', Ok Xs) -> Forall not_predict os -> a_datans (sc_run env st' os) = Some Xs.
Proof. exact @predicted_l. Qed.
Print Assumptions C08_predicted.
Definition os2 : list (@sc_op Q) := [OpPredict (A2 [[5; 5]; [7; 9]]%Q); OpFit (A2 [[1; 1]; [2; 2]]%Q)].
Example C08_stored_case : exists st Xs, sc_fit_transform envQ (new_scaler CMean SNone 0%Q) (A2 [[1; 2]; [3; 6]]%Q) = (st, Ok Xs) /\ map (map Qred) Xs = [[-1; -2]; [1; 2]]%Q /\
  Forall not_transform os2 /\ option_map (map (map Qred)) (a_datas (sc_run envQ st os2)) = Some [[-1; -2]; [1; 2]]%Q /\
  option_map (map (map Qred)) (a_datans (sc_run envQ st os2)) = Some [[3; 1]; [5; 5]]%Q.
Proof. eexists. eexists. split; [reflexivity|]. split; [vm_compute; reflexivity|]. split; [repeat constructor|]. split; vm_compute; reflexivity. Qed.

(* ------------------------------------------------------------------ *)
(** C174: the constructor of snipls accepts exactly the sparsity parameters in
    [0, 1) with at least one component *)
Theorem C174_snipls_constructor : forall (eta : R) k, snipls_init_ok eta k = true <-> 0 <= eta < 1 /\ (1 <= k)%nat.
Proof.
  intros eta k. unfold snipls_init_ok. rewrite !andb_true_iff, Nat.leb_le. change (nleb n0 eta) with (Rleb 0 eta). change (nltb eta n1) with (Rltb eta 1). rewrite Rleb_true, Rltb_true. tauto.
Qed.
Print Assumptions C174_snipls_constructor.
Example C174_snipls_case : snipls_init_ok 0 1 = true /\ snipls_init_ok 1 1 = false /\ snipls_init_ok (1/2) 0 = false.
Proof.
  split; [apply C174_snipls_constructor; split; [lra|lia]|]. split; apply not_true_iff_false; intros E; apply C174_snipls_constructor in E; [lra|lia].
Qed.

(* ------------------------------------------------------------------ *)
(** C55: with est 'sign' or 'entropy' the modes which use the moments fail *)
Theorem C55_sign_errors_refuted : forall {A} `{Num A} (dc : dcor_env A) s x kw, (d_est s = "sign" \/ d_est s = "entropy")%string -> alen x <> 0%nat ->
  (d_mode s = "corr" \/ d_mode s = "continuum" \/ ((d_mode s = "cok" \/ d_mode s = "cos") /\ dflt (k_std kw) true = true))%string ->
  snd (dicomo_fit dc s x kw) = Err UnboundLocalError.
Proof. exact @sign_errors. Qed.
Print Assumptions C55_sign_errors_refuted.
Example C55_sign_errors_case : exists s, dicomo_init (A:=Q) "sign" "corr" "mean" = Ok s /\ snd (dicomo_fit dcX s (A1 [1;2;3]%Q) kw0) = Err UnboundLocalError.
Proof. eexists. split; [reflexivity|]. vm_compute. reflexivity. Qed.

(* ------------------------------------------------------------------ *)
(** C87: the truncated plot shows the smallest and the largest coefficients, as
    many of each, in increasing order *)
Theorem C87_bars : forall left (b : list R), (2 * left <= length b)%nat -> exists s, Permutation b s /\ StronglySorted Rle s /\
  fst (coeff_bars left b) = (firstn left s ++ skipn (length b - left) s)%list /\ StronglySorted lt (snd (coeff_bars left b)).
Proof. exact bars_l. Qed.
Print Assumptions C87_bars.
Example C87_bars_case : (2 * 1 <= length [3; 1; 2; 5])%nat /\ map Qred (fst (coeff_bars 1 [3; 1; 2; 5]%Q)) = [1; 5]%Q.
Proof. split; [cbn; lia|vm_compute; reflexivity]. Qed.

(* ------------------------------------------------------------------ *)
(** C144: ppdire's plot of predictions takes no list of labels *)
Theorem C144_list_label_refuted : forall {A : Type} t (v : view A) ytruev Xn l names namesv, full_theme t -> l <> [] -> v_y0 v <> None -> v_fitted v <> None ->
  view_plot_yyp ppdire_legend t v ytruev Xn (LList l) names namesv false = Err TypeError.
Proof. exact @list_label. Qed.
Print Assumptions C144_list_label_refuted.
(** C146: values of another number than the retained variables *)
Theorem C146_mismatch : forall {A} `{Num A} t (m : sp_model A) entity, full_theme t -> length entity <> length (sp_keep m) -> length entity <> 1%nat -> length (sp_keep m) <> 1%nat ->
  sprm_plot_coeffs t m entity None NoCols = Err ValueError.
Proof. exact @mismatch. Qed.
Print Assumptions C146_mismatch.
Example C146_mismatch_case :
  bind (sprm_fit (spQ 1) (SQ CMedian SNone (ColBool false)) None [[1;0]; [0;1]; [0;0]]%Q [1;1;0]%Q) (fun m => Ok (sp_keep m, sprm_plot_coeffs th8 m [1; 2; 3]%Q None NoCols)) =
  Ok ([0%nat; 1%nat], Err ValueError).
Proof. vm_compute. reflexivity. Qed.
