(** Property theorems C172: a response given as a one-column data frame. *)

From Coq Require Import String Reals QArith List Arith ZArith Bool Lia Lra.
Import List. Import ListNotations.
From Verif Require Import Num Err Vec VecR S_Stats S_Regress M_Utils M_Preproc M_Robcent M_Dicomo M_Ipopt M_Ppdire M_Sudire M_Frames S_Ppdire S_Sudire L_Frames
  T_Scaling T_Snipls T_Ppdire T_Sudire.
Import List. Open Scope R_scope.

(** C172: sudire.fit refuses every response given as a data frame of one column;
    where the array of its values can be fitted, the numbers of rows are said
    not to agree *)
Theorem C172_sudire_refuted : forall (env : sd_env R) st X v metric bias n p, is_matrix n p X -> (2 <= n)%nat -> length v = n ->
  (exists e, snd (sd_fit_frame env st X (map (fun x => [x]) v) metric bias) = Err e) /\
  (forall m, snd (sd_fit env st X (A2 (map (fun x => [x]) v)) metric bias) = Ok m -> snd (sd_fit_frame env st X (map (fun x => [x]) v) metric bias) = Err MyException).
Proof. exact sudire_frame. Qed.
Print Assumptions C172_sudire_refuted.
Example C172_sudire_case : let X := [[2; 0; 0]; [0; 1; 0]]%Q in
  is_ok (snd (sd_fit q_env (q_st false) X (A2 [[1]; [2]]%Q) (fun _ _ => 0%Q) false)) = true /\
  snd (sd_fit_frame q_env (q_st false) X [[1]; [2]]%Q (fun _ _ => 0%Q) false) = Err MyException.
Proof. split; vm_compute; reflexivity. Qed.

(** ppdire.fit accepts it, with the coefficients [b] of the array fit, but the
    model cannot predict any other number of new cases than that of the training
    data, and for the training data adds the observed response to the centred
    contribution of the predictors *)
Theorem C172_ppdire_refuted : forall (env : pp_env R) prm d X v (kwy : bool) f prm' d' m n p, is_matrix n p X -> (2 <= n)%nat -> length v = n -> direct_fit prm n p ->
  pp_center_data prm = true -> pp_center prm = CMean -> pp_trim prm = 0 -> pp_regopt prm <> "quantile"%string ->
  pp_fit env prm d X (with_response f (if kwy then YKw (A2 (map (fun x => [x]) v)) else YPos (A2 (map (fun x => [x]) v)))) = (prm', d', Ok m) -> (0 < pp_ncomp prm')%nat ->
  exists m' b a, pp_fit_frame env prm d X (map (fun x => [x]) v) kwy f = (prm', d', Ok m') /\ length b = p /\
    (forall Xn, ncols Xn = p -> pp_predict m Xn = Ok (map (fun x => inner x b + a) Xn)) /\
    (forall Xn, ncols Xn = p -> (2 <= length Xn)%nat -> length Xn <> n -> pp_predict m' Xn = Err ValueError) /\
    pp_predict m' X = Ok (map2 (fun x y => y + inner x b - sum_of (map (fun r => inner r b) X) / INR n) X v).
Proof. exact ppdire_frame. Qed.
Print Assumptions C172_ppdire_refuted.
(** four cases: the predictions of the training data by the two models *)
Example C172_ppdire_case :
  let y := [[1]; [2]; [6]; [3]]%Q in let e := ppQ invQ no_svd in
  exists m m', snd (pp_fit e (prmQ 1 true) [] X42 (with_response (f0 YNone) (YPos (A2 y)))) = Ok m /\ snd (pp_fit_frame e (prmQ 1 true) [] X42 y false (f0 YNone)) = Ok m' /\
  match pp_predict m X42, pp_predict m' X42 with Ok u, Ok u' => negb (forallb (fun q => Qeq_bool (fst q) (snd q)) (combine u u')) | _, _ => false end = true /\
  is_ok (pp_predict m (firstn 2 X42)) = true /\ pp_predict m' (firstn 2 X42) = Err ValueError.
Proof. do 2 eexists. split; [vm_compute; reflexivity|]. split; [vm_compute; reflexivity|]. split; [vm_compute; reflexivity|]. split; vm_compute; reflexivity. Qed.
