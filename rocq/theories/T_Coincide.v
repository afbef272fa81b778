(** Property theorem C201: more than half of the cases coincide. *)
From Coq Require Import Reals List Arith ZArith Bool Lia Lra.
Import ListNotations.
From Verif Require Import Num Err Vec VecR OrdR L_Mat S_Utils S_Stats S_Weights M_Utils M_Preproc M_Robcent M_Msupport M_Rm S_Rm L_Scaling L_Scaling2 L_Snipls L_Missing L_Rm L_Rm2 L_Msupport S_MissReg L_MissReg T_Rm S_Exact L_Exact T_Exact S_Coincide L_Coincide.
Open Scope R_scope.

Theorem C201_coinciding_refuted : forall (env : rm_env XR) P p X y Xr yr tol, (2 <= length y)%nat -> (1 <= p)%nat -> Forall (fun r => length r = p) Xr -> length y = length X ->
  xscaled (re_prep env) (r_centre P) (r_scale P) X (finite_mat Xr) -> xscaled (re_prep env) (r_centre P) (r_scale P) (map (fun v => [v]) y) (map (fun v => [v]) yr) ->
  (length Xr < 2 * length (zero_rows Xr))%nat -> r_tol P = Fin tol -> tol < 1 -> (2 <= r_maxit P)%nat -> rejects_missing (re_lstsq env) -> valid_params P ->
  exists Xw yw, rm_run env P X y = ([(Xw, yw)], Err LinAlgError) /\ row_missing Xw.
Proof. exact coincide_l. Qed.
Print Assumptions C201_coinciding_refuted.

(** a binary variable, centred by its median and scaled by its mad *)
Definition PB : rm_par XR := mk_rm_par (Some MHampel) (Fin (95/100)) (Fin (975/1000)) (Fin (999/1000)) CMedian SMad false 20 (Fin (1/100)) true.
Definition XB : list (list XR) := [[Fin 0]; [Fin 0]; [Fin 1]].
Lemma med3 : vmedian (map Fin [0; 0; 1]) = Fin 0.
Proof.
  rewrite vmedian_XR by discriminate. f_equal. assert (0 <= vmedian [0; 0; 1] <= 0); [|lra]. apply vmedian_majority. unfold count_in. cbn [filter].
  replace (Rleb 0 0 && Rleb 0 0) with true by (symmetry; apply andb_true_intro; split; apply Rleb_true; lra). replace (Rleb 0 1 && Rleb 1 0) with false by (symmetry; apply andb_false_intro2; apply Rleb_false; lra). cbn. lia.
Qed.
Lemma medianB : median XB = [Fin 0].
Proof. unfold median, XB. cbn [manynan existsb]. unfold manynan. cbn [existsb]. unfold vanynan. cbn [existsb]. rewrite !isnan_Fin. cbn [orb]. unfold cols, ncols. cbn [hd length seq map col nth]. f_equal. exact med3. Qed.
Lemma scaledB : xscaled (re_prep rmE) CMedian SMad XB (finite_mat [[0]; [0]; [1]]).
Proof.
  destruct (ft_intro (re_prep rmE) (new_scaler CMedian SMad (Fin 0)) (A2 XB) (finite_mat [[0]; [0]; [1]]) [Fin 0] [Fin 0]) as [st E]; [| | | | |exists st; exact E].
  - cbn [location new_scaler sc_center sc_trimming]. change (check_input (A2 XB)) with XB. rewrite medianB. reflexivity.
  - cbn [scale_est new_scaler sc_scale sc_trimming]. change (check_input (A2 XB)) with XB. unfold mad, mad_with. rewrite medianB. 
    replace (map (map nabs) (rows_op nsub XB [Fin 0])) with XB. 2: { unfold XB, rows_op. cbn. rewrite !Ropp_0, !Rplus_0_r, Rabs_R0, Rabs_R1. reflexivity. }
    rewrite medianB. cbn [map]. unfold mad_c. xnum. cbn [XRdiv]. destruct (Req_EM_T (6744897501960817 / 10000000000000000) 0); [lra|]. do 2 f_equal. f_equal. lra.
  - apply tr0X.
  - reflexivity.
  - cbn. unfold Reqb. destruct (Req_EM_T 0 0); [|congruence]. unfold finite_mat, finite_vec. cbn [map]. destruct (Req_EM_T 1 0); [lra|]. repeat f_equal; lra.
Qed.
Example C201_case : rm_fit rmE PB XB [Fin 0; Fin 0; Fin 1] = Err LinAlgError.
Proof.
  destruct (C201_coinciding_refuted rmE PB 1 XB [Fin 0; Fin 0; Fin 1] [[0]; [0]; [1]] [Fin 0; Fin 0; Fin 1] (1 / 100)) as (Xw & yw & E & _); auto; try (cbn; lia); try lra; try (repeat constructor; fail); try apply scaledB; try apply rmE_rejects.
  - cbn. destruct (Req_EM_T 0 0); [|congruence]. destruct (Req_EM_T 1 0); [lra|]. cbn. lia.
  - exists MHampel. do 3 eexists. do 4 (split; [reflexivity|]). split; [lra|]. intros _. lra.
  - unfold rm_fit. rewrite E. reflexivity.
Qed.
