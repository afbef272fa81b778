(** Property theorem C206, for a fit of ppdire with the grid optimiser: component i
    is searched for in E, the scaled data deflated by the earlier scores. *)
From Coq Require Import String Reals List Arith ZArith Bool Lia Lra.
Import List. Import ListNotations.
From Verif Require Import Num Err Vec VecR S_Stats S_Regress M_Utils M_Preproc M_Robcent M_Dicomo M_Ppdire M_PpWorld S_Ppdire S_Ppdire2 L_Scaling L_Grid L_Grid2 L_Grid3 T_Ppdire S_GridStop L_GridStop L_GridStop2.
Import List. Open Scope R_scope.

Theorem C206_fit : forall (env : pp_env R) prm d X f prm' d' m n p ndir maxiter, is_matrix n p X -> (2 <= n)%nat -> direct_fit prm n p -> pp_init prm = Ok prm ->
  pp_optim prm = OGrid -> pe_trig env = trigR -> opt_int "ndir" (grid_options d) = Ok ndir -> good_ndir (Z.to_nat ndir) -> opt_int "maxiter" (grid_options d) = Ok maxiter ->
  pp_fit env prm d X f = (prm', d', Ok m) -> (0 < pp_ncomp prm')%nat ->
  exists most ys Z, ix_new (pp_idx prm) = Ok most /\ scaled_by n p X (pm_loc m) (pm_sca m) Z /\
    (f_y f = YNone -> ys = None) /\
    (forall v, has_response (f_y f) v -> exists ym, pm_y m = Some ym /\
       ys = Some (A2 (map (fun a => [(a - ym_loc ym) / (if Req_EM_T (ym_sca ym) 0 then 1 else ym_sca ym)]) v))) /\
    forall i, (i < pp_ncomp prm')%nat ->
      let E := deflate_all p Z (first_columns i (pm_T m)) in
      let kw := mk_dkw ys (Some (pp_trim prm)) (Some (f_bias f)) (Some (pp_alpha prm)) None None None None None (Some euclid) in
      let g am := mk_gargs (Z.to_nat ndir) (-1, 1) am (pp_square prm) (stops trigR (-1, 1)) kw in
      is_matrix n p E /\ column i (pm_T m) = projections E (column i (pm_W m)) /\
      ((forall w o, length w = p -> sqlen w = 1 -> objective_at most (g AmTuple) E w o -> -999 <= o /\ o <> 0) ->
       grid_stopping most (g AmTuple) (g AmArray) E p maxiter (column i (pm_W m)) (nth i (pm_max m) 0)).
Proof. exact C206_fit_l. Qed.
Print Assumptions C206_fit.

(** a fit that meets the hypotheses, with the bound on the index *)
Example C206_fit_case : exists m, pp_fit ppR prmG default_options I3 (f0 YNone) = (prmG, grid_options default_options, Ok m) /\
  direct_fit prmG 3 3 /\ pp_init prmG = Ok prmG /\ pp_optim prmG = OGrid /\ pe_trig ppR = trigR /\ (0 < pp_ncomp prmG)%nat /\
  opt_int "ndir" (grid_options default_options) = Ok 1000%Z /\ opt_int "maxiter" (grid_options default_options) = Ok 100000%Z /\
  forall v kw u, spike v kw = Ok u -> -999 <= u /\ u <> 0.
Proof.
  destruct C69_three_columns as (m & E & _). exists m. split; [exact E|]. split; [split; [reflexivity|left; reflexivity]|]. repeat (split; [reflexivity|]). split; [cbn; lia|].
  split; [reflexivity|]. split; [reflexivity|]. intros v kw u Eu. unfold spike in Eu. destruct (list_eq_dec _ _ _) in Eu; apply Ok_inj in Eu as <-; lra.
Qed.
