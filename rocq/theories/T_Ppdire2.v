(** Property theorems C147-C151: projection pursuit (ppdire), continued. *)

From Coq Require Import String Reals QArith List Arith ZArith Bool Lia Lra.
Import List. Import ListNotations.
From Verif Require Import Num Err Vec VecR S_Stats S_Regress L_Stats M_Utils M_Preproc M_Robcent M_Dicomo M_Ipopt M_Ppdire S_Ppdire S_Ppdire2 L_Scaling M_PpWorld L_Grid3
  T_Scaling T_Snipls T_Ppdire L_Pp8.
Import List. Open Scope R_scope.

(* ------------------------------------------------------------------ *)
(** C147: with scipy, IPOPT or differential evolution, component i is obtained by
    asking the optimiser to minimise minus the projection index of E u, where E is
    the scaled data deflated by the scores of the earlier components, starting
    from the first row of E; the direction is the normalised answer and the score
    of a case is the inner product of its row of E with it; if the answer
    minimises over the unit vectors, no unit vector has a larger index than the
    reported Maxobjf_. *)
Theorem C147_maximises : forall (env : pp_env R) prm d X f prm' d' m n p, is_matrix n p X -> (2 <= n)%nat -> direct_fit prm n p -> pp_init prm = Ok prm -> pp_optim prm <> OGrid ->
  pp_fit env prm d X f = (prm', d', Ok m) -> (0 < pp_ncomp prm')%nat ->
  exists most ys Z, ix_new (pp_idx prm) = Ok most /\ scaled_by n p X (pm_loc m) (pm_sca m) Z /\
    (f_y f = YNone -> ys = None) /\
    (forall v, has_response (f_y f) v -> exists ym, pm_y m = Some ym /\
       ys = Some (A2 (map (fun a => [(a - ym_loc ym) / (if Req_EM_T (ym_sca ym) 0 then 1 else ym_sca ym)]) v))) /\
    forall i, (i < pp_ncomp prm')%nat ->
      let E := deflate_all p Z (first_columns i (pm_T m)) in
      let kw := mk_dkw ys (Some (pp_trim prm)) (Some (f_bias f)) (Some (pp_alpha prm)) None None None None None (Some euclid) in
      let index u := most (A2 (map (fun r => [inner r u]) E)) kw in
      is_matrix n p E /\ column i (pm_T m) = map (fun r => inner r (column i (pm_W m))) E /\
      exists dd g x, pe_opt env (pp_optim prm) dd g (nth 0 E []) = Ok x /\ length x = p /\ column i (pm_W m) = map (fun v => v / sqrt (sqlen x)) x /\
        (forall u, length u = p -> g u = match index u with Ok v => Ok (- v) | Err e => Err e end) /\
        index (column i (pm_W m)) = Ok (nth i (pm_max m) 0) /\
        (unit_minimiser p g x -> forall u v, length u = p -> sqlen u = 1 -> index u = Ok v -> v <= nth i (pm_max m) 0).
Proof. exact C147_l. Qed.
Print Assumptions C147_maximises.
(** an optimiser that returns (1,0), which does maximise the sum of squares *)
Definition XO : list (list R) := [[3; 0]; [0; 1]; [-3; 0]].
Example C147_case : is_matrix 3 2 XO /\ direct_fit (prmR (OScipy "SLSQP")) 3 2 /\ pp_init (prmR (OScipy "SLSQP")) = Ok (prmR (OScipy "SLSQP")) /\
  (exists m, pp_fit ppR (prmR (OScipy "SLSQP")) [] XO (f0 YNone) = (prmR (OScipy "SLSQP"), [], Ok m) /\ pm_max m = [18]) /\
  forall kw, unit_minimiser 2 (fun u => match ssq (A2 (map (fun r => [inner r u]) XO)) kw with Ok v => Ok (- v) | Err e => Err e end) [1; 0].
Proof.
  split; [split; [reflexivity|repeat constructor]|]. split; [split; [reflexivity|left; reflexivity]|]. split; [reflexivity|]. split.
  - eexists. split; [reflexivity|]. cbn. replace (1 * 1 + (0 * 0 + 0)) with 1 by ring. rewrite sqrt_1. f_equal. unfold nsqr. rnum. field.
  - intros kw. split; [reflexivity|]. split; [unfold sqlen, inner, sum_of; cbn; ring|]. eexists. split; [reflexivity|].
    intros [|a [|b [|? ?]]] w Hl Hu Hw; cbn in Hl; try lia. unfold ssq in Hw. apply Ok_inj in Hw. rewrite <- Hw. unfold sqlen, inner, sum_of, XO in *. cbn in *. unfold nsqr. rnum. nra.
Qed.

(* ------------------------------------------------------------------ *)
(** C148: x_loc_, x_sca_, y_loc_, y_sca_ *)
Theorem C148_stored_scaling : forall (env : pp_env R) prm d X f prm' d' m n p, is_matrix n p X -> (2 <= n)%nat -> direct_fit prm n p -> pp_init prm = Ok prm -> pp_trim prm = 0 ->
  pp_fit env prm d X f = (prm', d', Ok m) -> (0 < pp_ncomp prm')%nat ->
  length (pm_loc m) = p /\ length (pm_sca m) = p /\ (forall j, (j < p)%nat -> scaling_of prm (column j X) (nth j (pm_loc m) 0) (nth j (pm_sca m) 0)) /\
  forall v, has_response (f_y f) v -> exists ym, pm_y m = Some ym /\ scaling_of prm v (ym_loc ym) (ym_sca ym).
Proof. exact C148_l. Qed.
Print Assumptions C148_stored_scaling.
(** median and mad (consistency factor 0.6745) of two columns and of the response *)
Definition prmS (cd : bool) : pparams Q := mk_pp (mk_ppindex false None (Ok ssq)) 1 0%Q 1%Q (OScipy "SLSQP") "OLS" CMedian cd true false false false.
Definition X52 : list (list Q) := [[1; 7]; [3; 4]; [2; 4]; [9; 0]; [4; 1]]%Q.
Example C148_case : exists m ym, snd (pp_fit (ppQ invQ no_svd) (prmS true) [] X52 (f0 (YPos (A1 [1; 2; 6; 3; 3]%Q)))) = Ok m /\ pm_y m = Some ym /\
  qz (pm_loc m) = [3; 4]%Q /\ qz (pm_sca m) = [10000000000000000 # 6744897501960817; 30000000000000000 # 6744897501960817]%Q /\ Qred (ym_loc ym) = 3%Q.
Proof. do 2 eexists. split; [vm_compute; reflexivity|]. split; [vm_compute; reflexivity|]. repeat split; vm_compute; reflexivity. Qed.
(** scale_data=True has no effect with center_data=False *)
Example C148_uncentred : exists m, snd (pp_fit (ppQ invQ no_svd) (prmS false) [] X52 (f0 YNone)) = Ok m /\ qz (pm_loc m) = [0; 0]%Q /\ qz (pm_sca m) = [1; 1]%Q.
Proof. eexists. split; [vm_compute; reflexivity|]. split; vm_compute; reflexivity. Qed.

(* ------------------------------------------------------------------ *)
(** C149: the options of sprm.preprocessing are documented as accepted; only the
    mean and the median are *)
Theorem C149_centre_refuted : forall prm : pparams R,
  (pp_center prm = CMean \/ pp_center prm = CMedian -> pp_init prm = Ok prm) /\
  (pp_center prm = CL1median \/ pp_center prm = CKstepLTS \/ pp_center prm = CNone \/ pp_center prm = CBad \/ (exists g, pp_center prm = CUser g) -> pp_init prm = Err ValueError).
Proof. exact C149_l. Qed.
Print Assumptions C149_centre_refuted.
(** set after construction, a centring other than these and the l1median makes
    every fit with scaling fail *)
Theorem C149_set_later_refuted : forall (env : pp_env R) prm d X f prm' d' m,
  pp_center prm = CKstepLTS \/ pp_center prm = CNone \/ pp_center prm = CBad \/ (exists g, pp_center prm = CUser g) -> pp_scale_data prm = true -> pp_whiten prm = false ->
  pp_fit env prm d X f <> (prm', d', Ok m).
Proof. exact C149_later_l. Qed.
Print Assumptions C149_set_later_refuted.
Theorem C149_set_later_error : forall (env : pp_env R) prm d X f most h,
  pp_center prm = CKstepLTS \/ pp_center prm = CNone \/ pp_center prm = CBad \/ (exists g, pp_center prm = CUser g) -> pp_scale_data prm = true -> pp_whiten prm = false ->
  ix_dicomo (pp_idx prm) = false -> ix_new (pp_idx prm) = Ok most -> h = match f_h f with Some k => k | None => pp_ncomp prm end -> (h <= Nat.min (length X) (ncols X))%nat ->
  snd (pp_fit env prm d X f) = Err UnboundLocalError.
Proof.
  intros env prm d X f most h Hc Hs Hw Hd Hm -> Hh. unfold pp_fit, with_whitening, scale_name.
  destruct (f_h f) as [k|]; cbn [with_h pp_idx pp_ncomp pp_whiten pp_scale_data pp_center]; rewrite Hd, Hm, Hw, Hs; cbn [andb];
    match goal with |- context [(?a <? ?b)%nat] => replace (a <? b)%nat with false by (symmetry; apply Nat.ltb_ge; exact Hh) end;
    destruct Hc as [Hc|[Hc|[Hc|(g & Hc)]]]; rewrite Hc; reflexivity.
Qed.
Print Assumptions C149_set_later_error.
(** the l1median itself would work: nothing in fit needs the restriction *)
Definition prmL (c : centre_opt R) : pparams R := mk_pp (mk_ppindex false None (Ok ssq)) 1 0 1 (OScipy "SLSQP") "OLS" c true true false false false.
Example C149_case : pp_init (prmL CL1median) = Err ValueError /\ scale_name (prmL CL1median) = Ok SMad /\ snd (pp_fit ppR (prmL CKstepLTS) [] X32R (f0 YNone)) = Err UnboundLocalError.
Proof. repeat split. Qed.

(* ------------------------------------------------------------------ *)
(** C150: the options of the grid optimiser: leaving out ndir is giving 1000 *)
Theorem C150_ndir_default : forall (env : pp_env R) prm d d2 X f, pp_optim prm = OGrid -> dget (KStr "ndir") d = None ->
  dget (KStr "ndir") d2 = Some (VInt 1000) -> dget (KStr "maxiter") d2 = dget (KStr "maxiter") d ->
  fst (fst (pp_fit env prm d X f)) = fst (fst (pp_fit env prm d2 X f)) /\ snd (pp_fit env prm d X f) = snd (pp_fit env prm d2 X f).
Proof. exact C150_l. Qed.
Print Assumptions C150_ndir_default.
(** in a new process, an instance without options fits like one given maxiter=100000 *)
Theorem C150_default_instance : forall (env : pp_env R) prm X f,
  snd (wstep env (wrun env world0 [WNew prm None]) (WFit 0 X f)) = snd (wstep env (wrun env world0 [WNew prm (Some [(KStr "maxiter", VInt 100000)])]) (WFit 0 X f)).
Proof. exact C150_default_l. Qed.
Print Assumptions C150_default_instance.
(** maxiter has no default once options are given *)
Theorem C150_maxiter_refuted : forall (env : pp_env R) prm d X f prm' d' m, pp_optim prm = OGrid -> dget (KStr "maxiter") d = None -> pp_fit env prm d X f <> (prm', d', Ok m).
Proof. exact C150_maxiter_l. Qed.
Print Assumptions C150_maxiter_refuted.
Example C150_case : dget (KStr "ndir") default_options = None /\
  (exists m, pp_fit ppR prmG default_options I3 (f0 YNone) = (prmG, grid_options default_options, Ok m)) /\
  snd (pp_fit ppR prmG [(KStr "ndir", VInt 50)] I3 (f0 YNone)) = Err KeyError.
Proof. split; [reflexivity|]. split; [destruct C69_three_columns as (m & E & _); exists m; exact E|reflexivity]. Qed.

(* ------------------------------------------------------------------ *)
(** C151: whitening overrules center_data, scale_data and compression, and the
    fit changes these parameters of the object *)
Theorem C151_overruled : forall (env : pp_env R) prm d X f cd sd co, pp_whiten prm = true ->
  snd (pp_fit env (other_scaling prm cd sd co) d X f) = snd (pp_fit env prm d X f).
Proof. exact C151_same_l. Qed.
Print Assumptions C151_overruled.
Theorem C151_params_refuted : forall (env : pp_env R) prm d X f most, pp_whiten prm = true -> ix_new (pp_idx prm) = Ok most -> (ix_dicomo (pp_idx prm) = true -> ix_mode (pp_idx prm) <> None) ->
  (match f_h f with Some h => h | None => pp_ncomp prm end <= Nat.min (length X) (ncols X))%nat ->
  let prm' := fst (fst (pp_fit env prm d X f)) in
  pp_center_data prm' = true /\ pp_scale_data prm' = false /\ pp_compress prm' = false.
Proof. exact C151_params_l. Qed.
Print Assumptions C151_params_refuted.
(** one column: the fit succeeds (for two and more it does not, C70) *)
Example C151_case :
  let prm := fun cd sd co => mk_pp (mk_ppindex false None (Ok ssq)) 1 0%Q 1%Q (OScipy "SLSQP") "OLS" CMean cd sd true false co in
  let svd := fun _ : list (list Q) => Ok ([[1]], [5], [[3/5; -(3/5); 4/5; -(4/5)]])%Q in
  let X := [[3]; [-3]; [4]; [-4]]%Q in
  exists m, pp_fit (ppQ invQ svd) (prm false true true) [] X (f0 YNone) = (prm true false false, [], Ok m) /\ map qz (pm_W m) = [[1 / 5]]%Q.
Proof. eexists. split; [vm_compute; reflexivity|vm_compute; reflexivity]. Qed.
