(** Theorems on refused arguments (C16, C30, C117, C139, C169, C170) *)

From Coq Require Import String Reals QArith List Arith ZArith Bool Lia Lra.
Import List. Import ListNotations.
From Verif Require Import Num Err Vec VecR S_Stats S_Errors M_Utils M_Preproc M_Robcent M_Dicomo M_Rm M_Snipls M_Sprm M_Ipopt M_Ppdire M_PpWorld M_Sudire M_Plot2
  S_Ppdire S_OrderPp S_Plot S_Sudire L_Mat L_Scaling L_SdrFit L_SdrEx L_Grid3 L_PpErr L_Errors T_Scaling T_Snipls T_Rm T_Sprm T_Ppdire T_Sudire T_OrderPp T_Plot.
Import List. Open Scope R_scope.

(* ------------------------------------------------------------------ *)
(** C169: new data with another number of variables than the training data *)
Theorem C169_snipls : forall {A} `{Num A} env inv eta k c s X (y : list A) f x, snipls_fit env inv eta k c s X y = Ok f -> variables x <> ncols X ->
  snipls_predict f x = Err ValueError /\ snipls_transform f x = Err ValueError.
Proof. exact @snipls_other. Qed.
Print Assumptions C169_snipls.
(** without copy=True the regressions do not know the number of variables *)
Theorem C169_rm : forall {A} `{Num A} (env : rm_env A) P X y m x, rm_fit env P X y = Ok m ->
  (r_copy P = true -> variables x <> ncols X -> rm_predict m x = Err ValueError) /\ (r_copy P = false -> rm_predict m x = Err AttributeError).
Proof. exact @rm_other. Qed.
Print Assumptions C169_rm.
Theorem C169_sprm : forall {A} `{Num A} (env : sp_env A) P df X y m x yn sc, sprm_fit env P df X y = Ok m ->
  (s_copy P = true -> variables x <> ncols X ->
     sprm_predict m x = Err ValueError /\ sprm_transform m x = Err ValueError /\ sprm_weightnewx env m x = Err ValueError /\ sprm_valscore m x yn sc = Err ValueError) /\
  (s_copy P = false ->
     sprm_predict m x = Err AttributeError /\ sprm_transform m x = Err AttributeError /\ sprm_weightnewx env m x = Err AttributeError /\ sprm_valscore m x yn sc = Err AttributeError).
Proof. exact @sprm_other. Qed.
Print Assumptions C169_sprm.
Theorem C169_ppdire : forall (env : pp_env R) prm d X f prm' d' m Xn, pp_fit env prm d X f = (prm', d', Ok m) -> (pp_compress prm = false \/ pp_whiten prm = true \/ (ncols X <= length X)%nat) ->
  ncols Xn <> ncols X -> pp_transform m Xn = Err ValueError /\ (f_y f <> YNone -> pp_predict m Xn = Err ValueError) /\ (f_y f = YNone -> pp_predict m Xn = Err AttributeError).
Proof. exact pp_other. Qed.
Print Assumptions C169_ppdire.
Theorem C169_sudire : forall (env : sd_env R) st X y metric bias st' m Xn, sd_fit env st X y metric bias = (st', Ok m) -> sp_copy (ss_prm st) = true ->
  sp_compress (ss_prm st) = false \/ sp_whiten (ss_prm st) = true \/ (ncols X <= length X)%nat -> ncols Xn <> ncols X ->
  sd_transform m Xn = Err ValueError /\ sd_predict m Xn = Err ValueError.
Proof. intros env st X y metric bias st' m Xn E Hc HC Hn. apply transform_bad. rewrite (sd_P_length _ _ _ _ _ _ _ _ E Hc HC). exact Hn. Qed.
Print Assumptions C169_sudire.
Example C169_case : (exists f, snipls_fit envQ invQ (9#10)%Q 1 CNone SNone XA yA = Ok f) /\ (exists m, rm_fit rmR (PR CMedian SMad) X3 y3' = Ok m) /\
  (exists m, sprm_fit (spQ 1) (SQ CMedian SMad (ColBool false)) None XK yK = Ok m) /\
  (exists m, pp_fit ppG (prmV OGrid) default_options I3 (f0 (YKw (A1 [1; 2; 4]))) = (prmV OGrid, grid_options default_options, Ok m)) /\
  exists st' m, sd_fit (ex_env id_isqrt e1_opt zeros_ols) (ex_st MPhd 1 false false []) X7 (A1 y7) euclid false = (st', Ok m).
Proof.
  split; [destruct C34_case as (f & E & _); eauto|]. split; [exact C43_case|]. split; [destruct C46_case as (m & E & _); eauto|]. split; [exact C154_case|]. exact (proj2 C77_case).
Qed.

(* ------------------------------------------------------------------ *)
(** C170: options of the grid without directions or without iterations; everything
    else is as in C154, where the fit completes *)
Theorem C170_grid_options : forall (env : pp_env R) prm d n p X f most ndir maxiter,
  ix_new (pp_idx prm) = Ok most -> (ix_dicomo (pp_idx prm) = false \/ ix_mode (pp_idx prm) <> None) ->
  (forall kw v, k_trim kw = Some (pp_trim prm) -> length v = n -> (exists u, most (A1 v) kw = Ok u) /\ (exists u, most (A2 (map (fun a => [a]) v)) kw = Ok u)) ->
  pe_trig env = trigR -> pp_optim prm = OGrid -> opt_int "ndir" (grid_options d) = Ok ndir -> opt_int "maxiter" (grid_options d) = Ok maxiter ->
  pp_center prm = CMean \/ pp_center prm = CMedian -> 0 <= pp_trim prm < 1 / 2 -> direct_fit prm n p ->
  is_matrix n p X -> (2 <= n)%nat -> (3 <= p)%nat ->
  let h := match f_h f with Some h => h | None => pp_ncomp prm end in (1 <= h)%nat -> (h <= Nat.min n p)%nat ->
  (f_y f = YNone \/ regression_answers env prm n (f_y f) /\ exists v, length v = n /\ has_response (f_y f) v) ->
  let refused e := snd (pp_fit env prm d X f) = Err e in
  (ndir = 0%Z -> refused ValueError) /\ ((0 < ndir)%Z -> maxiter = 0%Z -> refused OverflowError) /\ ((0 < ndir)%Z -> (maxiter < 0)%Z -> refused ValueError).
Proof.
  intros env prm d n p X f most ndir maxiter B1 B2 B3 B4 B5 B6 B7 B8 B9 B10 B11 B12 B13 h B14 B15 B16 refused. unfold refused.
  assert (Eh : pp_ncomp (with_h prm (f_h f)) = h) by (unfold h, with_h; destruct (f_h f); reflexivity).
  assert (HG : forall e, (0 <= ndir)%Z -> (forall prm1 kw E, pp_optim prm1 = OGrid -> Vec.wf n p E -> (forall v, length v = n -> exists u, most (A1 v) kw = Ok u) -> (forall v, length v = n -> exists u, most (as_col v) kw = Ok u) ->
     direction env prm1 most kw (grid_options d) p E = (grid_options d, Err e)) -> snd (pp_fit env prm d X f) = Err e).
  { intros e Hd HD. rewrite (fit_direction_err env prm d n p X f most ndir maxiter e); auto; rewrite Eh; auto. }
  split; [|split].
  - intros H0. apply HG; [lia|]. intros. apply (direction_no_directions env prm1 most n p ndir maxiter); auto; lia.
  - intros Hd H0. apply HG; [lia|]. intros. rewrite (direction_no_iterations env prm1 most n p ndir maxiter); auto; try lia. rewrite H0. reflexivity.
  - intros Hd H0. apply HG; [lia|]. intros. rewrite (direction_no_iterations env prm1 most n p ndir maxiter); auto; try lia. destruct (Z.eqb_spec maxiter 0); [lia|reflexivity].
Qed.
Print Assumptions C170_grid_options.
Theorem C170_negative : forall (env : pp_env R) prm d X f ndir prm' d' m, pp_optim prm = OGrid -> opt_int "ndir" (grid_options d) = Ok ndir -> (ndir < 0)%Z -> pp_fit env prm d X f <> (prm', d', Ok m).
Proof.
  intros env prm d X f ndir prm' d' m HO E Hd EF. apply L_Pp2.fit_inv in EF as (most & s & X1 & p & dims & mX & sX & Xs0 & Xs & K & yi & cs & yc & Rt & EP & _ & _ & _ & _ & _ & _ & _ & EC & _).
  assert (HO' : pp_optim prm' = OGrid) by (subst prm'; unfold with_whitening, with_h; destruct (f_h f); cbn [pp_whiten]; destruct (pp_whiten prm); exact HO).
  unfold L_Pp2.st_check, L_Pp2.st_opts in EC. rewrite HO', E in EC. cbn [bind] in EC. destruct (Z.ltb_spec ndir 0); [discriminate|lia].
Qed.
Print Assumptions C170_negative.
Definition no_directions : dict := (KStr "ndir", VInt 0) :: default_options.
Example C170_case : opt_int "ndir" (grid_options no_directions) = Ok 0%Z /\ opt_int "maxiter" (grid_options no_directions) = Ok 100000%Z.
Proof. split; reflexivity. Qed.

(* ------------------------------------------------------------------ *)
(** C139: more names than one per case and a last one that is not shown *)
Theorem C139_too_many_names : forall {A} `{Num A} (env : sp_env A) t m ya yv Xn label names ms,
  sprm_plot_yyp env t m (Some ya) yv Xn label [] [] false = Ok ms -> (S (length (M_Dicomo.flat ya)) < length names)%nat ->
  sprm_plot_yyp env t m (Some ya) yv Xn label names [] false = Err IndexError.
Proof. exact @too_many_names. Qed.
Print Assumptions C139_too_many_names.
Example C139_too_many_names_case : exists m ms, mQ = Ok m /\ sprm_plot_yyp (spQ 1) th8 m (Some (A1 yK)) None (A1 []) (LStr "case") [] [] false = Ok ms /\
  sprm_plot_yyp (spQ 1) th8 m (Some (A1 yK)) None (A1 []) (LStr "case") ["a"; "b"; "c"; "d"; "e"; "f"; "g"]%string [] false = Err IndexError.
Proof. eexists. eexists. split; [vm_compute; reflexivity|]. split; [vm_compute; reflexivity|]. vm_compute. reflexivity. Qed.

(* ------------------------------------------------------------------ *)
(** C30: operands that do not fit *)
Theorem C30_lengths : forall {A} `{Num A} (X Y : list (list A)) y, (ncols X <> length y -> nandot X y = Err AssertionError) /\ (ncols X <> length Y -> nanmatdot X Y = Err AssertionError).
Proof. exact @nandot_lengths. Qed.
Print Assumptions C30_lengths.
Example C30_lengths_case : nandot [[1; 2]]%Q [1; 2; 3]%Q = Err AssertionError /\ nandot [[1; 2]]%Q [1; 2]%Q = Ok [5]%Q.
Proof. split; vm_compute; reflexivity. Qed.

(* ------------------------------------------------------------------ *)
(** C16: c1 <= 0 replaces the weighted mean by the median *)
Theorem C16_no_weighting : forall es2 c1 c2 co fi x, x <> [] -> c1 <= 0 -> 0 <= c2 ->
  exists s, scaleTau2 es2 c1 c2 co fi (map (fun y => [y]) x) = [s] /\
    tau_about_median (if co then (if fi then (INR (length x) - 2) * es2 else INR (length x) * es2) else INR (length x)) c2 x s.
Proof. exact tau_no_weighting. Qed.
Print Assumptions C16_no_weighting.
Example C16_no_weighting_case : scaleTau2 1%Q 0%Q 3%Q false false [[0]; [3]; [4]; [5]; [9]]%Q = [2]%Q.
Proof. vm_compute. reflexivity. Qed.

(* ------------------------------------------------------------------ *)
(** C117: where dcov-sdr gives a fit, bcov-sdr raises NameError *)
Theorem C117_bcov_name_refuted : forall (env : sd_env R) st X y metric bias st' m, sd_fit env (with_method st MDcov) X y metric bias = (st', Ok m) ->
  snd (sd_fit env (with_method st MBcov) X y metric bias) = Err NameError.
Proof. exact bcov_name. Qed.
Print Assumptions C117_bcov_name_refuted.
Example C117_bcov_name_case : exists st1 m, sd_fit ex_env1 (with_method (ex_st MDcov 1 false false []) MDcov) X7 (A1 y7) euclid false = (st1, Ok m).
Proof. destruct C116_case as (st1 & m & _ & _ & _ & _ & E & _). exists st1, m. exact E. Qed.
