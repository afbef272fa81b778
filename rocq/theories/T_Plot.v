(** Property theorems C139-C146: what the plotting methods show. *)

From Coq Require Import String Reals QArith List Arith ZArith Bool Lia Lra Permutation.
Import List. Import ListNotations.
From Verif Require Import Num Err Vec S_Stats M_Utils M_Preproc M_Robcent M_Dicomo M_Rm M_Sprm M_Msupport M_Ppdire M_Sudire S_Rm S_Sprm S_Ppdire L_Scaling  T_Scaling T_Snipls T_Rm T_Sprm T_Ppdire L_SdrEx T_Sudire
  M_Plot2 S_Plot L_Plot4 L_Plot5 L_Plot6 L_Plot7.
Import List. Open Scope R_scope. Open Scope string_scope.

Definition th8 : theme := mk_theme ["c0"; "c1"; "c2"; "c3"; "c4"; "c5"; "c6"; "c7"] ["o"; "d"; "v"].
Lemma th8_full : full_theme th8. Proof. split; cbn; lia. Qed.
(** the fit of C46_case and C47_caseQ *)
Definition mQ : res (sp_model Q) := sprm_fit (spQ 1) (SQ CMedian SMad (ColBool false)) None XK yK.

(* ------------------------------------------------------------------ *)
(** C139: sprm_plot.plot_yyp *)
Theorem C139_training : forall (env : sp_env XR) P df X y m t ya label names, sprm_fit env P df X y = Ok m -> (2 <= length X)%nat -> svd_rows env -> full_theme t -> flat ya = y -> (length names <= S (length X))%nat ->
  exists ms, sprm_plot_yyp env t m (Some ya) None (A2 []) label names [] false = Ok ms /\
    Permutation (points_of ms) (cases_shown t false y (sp_fitted m) (sp_cw m)) /\ notes_of ms = names_shown names y (sp_fitted m).
Proof. exact C139_training_l. Qed.
Print Assumptions C139_training.
Theorem C139_every_case : forall (env : sp_env XR) P df X y m t ya label names, sprm_fit env P df X y = Ok m -> (2 <= length X)%nat -> svd_rows env -> full_theme t -> flat ya = y -> (length names <= S (length X))%nat ->
  finite_cutoffs (sp_fun m) (re_normppf (se_rm env) (s_p1 P)) (re_normppf (se_rm env) (s_p2 P)) (re_normppf (se_rm env) (s_p3 P)) ->
  finite_cutoffs (sp_fun m) (sp_ctx m) (sp_cbx m) (sp_crx m) -> ~ In NaN (sp_cw m) ->
  exists ms, sprm_plot_yyp env t m (Some ya) None (A2 []) label names [] false = Ok ms /\ Permutation (map snd (points_of ms)) (combine y (sp_fitted m)).
Proof. exact C139_every_l. Qed.
Print Assumptions C139_every_case.
Theorem C139_test : forall (env : sp_env XR) P df X y m t ya yv Xn yp wv label names namesv (onlyval : bool), sprm_fit env P df X y = Ok m -> (2 <= length X)%nat -> svd_rows env -> full_theme t ->
  flat ya = y -> (length names <= S (length X))%nat ->
  (2 <= length Xn)%nat -> sprm_predict m (A2 Xn) = Ok yp -> sprm_weightnewx env m (A2 Xn) = Ok wv -> length yv = length Xn -> (length namesv <= S (length Xn))%nat ->
  length yp = length Xn /\ length wv = length Xn /\
  exists ms, sprm_plot_yyp env t m (Some ya) (Some (A1 yv)) (A2 Xn) label names namesv onlyval = Ok ms /\
    Permutation (points_of ms) ((if onlyval then [] else cases_shown t false y (sp_fitted m) (sp_cw m)) ++ cases_shown t true yv yp wv) /\
    notes_of ms = ((if onlyval then [] else names_shown names y (sp_fitted m)) ++ names_shown namesv yv yp)%list.
Proof. exact C139_test_l. Qed.
Print Assumptions C139_test.
(** an execution with missing data, and one in exact arithmetic with regular cases
    and outliers *)
Example C139_case : exists m, sprm_fit spX SX None XX [Fin 3; Fin 4] = Ok m /\ svd_rows spX /\ finite_cutoffs (sp_fun m) (sp_ctx m) (sp_cbx m) (sp_crx m).
Proof.
  destruct C47_caseX as (m & E & H). exists m. split; [exact E|]. split; [|exact H].
  intros Z U s EZ. cbn in EZ. injection EZ as <- _. reflexivity.
Qed.
Example C139_caseQ : exists m ms, mQ = Ok m /\ sprm_plot_yyp (spQ 1) th8 m (Some (A1 yK)) (Some (A1 [1; 2; 9]%Q)) (A2 [[5;0];[5;1];[5;6]]%Q) (LStr "case") ["a"; "b"] [] false = Ok ms /\
  length (points_of ms) = 8%nat /\ map fst (points_of ms) = [("c2", "o"); ("c2", "o"); ("c2", "o"); ("c2", "d"); ("c2", "d"); ("c5", "o"); ("c5", "o"); ("c5", "d")] /\ map fst (notes_of ms) = ["a"].
Proof. eexists. eexists. split; [vm_compute; reflexivity|]. split; [vm_compute; reflexivity|]. vm_compute. repeat split; reflexivity. Qed.

(* ------------------------------------------------------------------ *)
(** C140: sprm_plot.plot_projections *)
Theorem C140_training : forall (env : sp_env XR) P df X y m t label c0 c1 rest names, sprm_fit env P df X y = Ok m -> (2 <= length X)%nat -> svd_rows env -> full_theme t -> (length names <= S (length X))%nat ->
  (c0 < ncols (sp_T m))%nat -> (c1 < ncols (sp_T m))%nat ->
  exists ms, sprm_plot_projections env t m (A2 []) label (c0 :: c1 :: rest) names [] false = Ok ms /\
    Permutation (points_of ms) (cases_shown t false (col c0 (sp_T m)) (col c1 (sp_T m)) (sp_cw m)) /\ notes_of ms = names_shown names (col c0 (sp_T m)) (col c1 (sp_T m)).
Proof. exact C140_training_l. Qed.
Print Assumptions C140_training.
Theorem C140_test : forall (env : sp_env XR) P df X y m t Xn Tv wv label c0 c1 rest names namesv (onlyval : bool), sprm_fit env P df X y = Ok m -> (2 <= length X)%nat -> svd_rows env -> full_theme t ->
  (length names <= S (length X))%nat -> (c0 < ncols (sp_T m))%nat -> (c1 < ncols (sp_T m))%nat ->
  (2 <= length Xn)%nat -> sprm_transform m (A2 Xn) = Ok Tv -> sprm_weightnewx env m (A2 Xn) = Ok wv -> (length namesv <= S (length Xn))%nat ->
  exists ms, sprm_plot_projections env t m (A2 Xn) label (c0 :: c1 :: rest) names namesv onlyval = Ok ms /\
    Permutation (points_of ms) ((if onlyval then [] else cases_shown t false (col c0 (sp_T m)) (col c1 (sp_T m)) (sp_cw m)) ++ cases_shown t true (col c0 Tv) (col c1 Tv) wv) /\
    notes_of ms = ((if onlyval then [] else names_shown names (col c0 (sp_T m)) (col c1 (sp_T m))) ++ names_shown namesv (col c0 Tv) (col c1 Tv))%list.
Proof. exact C140_test_l. Qed.
Print Assumptions C140_test.
(** with the default components the plot of every one-component model fails *)
Theorem C140_default_refuted : forall {A} `{Num A} (env : sp_env A) P df X y m t Xn label names namesv, sprm_fit env P df X y = Ok m -> s_ncomp P = NInt 1 -> inverse_cols env -> full_theme t ->
  sprm_plot_projections env t m Xn label [0; 1]%nat names namesv false = Err IndexError.
Proof. exact @C140_default_l. Qed.
Print Assumptions C140_default_refuted.
Example C140_case : exists m, mQ = Ok m /\ s_ncomp (SQ CMedian SMad (ColBool false)) = NInt 1 /\ ncols (sp_T m) = 1%nat /\
  sprm_plot_projections (spQ 1) th8 m (A2 []) (LList []) [0; 1]%nat [] [] false = Err IndexError /\
  exists ms, sprm_plot_projections (spQ 1) th8 m (A2 [[5;0];[5;6]]%Q) (LList []) [0; 0]%nat ["a"; "b"] [] false = Ok ms /\
    length (points_of ms) = 7%nat /\ map fst (notes_of ms) = ["a"].
Proof.
  eexists. split; [vm_compute; reflexivity|]. split; [reflexivity|]. split; [vm_compute; reflexivity|]. split; [vm_compute; reflexivity|].
  eexists. split; [vm_compute; reflexivity|]. vm_compute. split; reflexivity.
Qed.
Example C140_inverse : inverse_cols spR. Proof. intros M Mi E. cbn in E. injection E as <-. reflexivity. Qed.
(** two components *)
Example C140_two : exists m ms, sprm_fit (spQ 100) (mk_sp_par (NInt 2) 0%Q true (Some MHuber) (95#100)%Q (97#100)%Q (99#100)%Q CMedian SNone 2 (1#100)%Q false false (ColBool false) true)
    None [[0;1];[1;2];[2;-1];[-1;0];[-2;1]]%Q [0;1;3;-1;-2]%Q = Ok m /\ ncols (sp_T m) = 2%nat /\
  sprm_plot_projections (spQ 100) th8 m (A2 []) (LStr "") [0; 1]%nat ["a"; "b"; "c"; "d"; "e"] [] false = Ok ms /\
  length (points_of ms) = 5%nat /\ map fst (notes_of ms) = ["a"; "b"; "c"; "d"].
Proof. eexists. eexists. split; [vm_compute; reflexivity|]. split; [vm_compute; reflexivity|]. split; [vm_compute; reflexivity|]. vm_compute. split; reflexivity. Qed.

(* ------------------------------------------------------------------ *)
(** C141: sprm_plot.plot_caseweights *)
Theorem C141_bars : forall {A} `{Num A} (env : sp_env A) P df X y m t Xn wv label names namesv mode wc, sprm_fit env P df X y = Ok m -> (2 <= length X)%nat -> svd_rows env -> full_theme t ->
  (mode = "overall" /\ wc = sp_cw m \/ mode = "x" /\ wc = sp_xcw m \/ mode = "y" /\ wc = sp_ycw m) ->
  (Xn = [] /\ wv = [] \/ Xn <> [] /\ sprm_weightnewx env m (A2 Xn) = Ok wv) ->
  (length names <= length X)%nat -> (length namesv <= S (length wv))%nat ->
  length wc = length X /\
  exists ms, sprm_plot_caseweights env t m (A2 Xn) label names namesv false mode = Ok ms /\
    bars_of ms = (weight_bars (nth 2 (th_colors t) "") 1 wc ++ weight_bars (nth 5 (th_colors t) "") (S (length X)) wv)%list /\
    bar_notes_of ms = (bar_names names 1 wc ++ bar_names namesv (length X) wv)%list.
Proof. exact @C141_bars_l. Qed.
Print Assumptions C141_bars.
(** an unknown mode is not reported as documented *)
Theorem C141_mode_refuted : forall {A} `{Num A} (env : sp_env A) t m label names namesv mode, full_theme t -> mode <> "overall" -> mode <> "x" -> mode <> "y" ->
  sprm_plot_caseweights env t m (A2 []) label names namesv false mode = Err UnboundLocalError.
Proof. exact @mode_l. Qed.
Print Assumptions C141_mode_refuted.
Example C141_case : exists m ms, mQ = Ok m /\ sprm_plot_caseweights (spQ 1) th8 m (A2 [[5;0];[5;6]]%Q) (LStr "w") ["a"; "b"; "c"] ["u"; "v"] false "overall" = Ok ms /\
  map fst (bars_of ms) = [("c2", 1%nat); ("c2", 2%nat); ("c2", 3%nat); ("c2", 4%nat); ("c2", 5%nat); ("c5", 6%nat); ("c5", 7%nat)] /\
  map fst (bar_notes_of ms) = [("a", 2%nat); ("b", 3%nat); ("u", 6%nat)].
Proof. eexists. eexists. split; [vm_compute; reflexivity|]. split; [vm_compute; reflexivity|]. vm_compute. split; reflexivity. Qed.

(* ------------------------------------------------------------------ *)
(** C142: onlyval=True without new cases *)
Theorem C142_refuted : forall {A} `{Num A} (env : sp_env A) t m (legend : plabel -> bool -> res plabel) v y ytruev label comps names mode, full_theme t ->
  (exists c, sprm_plot_yyp env t m y ytruev (A2 []) label names [] true = Ok [Diagonal c]) /\
  sprm_plot_projections env t m (A2 []) label comps names [] true = Ok [] /\
  sprm_plot_caseweights env t m (A2 []) label names [] true mode = Ok [] /\
  (exists c, view_plot_yyp legend t v ytruev [] label names [] true = Ok [Diagonal c]) /\
  view_plot_projections legend t v [] label comps names [] true = Ok [].
Proof. exact @C142_l. Qed.
Print Assumptions C142_refuted.
Example C142_case : exists m, mQ = Ok m /\ sprm_plot_yyp (spQ 1) th8 m (Some (A1 yK)) None (A2 []) (LStr "x") ["a"; "b"] [] true = Ok [Diagonal "c3"].
Proof. eexists. split; vm_compute; reflexivity. Qed.

(* ------------------------------------------------------------------ *)
(** C143: labels *)
Theorem C143_first_character_refuted : forall {A} `{Num A} (env : sp_env A) t m y ytruev Xn c s s' comps names namesv onlyval mode,
  sprm_plot_yyp env t m y ytruev Xn (LStr (String c s)) names namesv onlyval = sprm_plot_yyp env t m y ytruev Xn (LStr (String c s')) names namesv onlyval /\
  sprm_plot_projections env t m Xn (LStr (String c s)) comps names namesv onlyval = sprm_plot_projections env t m Xn (LStr (String c s')) comps names namesv onlyval /\
  sprm_plot_caseweights env t m Xn (LStr (String c s)) names namesv onlyval mode = sprm_plot_caseweights env t m Xn (LStr (String c s')) names namesv onlyval mode.
Proof. exact @C143_first_char_l. Qed.
Print Assumptions C143_first_character_refuted.
Theorem C143_legends : forall (env : sp_env XR) P df X y m t ya label names ms, sprm_fit env P df X y = Ok m -> (2 <= length X)%nat -> svd_rows env -> full_theme t -> flat ya = y -> (length names <= S (length X))%nat ->
  sprm_plot_yyp env t m (Some ya) None (A2 []) label names [] false = Ok ms -> forall l, In l (legends_of ms) -> exists s, l = LStr (short_label label ++ " Training" ++ s).
Proof. exact C143_legends_l. Qed.
Print Assumptions C143_legends.
Example C143_case : exists m ms, mQ = Ok m /\ sprm_plot_yyp (spQ 1) th8 m (Some (A1 yK)) None (A2 []) (LStr "cars") [] [] false = Ok ms /\
  legends_of ms = [LStr "c Training Regular"; LStr "c Training Moderate"].
Proof. eexists. eexists. split; [vm_compute; reflexivity|]. split; [vm_compute; reflexivity|]. vm_compute. reflexivity. Qed.

(* ------------------------------------------------------------------ *)
(** C144: sudire_plot and ppdire_plot *)
Theorem C144_sudire_training : forall (env : sd_env R) st X y metric bias st' m t label names, sp_copy (ss_prm st) = true -> sd_fit env st X y metric bias = (st', Ok m) -> full_theme t -> (length names <= S (length X))%nat ->
  exists ms, view_plot_yyp sudire_legend t (sudire_view (Some (flat y)) m) None [] (LStr label) names [] false = Ok ms /\
    points_of ms = plain_points t false (flat y) (sm_fitted m) /\ notes_of ms = names_shown names (flat y) (sm_fitted m) /\ legends_of ms = [LStr (full_label label)].
Proof. exact C144_sudire_l. Qed.
Print Assumptions C144_sudire_training.
(** training and test cases have the same legend *)
Theorem C144_sudire_test : forall (env : sd_env R) st X y metric bias st' m t label names Xn yv yp namesv (onlyval : bool), sp_copy (ss_prm st) = true -> sd_fit env st X y metric bias = (st', Ok m) -> full_theme t ->
  (length names <= S (length X))%nat -> Xn <> [] -> sd_predict m Xn = Ok yp -> length yv = length Xn -> (length namesv <= S (length Xn))%nat ->
  exists ms, view_plot_yyp sudire_legend t (sudire_view (Some (flat y)) m) (Some (A1 yv)) Xn (LStr label) names namesv onlyval = Ok ms /\
    points_of ms = ((if onlyval then [] else plain_points t false (flat y) (sm_fitted m)) ++ plain_points t true yv yp)%list /\
    notes_of ms = ((if onlyval then [] else names_shown names (flat y) (sm_fitted m)) ++ names_shown namesv yv yp)%list /\
    legends_of ms = ((if onlyval then [] else [LStr (full_label label)]) ++ [LStr (full_label label)])%list.
Proof. exact C144_sudire_test_l. Qed.
Print Assumptions C144_sudire_test.
Theorem C144_sudire_scores : forall (env : sd_env R) st X y metric bias st' m t label c0 c1 rest Xn Tv, sp_copy (ss_prm st) = true -> sd_fit env st X y metric bias = (st', Ok m) -> full_theme t ->
  (c0 < ncols (sm_T m))%nat -> (c1 < ncols (sm_T m))%nat -> Xn <> [] -> sd_transform m Xn = Ok Tv -> (c0 < ncols Tv)%nat -> (c1 < ncols Tv)%nat ->
  exists ms, view_plot_projections sudire_legend t (sudire_view (Some (flat y)) m) Xn (LStr label) (c0 :: c1 :: rest) [] [] false = Ok ms /\
    points_of ms = (plain_points t false (col c0 (sm_T m)) (col c1 (sm_T m)) ++ plain_points t true (col c0 Tv) (col c1 Tv))%list.
Proof. exact C144_sudire_scores_l. Qed.
Print Assumptions C144_sudire_scores.
Theorem C144_ppdire_training : forall (env : pp_env R) prm d X f y prm' d' m t label names, f_y f = YKw y \/ f_y f = YPos y -> pp_fit env prm d X f = (prm', d', Ok m) -> full_theme t -> (length names <= S (length X))%nat ->
  exists ym ms, pm_y m = Some ym /\ view_plot_yyp ppdire_legend t (ppdire_view (Some (flat y)) m) None [] (LStr label) names [] false = Ok ms /\
    points_of ms = plain_points t false (flat y) (ym_fitted ym) /\ notes_of ms = names_shown names (flat y) (ym_fitted ym) /\ legends_of ms = [LStr (full_label label ++ " Training")].
Proof. exact C144_ppdire_l. Qed.
Print Assumptions C144_ppdire_training.
Theorem C144_ppdire_test : forall (env : pp_env R) prm d X f y prm' d' m n p v t label names Xn yv yp namesv (onlyval : bool), is_matrix n p X -> direct_fit prm n p -> f_y f = YKw y \/ f_y f = YPos y -> has_response (f_y f) v ->
  pp_fit env prm d X f = (prm', d', Ok m) -> (0 < pp_ncomp prm')%nat -> full_theme t -> (length names <= S n)%nat ->
  Xn <> [] -> pp_predict m Xn = Ok yp -> length yv = length Xn -> (length namesv <= S (length Xn))%nat ->
  exists ym ms, pm_y m = Some ym /\ view_plot_yyp ppdire_legend t (ppdire_view (Some (flat y)) m) (Some (A1 yv)) Xn (LStr label) names namesv onlyval = Ok ms /\
    points_of ms = ((if onlyval then [] else plain_points t false (flat y) (ym_fitted ym)) ++ plain_points t true yv yp)%list /\
    notes_of ms = ((if onlyval then [] else names_shown names (flat y) (ym_fitted ym)) ++ names_shown namesv yv yp)%list /\
    legends_of ms = ((if onlyval then [] else [LStr (full_label label ++ " Training")]) ++ [LStr (full_label label ++ " Test")])%list.
Proof. exact C144_ppdire_test_l. Qed.
Print Assumptions C144_ppdire_test.
(** fitted without centring: the test cases are not drawn; instead the scores of
    case c0 are drawn against those of case c1, as many times as there are cases *)
Theorem C144_uncentred_refuted : forall (env : pp_env R) prm d X f prm' d' m n p y0 t label c0 c1 rest k Xn, is_matrix n p X -> direct_fit prm n p -> pp_fit env prm d X f = (prm', d', Ok m) -> (0 < pp_ncomp prm')%nat ->
  pp_center_data prm = false -> (2 <= p)%nat -> full_theme t -> (c0 < ncols (pm_T m))%nat -> (c1 < ncols (pm_T m))%nat -> is_matrix k p Xn -> (c0 < k)%nat -> (c1 < k)%nat ->
  exists ms, view_plot_projections ppdire_legend t (ppdire_view y0 m) Xn (LStr label) (c0 :: c1 :: rest) [] [] false = Ok ms /\
    points_of ms = (plain_points t false (col c0 (pm_T m)) (col c1 (pm_T m)) ++
      concat (repeat (plain_points t true (nth c0 (matmul Xn (pm_R m)) []) (nth c1 (matmul Xn (pm_R m)) [])) k))%list.
Proof. exact C144_layers_l. Qed.
Print Assumptions C144_uncentred_refuted.
Theorem C144_one_new_case_refuted : forall (env : pp_env R) prm d X f prm' d' m n p y0 t label c0 c1 rest x, is_matrix n p X -> direct_fit prm n p -> pp_fit env prm d X f = (prm', d', Ok m) -> (0 < pp_ncomp prm')%nat ->
  pp_center_data prm = false -> (2 <= p)%nat -> full_theme t -> length x = p -> (0 < c0 \/ 0 < c1)%nat ->
  view_plot_projections ppdire_legend t (ppdire_view y0 m) [x] (LStr label) (c0 :: c1 :: rest) [] [] true = Err IndexError.
Proof. exact C144_one_case_l. Qed.
Print Assumptions C144_one_new_case_refuted.
Example C144_sudire_case : sp_copy (ss_prm (ex_st MDcov 1 false false [])) = true /\ exists st' m, sd_fit ex_env1 (ex_st MDcov 1 false false []) X7 (A1 y7) euclid false = (st', Ok m).
Proof. split; [reflexivity|exact C111_case]. Qed.
Example C144_ppdire_case : exists m, pp_fit ppR (prmR (OScipy "SLSQP")) [] X32R (f0 (YKw (A1 [1; 2; 4]))) = (prmR (OScipy "SLSQP"), [], Ok m) /\
  is_matrix 3 2 X32R /\ direct_fit (prmR (OScipy "SLSQP")) 3 2 /\ pp_center_data (prmR (OScipy "SLSQP")) = false /\ pp_ncomp (prmR (OScipy "SLSQP")) = 1%nat /\ ncols (pm_T m) = 1%nat.
Proof.
  eexists. split; [reflexivity|]. split; [apply X32R_matrix|]. split; [split; [reflexivity|left; reflexivity]|]. repeat split; reflexivity.
Qed.
(** two test cases: both points are (score of case 0, score of case 1) *)
Example C144_layers_case : exists m ms, snd (pp_fit (ppQ invQ no_svd) (prmQ 2 false) [] X42 (f0 YNone)) = Ok m /\
  view_plot_projections ppdire_legend th8 (ppdire_view None m) [[1; 0]; [0; 2]]%Q (LStr "t") [0; 1]%nat [] [] true = Ok ms /\
  length (points_of ms) = 4%nat /\ nth_error (points_of ms) 0 = nth_error (points_of ms) 2 /\ nth_error (points_of ms) 1 = nth_error (points_of ms) 3.
Proof. eexists. eexists. split; [vm_compute; reflexivity|]. split; [vm_compute; reflexivity|]. vm_compute. repeat split; reflexivity. Qed.

(* ------------------------------------------------------------------ *)
(** C145: sprm_plot_cv.eta_ncomp_contour *)
Theorem C145_first : forall (params : list (XR * nat)) scores, let rows := filter finite_score (result_rows params scores) in
  snd (eta_ncomp_contour None (params, scores)) = if (3 <=? length rows)%nat then Contour rows else Insufficient.
Proof. exact contour_l. Qed.
Print Assumptions C145_first.
(** later calls show the results of the first one *)
Theorem C145_later_refuted : forall {A} `{Num A} c calls, contours None (c :: calls) = repeat (snd (eta_ncomp_contour None c)) (S (length calls)).
Proof. exact @contours_l. Qed.
Print Assumptions C145_later_refuted.
Example C145_case : contours None [([((1#2)%Q, 1%nat); ((1#3)%Q, 2%nat); ((1#4)%Q, 2%nat)], [5; 6; 7]%Q); ([], [])] =
  [Contour [((1#2)%Q, 1%nat, 5%Q); ((1#3)%Q, 2%nat, 6%Q); ((1#4)%Q, 2%nat, 7%Q)]; Contour [((1#2)%Q, 1%nat, 5%Q); ((1#3)%Q, 2%nat, 6%Q); ((1#4)%Q, 2%nat, 7%Q)]].
Proof. vm_compute. reflexivity. Qed.
Example C145_few : snd (eta_ncomp_contour None ([(Fin 1, 1%nat); (Fin 2, 1%nat); (Fin 3, 1%nat)], [Fin 1; NaN; Fin 2])) = Insufficient.
Proof. rewrite C145_first. reflexivity. Qed.

(* ------------------------------------------------------------------ *)
(** C146: sprm_plot.plot_coeffs without truncation *)
Theorem C146_bars : forall (env : sp_env R) P df n p X y m t, is_matrix n p X -> (2 <= n)%nat -> (1 <= p)%nat -> plain_centre (s_centre P) -> plain_scale (s_scale P) -> svd_rows env ->
  sprm_fit env P df X y = Ok m -> full_theme t ->
  (forall names, length names = p -> sprm_plot_coeffs t m (sp_coef m) None (ArrayCols names) = Ok (combine (sp_coef m) (map (fun j => TName (nth j names "")) (sp_keep m)))) /\
  sprm_plot_coeffs t m (sp_coef m) None NoCols = Ok (combine (sp_coef m) (map TNum (seq 0 (length (sp_keep m))))).
Proof. exact C146_bars_l. Qed.
Print Assumptions C146_bars.
(** names in a list or tuple, as documented, are refused *)
Theorem C146_list_refuted : forall {A} `{Num A} t (m : sp_model A) entity cut names, full_theme t -> names <> [] -> sprm_plot_coeffs t m entity cut (ListCols names) = Err TypeError.
Proof. exact @coeffs_list_l. Qed.
Print Assumptions C146_list_refuted.
(** without names the numbers below the bars are not those of the variables *)
Theorem C146_numbers_refuted : exists (X : list (list Q)) y m b, sprm_fit (spQ 1) (SQ CMedian SMad (ColBool false)) None X y = Ok m /\ sp_keep m = [1%nat] /\
  sprm_plot_coeffs th8 m (sp_coef m) None NoCols = Ok [(b, TNum 0)] /\ sprm_plot_coeffs th8 m (sp_coef m) None (ArrayCols ["a"; "b"]) = Ok [(b, TName "b")].
Proof. exists XK, yK. eexists. eexists. split; [vm_compute; reflexivity|]. split; [vm_compute; reflexivity|]. split; vm_compute; reflexivity. Qed.
Print Assumptions C146_numbers_refuted.
Example C146_case : exists m, sprm_fit spR (SR 1 CMean SNone false false (ColBool false)) None X3 y3' = Ok m /\ svd_rows spR.
Proof.
  destruct (sp_case CMean false false (ColBool false) None) as [m E]; [left; auto|intros [_ H]; discriminate|apply SR_names|left; discriminate|].
  exists m. split; auto. apply spR_rows.
Qed.
