(** Plots: the statements of C140-C146 for fitted objects. *)

From Coq Require Import String Reals List Arith ZArith Bool Lia Lra Permutation.
Import List. Import ListNotations.
From Verif Require Import Num Err Vec VecR OrdR S_Weights L_Stats M_Snipls L_Lin L_Matmul L_Deflate L_Scaling L_Scaling2 L_Preproc L_Snipls2 L_Snipls3 L_Rm2 L_Sprm2 S_Stats S_Regress S_Ppdire M_Utils M_Preproc M_Robcent M_Dicomo M_Rm M_Sprm M_Msupport M_Plot M_Ppdire M_SdrUtils M_Sudire M_Plot2 S_Rm S_Sprm S_Plot L_Mat L_Snipls L_Msupport L_Missing L_Rm L_Sprm L_Sprm3 L_Plot2 L_Plot3 L_Plot4 L_Plot5.
From Verif Require L_Pp2 L_Pp4 L_SdrFit L_SdrFit2.
Import List. Open Scope R_scope. Open Scope string_scope.

Lemma C140_default_l : forall {A} `{Num A} (env : sp_env A) P df X y m t Xn label names namesv, sprm_fit env P df X y = Ok m -> s_ncomp P = NInt 1 -> inverse_cols env -> full_theme t ->
  sprm_plot_projections env t m Xn label [0; 1]%nat names namesv false = Err IndexError.
Proof. intros A HA env P df X y m t Xn label names namesv E Hk Hi Ht. apply one_component_l; auto. apply (fit_scores_cols env P df X y m 1 E Hk Hi). Qed.

Lemma C141_bars_l : forall {A} `{Num A} (env : sp_env A) P df X y m t Xn wv label names namesv mode wc, sprm_fit env P df X y = Ok m -> (2 <= length X)%nat -> svd_rows env -> full_theme t ->
  (mode = "overall" /\ wc = sp_cw m \/ mode = "x" /\ wc = sp_xcw m \/ mode = "y" /\ wc = sp_ycw m) ->
  (Xn = [] /\ wv = [] \/ Xn <> [] /\ sprm_weightnewx env m (A2 Xn) = Ok wv) ->
  (length names <= length X)%nat -> (length namesv <= S (length wv))%nat ->
  length wc = length X /\
  exists ms, sprm_plot_caseweights env t m (A2 Xn) label names namesv false mode = Ok ms /\
    bars_of ms = (weight_bars (nth 2 (th_colors t) "") 1 wc ++ weight_bars (nth 5 (th_colors t) "") (S (length X)) wv)%list /\
    bar_notes_of ms = (bar_names names 1 wc ++ bar_names namesv (length X) wv)%list.
Proof.
  intros A HA env P df X y m t Xn wv label names namesv mode wc E Hn Hs Ht Hm Hw H1 H2. destruct (fit_sizes env P df X y m E Hn Hs) as (L1 & L2 & L4 & L3 & L5 & L6).
  assert (HL : length wc = length X) by (destruct Hm as [[_ ->]|[[_ ->]|[_ ->]]]; auto). split; auto.
  destruct (caseweights_l env t m (A2 Xn) wv label names namesv false mode wc Ht) as (ms & E1 & E2 & E3); try lia.
  - destruct Hm as [[-> ->]|[[-> ->]|[-> ->]]]; reflexivity.
  - destruct Hw as [[-> ->]|[H0 Ew]]; [reflexivity|]. cbn [alen]. destruct Xn; [congruence|]. exact Ew.
  - exists ms. rewrite HL in *. auto.
Qed.

Lemma C142_l : forall {A} `{Num A} (env : sp_env A) t m (legend : plabel -> bool -> res plabel) v y ytruev label comps names mode, full_theme t ->
  (exists c, sprm_plot_yyp env t m y ytruev (A2 []) label names [] true = Ok [Diagonal c]) /\
  sprm_plot_projections env t m (A2 []) label comps names [] true = Ok [] /\
  sprm_plot_caseweights env t m (A2 []) label names [] true mode = Ok [] /\
  (exists c, view_plot_yyp legend t v ytruev [] label names [] true = Ok [Diagonal c]) /\
  view_plot_projections legend t v [] label comps names [] true = Ok [].
Proof.
  intros A HA env t m legend v y ytruev label comps names mode Ht. destruct (onlyval_l env t m y ytruev label comps names mode Ht) as (H1 & H2 & H3).
  destruct (view_onlyval_l legend t v Ht ytruev label comps names) as (H4 & H5). auto.
Qed.

Lemma C143_first_char_l : forall {A} `{Num A} (env : sp_env A) t m y ytruev Xn c s s' comps names namesv onlyval mode,
  sprm_plot_yyp env t m y ytruev Xn (LStr (String c s)) names namesv onlyval = sprm_plot_yyp env t m y ytruev Xn (LStr (String c s')) names namesv onlyval /\
  sprm_plot_projections env t m Xn (LStr (String c s)) comps names namesv onlyval = sprm_plot_projections env t m Xn (LStr (String c s')) comps names namesv onlyval /\
  sprm_plot_caseweights env t m Xn (LStr (String c s)) names namesv onlyval mode = sprm_plot_caseweights env t m Xn (LStr (String c s')) names namesv onlyval mode.
Proof. intros A HA env t m y ytruev Xn c s s' comps names namesv onlyval mode. unfold sprm_plot_yyp, sprm_plot_projections, sprm_plot_caseweights. rewrite !label_ok. cbn [short_label]. auto. Qed.
Lemma C143_legends_l : forall (env : sp_env XR) P df X y m t ya label names ms, sprm_fit env P df X y = Ok m -> (2 <= length X)%nat -> svd_rows env -> full_theme t -> flat ya = y -> (length names <= S (length X))%nat ->
  sprm_plot_yyp env t m (Some ya) None (A2 []) label names [] false = Ok ms -> forall l, In l (legends_of ms) -> exists s, l = LStr (short_label label ++ " Training" ++ s).
Proof.
  intros env P df X y m t ya label names ms E Hn Hs Ht Hy Hl Em l Hin. destruct (fit_sizes env P df X y m E Hn Hs) as (L1 & L2 & _ & L3 & _).
  destruct (yyp_train_l env t m Ht ya label names false) as (ms' & E1 & _ & _ & E4); [rewrite Hy; lia|lia|lia|]. rewrite Em in E1. injection E1 as <-. auto.
Qed.

Lemma C144_sudire_l : forall (env : sd_env R) st X y metric bias st' m t label names, sp_copy (ss_prm st) = true -> sd_fit env st X y metric bias = (st', Ok m) -> full_theme t -> (length names <= S (length X))%nat ->
  exists ms, view_plot_yyp sudire_legend t (sudire_view (Some (flat y)) m) None [] (LStr label) names [] false = Ok ms /\
    points_of ms = plain_points t false (flat y) (sm_fitted m) /\ notes_of ms = names_shown names (flat y) (sm_fitted m) /\ legends_of ms = [LStr (full_label label)].
Proof.
  intros env st X y metric bias st' m t label names Hc E Ht Hl. destruct (sd_sizes env st X y metric bias st' m Hc E) as (L1 & L2 & _).
  apply (view_yyp_train_l sudire_legend t (sudire_view (Some (flat y)) m) Ht (flat y) (sm_fitted m)); auto; try lia. apply sudire_legend_l.
Qed.
Lemma sd_predict_length : forall (m : smodel R) Xn yp, sd_predict m Xn = Ok yp -> length yp = length Xn.
Proof.
  intros m Xn yp E. unfold sd_predict, sd_transform in E. destruct (negb _); [discriminate|]. cbn [bind] in E. cbv zeta in E. destruct (_ =? _)%nat; [|discriminate]. apply Ok_inj in E. subst yp.
  unfold matvec. rewrite map_length. unfold add_constant. destruct (existsb _ _); rewrite ?map_length; unfold matmul; rewrite map_length; reflexivity.
Qed.
Lemma C144_sudire_test_l : forall (env : sd_env R) st X y metric bias st' m t label names Xn yv yp namesv (onlyval : bool), sp_copy (ss_prm st) = true -> sd_fit env st X y metric bias = (st', Ok m) -> full_theme t ->
  (length names <= S (length X))%nat -> Xn <> [] -> sd_predict m Xn = Ok yp -> length yv = length Xn -> (length namesv <= S (length Xn))%nat ->
  exists ms, view_plot_yyp sudire_legend t (sudire_view (Some (flat y)) m) (Some (A1 yv)) Xn (LStr label) names namesv onlyval = Ok ms /\
    points_of ms = ((if onlyval then [] else plain_points t false (flat y) (sm_fitted m)) ++ plain_points t true yv yp)%list /\
    notes_of ms = ((if onlyval then [] else names_shown names (flat y) (sm_fitted m)) ++ names_shown namesv yv yp)%list /\
    legends_of ms = ((if onlyval then [] else [LStr (full_label label)]) ++ [LStr (full_label label)])%list.
Proof.
  intros env st X y metric bias st' m t label names Xn yv yp namesv onlyval Hc E Ht Hl HX Ep Hv Hnv. destruct (sd_sizes env st X y metric bias st' m Hc E) as (L1 & L2 & _).
  apply (view_yyp_l sudire_legend t (sudire_view (Some (flat y)) m) Ht (flat y) (sm_fitted m) (A1 yv) Xn yp); auto; try lia; try apply sudire_legend_l. eapply sd_predict_length; eauto.
Qed.
Lemma C144_sudire_scores_l : forall (env : sd_env R) st X y metric bias st' m t label c0 c1 rest Xn Tv, sp_copy (ss_prm st) = true -> sd_fit env st X y metric bias = (st', Ok m) -> full_theme t ->
  (c0 < ncols (sm_T m))%nat -> (c1 < ncols (sm_T m))%nat -> Xn <> [] -> sd_transform m Xn = Ok Tv -> (c0 < ncols Tv)%nat -> (c1 < ncols Tv)%nat ->
  exists ms, view_plot_projections sudire_legend t (sudire_view (Some (flat y)) m) Xn (LStr label) (c0 :: c1 :: rest) [] [] false = Ok ms /\
    points_of ms = (plain_points t false (col c0 (sm_T m)) (col c1 (sm_T m)) ++ plain_points t true (col c0 Tv) (col c1 Tv))%list.
Proof.
  intros env st X y metric bias st' m t label c0 c1 rest Xn Tv Hc E Ht H0 H1 HX ET H2 H3.
  destruct (view_proj_l sudire_legend t (sudire_view (Some (flat y)) m) Ht Xn (T2 Tv) (col c0 Tv) (col c1 Tv) (LStr label) (LStr (full_label label)) (LStr (full_label label)) c0 c1 rest) as (ms & E1 & E2 & _); auto; try apply sudire_legend_l.
  - cbn [sudire_view v_transform]. rewrite ET. reflexivity.
  - unfold tcols, item. cbn [bind nth_error]. rewrite !column_ok by lia. reflexivity.
  - rewrite !col_length. reflexivity.
  - exists ms. auto.
Qed.
Lemma C144_ppdire_l : forall (env : pp_env R) prm d X f y prm' d' m t label names, f_y f = YKw y \/ f_y f = YPos y -> pp_fit env prm d X f = (prm', d', Ok m) -> full_theme t -> (length names <= S (length X))%nat ->
  exists ym ms, pm_y m = Some ym /\ view_plot_yyp ppdire_legend t (ppdire_view (Some (flat y)) m) None [] (LStr label) names [] false = Ok ms /\
    points_of ms = plain_points t false (flat y) (ym_fitted ym) /\ notes_of ms = names_shown names (flat y) (ym_fitted ym) /\ legends_of ms = [LStr (full_label label ++ " Training")].
Proof.
  intros env prm d X f y prm' d' m t label names Hy E Ht Hl. destruct (pp_sizes env prm d X f y prm' d' m Hy E) as (L1 & L2 & ym & Em & L3). exists ym.
  destruct (view_yyp_train_l ppdire_legend t (ppdire_view (Some (flat y)) m) Ht (flat y) (ym_fitted ym) (LStr label) (LStr (full_label label ++ " Training")) names) as (ms & E1 & E2); auto; try lia.
  - cbn [ppdire_view v_fitted]. rewrite Em. reflexivity.
  - apply ppdire_legend_l.
  - exists ms. auto.
Qed.
Lemma C144_ppdire_test_l : forall (env : pp_env R) prm d X f y prm' d' m n p v t label names Xn yv yp namesv (onlyval : bool), is_matrix n p X -> direct_fit prm n p -> f_y f = YKw y \/ f_y f = YPos y -> has_response (f_y f) v ->
  pp_fit env prm d X f = (prm', d', Ok m) -> (0 < pp_ncomp prm')%nat -> full_theme t -> (length names <= S n)%nat ->
  Xn <> [] -> pp_predict m Xn = Ok yp -> length yv = length Xn -> (length namesv <= S (length Xn))%nat ->
  exists ym ms, pm_y m = Some ym /\ view_plot_yyp ppdire_legend t (ppdire_view (Some (flat y)) m) (Some (A1 yv)) Xn (LStr label) names namesv onlyval = Ok ms /\
    points_of ms = ((if onlyval then [] else plain_points t false (flat y) (ym_fitted ym)) ++ plain_points t true yv yp)%list /\
    notes_of ms = ((if onlyval then [] else names_shown names (flat y) (ym_fitted ym)) ++ names_shown namesv yv yp)%list /\
    legends_of ms = ((if onlyval then [] else [LStr (full_label label ++ " Training")]) ++ [LStr (full_label label ++ " Test")])%list.
Proof.
  intros env prm d X f y prm' d' m n p v t label names Xn yv yp namesv onlyval HX Hd Hy Hr E Hh Ht Hl HXn Ep Hv Hnv. destruct (pp_sizes env prm d X f y prm' d' m Hy E) as (L1 & L2 & ym & Em & L3). exists ym.
  destruct (L_Pp4.C68_l env prm d X f prm' d' m n p v HX Hd Hr E Hh) as (_ & b & a & r & _ & _ & _ & _ & _ & _ & _ & _ & HP & _).
  assert (Hlp : length yp = length Xn) by (rewrite HP in Ep; destruct (_ =? _)%nat; [|discriminate]; apply Ok_inj in Ep; rewrite <- Ep, map_length; reflexivity).
  destruct HX as [HX _].
  destruct (view_yyp_l ppdire_legend t (ppdire_view (Some (flat y)) m) Ht (flat y) (ym_fitted ym) (A1 yv) Xn yp (LStr label) (LStr (full_label label ++ " Training")) (LStr (full_label label ++ " Test")) names namesv onlyval) as (ms & E1 & E2); auto; try lia; try apply ppdire_legend_l.
  - cbn [ppdire_view v_fitted]. rewrite Em. reflexivity.
  - exists ms. auto.
Qed.
(** uncentred ppdire objects: a point for every component, from two test cases *)
Lemma C144_layers_l : forall (env : pp_env R) prm d X f prm' d' m n p y0 t label c0 c1 rest k Xn, is_matrix n p X -> direct_fit prm n p -> pp_fit env prm d X f = (prm', d', Ok m) -> (0 < pp_ncomp prm')%nat ->
  pp_center_data prm = false -> (2 <= p)%nat -> full_theme t -> (c0 < ncols (pm_T m))%nat -> (c1 < ncols (pm_T m))%nat -> is_matrix k p Xn -> (c0 < k)%nat -> (c1 < k)%nat ->
  exists ms, view_plot_projections ppdire_legend t (ppdire_view y0 m) Xn (LStr label) (c0 :: c1 :: rest) [] [] false = Ok ms /\
    points_of ms = (plain_points t false (col c0 (pm_T m)) (col c1 (pm_T m)) ++
      concat (repeat (plain_points t true (nth c0 (matmul Xn (pm_R m)) []) (nth c1 (matmul Xn (pm_R m)) [])) k))%list.
Proof.
  intros env prm d X f prm' d' m n p y0 t label c0 c1 rest k Xn HX Hd E Hh Hc Hp Ht H0 H1 HXn K0 K1.
  pose proof (L_Pp4.C67_new_l env prm d X f prm' d' m n p HX Hd E Hh Hc Hp k Xn HXn ltac:(lia)) as ET. set (S := matmul Xn (pm_R m)) in *.
  assert (HS : length S = k) by (unfold S, matmul; rewrite map_length; apply HXn).
  assert (HL : length (nth c0 S []) = length (nth c1 S [])).
  { assert (G : forall i, (i < k)%nat -> length (nth i S []) = length (cols (pm_R m))).
    { intros i Hi. unfold S, matmul. erewrite nth_indep by (rewrite map_length; destruct HXn; lia). rewrite (map_nth (fun r => map (fun c => Vec.dot r c) (cols (pm_R m))) Xn [] i). apply map_length. }
    rewrite !G by auto. reflexivity. }
  destruct (view_proj_l ppdire_legend t (ppdire_view y0 m) Ht Xn (T3 (repeat S k)) (concat (repeat (nth c0 S []) k)) (concat (repeat (nth c1 S []) k)) (LStr label) (LStr (full_label label ++ " Training")) (LStr (full_label label ++ " Test")) c0 c1 rest) as (ms & E1 & E2 & _); auto; try apply ppdire_legend_l.
  - destruct HXn as [Hl _]. destruct Xn; [cbn in Hl; lia|discriminate].
  - apply layers_cols; lia.
  - rewrite !concat_repeat_length, HL. reflexivity.
  - exists ms. split; [exact E1|]. rewrite E2. f_equal. unfold plain_points at 1. rewrite combine_concat_repeat by exact HL. rewrite concat_map, map_rep. reflexivity.
Qed.
Lemma C144_one_case_l : forall (env : pp_env R) prm d X f prm' d' m n p y0 t label c0 c1 rest x, is_matrix n p X -> direct_fit prm n p -> pp_fit env prm d X f = (prm', d', Ok m) -> (0 < pp_ncomp prm')%nat ->
  pp_center_data prm = false -> (2 <= p)%nat -> full_theme t -> length x = p -> (0 < c0 \/ 0 < c1)%nat ->
  view_plot_projections ppdire_legend t (ppdire_view y0 m) [x] (LStr label) (c0 :: c1 :: rest) [] [] true = Err IndexError.
Proof.
  intros env prm d X f prm' d' m n p y0 t label c0 c1 rest x HX Hd E Hh Hc Hp Ht Hx H1.
  pose proof (L_Pp4.C67_new_l env prm d X f prm' d' m n p HX Hd E Hh Hc Hp 1%nat [x] ltac:(split; [reflexivity|repeat constructor; auto]) ltac:(lia)) as ET.
  unfold view_plot_projections. rewrite !color_ok by (auto; lia). cbn [bind length Nat.eqb]. cbv zeta. cbn [ppdire_view v_transform]. rewrite ET. cbn [bind]. rewrite ppdire_legend_l. cbn [bind].
  unfold tcols at 1, item. cbn [bind nth_error]. cbn [repeat hd]. change (length (matmul [x] (pm_R m))) with 1%nat.
  replace ((c0 <? 1) && (c1 <? 1))%nat with false by (symmetry; apply andb_false_iff; destruct H1; [left|right]; apply Nat.ltb_ge; lia). reflexivity.
Qed.
