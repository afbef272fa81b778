(** Plots of sudire and ppdire models, contour plots and coefficient plots:
    lemmas for C142-C146. *)

From Coq Require Import String Reals List Arith ZArith Bool Lia Lra Permutation.
Import List. Import ListNotations.
From Verif Require Import Num Err Vec VecR M_Utils M_Preproc M_Robcent M_Dicomo M_Rm M_Sprm M_Msupport M_Plot M_Ppdire M_SdrUtils M_Sudire M_Plot2 S_Rm S_Sprm S_Plot L_Mat L_Snipls L_Msupport L_Missing L_Rm L_Sprm L_Sprm3 L_Plot2 L_Plot3 L_Plot4.
From Verif Require L_Pp2 L_SdrFit L_SdrFit2.
Import List. Open Scope R_scope. Open Scope string_scope.

(** ** C144 *)
Section View.
  Context {A : Type} `{Num A}.
  Variables (legend : plabel -> bool -> res plabel) (t : theme) (v : view A).
  Hypothesis Ht : full_theme t.
  Lemma view_yyp_l : forall y f yv Xn yp label lg0 lg1 names namesv onlyval,
    v_y0 v = Some y -> v_fitted v = Some f -> length f = length y -> (length names <= S (length y))%nat ->
    legend (label_default label) false = Ok lg0 -> legend (label_default label) true = Ok lg1 ->
    Xn <> [] -> v_predict v Xn = Ok yp -> length yp = length Xn -> length (flat yv) = length Xn -> alen yv = length Xn -> (length namesv <= S (length Xn))%nat ->
    exists ms, view_plot_yyp legend t v (Some yv) Xn label names namesv onlyval = Ok ms /\
      points_of ms = ((if onlyval then [] else plain_points t false y f) ++ plain_points t true (flat yv) yp)%list /\
      notes_of ms = ((if onlyval then [] else names_shown names y f) ++ names_shown namesv (flat yv) yp)%list /\
      legends_of ms = ((if onlyval then [] else [lg0]) ++ [lg1])%list.
  Proof.
    intros y f yv Xn yp label lg0 lg1 names namesv onlyval Ey Ef Hf Hn E0 E1 HX Ep Lp Hv Ha Hnv. unfold view_plot_yyp. rewrite !color_ok by (auto; lia). cbn [bind]. cbv zeta. rewrite Ey, Ef, E0, E1, Ep. cbn [bind].
    rewrite (scatter_ok t 2 0 lg0 y f Ht), (scatter_ok t 5 0 lg1 (flat yv) yp Ht) by lia.
    replace (length Xn =? 0)%nat with false by (symmetry; apply Nat.eqb_neq; destruct Xn; [congruence|cbn; lia]).
    assert (HV : exists nv, (if (length namesv <=? 1)%nat then Ok [] else if (alen yv =? 0)%nat then Err IndexError else notes namesv (flat yv) yp) = Ok nv /\
      notes_of nv = names_shown namesv (flat yv) yp /\ points_of nv = [] /\ legends_of nv = []).
    { destruct (Nat.leb_spec (length namesv) 1) as [Hl|Hl].
      - exists []. unfold names_shown. replace (length namesv - 1)%nat with 0%nat by lia. auto.
      - replace (alen yv =? 0)%nat with false by (symmetry; apply Nat.eqb_neq; destruct Xn; [congruence|cbn [length] in Ha; lia]). apply (notes_ok namesv (flat yv) yp (length Xn)); auto. }
    destruct HV as (nv & Ev & V1 & V2 & V3).
    assert (HN : exists nt, match names, onlyval with _ :: _, false => notes names y f | _, _ => Ok [] end = Ok nt /\
      notes_of nt = (if onlyval then [] else names_shown names y f) /\ points_of nt = [] /\ legends_of nt = []).
    { destruct names as [|s names]; [exists []; destruct onlyval; auto|]. destruct onlyval; [exists []; auto|]. apply (notes_ok (s :: names) y f (length y)); auto. }
    destruct HN as (nt & En & N1 & N2 & N3).
    assert (HR : (if onlyval then Ok [] else Ok [Points (nth 2 (th_colors t) "") (nth 0 (th_markers t) "") lg0 (combine y f)]) = Ok (if onlyval then [] else [Points (nth 2 (th_colors t) "") (nth 0 (th_markers t) "") lg0 (combine y f)])) by (destruct onlyval; reflexivity).
    rewrite HR. cbn [bind]. rewrite En. cbn [bind]. rewrite Ev. cbn [bind].
    eexists. split; [reflexivity|].
    set (d := Diagonal _). change (d :: nt ++ nv)%list with ([d] ++ nt ++ nv)%list. rewrite !points_app, !notes_app, !legends_app, N1, N2, N3, V1, V2, V3. subst d.
    destruct onlyval; cbn [points_of notes_of legends_of flat_map app]; rewrite ?app_nil_r; auto.
  Qed.
  Lemma view_yyp_train_l : forall y f label lg0 names,
    v_y0 v = Some y -> v_fitted v = Some f -> length f = length y -> (length names <= S (length y))%nat -> legend (label_default label) false = Ok lg0 ->
    exists ms, view_plot_yyp legend t v None [] label names [] false = Ok ms /\
      points_of ms = plain_points t false y f /\ notes_of ms = names_shown names y f /\ legends_of ms = [lg0].
  Proof.
    intros y f label lg0 names Ey Ef Hf Hn E0. unfold view_plot_yyp. rewrite !color_ok by (auto; lia). cbn [bind length Nat.eqb Nat.leb]. cbv zeta. rewrite Ey, Ef, E0. cbn [bind].
    rewrite (scatter_ok t 2 0 lg0 y f Ht) by lia. cbn [bind].
    assert (HN : exists nt, match names with _ :: _ => notes names y f | _ => Ok [] end = Ok nt /\ notes_of nt = names_shown names y f /\ points_of nt = [] /\ legends_of nt = []).
    { destruct names as [|s names]; [exists []; auto|]. apply (notes_ok (s :: names) y f (length y)); auto. }
    destruct HN as (nt & En & N1 & N2 & N3). rewrite En. cbn [bind]. eexists. split; [reflexivity|].
    set (d := Diagonal _). change (d :: nt ++ [])%list with ([d] ++ nt ++ [])%list. rewrite !points_app, !notes_app, !legends_app, N1, N2, N3. cbn [points_of notes_of legends_of flat_map app]. rewrite ?app_nil_r. auto.
  Qed.
  Lemma view_proj_l : forall Xn Tv xs ys label lg0 lg1 c0 c1 rest,
    (c0 < ncols (v_T v))%nat -> (c1 < ncols (v_T v))%nat -> legend (label_default label) false = Ok lg0 -> legend (label_default label) true = Ok lg1 ->
    Xn <> [] -> v_transform v Xn = Ok Tv -> tcols (c0 :: c1 :: rest) Tv = Ok (xs, ys) -> length xs = length ys ->
    exists ms, view_plot_projections legend t v Xn label (c0 :: c1 :: rest) [] [] false = Ok ms /\
      points_of ms = (plain_points t false (col c0 (v_T v)) (col c1 (v_T v)) ++ plain_points t true xs ys)%list /\ legends_of ms = [lg0; lg1].
  Proof.
    intros Xn Tv xs ys label lg0 lg1 k0 k1 rest H0 H1 E0 E1 HX ET EC Hl. unfold view_plot_projections. rewrite !color_ok by (auto; lia). cbn [bind length Nat.leb]. cbv zeta. rewrite E0, E1, ET. cbn [bind]. rewrite EC.
    unfold tcols at 1, item. cbn [bind nth_error]. rewrite (column_ok _ k0 H0), (column_ok _ k1 H1). cbn [bind].
    rewrite (scatter_ok t 2 0 lg0) by (auto; try lia; rewrite !col_length; reflexivity). rewrite (scatter_ok t 5 0 lg1 xs ys) by (auto; lia).
    replace (length Xn =? 0)%nat with false by (symmetry; apply Nat.eqb_neq; destruct Xn; [congruence|cbn; lia]). cbn [bind].
    eexists. split; [reflexivity|]. cbn [app points_of legends_of flat_map]. rewrite app_nil_r. auto.
  Qed.
  (** onlyval without new cases: nothing is shown *)
  Lemma view_onlyval_l : forall ytruev label comps names,
    (exists c, view_plot_yyp legend t v ytruev [] label names [] true = Ok [Diagonal c]) /\ view_plot_projections legend t v [] label comps names [] true = Ok [].
  Proof.
    intros ytruev label comps names. unfold view_plot_yyp, view_plot_projections. rewrite !color_ok by (auto; lia). cbn [bind length Nat.eqb Nat.leb].
    split; [|destruct names as [|? [|? ?]]; reflexivity]. eexists. destruct names; reflexivity.
  Qed.
  Lemma view_one_component_l : forall Xn label comps0 names namesv lg0, comps0 = [0; 1]%nat -> (ncols (v_T v) <= 1)%nat -> legend (label_default label) false = Ok lg0 ->
    view_plot_projections legend t v Xn label comps0 names namesv false = Err IndexError.
  Proof.
    intros Xn label comps0 names namesv lg0 -> Hc E0. unfold view_plot_projections. rewrite !color_ok by (auto; lia). cbn [bind]. cbv zeta. rewrite E0. cbn [bind]. unfold tcols at 1, item. cbn [bind nth_error].
    rewrite (column_bad (v_T v) 1) by lia. unfold column_at. destruct (0 <? ncols (v_T v))%nat; reflexivity.
  Qed.
End View.
Lemma sudire_legend_l : forall s b, sudire_legend (label_default (LStr s)) b = Ok (LStr (full_label s)).
Proof. intros [|c s] b; reflexivity. Qed.
Lemma ppdire_legend_l : forall s b, ppdire_legend (label_default (LStr s)) b = Ok (LStr (full_label s ++ (if b then " Test" else " Training"))).
Proof. intros [|c s] b; reflexivity. Qed.

(** ** sizes of the attributes of fitted sudire and ppdire objects *)
Lemma npmatmul_rows : forall {A} `{Num A} (X Y Z : list (list A)), npmatmul X Y = Ok Z -> length Z = length X.
Proof. intros A HA X Y Z E. unfold npmatmul in E. destruct (_ =? _)%nat; [|discriminate]. apply Ok_inj in E. subst Z. unfold matmul. apply map_length. Qed.
Lemma sd_sizes : forall (env : sd_env R) st X y metric bias st' m, sp_copy (ss_prm st) = true -> sd_fit env st X y metric bias = (st', Ok m) ->
  length (flat y) = length X /\ length (sm_fitted m) = length X /\ length (sm_T m) = length X.
Proof.
  intros env st X y metric bias st' m Hc E. apply L_SdrFit2.fit_inv in E as (pd & ys & P & _ & _ & Ey & _ & EF); auto.
  apply L_SdrFit.finish_inv in EF as (X' & EX & ET & _ & _ & EF & _). injection EX as <-. apply npmatmul_rows in ET.
  rewrite EF. unfold matvec. rewrite map_length. split; [|split; [unfold add_constant; destruct (existsb _ _); rewrite ?map_length; auto|auto]].
  unfold sd_response in Ey. destruct y as [v|Y]; cbn [flat].
  - rewrite map_length in Ey. destruct (Nat.eqb_spec (length v) (length X)); [auto|discriminate].
  - destruct (Nat.eqb_spec (length Y) (length X)) as [HL|]; [|discriminate]. cbn [negb] in Ey. destruct (forallb _ Y) eqn:EF2; [|discriminate]. rewrite <- HL. clear - EF2.
    induction Y as [|r Y IH]; [reflexivity|]. cbn [forallb concat length] in *. apply andb_prop in EF2 as [H1 H2]. apply Nat.eqb_eq in H1. rewrite app_length, IH, H1 by auto. reflexivity.
Qed.
Lemma one_column_flat : forall {A} (Y : list (list A)), forallb (fun r => (length r =? 1)%nat) Y = true -> length (concat Y) = length Y.
Proof.
  intros A Y. induction Y as [|r Y IH]; intros E; [reflexivity|]. cbn [forallb concat length] in *. apply andb_prop in E as [H1 H2]. apply Nat.eqb_eq in H1. rewrite app_length, IH, H1 by auto. reflexivity.
Qed.
Lemma mapM_len : forall {B C} (f : B -> res C) l r, mapM f l = Ok r -> length r = length l.
Proof. exact @L_SdrFit2.mapM_length. Qed.
Lemma pp_sizes : forall (env : pp_env R) prm d X f y prm' d' m, f_y f = YKw y \/ f_y f = YPos y -> pp_fit env prm d X f = (prm', d', Ok m) ->
  length (flat y) = length X /\ length (pm_T m) = length X /\ exists ym, pm_y m = Some ym /\ length (ym_fitted ym) = length X.
Proof.
  intros env prm d X0 f y prm' d' m Hy E. apply L_Pp2.fit_inv in E as (most & s & X & p & dims & mX & sX & Xs0 & Xs & K & yi & cs & yc & Rt & _ & _ & _ & _ & Ec & _ & _ & Ey & _ & _ & EE).
  unfold L_Pp2.st_y in Ey. assert (Ey' : exists k, bind (response env prm' s (length X0) k y) (fun yi => Ok (Some yi)) = Ok yi) by (destruct Hy as [Hy|Hy]; rewrite Hy in Ey; eauto).
  destruct Ey' as [k Ey']. apply bind_Ok in Ey' as ([yv my] & ER & Ey'). apply Ok_inj in Ey'. subst yi.
  destruct EE as (_ & mX' & sX' & Xs' & _ & ym & -> & ic & b0 & yfit & r & EF & ->). cbv zeta in EF. cbn [pm_T pm_y ym_fitted].
  unfold response in ER. destruct (Nat.eqb_spec (length match y with A1 v => map (fun a => [a]) v | A2 Y => Y end) (length X0)) as [HL|]; [|discriminate]. cbn [negb] in ER.
  destruct (forallb _ _) eqn:E1; [|discriminate]. cbn [negb] in ER.
  split; [destruct y as [v|Y]; cbn [flat]; [rewrite map_length in HL; auto|rewrite one_column_flat; auto]|].
  split; [unfold of_cols; rewrite map_length, seq_length; reflexivity|]. eexists. split; [reflexivity|]. cbn [ym_fitted].
  assert (HY : length (yi_0 yv) = length X0).
  { destruct (pp_center_data prm'); [apply bind_Ok in ER as ([[? ?] ?] & _ & ER)|]; apply Ok_inj in ER; injection ER as <- _; cbn [yi_0]; rewrite col_length; auto. }
  assert (HX : length (match dims with Some _ => X0 | None => X end) = length X0).
  { unfold L_Pp2.st_compress in Ec. destruct (_ && _)%bool; [|apply Ok_inj in Ec; injection Ec as <- _ <-; reflexivity]. apply bind_Ok in Ec as ([[V sv] U] & _ & Ec). destruct (existsb _ _); apply Ok_inj in Ec; injection Ec as <- _ <-; reflexivity. }
  unfold finish_y in EF. apply bind_Ok in EF as (ic' & EI & EF). apply Ok_inj in EF. injection EF as _ _ <- _. clear r b0.
  destruct ic' as [a|v]; [rewrite map_length; unfold matvec; rewrite map_length; exact HX|]. unfold vadd. rewrite map2_length. unfold matvec at 1. rewrite map_length, HX.
  enough (length v = length X0) by lia.
  destruct (L_Pp2.is_some dims) eqn:ED; [|destruct (is_mean _); [apply bind_Ok in EI as (? & _ & EI); discriminate|discriminate]].
  destruct (is_mean _); [|discriminate]. apply bind_Ok in EI as (v' & EM & EI). apply Ok_inj in EI. injection EI as <-. apply mapM_len in EM. rewrite EM. unfold cols, col_minus_row, ncols. rewrite map_length, seq_length.
  destruct (yi_0 yv) as [|a l]; [destruct X0; [reflexivity|discriminate HY]|]. cbn [map hd]. rewrite map_length. unfold matvec. rewrite map_length. exact HX.
Qed.

(** ** test scores of a ppdire object fitted without centring *)
Lemma map_rep : forall {B C} (f : B -> C) x k, map f (repeat x k) = repeat (f x) k.
Proof. intros B C f x k. induction k as [|k IH]; cbn; congruence. Qed.
Lemma layers_cols : forall {A} `{Num A} (T : list (list A)) k c0 c1 rest, (1 <= k)%nat -> (c0 < length T)%nat -> (c1 < length T)%nat ->
  tcols (c0 :: c1 :: rest) (T3 (repeat T k)) = Ok (concat (repeat (nth c0 T []) k), concat (repeat (nth c1 T []) k)).
Proof.
  intros A HA T k c0 c1 rest Hk H0 H1. unfold tcols, item. cbn [bind nth_error]. destruct k as [|k]; [lia|]. cbn [repeat hd].
  apply Nat.ltb_lt in H0, H1. rewrite H0, H1. cbn [andb]. change (T :: repeat T k) with (repeat T (S k)). rewrite !map_rep. reflexivity.
Qed.
Lemma concat_repeat_length : forall {A} (l : list A) k, length (concat (repeat l k)) = (k * length l)%nat.
Proof. intros A l k. induction k as [|k IH]; cbn; [reflexivity|]. rewrite app_length, IH. reflexivity. Qed.
Lemma combine_concat_repeat : forall {A B} (l : list A) (r : list B) k, length l = length r -> combine (concat (repeat l k)) (concat (repeat r k)) = concat (repeat (combine l r) k).
Proof.
  intros A B l r k Hl. induction k as [|k IH]; [reflexivity|]. cbn [repeat concat]. rewrite <- IH. generalize (concat (repeat l k)) as a. generalize (concat (repeat r k)) as b. clear IH.
  revert r Hl. induction l as [|x l IHl]; intros [|y r] Hl b a; try discriminate; [reflexivity|]. cbn. rewrite IHl; auto.
Qed.

(** ** C145: contour plots *)
Lemma isfinite_XR : forall x : XR, isfinite x = match x with Fin _ => true | _ => false end.
Proof. intros [r| | |]; unfold isfinite; xnum; cbn; try reflexivity. rewrite Reqb_refl. reflexivity. Qed.
Lemma table_rows : forall (params : list (XR * nat)) (scores : list XR), M_Msupport.cv_score_table params scores = map (fun ps => (fst (fst ps), snd (fst ps), snd ps)) (combine params scores).
Proof. intros params. unfold M_Msupport.cv_score_table. induction params as [|p params IH]; intros [|s scores]; cbn; try reflexivity. rewrite IH. reflexivity. Qed.
Lemma draw_l : forall tb : list (XR * nat * XR), draw_contour tb = if (3 <=? length (filter finite_score tb))%nat then Contour (filter finite_score tb) else Insufficient.
Proof. intros tb. unfold draw_contour. rewrite (filter_ext (fun r => isfinite (snd r)) finite_score) by (intros r; apply isfinite_XR). reflexivity. Qed.
Lemma contour_l : forall (params : list (XR * nat)) scores, let rows := filter finite_score (result_rows params scores) in
  snd (eta_ncomp_contour None (params, scores)) = if (3 <=? length rows)%nat then Contour rows else Insufficient.
Proof. intros params scores rows. unfold eta_ncomp_contour. cbn [fst snd]. rewrite draw_l, table_rows. reflexivity. Qed.
Lemma contours_l : forall {A} `{Num A} c calls, contours None (c :: calls) = repeat (snd (eta_ncomp_contour None c)) (S (length calls)).
Proof.
  intros A HA c calls. cbn [contours repeat]. unfold eta_ncomp_contour at 1 2. cbn [snd]. f_equal. set (tb := M_Msupport.cv_score_table _ _).
  induction calls as [|c' calls IH]; [reflexivity|]. cbn [contours repeat length]. unfold eta_ncomp_contour at 1. rewrite IH. reflexivity.
Qed.

(** ** C146: coefficient plots *)
Lemma coeffs_plain_l : forall {A} `{Num A} t (m : sp_model A) entity, full_theme t -> length entity = length (sp_keep m) ->
  sprm_plot_coeffs t m entity None NoCols = Ok (combine entity (map TNum (seq 0 (length entity)))).
Proof. intros A HA t m entity Ht Hl. unfold sprm_plot_coeffs. rewrite !color_ok by (auto; lia). cbn [bind]. cbv zeta. rewrite map_length, seq_length, Hl, Nat.eqb_refl. reflexivity. Qed.
Lemma coeffs_named_l : forall {A} `{Num A} t (m : sp_model A) entity names, full_theme t -> length entity = length (sp_keep m) -> Forall (fun j => (j < length names)%nat) (sp_keep m) -> names <> [] ->
  sprm_plot_coeffs t m entity None (ArrayCols names) = Ok (combine entity (map (fun j => TName (nth j names "")) (sp_keep m))).
Proof.
  intros A HA t m entity names Ht Hl HF Hn. unfold sprm_plot_coeffs. rewrite !color_ok by (auto; lia). destruct names as [|s names]; [congruence|]. cbn [bind]. cbv zeta.
  rewrite (items_nth (s :: names) (sp_keep m) "" HF). cbn [bind]. rewrite !map_length, map_map, Hl, Nat.eqb_refl. reflexivity.
Qed.
Lemma coeffs_list_l : forall {A} `{Num A} t (m : sp_model A) entity cut names, full_theme t -> names <> [] -> sprm_plot_coeffs t m entity cut (ListCols names) = Err TypeError.
Proof. intros A HA t m entity cut names Ht Hn. unfold sprm_plot_coeffs. rewrite !color_ok by (auto; lia). destruct names; [congruence|]. reflexivity. Qed.
(** ** final forms *)
Lemma shown_ok : forall t test w, caseweight_ok w -> w <> NaN -> exists ck, shown_as t test w = Some ck.
Proof.
  intros t test w [->|[->|(r & -> & Hr)]] Hn; [congruence| |]; unfold shown_as.
  - destruct (Req_EM_T 0 1); [lra|]. destruct (Req_EM_T 0 0); [eauto|lra].
  - destruct (Req_EM_T r 1); [eauto|]. destruct (Req_EM_T r 0); [eauto|]. destruct (Rlt_dec 0 r); [|lra]. destruct (Rlt_dec r 1); [eauto|lra].
Qed.
Lemma shown_all : forall t test (xs ys w : list XR), length xs = length w -> length ys = length w -> (forall i, (i < length w)%nat -> exists ck, shown_as t test (nth i w NaN) = Some ck) ->
  map snd (cases_shown t test xs ys w) = combine xs ys.
Proof.
  intros t test xs ys w Hx Hy Hw. unfold cases_shown.
  assert (G : forall idx, (forall i, In i idx -> (i < length w)%nat) -> map snd (flat_map (fun i => match shown_as t test (nth i w NaN) with Some (c, k) => [(c, k, (nth i xs NaN, nth i ys NaN))] | None => [] end) idx) = map (fun i => (nth i xs NaN, nth i ys NaN)) idx).
  { induction idx as [|i idx IH]; intros Hi; [reflexivity|]. cbn [flat_map map]. destruct (Hw i) as [[c k] E]; [apply Hi; left; auto|]. rewrite E. cbn [app map snd]. rewrite IH; auto. intros j Hj. apply Hi. right. auto. }
  rewrite G by (intros i Hi; apply in_seq in Hi; lia). apply (nth_ext _ _ (NaN, NaN) (NaN, NaN)); rewrite map_length, seq_length; [rewrite combine_length; lia|].
  intros i Hi. rewrite combine_nth by lia. erewrite nth_indep by (rewrite map_length, seq_length; lia). rewrite (map_nth (fun i => (nth i xs NaN, nth i ys NaN)) (seq 0 (length w)) 0%nat i), seq_nth by lia. reflexivity.
Qed.
Lemma C139_training_l : forall (env : sp_env XR) P df X y m t ya label names, sprm_fit env P df X y = Ok m -> (2 <= length X)%nat -> svd_rows env -> full_theme t -> flat ya = y -> (length names <= S (length X))%nat ->
  exists ms, sprm_plot_yyp env t m (Some ya) None (A2 []) label names [] false = Ok ms /\
    Permutation (points_of ms) (cases_shown t false y (sp_fitted m) (sp_cw m)) /\ notes_of ms = names_shown names y (sp_fitted m).
Proof.
  intros env P df X y m t ya label names E Hn Hs Ht Hy Hl. destruct (fit_sizes env P df X y m E Hn Hs) as (L1 & L2 & _ & L3 & _).
  destruct (yyp_train_l env t m Ht ya label names false) as (ms & E1 & E2 & E3 & _); [rewrite Hy; lia|lia|lia|]. exists ms. rewrite Hy in *. auto.
Qed.
Lemma C139_every_l : forall (env : sp_env XR) P df X y m t ya label names, sprm_fit env P df X y = Ok m -> (2 <= length X)%nat -> svd_rows env -> full_theme t -> flat ya = y -> (length names <= S (length X))%nat ->
  finite_cutoffs (sp_fun m) (re_normppf (se_rm env) (s_p1 P)) (re_normppf (se_rm env) (s_p2 P)) (re_normppf (se_rm env) (s_p3 P)) ->
  finite_cutoffs (sp_fun m) (sp_ctx m) (sp_cbx m) (sp_crx m) -> ~ In NaN (sp_cw m) ->
  exists ms, sprm_plot_yyp env t m (Some ya) None (A2 []) label names [] false = Ok ms /\ Permutation (map snd (points_of ms)) (combine y (sp_fitted m)).
Proof.
  intros env P df X y m t ya label names E Hn Hs Ht Hy Hl F1 F2 HN. destruct (C139_training_l env P df X y m t ya label names E Hn Hs Ht Hy Hl) as (ms & E1 & E2 & _). exists ms. split; [exact E1|].
  apply (Permutation_map snd) in E2. rewrite E2. destruct (fit_sizes env P df X y m E Hn Hs) as (L1 & L2 & _ & L3 & _). rewrite shown_all; [reflexivity|lia|lia|].
  intros i Hi. destruct (C47_l env P df X y m E Hn Hs F1 F2) as (_ & _ & _ & HC). destruct (HC i ltac:(lia)) as (_ & _ & HC' & _). apply shown_ok; auto. intros HE. apply HN. rewrite <- HE. apply nth_In. lia.
Qed.
Lemma C139_test_l : forall (env : sp_env XR) P df X y m t ya yv Xn yp wv label names namesv (onlyval : bool), sprm_fit env P df X y = Ok m -> (2 <= length X)%nat -> svd_rows env -> full_theme t ->
  flat ya = y -> (length names <= S (length X))%nat ->
  (2 <= length Xn)%nat -> sprm_predict m (A2 Xn) = Ok yp -> sprm_weightnewx env m (A2 Xn) = Ok wv -> length yv = length Xn -> (length namesv <= S (length Xn))%nat ->
  length yp = length Xn /\ length wv = length Xn /\
  exists ms, sprm_plot_yyp env t m (Some ya) (Some (A1 yv)) (A2 Xn) label names namesv onlyval = Ok ms /\
    Permutation (points_of ms) ((if onlyval then [] else cases_shown t false y (sp_fitted m) (sp_cw m)) ++ cases_shown t true yv yp wv) /\
    notes_of ms = ((if onlyval then [] else names_shown names y (sp_fitted m)) ++ names_shown namesv yv yp)%list.
Proof.
  intros env P df X y m t ya yv Xn yp wv label names namesv onlyval E Hn Hs Ht Hy Hl HX Ep Ew Hv Hnv. destruct (fit_sizes env P df X y m E Hn Hs) as (L1 & L2 & _ & L3 & _).
  split; [eapply predict_rows; eauto|]. split; [eapply weightnewx_length; eauto|].
  destruct (yyp_test_l env t m Ht ya (A1 yv) Xn yp wv label names namesv onlyval) as (ms & E1 & E2 & E3 & _); auto; try (rewrite Hy); try lia. exists ms. rewrite Hy in *. auto.
Qed.
Lemma C140_training_l : forall (env : sp_env XR) P df X y m t label c0 c1 rest names, sprm_fit env P df X y = Ok m -> (2 <= length X)%nat -> svd_rows env -> full_theme t -> (length names <= S (length X))%nat ->
  (c0 < ncols (sp_T m))%nat -> (c1 < ncols (sp_T m))%nat ->
  exists ms, sprm_plot_projections env t m (A2 []) label (c0 :: c1 :: rest) names [] false = Ok ms /\
    Permutation (points_of ms) (cases_shown t false (col c0 (sp_T m)) (col c1 (sp_T m)) (sp_cw m)) /\ notes_of ms = names_shown names (col c0 (sp_T m)) (col c1 (sp_T m)).
Proof.
  intros env P df X y m t label c0 c1 rest names E Hn Hs Ht Hl H0 H1. destruct (fit_sizes env P df X y m E Hn Hs) as (L1 & L2 & L4 & L3 & _).
  apply (proj_l env t m Ht label c0 c1 rest names false); auto; lia.
Qed.
Lemma C140_test_l : forall (env : sp_env XR) P df X y m t Xn Tv wv label c0 c1 rest names namesv (onlyval : bool), sprm_fit env P df X y = Ok m -> (2 <= length X)%nat -> svd_rows env -> full_theme t ->
  (length names <= S (length X))%nat -> (c0 < ncols (sp_T m))%nat -> (c1 < ncols (sp_T m))%nat ->
  (2 <= length Xn)%nat -> sprm_transform m (A2 Xn) = Ok Tv -> sprm_weightnewx env m (A2 Xn) = Ok wv -> (length namesv <= S (length Xn))%nat ->
  exists ms, sprm_plot_projections env t m (A2 Xn) label (c0 :: c1 :: rest) names namesv onlyval = Ok ms /\
    Permutation (points_of ms) ((if onlyval then [] else cases_shown t false (col c0 (sp_T m)) (col c1 (sp_T m)) (sp_cw m)) ++ cases_shown t true (col c0 Tv) (col c1 Tv) wv) /\
    notes_of ms = ((if onlyval then [] else names_shown names (col c0 (sp_T m)) (col c1 (sp_T m))) ++ names_shown namesv (col c0 Tv) (col c1 Tv))%list.
Proof.
  intros env P df X y m t Xn Tv wv label c0 c1 rest names namesv onlyval E Hn Hs Ht Hl H0 H1 HX ET EW Hnv. destruct (fit_sizes env P df X y m E Hn Hs) as (L1 & L2 & L4 & L3 & _).
  assert (HT : ncols Tv = ncols (sp_T m)).
  { unfold sprm_transform, predict_check_input in ET. destruct (sp_p m) as [q|]; [|discriminate]. destruct (negb _); [discriminate|]. apply bind_Ok in ET as (Xc & EX & ET). apply Ok_inj in ET. subst Tv.
    apply scale_data_rows1 in EX. rewrite map_length in EX. destruct Xc as [|r Xc]; [cbn in EX; lia|]. rewrite matmul_cols.
    unfold sprm_fit in E. destruct (sprm_run env P df X y) as [P' [calls rr]] eqn:ER. cbn in E. subst rr.
    apply run_inv in ER as (f & k & a1 & a2 & mX & sX & Xs & my & sy & ys & X' & Xs' & sX' & ER). cbv zeta in ER. destruct ER as (_ & _ & _ & _ & _ & _ & _ & _ & _ & Eest).
    apply estimate_inv in Eest as (Us & rc & c & b & q0 & st & _ & _ & _ & EF). apply finish_inv in EF as (fit & _ & _ & EF). cbv zeta in EF.
    destruct EF as (_ & _ & _ & _ & _ & _ & _ & F1 & F2 & _). rewrite F2 in L4 |- *. rewrite F1. rewrite matmul_rows in L4. destruct Xs' as [|r' Xs']; [cbn in L4; lia|]. symmetry. apply matmul_cols. }
  apply (proj_test_l env t m Ht Xn Tv wv label c0 c1 rest names namesv onlyval); auto; lia.
Qed.
