(** Plots of sprm models, continued: lemmas for C140-C142, C146. *)

From Coq Require Import String Reals List Arith ZArith Bool Lia Lra Permutation.
Import List. Import ListNotations.
From Verif Require Import Num Err Vec VecR M_Utils M_Preproc M_Robcent M_Dicomo M_Snipls M_Rm M_Sprm M_Msupport M_Plot M_Plot2 S_Rm S_Sprm S_Plot L_Mat L_Snipls L_Msupport L_Missing L_Rm L_Sprm L_Sprm3 L_Sprm4 L_Plot2 L_Plot3.
Import List. Open Scope R_scope. Open Scope string_scope.

(** ** C140: the score space *)
Lemma column_ok : forall {A} `{Num A} (T : list (list A)) c, (c < ncols T)%nat -> column_at T c = Ok (col c T).
Proof. intros A HA T c Hc. unfold column_at. apply Nat.ltb_lt in Hc. rewrite Hc. reflexivity. Qed.
Lemma column_bad : forall {A} `{Num A} (T : list (list A)) c, (ncols T <= c)%nat -> column_at T c = Err IndexError.
Proof. intros A HA T c Hc. unfold column_at. apply Nat.ltb_ge in Hc. rewrite Hc. reflexivity. Qed.
Section Proj.
  Variables (env : sp_env XR) (t : theme) (m : sp_model XR).
  Hypothesis Ht : full_theme t.
  Lemma proj_l : forall label c0 c1 rest names onlyval, length (sp_T m) = length (sp_cw m) -> (c0 < ncols (sp_T m))%nat -> (c1 < ncols (sp_T m))%nat -> (length names <= S (length (sp_cw m)))%nat ->
    exists ms, sprm_plot_projections env t m (A2 []) label (c0 :: c1 :: rest) names [] onlyval = Ok ms /\
      Permutation (points_of ms) (train_part t onlyval (col c0 (sp_T m)) (col c1 (sp_T m)) (sp_cw m)) /\
      notes_of ms = names_part onlyval names (col c0 (sp_T m)) (col c1 (sp_T m)).
  Proof.
    intros label k0 k1 rest names onlyval HT H0 H1 Hn. unfold sprm_plot_projections. destruct (c0 t Ht) as [? ->], (c1 t Ht) as [? ->]. cbn [bind alen length Nat.eqb Nat.leb].
    rewrite label_ok. unfold item. cbn [bind nth_error]. rewrite (column_ok _ k0 H0), (column_ok _ k1 H1). cbn [bind].
    assert (L0 : length (col k0 (sp_T m)) = length (sp_cw m)) by (rewrite col_length; auto). assert (L1 : length (col k1 (sp_T m)) = length (sp_cw m)) by (rewrite col_length; auto).
    assert (HN : exists nt, match names, onlyval with _ :: _ :: _, false => notes names (col k0 (sp_T m)) (col k1 (sp_T m)) | _, _ => Ok [] end = Ok nt /\
      notes_of nt = names_part onlyval names (col k0 (sp_T m)) (col k1 (sp_T m)) /\ points_of nt = []).
    { unfold names_part. destruct names as [|a [|b names]]; [exists []; destruct onlyval; auto|exists []; destruct onlyval; auto|]. destruct onlyval; [exists []; auto|].
      destruct (notes_ok (a :: b :: names) (col k0 (sp_T m)) (col k1 (sp_T m)) _ L0 L1 Hn) as (nt & E & N1 & N2 & _). exists nt. auto. }
    destruct HN as (nt & En & N1 & N2). unfold train_part. destruct onlyval.
    - cbn [bind]. rewrite En. cbn [bind]. eexists. split; [reflexivity|]. cbn [app]. rewrite app_nil_r, N1, N2. split; [constructor|reflexivity].
    - destruct (training_ok t (short_label label) _ _ (sp_cw m) Ht L0 L1) as (tr & Et & P1 & P2 & _). rewrite Et. cbn [bind]. rewrite En. cbn [bind].
      eexists. split; [reflexivity|]. cbn [app]. rewrite app_nil_r, points_app, notes_app, N1, N2, P2, app_nil_r. auto.
  Qed.
  Lemma proj_test_l : forall Xn Tv wv label c0 c1 rest names namesv onlyval, length (sp_T m) = length (sp_cw m) -> (c0 < ncols (sp_T m))%nat -> (c1 < ncols (sp_T m))%nat -> (length names <= S (length (sp_cw m)))%nat ->
    (2 <= length Xn)%nat -> sprm_transform m (A2 Xn) = Ok Tv -> sprm_weightnewx env m (A2 Xn) = Ok wv -> (c0 < ncols Tv)%nat -> (c1 < ncols Tv)%nat -> (length namesv <= S (length Xn))%nat ->
    exists ms, sprm_plot_projections env t m (A2 Xn) label (c0 :: c1 :: rest) names namesv onlyval = Ok ms /\
      Permutation (points_of ms) (train_part t onlyval (col c0 (sp_T m)) (col c1 (sp_T m)) (sp_cw m) ++ cases_shown t true (col c0 Tv) (col c1 Tv) wv) /\
      notes_of ms = (names_part onlyval names (col c0 (sp_T m)) (col c1 (sp_T m)) ++ names_shown namesv (col c0 Tv) (col c1 Tv))%list.
  Proof.
    intros Xn Tv wv label k0 k1 rest names namesv onlyval HT H0 H1 Hn HX ET EW G0 G1 Hnv. unfold sprm_plot_projections. destruct (c0 t Ht) as [? ->], (c1 t Ht) as [? ->]. cbn [bind].
    pose proof (transform_rows _ _ _ ET) as LT. pose proof (weightnewx_length _ _ _ _ EW HX) as LW.
    replace (alen (A2 Xn) =? 0)%nat with false by (symmetry; apply Nat.eqb_neq; cbn [alen]; lia). rewrite ET, EW.
    rewrite label_ok. unfold item. cbn [bind nth_error]. rewrite (column_ok _ k0 H0), (column_ok _ k1 H1), (column_ok _ k0 G0), (column_ok _ k1 G1). cbn [bind].
    assert (L0 : length (col k0 (sp_T m)) = length (sp_cw m)) by (rewrite col_length; auto). assert (L1 : length (col k1 (sp_T m)) = length (sp_cw m)) by (rewrite col_length; auto).
    assert (M0 : length (col k0 Tv) = length wv) by (rewrite col_length; lia). assert (M1 : length (col k1 Tv) = length wv) by (rewrite col_length; lia).
    assert (HN : exists nt, match names, onlyval with _ :: _ :: _, false => notes names (col k0 (sp_T m)) (col k1 (sp_T m)) | _, _ => Ok [] end = Ok nt /\
      notes_of nt = names_part onlyval names (col k0 (sp_T m)) (col k1 (sp_T m)) /\ points_of nt = []).
    { unfold names_part. destruct names as [|a [|b names]]; [exists []; destruct onlyval; auto|exists []; destruct onlyval; auto|]. destruct onlyval; [exists []; auto|].
      destruct (notes_ok (a :: b :: names) (col k0 (sp_T m)) (col k1 (sp_T m)) _ L0 L1 Hn) as (nt & E & N1 & N2 & _). exists nt. auto. }
    destruct HN as (nt & En & N1 & N2).
    assert (HV : exists nv, (if (length namesv <=? 1)%nat then Ok [] else notes namesv (col k0 Tv) (col k1 Tv)) = Ok nv /\ notes_of nv = names_shown namesv (col k0 Tv) (col k1 Tv) /\ points_of nv = []).
    { destruct (Nat.leb_spec (length namesv) 1) as [Hl|Hl]; [exists []; rewrite names_nil by auto; auto|].
      destruct (notes_ok namesv (col k0 Tv) (col k1 Tv) (length Xn)) as (nv & E & V1 & V2 & _); [lia|lia|auto|]. exists nv. auto. }
    destruct HV as (nv & Ev & V1 & V2).
    assert (HE : exists te, match (regular_cases wv ++ moderate_outliers wv ++ harsh_outliers wv)%list with [] => Ok [] | _ => test_marks t (short_label label) (col k0 Tv) (col k1 Tv) wv end = Ok te /\
      Permutation (points_of te) (cases_shown t true (col k0 Tv) (col k1 Tv) wv) /\ notes_of te = []).
    { destruct (test_ok t (short_label label) _ _ wv Ht M0 M1) as (te & Ee & Q1 & Q2 & _).
      destruct (regular_cases wv ++ moderate_outliers wv ++ harsh_outliers wv)%list eqn:EG; [|exists te; auto].
      apply app_eq_nil in EG as [G2 EG]. apply app_eq_nil in EG as [G3 G4]. exists []. split; [reflexivity|]. split; [|reflexivity].
      pose proof (groups_shown t true (col k0 Tv) (col k1 Tv) wv) as HG. rewrite G2, G3, G4 in HG. exact HG. }
    destruct HE as (te & Ee & Q1 & Q2). rewrite Ee.
    assert (HR : exists tr, (if onlyval then Ok [] else training_marks t (short_label label) (col k0 (sp_T m)) (col k1 (sp_T m)) (sp_cw m)) = Ok tr /\
      Permutation (points_of tr) (train_part t onlyval (col k0 (sp_T m)) (col k1 (sp_T m)) (sp_cw m)) /\ notes_of tr = []).
    { unfold train_part. destruct onlyval; [exists []; auto|]. destruct (training_ok t (short_label label) _ _ (sp_cw m) Ht L0 L1) as (tr & Et & P1 & P2 & _). exists tr. auto. }
    destruct HR as (tr & Et & P1 & P2). rewrite Et. cbn [bind]. rewrite En. cbn [bind]. rewrite Ev. cbn [bind].
    eexists. split; [reflexivity|]. rewrite !points_app, !notes_app, N1, N2, V1, V2, P2, Q2, !app_nil_r. split; [apply Permutation_app; auto|reflexivity].
  Qed.
End Proj.
(** a one-component model has no second score *)
Lemma one_component_l : forall {A} `{Num A} (env : sp_env A) t m Xn label names namesv, full_theme t -> (ncols (sp_T m) <= 1)%nat ->
  sprm_plot_projections env t m Xn label [0; 1]%nat names namesv false = Err IndexError.
Proof.
  intros A HA env t m Xn label names namesv Ht Hc. unfold sprm_plot_projections. rewrite !color_ok by (auto; lia). cbn [bind]. rewrite label_ok. unfold item. cbn [bind nth_error].
  rewrite (column_bad (sp_T m) 1) by lia. unfold column_at. destruct (0 <? ncols (sp_T m))%nat; reflexivity.
Qed.
Lemma loop_bound : forall {A} `{Num A} nan eta ssx ssy k (X : list (list A)) y old, (length (snipls_loop nan eta ssx ssy k X y old) <= k)%nat.
Proof. intros A HA nan eta ssx ssy k. induction k as [|k IH]; intros X y old; cbn [snipls_loop]; [cbn; lia|]. destruct (snipls_step _ _ _ _ _ _ _) as [c|]; cbn [length]; [specialize (IH (c_X c) (c_y c) (c_good c)); lia|lia]. Qed.
Lemma of_cols_cols : forall {A} `{Num A} p (cs : list (list A)), (ncols (of_cols p cs) <= length cs)%nat.
Proof. intros A HA [|p] cs; unfold ncols, of_cols; cbn; [lia|]. rewrite map_length. lia. Qed.
Lemma matmul_ncols : forall {A} `{Num A} (X Y : list (list A)), (ncols (matmul X Y) <= ncols Y)%nat.
Proof. intros A HA [|r X] Y; unfold ncols at 1, matmul; cbn [map hd length]; [lia|]. unfold cols. rewrite !map_length, seq_length. lia. Qed.
Lemma snipls_R_cols : forall {A} `{Num A} env inv eta k c s (X : list (list A)) y f, (forall M Mi, inv M = Ok Mi -> length (hd [] Mi) = length (hd [] M)) -> (1 <= k)%nat ->
  snipls_fit env inv eta k c s X y = Ok f -> (ncols (sn_R f) <= k)%nat.
Proof.
  intros A HA env inv eta k c s X y f Hi Hk E. unfold snipls_fit in E. destruct (_ && _)%bool; [discriminate|]. destruct (negb _); [discriminate|].
  apply bind_Ok in E as ([[mX sX] X0] & _ & E). apply bind_Ok in E as ([[my sy] Y0] & _ & E). cbv zeta in E. set (comps := snipls_loop _ _ _ _ _ _ _ _) in E.
  assert (Hl : (length comps <= k)%nat) by apply loop_bound. clearbody comps.
  apply bind_Ok in E as ([[B Rm] T] & ER & E). destruct (negb _); [discriminate|]. apply Ok_inj in E. subst f. cbn [sn_R].
  destruct comps as [|c0 l].
  - apply Ok_inj in ER. injection ER as _ <- _. etransitivity; [apply of_cols_cols|]. cbn. lia.
  - apply bind_Ok in ER as (PWi & E1 & ER). apply bind_Ok in ER as (Gi & _ & ER). apply Ok_inj in ER. injection ER as _ <- _.
    etransitivity; [apply matmul_ncols|]. apply Hi in E1. unfold ncols at 1. rewrite E1. etransitivity; [apply matmul_ncols|]. etransitivity; [apply of_cols_cols|]. rewrite map_length. exact Hl.
Qed.
Lemma fit_scores_cols : forall {A} `{Num A} (env : sp_env A) P df X y m k, sprm_fit env P df X y = Ok m -> s_ncomp P = NInt (Z.of_nat k) -> inverse_cols env -> (ncols (sp_T m) <= k)%nat.
Proof.
  intros A HA env P df X y m k E Hk Hi. unfold sprm_fit in E. destruct (sprm_run env P df X y) as [P' [calls r]] eqn:ER. cbn in E. subst r.
  apply run_inv in ER as (f & k' & c1 & c2 & mX & sX & Xs & my & sy & ys & X' & Xs' & sX' & ER). cbv zeta in ER.
  destruct ER as (Eck & _ & Hly & _ & Esc & _ & EP & _ & HX' & Eest).
  assert (k' = k /\ (1 <= k)%nat) as [-> Hk1].
  { unfold sp_check in Eck. rewrite Hk in Eck. destruct (_ || _)%bool; [discriminate|]. destruct (Z.leb_spec (Z.of_nat k) 0); [discriminate|]. destruct (negb _); [discriminate|]. destruct (_ || _)%bool; [discriminate|].
    apply bind_Ok in Eck as (g & _ & Eck). apply Ok_inj in Eck. injection Eck as _ <-. rewrite Nat2Z.id. split; [reflexivity|lia]. }
  apply estimate_inv in Eest as (Us & rc & c & b & q & st & _ & _ & EL & EF). apply finish_inv in EF as (fit & Ef & _ & EF). cbv zeta in EF.
  destruct EF as (_ & _ & _ & _ & _ & _ & _ & _ & F2 & _). rewrite F2. etransitivity; [apply matmul_ncols|].
  apply sp_loop_passed in EL as [[-> _]|Hp]; [discriminate|]. destruct Hp as (sw & m' & T & dt & Eq & Efit & _). rewrite Ef in Eq. injection Eq as <-.
  eapply snipls_R_cols; eauto.
Qed.

(** ** C141: case weights *)
Lemma bars_app : forall {A} (a b : list (mark A)), bars_of (a ++ b)%list = (bars_of a ++ bars_of b)%list.
Proof. intros. apply flat_map_app. Qed.
Lemma bar_notes_app : forall {A} (a b : list (mark A)), bar_notes_of (a ++ b)%list = (bar_notes_of a ++ bar_notes_of b)%list.
Proof. intros. apply flat_map_app. Qed.
Lemma bars_nones : forall {A} (c : string) s k (l : list (option A)),
  flat_map (fun b : nat * option A => match snd b with Some h => [(c, fst b, h)] | None => [] end) (combine (seq s (k + length l)) (repeat None k ++ l)%list) =
  flat_map (fun b : nat * option A => match snd b with Some h => [(c, fst b, h)] | None => [] end) (combine (seq (s + k) (length l)) l).
Proof. intros A c s k l. revert s. induction k as [|k IH]; intros s; cbn [repeat app Nat.add]; [rewrite Nat.add_0_r; reflexivity|]. cbn [seq combine flat_map snd app]. rewrite IH. do 3 f_equal. lia. Qed.
Lemma bars_somes : forall {A} (c : string) s (w : list A) k,
  flat_map (fun b : nat * option A => match snd b with Some h => [(c, fst b, h)] | None => [] end) (combine (seq s (length w + k)) (map Some w ++ repeat None k)%list) = weight_bars c s w.
Proof.
  intros A c s w k. unfold weight_bars. revert s. induction w as [|h w IH]; intros s.
  - cbn [length map app Nat.add seq combine]. revert s. induction k as [|k IHk]; intros s; [reflexivity|]. cbn [repeat seq combine flat_map snd app]. apply IHk.
  - cbn [length map app Nat.add seq combine flat_map snd fst]. rewrite IH. reflexivity.
Qed.
Lemma bar_notes_ok : forall {A} (names : list string) shift total (w : list A), (length names <= S (length w))%nat -> (length names - 1 + shift <= total)%nat ->
  exists ms, bar_notes names shift total w = Ok ms /\ bar_notes_of ms = bar_names names shift w /\ bars_of ms = [].
Proof.
  intros A names shift total w Hn Ht. unfold bar_notes, bar_names. set (k := (length names - 1)%nat) in *. assert (Hk : length (firstn k names) = k) by (rewrite firstn_length; lia).
  assert (Hkn : (k <= length w)%nat) by lia. revert Hk. generalize (firstn k names) as l. clearbody k. clear Hn names. intros l Hl. subst k.
  assert (G : forall l w' s, (s + length l + shift <= total)%nat -> (length l <= length w')%nat -> (forall j, nth_error w (s + j) = nth_error w' j) ->
    exists ms, mapM (fun ni => bind (item (seq 1 total) (snd ni + shift)) (fun pos => bind (item w (snd ni)) (fun h => Ok (NoteBar (fst ni) pos h)))) (combine l (seq s (length l))) = Ok ms /\
      bar_notes_of ms = map (fun nh => (fst (fst nh), snd (fst nh), snd nh)) (combine (combine l (seq (S (s + shift)) (length l))) w') /\ bars_of ms = []).
  { clear l Ht Hkn. induction l as [|a l IH]; intros w' s Hs Hl Ew; [exists []; repeat split|]. destruct w' as [|h w']; [cbn in Hl; lia|]. cbn [length] in Hs, Hl.
    destruct (IH w' (S s)) as (ms & Em & E1 & E2); [lia|lia|intros j; replace (S s + j)%nat with (s + S j)%nat by lia; apply (Ew (S j))|].
    assert (I1 : item (seq 1 total) (s + shift) = Ok (S (s + shift))).
    { rewrite (item_nth _ _ 0%nat) by (rewrite seq_length; lia). rewrite seq_nth by lia. reflexivity. }
    assert (I2 : item w s = Ok h) by (unfold item; replace s with (s + 0)%nat by lia; rewrite Ew; reflexivity).
    cbn [length seq combine mapM fst snd]. rewrite I1. cbn [bind]. rewrite I2. cbn [bind]. rewrite Em. cbn [bind]. eexists. split; [reflexivity|].
    cbn [bar_notes_of bars_of flat_map app map fst snd]. fold (bar_notes_of ms) (bars_of ms). rewrite E1, E2. auto. }
  apply (G l w 0%nat); auto; lia.
Qed.
Lemma weight_bars_nil : forall {A} c s, weight_bars c s (@nil A) = []. Proof. reflexivity. Qed.
Lemma caseweights_l : forall {A} `{Num A} (env : sp_env A) t m Xn wv label names namesv (onlyval : bool) mode wc, full_theme t ->
  (if onlyval then Some [] else mode_weights m mode) = Some wc ->
  (if (alen Xn =? 0)%nat then Ok [] else sprm_weightnewx env m Xn) = Ok wv ->
  (onlyval = false -> length names <= length wc)%nat -> (length namesv <= S (length wv))%nat ->
  exists ms, sprm_plot_caseweights env t m Xn label names namesv onlyval mode = Ok ms /\
    bars_of ms = (weight_bars (nth 2 (th_colors t) "") 1 wc ++ weight_bars (nth 5 (th_colors t) "") (S (length wc)) wv)%list /\
    bar_notes_of ms = ((if onlyval then [] else bar_names names 1 wc) ++ bar_names namesv (length wc) wv)%list.
Proof.
  intros A HA env t m Xn wv label names namesv onlyval mode wc Ht Ewc Ewv Hn Hnv. unfold sprm_plot_caseweights. rewrite !color_ok by (auto; lia). rewrite label_ok. cbn [bind]. cbv zeta. rewrite Ewc.
  assert (E1 : (if (alen Xn =? 0)%nat then Ok [] else bind (sprm_weightnewx env m Xn) (fun wv0 => Ok wv0)) = Ok wv).
  { destruct (alen Xn =? 0)%nat; [exact Ewv|]. rewrite Ewv. reflexivity. }
  assert (E2 : exists lab, (if onlyval then Ok "" else Ok (short_label label)) = Ok lab) by (destruct onlyval; eauto). destruct E2 as [lab ->]. cbn [bind]. rewrite E1. cbn [bind].
  destruct (bar_notes_ok namesv (length wc) (length wc + length wv) wv Hnv) as (nv & Ev & V1 & V2); [lia|].
  assert (HN : exists nt, (if onlyval then Ok [] else bar_notes names 1 (length wc + length wv) wc) = Ok nt /\ bar_notes_of nt = (if onlyval then [] else bar_names names 1 wc) /\ bars_of nt = []).
  { destruct onlyval; [exists []; auto|]. specialize (Hn eq_refl). destruct names as [|s names]; [exists []; auto|]. apply bar_notes_ok; cbn [length] in *; lia. }
  destruct HN as (nt & En & N1 & N2).
  set (co2 := nth 2 (th_colors t) ""). set (co5 := nth 5 (th_colors t) "").
  assert (B1 : exists b1, match wc with [] => Ok [] | _ :: _ => Ok [Bars co2 (LStr (lab ++ " Training")) (combine (seq 1 (length wc + length wv)) (map Some wc ++ repeat None (length wv)))] end = Ok b1 /\
    bars_of b1 = weight_bars co2 1 wc /\ bar_notes_of b1 = []).
  { destruct wc as [|h w]; [exists []; auto|]. eexists. split; [reflexivity|]. cbn [bars_of bar_notes_of flat_map]. rewrite app_nil_r, bars_somes. auto. }
  assert (B2 : exists b2, match wv with [] => Ok [] | _ :: _ => Ok [Bars co5 (LStr (short_label label ++ " Test")) (combine (seq 1 (length wc + length wv)) (repeat None (length wc) ++ map Some wv))] end = Ok b2 /\
    bars_of b2 = weight_bars co5 (S (length wc)) wv /\ bar_notes_of b2 = []).
  { destruct wv as [|h w]; [exists []; auto|]. eexists. split; [reflexivity|]. cbn [bars_of bar_notes_of flat_map]. rewrite app_nil_r. split; [|reflexivity].
    rewrite <- (map_length Some (h :: w)). rewrite bars_nones. cbn [Nat.add]. rewrite <- (app_nil_r (map Some (h :: w))) at 2. rewrite map_length. rewrite <- (Nat.add_0_r (length (h :: w))). apply (bars_somes co5 (S (length wc)) (h :: w) 0). }
  destruct B1 as (b1 & Eb1 & X1 & X2), B2 as (b2 & Eb2 & Y1 & Y2). rewrite Eb1. cbn [bind]. rewrite Eb2. cbn [bind]. rewrite En. cbn [bind]. rewrite Ev. cbn [bind].
  eexists. split; [reflexivity|]. rewrite !bars_app, !bar_notes_app, X1, X2, Y1, Y2, N1, N2, V1, V2, !app_nil_r. auto.
Qed.
Lemma mode_l : forall {A} `{Num A} (env : sp_env A) t m label names namesv mode, full_theme t -> mode <> "overall" -> mode <> "x" -> mode <> "y" ->
  sprm_plot_caseweights env t m (A2 []) label names namesv false mode = Err UnboundLocalError.
Proof.
  intros A HA env t m label names namesv mode Ht H1 H2 H3. unfold sprm_plot_caseweights, mode_weights. rewrite !color_ok by (auto; lia). rewrite label_ok. cbn [bind alen length Nat.eqb].
  apply String.eqb_neq in H1, H2, H3. rewrite H1, H2, H3. reflexivity.
Qed.
(** ** C142: onlyval without new cases *)
Lemma onlyval_l : forall {A} `{Num A} (env : sp_env A) t m y ytruev label comps names mode, full_theme t ->
  (exists c, sprm_plot_yyp env t m y ytruev (A2 []) label names [] true = Ok [Diagonal c]) /\
  sprm_plot_projections env t m (A2 []) label comps names [] true = Ok [] /\
  sprm_plot_caseweights env t m (A2 []) label names [] true mode = Ok [].
Proof.
  intros A HA env t m y ytruev label comps names mode Ht. unfold sprm_plot_yyp, sprm_plot_projections, sprm_plot_caseweights. rewrite !color_ok by (auto; lia). cbn [bind alen length Nat.eqb Nat.leb].
  split; [|split; [destruct names as [|? [|? ?]]; reflexivity|reflexivity]]. eexists. destruct names, y; reflexivity.
Qed.
