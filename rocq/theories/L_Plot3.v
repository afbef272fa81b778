(** Plots of sprm models: lemmas for C139-C143. *)

From Coq Require Import String Reals List Arith ZArith Bool Lia Lra Permutation.
Import List. Import ListNotations.
From Verif Require Import Num Err Vec VecR M_Utils M_Preproc M_Robcent M_Dicomo M_Snipls M_Rm M_Sprm M_Msupport M_Plot M_Plot2 S_Rm S_Sprm S_Plot L_Mat L_Snipls L_Msupport L_Missing L_Rm L_Sprm L_Sprm3 L_Sprm4 L_Plot2.
Import List. Open Scope R_scope. Open Scope string_scope.

(** ** sizes of the attributes of a fitted object *)
Lemma fit_sizes : forall {A} `{Num A} (env : sp_env A) P df X y m, sprm_fit env P df X y = Ok m -> (2 <= length X)%nat -> svd_rows env ->
  length y = length X /\ length (sp_fitted m) = length X /\ length (sp_T m) = length X /\
  length (sp_cw m) = length X /\ length (sp_xcw m) = length X /\ length (sp_ycw m) = length X.
Proof.
  intros A HA env P df X y m E Hn Hs. destruct (run_states env P df X y m E Hn Hs) as (P0 & Xs0 & ys0 & cuts & st0 & (L1 & L2 & L3) & HX0 & _ & _ & _ & _ & _ & _ & k0 & _ & E1 & E2 & E3).
  rewrite E1, E2, E3, !set_idx_length. unfold sprm_fit in E. destruct (sprm_run env P df X y) as [P' [calls r]] eqn:ER. cbn in E. subst r.
  apply run_inv in ER as (f & k & c1 & c2 & mX & sX & Xs & my & sy & ys & X' & Xs' & sX' & ER). cbv zeta in ER.
  destruct ER as (_ & _ & Hly & _ & Esc & _ & EP & _ & HX' & Eest). destruct (scaled_rows env _ X y _ _ _ _ _ _ Hn Hly Esc) as [HlX _].
  apply estimate_inv in Eest as (Us & rc & c & b & q & st & _ & _ & _ & EF). apply finish_inv in EF as (fit & _ & _ & EF). cbv zeta in EF.
  destruct EF as (_ & _ & _ & _ & _ & F1 & _ & _ & F2 & _). rewrite F1, F2, matmul_rows, map_length. unfold matvec. rewrite map_length.
  destruct HX' as [(_ & -> & -> & _)|(-> & -> & _)]; rewrite ?map_length; lia.
Qed.
Lemma weightnewx_length : forall {A} `{Num A} (env : sp_env A) m Xn w, sprm_weightnewx env m (A2 Xn) = Ok w -> (2 <= length Xn)%nat -> length w = length Xn.
Proof.
  intros A HA env m Xn w E Hn. unfold sprm_weightnewx in E. apply bind_Ok in E as (Tn & ET & E).
  assert (HT : length Tn = length Xn).
  { unfold sprm_transform, predict_check_input in ET. destruct (sp_p m) as [q|]; [|discriminate]. destruct (negb _); [discriminate|].
    apply bind_Ok in ET as (Xc & EX & ET). apply Ok_inj in ET. subst Tn. rewrite matmul_rows. apply scale_data_rows1 in EX. rewrite EX, map_length. reflexivity. }
  destruct (snd _) as [dt|] eqn:Ed; [|discriminate]. apply Ok_inj in E. subst w. apply snd_ft_rows in Ed; [|lia]. rewrite mweights_length, start_dx_length. lia.
Qed.
Lemma predict_rows : forall {A} `{Num A} (m : sp_model A) Xn yp, sprm_predict m (A2 Xn) = Ok yp -> length yp = length Xn.
Proof.
  intros A HA m Xn yp E. unfold sprm_predict, predict_check_input in E. destruct (sp_p m) as [q|]; [|discriminate]. destruct (negb _); [discriminate|]. apply Ok_inj in E. subst yp.
  unfold matvec. rewrite !map_length. reflexivity.
Qed.
Lemma transform_rows : forall {A} `{Num A} (m : sp_model A) Xn Tn, sprm_transform m (A2 Xn) = Ok Tn -> length Tn = length Xn.
Proof.
  intros A HA m Xn Tn ET. unfold sprm_transform, predict_check_input in ET. destruct (sp_p m) as [q|]; [|discriminate]. destruct (negb _); [discriminate|].
  apply bind_Ok in ET as (Xc & EX & ET). apply Ok_inj in ET. subst Tn. rewrite matmul_rows. apply scale_data_rows1 in EX. rewrite EX, map_length. reflexivity.
Qed.
(** ** labels *)
Lemma label_ok : forall l, label0 (label_default l) = Ok (short_label l).
Proof. intros [[|c s]|[|s l]]; reflexivity. Qed.

(** ** C139: predicted against true responses *)
Section Yyp.
  Variables (env : sp_env XR) (t : theme) (m : sp_model XR).
  Hypothesis Ht : full_theme t.
  Lemma c0 : exists s, color t 0 = Ok s. Proof. eexists. apply color_ok; auto; lia. Qed.
  Lemma c1 : exists s, color t 1 = Ok s. Proof. eexists. apply color_ok; auto; lia. Qed.
  Lemma c3 : exists s, color t 3 = Ok s. Proof. eexists. apply color_ok; auto; lia. Qed.

  Definition names_part (onlyval : bool) (names : list string) (xs ys : list XR) := if onlyval then [] else names_shown names xs ys.
  Definition train_part (onlyval : bool) (xs ys w : list XR) := if onlyval then [] else cases_shown t false xs ys w.
  Lemma names_nil : forall names (xs ys : list XR), (length names <= 1)%nat -> names_shown names xs ys = [].
  Proof. intros names xs ys Hn. unfold names_shown. replace (length names - 1)%nat with 0%nat by lia. reflexivity. Qed.
  (** the notes for the training cases *)
  Lemma train_notes : forall onlyval names (y : arr XR) fit n, length (flat y) = n -> length fit = n -> (length names <= S n)%nat ->
    exists ms, match names, onlyval, Some y with _ :: _, false, Some y => notes names (flat y) fit | _, _, _ => Ok [] end = Ok ms /\
      notes_of ms = names_part onlyval names (flat y) fit /\ points_of ms = [] /\ legends_of ms = [].
  Proof.
    intros onlyval names y fit n H1 H2 Hn. unfold names_part. destruct names as [|s names]; [exists []; destruct onlyval; auto|]. destruct onlyval; [exists []; auto|].
    apply (notes_ok (s :: names) (flat y) fit n); auto.
  Qed.
  Lemma yyp_train_l : forall y label names onlyval, length (flat y) = length (sp_cw m) -> length (sp_fitted m) = length (sp_cw m) -> (length names <= S (length (sp_cw m)))%nat ->
    exists ms, sprm_plot_yyp env t m (Some y) None (A2 []) label names [] onlyval = Ok ms /\
      Permutation (points_of ms) (train_part onlyval (flat y) (sp_fitted m) (sp_cw m)) /\
      notes_of ms = names_part onlyval names (flat y) (sp_fitted m) /\
      (forall l, In l (legends_of ms) -> exists s, l = LStr (short_label label ++ " Training" ++ s)).
  Proof.
    intros y label names onlyval Hy Hf Hn. unfold sprm_plot_yyp. destruct c0 as [? ->], c1 as [? ->], c3 as [s3 ->]. cbn [bind alen length Nat.eqb Nat.leb].
    destruct (train_notes onlyval names y (sp_fitted m) _ Hy Hf Hn) as (nt & En & N1 & N2 & N3).
    rewrite label_ok. cbn [bind]. unfold train_part. destruct onlyval.
    - cbn [bind]. rewrite En. cbn [bind]. eexists. split; [reflexivity|]. cbn [app]. rewrite app_nil_r. cbn [points_of notes_of legends_of flat_map app]. fold (points_of nt) (notes_of nt) (legends_of nt). rewrite N1, N2, N3. split; [constructor|]. split; [reflexivity|]. intros l [].
    - destruct (training_ok t (short_label label) (flat y) (sp_fitted m) (sp_cw m) Ht Hy Hf) as (tr & Et & P1 & P2 & P3). rewrite Et. cbn [bind]. rewrite En. cbn [bind].
      eexists. split; [reflexivity|]. rewrite points_app, notes_app, legends_app. cbn [app points_of notes_of legends_of flat_map]. rewrite app_nil_r. fold (points_of nt) (notes_of nt) (legends_of nt). rewrite N1, N2, N3, P2, !app_nil_r. auto.
  Qed.
  Lemma yyp_test_l : forall y yv Xn yp wv label names namesv onlyval, length (flat y) = length (sp_cw m) -> length (sp_fitted m) = length (sp_cw m) -> (length names <= S (length (sp_cw m)))%nat ->
    (2 <= length Xn)%nat -> sprm_predict m (A2 Xn) = Ok yp -> sprm_weightnewx env m (A2 Xn) = Ok wv -> length (flat yv) = length Xn -> alen yv = length Xn -> (length namesv <= S (length Xn))%nat ->
    exists ms, sprm_plot_yyp env t m (Some y) (Some yv) (A2 Xn) label names namesv onlyval = Ok ms /\
      Permutation (points_of ms) (train_part onlyval (flat y) (sp_fitted m) (sp_cw m) ++ cases_shown t true (flat yv) yp wv) /\
      notes_of ms = (names_part onlyval names (flat y) (sp_fitted m) ++ names_shown namesv (flat yv) yp)%list /\
      (forall l, In l (legends_of ms) -> exists s, l = LStr (short_label label ++ " Training" ++ s) \/ l = LStr (short_label label ++ " Test" ++ s)).
  Proof.
    intros y yv Xn yp wv label names namesv onlyval Hy Hf Hn HX Ep Ew Hv Ha Hnv. unfold sprm_plot_yyp. destruct c0 as [? ->], c1 as [? ->], c3 as [s3 ->]. cbn [bind].
    destruct (train_notes onlyval names y (sp_fitted m) _ Hy Hf Hn) as (nt & En & N1 & N2 & N3).
    pose proof (predict_rows _ _ _ Ep) as Lp. pose proof (weightnewx_length _ _ _ _ Ew HX) as Lw.
    replace (alen (A2 Xn) =? 0)%nat with false by (symmetry; apply Nat.eqb_neq; cbn [alen]; lia).
    rewrite Ep, Ew, label_ok. cbn [bind].
    destruct (test_ok t (short_label label) (flat yv) yp wv Ht) as (te & Ee & Q1 & Q2 & Q3); [lia|lia|].
    assert (HV : exists nv, (if (length namesv <=? 1)%nat then Ok [] else if (alen yv =? 0)%nat then Err IndexError else notes namesv (flat yv) yp) = Ok nv /\
      notes_of nv = names_shown namesv (flat yv) yp /\ points_of nv = [] /\ legends_of nv = []).
    { destruct (Nat.leb_spec (length namesv) 1) as [Hl|Hl]; [exists []; rewrite names_nil by auto; auto|].
      replace (alen yv =? 0)%nat with false by (symmetry; apply Nat.eqb_neq; lia). apply (notes_ok namesv (flat yv) yp (length Xn)); auto. }
    destruct HV as (nv & Ev & V1 & V2 & V3).
    assert (HT : exists tr, (if onlyval then Ok [] else training_marks t (short_label label) (flat y) (sp_fitted m) (sp_cw m)) = Ok tr /\
      Permutation (points_of tr) (train_part onlyval (flat y) (sp_fitted m) (sp_cw m)) /\ notes_of tr = [] /\ forall l, In l (legends_of tr) -> exists s, l = LStr (short_label label ++ " Training" ++ s)).
    { unfold train_part. destruct onlyval; [exists []; split; [reflexivity|]; split; [constructor|]; split; [reflexivity|intros l []]|]. apply training_ok; auto. }
    destruct HT as (tr & Et & P1 & P2 & P3). rewrite Et. cbn [bind]. rewrite Ee. cbn [bind]. rewrite En. cbn [bind]. rewrite Ev. cbn [bind].
    eexists. split; [reflexivity|]. rewrite !points_app, !notes_app, !legends_app.
    change (Diagonal s3 :: nt ++ nv)%list with ([Diagonal s3] ++ nt ++ nv)%list. rewrite !points_app, !notes_app, !legends_app.
    cbn [points_of notes_of legends_of flat_map app]. fold (@points_of XR) (@notes_of XR). rewrite N1, N2, N3, V1, V2, V3, P2, Q2, !app_nil_r. cbn [app].
    split; [apply Permutation_app; auto|]. split; [reflexivity|]. intros l Hl. apply in_app_or in Hl as [Hl|Hl]; [apply P3 in Hl as [s ->]|apply Q3 in Hl as [s ->]]; exists s; auto.
  Qed.
End Yyp.
