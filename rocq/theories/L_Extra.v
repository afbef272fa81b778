(** Further facts on the scaler's stored data, the sign estimators, the plots of
    coefficients and labels *)

From Coq Require Import String Reals QArith List Arith ZArith Bool Lra Lia Permutation Sorted.
Import List. Import ListNotations.
From Verif Require Import Num Err Vec VecR OrdR S_Stats L_Mat L_Stats M_Utils M_Preproc M_Robcent M_Dicomo M_Rm M_Sprm M_Snipls M_Msupport M_Plot M_Ppdire M_Sudire M_Plot2 S_Plot S_Extra L_Plot2 L_Snipls L_Vars.
Import List. Open Scope R_scope.

Section Stored.
  Context {A : Type} `{Num A} (env : prep_env A).
  Lemma fit_datas : forall st x, a_datas (fst (sc_fit env st x)) = a_datas st /\ a_datans (fst (sc_fit env st x)) = a_datans st.
  Proof. intros st x. unfold sc_fit. repeat match goal with |- context [match ?e with _ => _ end] => destruct e end; cbn; auto. Qed.
  Lemma transform_datans : forall st x, a_datans (fst (sc_transform st x)) = a_datans st.
  Proof. intros st x. unfold sc_transform, set_datas. repeat match goal with |- context [match ?e with _ => _ end] => destruct e end; cbn; auto. Qed.
  Lemma step_datas : forall o st, not_transform o -> a_datas (sc_step env st o) = a_datas st.
  Proof.
    intros o st Ho. destruct o as [x|x|x|x|x|c s t]; cbn [sc_step] in *; try contradiction.
    - apply fit_datas.
    - unfold sc_predict, set_datans. repeat match goal with |- context [match ?e with _ => _ end] => destruct e end; cbn; auto.
    - unfold sc_inverse_transform. repeat match goal with |- context [match ?e with _ => _ end] => destruct e end; cbn; auto.
    - reflexivity.
  Qed.
  Lemma step_datans : forall o st, not_predict o -> a_datans (sc_step env st o) = a_datans st.
  Proof.
    intros o st Ho. destruct o as [x|x|x|x|x|c s t]; cbn [sc_step] in *; try contradiction.
    - apply fit_datas.
    - apply transform_datans.
    - unfold sc_fit_transform. pose proof (fit_datas st x) as [_ E]. destruct (sc_fit env st x) as [st1 [u|e]]; cbn [fst] in *; [|auto].
      pose proof (transform_datans st1 x) as E1. destruct (sc_transform st1 x) as [st2 [v|e]]; cbn [fst] in *; [|congruence]. destruct (a_datas st2); cbn; congruence.
    - unfold sc_inverse_transform. repeat match goal with |- context [match ?e with _ => _ end] => destruct e end; cbn; auto.
    - reflexivity.
  Qed.
  Lemma run_datas : forall os st, Forall not_transform os -> a_datas (sc_run env st os) = a_datas st.
  Proof. induction os as [|o os IH]; intros st Ho; [reflexivity|]. inversion Ho; subst. unfold sc_run. cbn [fold_left]. fold (sc_run env (sc_step env st o) os). rewrite IH, step_datas by auto. reflexivity. Qed.
  Lemma run_datans : forall os st, Forall not_predict os -> a_datans (sc_run env st os) = a_datans st.
  Proof. induction os as [|o os IH]; intros st Ho; [reflexivity|]. inversion Ho; subst. unfold sc_run. cbn [fold_left]. fold (sc_run env (sc_step env st o) os). rewrite IH, step_datans by auto. reflexivity. Qed.
  Lemma transform_stored : forall st x st' Xs, sc_transform st x = (st', Ok Xs) -> a_datas st' = Some Xs.
  Proof. intros st x st' Xs E. unfold sc_transform in E. destruct (a_center st), (a_scale st); try discriminate. destruct (scale_data _ _ _); [|discriminate]. injection E as <- <-. reflexivity. Qed.
  Lemma fit_transform_stored : forall st x st' Xs, sc_fit_transform env st x = (st', Ok Xs) -> a_datas st' = Some Xs.
  Proof.
    intros st x st' Xs E. unfold sc_fit_transform in E. destruct (sc_fit env st x) as [st1 [u|e]]; [|discriminate]. destruct (sc_transform st1 x) as [st2 [v|e]]; [|discriminate].
    destruct (a_datas st2) eqn:Ed; [|discriminate]. injection E as <- <-. exact Ed.
  Qed.
  Lemma stored_l : forall st x st' Xs os, sc_transform st x = (st', Ok Xs) \/ sc_fit_transform env st x = (st', Ok Xs) -> Forall not_transform os ->
    a_datas (sc_run env st' os) = Some Xs /\ ((2 <= length Xs)%nat -> sc_inverse_transform (sc_run env st' os) None = sc_inverse_transform (sc_run env st' os) (Some (A2 Xs))).
  Proof.
    intros st x st' Xs os E Ho. assert (Ed : a_datas (sc_run env st' os) = Some Xs) by (rewrite run_datas by auto; destruct E; eauto using transform_stored, fit_transform_stored).
    split; [exact Ed|]. intros HX. unfold sc_inverse_transform. rewrite Ed. destruct (a_center _); [|reflexivity]. destruct (a_scale _); [|reflexivity].
    replace (check_input (A2 Xs)) with Xs; [reflexivity|]. destruct Xs as [|r0 [|r1 rs]]; cbn in HX; try lia. reflexivity.
  Qed.
  Lemma predicted_l : forall st x st' Xs os, sc_predict st x = (st', Ok Xs) -> Forall not_predict os -> a_datans (sc_run env st' os) = Some Xs.
  Proof.
    intros st x st' Xs os E Ho. rewrite run_datans by auto. unfold sc_predict in E. destruct (a_col_loc st), (a_col_sca st); try discriminate. destruct (scale_data _ _ _); [|discriminate]. injection E as <- <-. reflexivity.
  Qed.
End Stored.

Section Sign.
  Context {A : Type} `{Num A}.
  (** the modes which need the comoment *)
  Lemma sign_errors : forall (dc : dcor_env A) s x kw, d_est s = "sign"%string \/ d_est s = "entropy"%string -> alen x <> 0%nat ->
    d_mode s = "corr"%string \/ d_mode s = "continuum"%string \/ ((d_mode s = "cok"%string \/ d_mode s = "cos"%string) /\ dflt (k_std kw) true = true) ->
    snd (dicomo_fit dc s x kw) = Err UnboundLocalError.
  Proof.
    intros dc s x kw He Hx Hm. unfold dicomo_fit. apply Nat.eqb_neq in Hx.
    destruct Hm as [Hm|[Hm|[[Hm|Hm] Hs]]]; rewrite Hm; cbn; rewrite ?Hm; cbn;
      destruct He as [He|He]; cbn; rewrite ?He; cbn; rewrite ?Hx; cbn; unfold fit_tail; cbn; rewrite ?Hm; cbn; rewrite ?Hs; reflexivity.
  Qed.
End Sign.

(** truncated plots of coefficients *)
Lemma seq_app_sorted : forall l r d, (l <= r)%nat -> StronglySorted lt (seq 0 l ++ seq r d).
Proof.
  intros l r d Hl. induction l as [|l IH]; [apply seq_sorted|]. 
  assert (G : forall a b, (forall x, In x b -> forall y, In y a -> (y < x)%nat) -> StronglySorted lt a -> StronglySorted lt b -> StronglySorted lt (a ++ b)).
  { clear. induction a as [|h t IH]; intros b Hb Ha Hs; cbn; [exact Hs|]. inversion Ha; subst. constructor; [apply IH; auto; intros x Hx y Hy; apply Hb; auto; right; auto|].
    apply Forall_app. split; [auto|]. apply Forall_forall. intros x Hx. apply Hb; [auto|left; auto]. }
  apply G; [|apply seq_sorted|apply seq_sorted]. intros x Hx y Hy. apply in_seq in Hx, Hy. lia.
Qed.
Lemma map_nth_seq : forall (s : list R) a k, (a + k <= length s)%nat -> map (fun i => nth i s 0) (seq a k) = firstn k (skipn a s).
Proof.
  intros s a k. revert a. induction k as [|k IH]; intros a Ha; [reflexivity|]. cbn [seq map]. rewrite IH by lia.
  assert (E : skipn a s = nth a s 0 :: skipn (S a) s).
  { clear IH. revert a Ha. induction s as [|x s IH]; intros a Ha; cbn [length] in Ha; [lia|]. destruct a as [|a]; [reflexivity|]. cbn [skipn nth]. apply IH. lia. }
  rewrite E. reflexivity.
Qed.
Lemma bars_l : forall left (b : list R), (2 * left <= length b)%nat -> exists s, Permutation b s /\ StronglySorted Rle s /\
  fst (coeff_bars left b) = (firstn left s ++ skipn (length b - left) s)%list /\ StronglySorted lt (snd (coeff_bars left b)).
Proof.
  intros left b Hl. exists (sort b). split; [apply sort_perm|]. split; [apply sort_sorted|].
  assert (Ls : length (sort b) = length b) by (symmetry; apply Permutation_length, sort_perm).
  split; [|apply union1d_sorted]. unfold coeff_bars. cbv zeta. cbn [fst].
  assert (EU : union1d (seq 0 left) (seq (length b - left) (length b - (length b - left))) = (seq 0 left ++ seq (length b - left) left)%list).
  { apply sorted_lt_ext; [apply union1d_sorted|apply seq_app_sorted; lia|]. intros x. rewrite union1d_in, in_app_iff. replace (length b - (length b - left))%nat with left by lia. reflexivity. }
  rewrite EU, map_app. change (fun i => nth i (sort b) n0) with (fun i => nth i (sort b) 0). rewrite !map_nth_seq by lia. f_equal.
  rewrite firstn_all2; [reflexivity|]. rewrite skipn_length. lia.
Qed.

Section Labels.
  Context {A : Type} `{Num A}.
  Lemma list_label : forall t (v : view A) ytruev Xn l names namesv, full_theme t -> l <> [] -> v_y0 v <> None -> v_fitted v <> None ->
    view_plot_yyp ppdire_legend t v ytruev Xn (LList l) names namesv false = Err TypeError.
  Proof.
    intros t v ytruev Xn l names namesv Ht Hl Hy Hf. unfold view_plot_yyp.
    assert (EL : label_default (LList l) = LList l) by (unfold label_default; destruct l; [congruence|reflexivity]). rewrite EL. cbv zeta.
    assert (EC : forall k, (k < 8)%nat -> exists c, color t k = Ok c).
    { intros k Hk. eexists. apply color_ok; auto. }
    destruct (EC 0%nat ltac:(lia)) as [c0 ->]. destruct (EC 1%nat ltac:(lia)) as [c1 ->]. cbn [bind].
    destruct (v_y0 v); [|congruence]. destruct (v_fitted v); [|congruence]. reflexivity.
  Qed.
  Lemma mismatch : forall t (m : sp_model A) entity, full_theme t -> length entity <> length (sp_keep m) -> length entity <> 1%nat -> length (sp_keep m) <> 1%nat ->
    sprm_plot_coeffs t m entity None NoCols = Err ValueError.
  Proof.
    intros t m entity Ht H1 H2 H3. unfold sprm_plot_coeffs.
    assert (EC : forall k, (k < 8)%nat -> exists c, color t k = Ok c).
    { intros k Hk. eexists. apply color_ok; auto. }
    destruct (EC 0%nat ltac:(lia)) as [c0 ->]. destruct (EC 1%nat ltac:(lia)) as [c1 ->]. destruct (EC 2%nat ltac:(lia)) as [c2 ->]. destruct (EC 4%nat ltac:(lia)) as [c4 ->]. cbn [bind].
    rewrite map_length, seq_length. apply Nat.eqb_neq in H1. rewrite H1.
    destruct entity as [|e1 [|e2 es]]; [|cbn in H2; lia|]; destruct (sp_keep m) as [|k1 [|k2 ks]]; try (cbn in H3; lia); cbn; try reflexivity.
  Qed.
End Labels.
