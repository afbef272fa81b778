(** Several ppdire instances (C71). *)

From Coq Require Import String List Arith ZArith Bool Lia.
Import List. Import ListNotations.
From Verif Require Import Num Err Vec M_Utils M_Preproc M_Robcent M_Dicomo M_Ipopt S_Ipopt L_Ipopt M_Ppdire M_PpWorld.

Lemma put_length : forall {B} i (v : B) l, length (put i v l) = length l.
Proof.
  intros B i v l. unfold put. rewrite app_length, firstn_length. pose proof (skipn_length i l) as Hs. destruct (skipn i l); cbn in *; lia.
Qed.
Lemma nth_error_put : forall {B} i (v : B) l j, nth_error (put i v l) j = if (j =? i)%nat then (match nth_error l j with Some _ => Some v | None => None end) else nth_error l j.
Proof.
  intros B i v l. revert i. induction l as [|a l IH]; intros i j.
  - unfold put. rewrite firstn_nil, skipn_nil. cbn [app nth_error]. destruct j; destruct (Nat.eqb _ i); reflexivity.
  - destruct i as [|i]; [unfold put; cbn; destruct j; cbn; reflexivity|]. unfold put in *. cbn [firstn skipn app].
    destruct j as [|j]; [reflexivity|]. cbn [nth_error Nat.eqb]. apply IH.
Qed.
Lemma nth_put : forall {B} i (v : B) l j d, nth j (put i v l) d = if (j =? i)%nat && (j <? length l)%nat then v else nth j l d.
Proof.
  intros B i v l j d. pose proof (nth_error_put i v l j) as H. destruct (Nat.ltb_spec j (length l)) as [L|L].
  - rewrite (nth_error_nth' l d L) in H. rewrite (nth_error_nth' (put i v l) d) in H by (rewrite put_length; auto). rewrite andb_true_r. destruct (j =? i)%nat; inversion H; congruence.
  - rewrite andb_false_r, !nth_overflow; rewrite ?put_length; auto.
Qed.

Section Dict.
  Context {A : Type} `{Num A}.
  Variable env : pp_env A.

  (** ** what fit does to the options dictionary *)
  Fixpoint solver_times (k : nat) (d : dict) : dict := match k with O => d | S k' => solver_times k' (solver_options VNone d) end.

  Lemma direction_dict : forall prm most kw d p E d' r, direction env prm most kw d p E = (d', r) ->
    match pp_optim prm with OIpopt => d' = d \/ d' = solver_options VNone d | _ => d' = d end /\
    (forall wo, r = Ok wo -> match pp_optim prm with
       | OIpopt => d' = solver_options VNone d | OScipy _ => str_keys d = true | _ => True end).
  Proof.
    intros prm most kw d p E d' r Ed. unfold direction in Ed. destruct (pp_optim prm) as [| | |m].
    - apply pair_equal_spec in Ed as [<- _]. auto.
    - destruct E; apply pair_equal_spec in Ed as [<- <-]; split; auto; intros; discriminate.
    - destruct E; apply pair_equal_spec in Ed as [<- <-]; split; auto; intros; discriminate.
    - destruct E; apply pair_equal_spec in Ed as [<- <-]; split; auto; [intros; discriminate|]. intros wo Hr. destruct (str_keys d); [reflexivity|discriminate].
  Qed.

  Lemma loop_dict : forall k prm most kw yi K n p sX d E cs yc Rt d' r, pp_loop env k prm most kw yi K n p sX d E cs yc Rt = (d', r) ->
    match pp_optim prm with
    | OIpopt => exists j, (j <= k)%nat /\ d' = solver_times j d /\ (is_ok r = true -> j = k)
    | OScipy _ => d' = d /\ (is_ok r = true -> (0 < k)%nat -> str_keys d = true)
    | _ => d' = d
    end.
  Proof.
    induction k as [|k IH]; intros prm most kw yi K n p sX d E cs yc Rt d' r El; cbn [pp_loop] in El.
    - apply pair_equal_spec in El as [<- <-]. destruct (pp_optim prm); auto. exists 0%nat. auto. split; auto. intros; lia.
    - destruct (direction env prm most kw d p E) as [d1 rw] eqn:Ed. destruct (direction_dict _ _ _ _ _ _ _ _ Ed) as [H1 H2].
      destruct rw as [wo|e]; cbn [bind] in El.
      + specialize (H2 wo eq_refl). match type of El with match ?g with Ok _ => _ | Err _ => _ end = _ => destruct g as [[[[c cs'] yc'] R']|e] end.
        * specialize (IH _ _ _ _ _ _ _ _ _ _ _ _ _ _ _ El). destruct (pp_optim prm); try congruence.
          -- destruct IH as (j & Hj & Hd & Hr). exists (S j). split; [lia|]. split; [cbn; rewrite <- H2; exact Hd|intros Ho; rewrite Hr; auto].
          -- destruct IH as [IH1 IH2]. split; [congruence|]. intros. exact H2.
        * apply pair_equal_spec in El as [<- <-]. destruct (pp_optim prm); auto.
          exists 1%nat. split; [lia|]. split; [exact H2|discriminate].
      + apply pair_equal_spec in El as [<- <-]. destruct (pp_optim prm); auto.
        * destruct H1 as [->| ->]; [exists 0%nat|exists 1%nat]; (split; [lia|split; [reflexivity|discriminate]]).
        * split; [exact H1|discriminate].
  Qed.

  Lemma fit_dict : forall prm d X f prm' d' r, pp_fit env prm d X f = (prm', d', r) -> (pp_optim prm' = pp_optim prm /\ pp_ncomp prm' = match f_h f with Some h => h | None => pp_ncomp prm end) /\
    match pp_optim prm with
    | OGrid => (d' = d /\ is_ok r = false) \/ (d' = grid_options d /\ (is_ok r = true -> exists z, opt_int "maxiter" (grid_options d) = Ok z))
    | OIpopt => exists j, d' = solver_times j d /\ (is_ok r = true -> j = pp_ncomp prm')
    | OScipy _ => d' = d /\ (is_ok r = true -> (0 < pp_ncomp prm')%nat -> str_keys d = true)
    | ODiffEvol => d' = d
    end.
  Proof.
    intros prm d X f prm' d' r E.
    assert (Hw : forall h, pp_optim (with_h prm h) = pp_optim prm) by (intros [h|]; reflexivity).
    assert (Hww : forall q : pparams A, pp_optim (with_whitening q) = pp_optim q) by (intros q; unfold with_whitening; destruct (pp_whiten q); reflexivity).
    assert (Hwn : forall q : pparams A, pp_ncomp (with_whitening q) = pp_ncomp q) by (intros q; unfold with_whitening; destruct (pp_whiten q); reflexivity).
    assert (Herr : forall q e, pp_optim q = pp_optim prm /\ pp_ncomp q = match f_h f with Some h => h | None => pp_ncomp prm end -> (q, d, Err e) = (prm', d', r) -> (pp_optim prm' = pp_optim prm /\ pp_ncomp prm' = match f_h f with Some h => h | None => pp_ncomp prm end) /\
      match pp_optim prm with
      | OGrid => (d' = d /\ is_ok r = false) \/ (d' = grid_options d /\ (is_ok r = true -> exists z, opt_int "maxiter" (grid_options d) = Ok z))
      | OIpopt => exists j, d' = solver_times j d /\ (is_ok r = true -> j = pp_ncomp prm')
      | OScipy _ => d' = d /\ (is_ok r = true -> (0 < pp_ncomp prm')%nat -> str_keys d = true)
      | ODiffEvol => d' = d
      end).
    { intros q e Hq Eq. apply pair_equal_spec in Eq as [Eq <-]. apply pair_equal_spec in Eq as [<- <-]. split; [exact Hq|].
      destruct (pp_optim prm); auto; [exists 0%nat; split; [reflexivity|discriminate]|split; [reflexivity|discriminate]]. }
    assert (Hw2 : pp_optim (with_h prm (f_h f)) = pp_optim prm /\ pp_ncomp (with_h prm (f_h f)) = match f_h f with Some h => h | None => pp_ncomp prm end) by (destruct (f_h f); split; reflexivity).
    unfold pp_fit in E. cbn zeta in E.
    destruct (ix_dicomo _ && _); [eapply Herr; [|exact E]; auto|]. destruct (ix_new _) as [most|]; [|eapply Herr; [|exact E]; auto].
    destruct (_ <? _)%nat; [eapply Herr; [|exact E]; auto|].
    assert (Hp2 : pp_optim (with_whitening (with_h prm (f_h f))) = pp_optim prm) by (rewrite Hww; apply Hw).
    assert (Hp3 : pp_optim (with_whitening (with_h prm (f_h f))) = pp_optim prm /\ pp_ncomp (with_whitening (with_h prm (f_h f))) = match f_h f with Some h => h | None => pp_ncomp prm end) by (rewrite Hwn; split; [exact Hp2|apply Hw2]).
    rewrite <- (Hwn (with_h prm (f_h f))) in E. set (prm2 := with_whitening (with_h prm (f_h f))) in *.
    destruct (scale_name prm2) as [s|]; [|eapply Herr; [|exact E]; auto].
    match type of E with match ?g with Ok _ => _ | Err _ => _ end = _ => destruct g as [[[X1 p] dims]|] end; [|eapply Herr; [|exact E]; auto].
    match type of E with match ?g with Ok _ => _ | Err _ => _ end = _ => destruct g as [[[mX sX] Xs0]|] end; [|eapply Herr; [|exact E]; auto].
    match type of E with match ?g with Ok _ => _ | Err _ => _ end = _ => destruct g as [[Xs K]|] end; [|eapply Herr; [|exact E]; auto].
    match type of E with match ?g with Ok _ => _ | Err _ => _ end = _ => destruct g as [yi|] end; [|eapply Herr; [|exact E]; auto].
    rewrite Hp2 in E.
    match type of E with match ?g with Ok _ => _ | Err _ => _ end = _ => destruct g as [u|e] eqn:Eg end.
    - destruct (pp_loop _ _ _ _ _ _ _ _ _ _ _ _ _ _ _) as [d2 r2] eqn:El. apply pair_equal_spec in E as [E Er]. apply pair_equal_spec in E as [<- <-].
      assert (Hok : is_ok r = true -> is_ok r2 = true) by (rewrite <- Er; destruct r2; [reflexivity|cbn; auto]).
      split; [exact Hp3|]. apply loop_dict in El. rewrite Hp2 in El. destruct (pp_optim prm).
      + right. split; [exact El|]. intros _. destruct (opt_int "ndir" (grid_options d)); cbn [bind] in Eg; [|discriminate]. destruct (_ <? 0)%Z; [discriminate|].
        destruct (opt_int "maxiter" (grid_options d)) as [z|]; [eauto|discriminate].
      + destruct El as (j & _ & Hd & Hj). exists j. split; auto.
      + exact El.
      + destruct El as [H1 H2]. split; auto.
    - apply pair_equal_spec in E as [E <-]. apply pair_equal_spec in E as [<- <-]. split; [exact Hp3|]. destruct (pp_optim prm); try discriminate. right. split; [reflexivity|discriminate].
  Qed.

  (** ** invariants of dictionaries *)
  Lemma solver_times_distinct : forall k d, keys_distinct d -> keys_distinct (solver_times k d).
  Proof. induction k as [|k IH]; intros d Hd; [exact Hd|]. cbn. apply IH, solver_distinct, Hd. Qed.
  Lemma grid_distinct : forall d, keys_distinct d -> keys_distinct (grid_options d).
  Proof. intros d Hd. apply set_default_distinct, Hd. Qed.

  (** after an interior-point fit: no str key 'maxiter', some bytes key *)
  Definition poisoned (d : dict) : Prop := keys_distinct d /\ dget (KStr "maxiter") d = None /\ exists s, dget (KBytes s) d <> None.
  Lemma solver_poisoned : forall d, keys_distinct d -> poisoned (solver_options VNone d).
  Proof.
    intros d Hd. split; [apply solver_distinct, Hd|]. split; [apply solver_str, Hd|]. exists "hessian_approximation"%string. unfold solver_options.
    rewrite dget_set_default, key_eqb_refl. destruct (dget _ _); discriminate.
  Qed.
  Lemma grid_poisoned : forall d, poisoned d -> poisoned (grid_options d).
  Proof.
    intros d (H1 & H2 & s & H3). split; [apply grid_distinct, H1|]. unfold grid_options. split; [rewrite dget_set_default; exact H2|].
    exists s. rewrite dget_set_default. exact H3.
  Qed.
  Lemma solver_times_poisoned : forall k d, poisoned d -> poisoned (solver_times k d).
  Proof. induction k as [|k IH]; intros d Hd; [exact Hd|]. cbn. apply IH, solver_poisoned, Hd. Qed.
  Lemma solver_times_poisons : forall k d, (0 < k)%nat -> keys_distinct d -> poisoned (solver_times k d).
  Proof. intros [|k] d Hk Hd; [lia|]. cbn. apply solver_times_poisoned, solver_poisoned, Hd. Qed.
  Lemma bytes_not_str : forall d s, dget (KBytes s) d <> None -> str_keys d = false.
  Proof.
    induction d as [|[k v] d IH]; intros s Hs; [exfalso; apply Hs; reflexivity|]. cbn in *. destruct k; cbn in *; try reflexivity; eapply IH; eauto.
  Qed.

  Lemma fit_distinct : forall prm d X f prm' d' r, pp_fit env prm d X f = (prm', d', r) -> keys_distinct d -> keys_distinct d'.
  Proof.
    intros prm d X f prm' d' r E Hd. apply fit_dict in E as [_ E]. destruct (pp_optim prm).
    - destruct E as [[-> _]|[-> _]]; auto. apply grid_distinct; auto.
    - destruct E as (j & -> & _). apply solver_times_distinct; auto.
    - subst; auto.
    - destruct E as [-> _]; auto.
  Qed.
  Lemma fit_poisoned : forall prm d X f prm' d' r, pp_fit env prm d X f = (prm', d', r) -> poisoned d -> poisoned d'.
  Proof.
    intros prm d X f prm' d' r E Hd. apply fit_dict in E as [_ E]. destruct (pp_optim prm).
    - destruct E as [[-> _]|[-> _]]; auto. apply grid_poisoned; auto.
    - destruct E as (j & -> & _). apply solver_times_poisoned; auto.
    - subst; auto.
    - destruct E as [-> _]; auto.
  Qed.
  Lemma poisoned_fails : forall prm d X f prm' d' r, pp_fit env prm d X f = (prm', d', r) -> poisoned d ->
    (pp_optim prm = OGrid -> is_ok r = false) /\ (forall m, pp_optim prm = OScipy m -> (0 < pp_ncomp prm')%nat -> is_ok r = false).
  Proof.
    intros prm d X f prm' d' r E Hd. apply fit_dict in E as [_ E]. split.
    - intros Ho. rewrite Ho in E. destruct E as [[_ E]|[_ E]]; [exact E|]. destruct (is_ok r); [|reflexivity]. destruct (E eq_refl) as (z & Hz).
      destruct (grid_poisoned d Hd) as (_ & Hg & _). unfold opt_int in Hz. rewrite Hg in Hz. discriminate.
    - intros m Ho Hh. rewrite Ho in E. destruct E as [_ E]. destruct (is_ok r); [|reflexivity]. specialize (E eq_refl Hh).
      destruct Hd as (_ & _ & s & Hs). rewrite (bytes_not_str d s Hs) in E. discriminate.
  Qed.

  (** ** worlds *)
  (** addresses: the default, or an address no other instance holds *)
  Definition tidy (w : world A) : Prop :=
    (0 < length (w_heap w))%nat /\ keys_distinct (nth 0 (w_heap w) []) /\
    (forall i prm a, nth_error (w_inst w) i = Some (prm, a) -> (a < length (w_heap w))%nat) /\
    (forall i j prm prm' a, nth_error (w_inst w) i = Some (prm, a) -> nth_error (w_inst w) j = Some (prm', a) -> a <> 0%nat -> i = j).
  Lemma tidy0 : tidy world0.
  Proof.
    unfold tidy, world0. cbn [w_heap w_inst length nth]. split; [lia|]. split; [repeat constructor; intros []|].
    split; intros; destruct i; discriminate.
  Qed.
  Lemma nth_error_app1' : forall {B} (l : list B) x i v, nth_error (l ++ [x]) i = Some v -> nth_error l i = Some v \/ (i = length l /\ v = x).
  Proof.
    intros B l x i v E. destruct (Nat.lt_ge_cases i (length l)) as [L|L]; [rewrite nth_error_app1 in E by auto; auto|].
    rewrite nth_error_app2 in E by auto. destruct (i - length l)%nat as [|k] eqn:Ek; [|destruct k; discriminate]. inversion E. right. split; [lia|auto].
  Qed.

  Lemma step_tidy : forall w o, tidy w -> tidy (fst (wstep env w o)).
  Proof.
    intros w o (T0 & T1 & T2 & T3). destruct o as [prm [d|]|i X f]; cbn [wstep].
    - destruct (pp_init prm); [|repeat split; auto]. unfold tidy. cbn [fst w_heap w_inst]. rewrite app_length. split; [lia|].
      split; [rewrite app_nth1 by auto; exact T1|]. split.
      + intros i q b E. apply nth_error_app1' in E as [E|[_ E]]; [specialize (T2 _ _ _ E); lia|]. inversion E; cbn; lia.
      + intros i j q q' b E1 E2 Hb. apply nth_error_app1' in E1 as [E1|[-> E1]]; apply nth_error_app1' in E2 as [E2|[-> E2]]; auto.
        * eapply T3; eauto.
        * inversion E2; subst. apply T2 in E1. lia.
        * inversion E1; subst. apply T2 in E2. lia.
    - destruct (pp_init prm); [|repeat split; auto]. unfold tidy. cbn [fst w_heap w_inst]. split; [auto|]. split; [exact T1|]. split.
      + intros i q b E. apply nth_error_app1' in E as [E|[_ E]]; [eauto|]. inversion E; lia.
      + intros i j q q' b E1 E2 Hb. apply nth_error_app1' in E1 as [E1|[-> E1]]; apply nth_error_app1' in E2 as [E2|[-> E2]]; auto.
        * eapply T3; eauto.
        * inversion E2; congruence.
        * inversion E1; congruence.
    - destruct (nth_error (w_inst w) i) as [[prm a]|] eqn:Ei; [|repeat split; auto].
      destruct (pp_fit env prm (nth a (w_heap w) []) X f) as [[prm' d'] r] eqn:Ef. unfold tidy. cbn [fst w_heap w_inst]. rewrite !put_length. split; [auto|].
      split; [rewrite nth_put; destruct (Nat.eqb_spec 0 a) as [<-|]; cbn [andb]; [|exact T1]; destruct (0 <? _)%nat; [|exact T1]; eapply fit_distinct; eauto|].
      assert (Ha : forall j q b, nth_error (put i (prm', a) (w_inst w)) j = Some (q, b) -> exists q', nth_error (w_inst w) j = Some (q', b)).
      { intros j q b E. rewrite nth_error_put in E. destruct (Nat.eqb_spec j i) as [->|]; [rewrite Ei in E; inversion E; subst; eauto|eauto]. }
      split.
      + intros j q b E. apply Ha in E as (q' & E). eauto.
      + intros j k q q' b E1 E2 Hb. apply Ha in E1 as (q1 & E1). apply Ha in E2 as (q2 & E2). eauto.
  Qed.
  Lemma run_tidy : forall ops w, tidy w -> tidy (wrun env w ops).
  Proof. induction ops as [|o ops IH]; intros w Hw; [exact Hw|]. cbn. apply IH, step_tidy, Hw. Qed.

  (** own dictionary: nothing but its own fits changes the parameters *)
  Definition own (w : world A) (j : nat) : Prop := exists prm a, nth_error (w_inst w) j = Some (prm, a) /\ a <> 0%nat.
  Lemma step_isolated : forall w o j, tidy w -> own w j -> (forall X f, o <> WFit j X f) -> params_of (fst (wstep env w o)) j = params_of w j /\ own (fst (wstep env w o)) j.
  Proof.
    intros w o j Hw (prm & a & Ej & Ha) Ho. destruct Hw as (T0 & T1 & T2 & T3). destruct o as [q [d|]|i X f]; cbn [wstep].
    - destruct (pp_init q); [|split; [reflexivity|exists prm, a; auto]]. unfold params_of, own. cbn [fst w_inst w_heap].
      rewrite nth_error_app1 by (apply nth_error_Some; congruence). rewrite Ej. split; [|exists prm, a; auto]. rewrite app_nth1 by eauto. reflexivity.
    - destruct (pp_init q); [|split; [reflexivity|exists prm, a; auto]]. unfold params_of, own. cbn [fst w_inst w_heap].
      rewrite nth_error_app1 by (apply nth_error_Some; congruence). rewrite Ej. split; [|exists prm, a; auto]. reflexivity.
    - destruct (nth_error (w_inst w) i) as [[q b]|] eqn:Ei; [|split; [reflexivity|exists prm, a; auto]].
      destruct (pp_fit env q (nth b (w_heap w) []) X f) as [[q' d'] r]. unfold params_of, own. cbn [fst w_inst w_heap].
      assert (i <> j) by (intros ->; apply (Ho X f); reflexivity).
      rewrite nth_error_put. destruct (Nat.eqb_spec j i); [congruence|]. rewrite Ej. split; [|exists prm, a; auto].
      rewrite nth_put. destruct (Nat.eqb_spec a b) as [->|]; [|reflexivity]. exfalso. apply H0. eapply T3; eauto.
  Qed.
  Lemma C71_isolated_l : forall ops w j, tidy w -> own w j -> (forall X f, ~ In (WFit j X f) ops) -> params_of (wrun env w ops) j = params_of w j.
  Proof.
    induction ops as [|o ops IH]; intros w j Hw Hj Ho; [reflexivity|]. cbn. destruct (step_isolated w o j Hw Hj) as [E1 E2].
    { intros X f ->. apply (Ho X f). left; reflexivity. }
    rewrite IH; auto; [apply step_tidy; auto|]. intros X f Hin. apply (Ho X f). right; auto.
  Qed.

  (** the default dictionary *)
  Lemma run_poisoned : forall ops w, tidy w -> poisoned (nth 0 (w_heap w) []) -> poisoned (nth 0 (w_heap (wrun env w ops)) []).
  Proof.
    induction ops as [|o ops IH]; intros w Hw Hp; [exact Hp|]. cbn. apply IH; [apply step_tidy, Hw|].
    destruct Hw as (T0 & T1 & T2 & T3). destruct o as [q [d|]|i X f]; cbn [wstep].
    - destruct (pp_init q); cbn [fst w_heap]; [rewrite app_nth1 by auto|]; exact Hp.
    - destruct (pp_init q); exact Hp.
    - destruct (nth_error (w_inst w) i) as [[q b]|] eqn:Ei; [|exact Hp].
      destruct (pp_fit env q (nth b (w_heap w) []) X f) as [[q' d'] r] eqn:Ef. cbn [fst w_heap]. rewrite nth_put.
      destruct (Nat.eqb_spec 0 b) as [<-|]; cbn [andb]; [|exact Hp]. destruct (0 <? _)%nat; [|exact Hp]. eapply fit_poisoned; eauto.
  Qed.
  Lemma C71_poison_l : forall ops w i X f q, tidy w -> by_default w i ->
    (exists prm, nth_error (w_inst w) i = Some (prm, 0%nat) /\ pp_optim prm = OIpopt) -> snd (wstep env w (WFit i X f)) = Some (Ok q) ->
    (forall prm d, params_of (fst (wstep env w (WFit i X f))) i = Some (prm, d) -> (0 < pp_ncomp prm)%nat) ->
    forall j X' f' prm a, let w' := wrun env (fst (wstep env w (WFit i X f))) ops in nth_error (w_inst w') j = Some (prm, a) -> a = 0%nat ->
      (pp_optim prm = OGrid -> forall m, snd (wstep env w' (WFit j X' f')) <> Some (Ok m)) /\
      (forall s m, pp_optim prm = OScipy s -> (0 < match f_h f' with Some h => h | None => pp_ncomp prm end)%nat -> snd (wstep env w' (WFit j X' f')) <> Some (Ok m)).
  Proof.
    intros ops w i X f q Hw Hd (prm & Ei & Ho) Er Hh j X' f' prm' a w' Ej ->.
    assert (Hp : poisoned (nth 0 (w_heap w') [])).
    { unfold w'. apply run_poisoned; [apply step_tidy, Hw|]. cbn [wstep] in *. unfold params_of in Hh. rewrite Ei in *.
      destruct (pp_fit env prm (nth 0 (w_heap w) []) X f) as [[prm1 d1] r1] eqn:Ef. cbn [fst snd w_heap w_inst] in *. inversion Er; subst r1.
      destruct Hw as (T0 & T1 & _). rewrite nth_put. cbn [Nat.eqb andb]. destruct (Nat.ltb_spec 0 (length (w_heap w))); [|lia].
      apply fit_dict in Ef as [_ Ef]. rewrite Ho in Ef. destruct Ef as (k & -> & Hk). apply solver_times_poisons; [|exact T1].
      rewrite (Hk eq_refl). rewrite nth_error_put, Nat.eqb_refl, Ei in Hh. apply (Hh _ _ eq_refl). }
    cbn [wstep]. rewrite Ej. destruct (pp_fit env prm' (nth 0 (w_heap w') []) X' f') as [[prm2 d2] r2] eqn:Ef. cbn [snd].
    pose proof (poisoned_fails _ _ _ _ _ _ _ Ef Hp) as [F1 F2]. split.
    - intros Hg m Em. inversion Em; subst. specialize (F1 Hg). discriminate.
    - intros s m Hs Hh' Em. inversion Em; subst. specialize (F2 s Hs). assert (Hn : pp_ncomp prm2 = match f_h f' with Some h => h | None => pp_ncomp prm' end).
      { apply fit_dict in Ef as [[_ Ef] _]. exact Ef. }
      rewrite Hn in F2. specialize (F2 Hh'). discriminate.
  Qed.

  (** a grid fit leaves 'ndir' in the options of every default instance *)
  Lemma C71_grid_l : forall w i j X f q prm prm2, tidy w -> nth_error (w_inst w) i = Some (prm, 0%nat) -> pp_optim prm = OGrid -> i <> j -> nth_error (w_inst w) j = Some (prm2, 0%nat) ->
    snd (wstep env w (WFit i X f)) = Some (Ok q) ->
    params_of (fst (wstep env w (WFit i X f))) j = Some (prm2, grid_options (nth 0 (w_heap w) [])).
  Proof.
    intros w i j X f q prm prm2 Hw Ei Ho Hij Ej Er. cbn [wstep] in *. rewrite Ei in *.
    destruct (pp_fit env prm (nth 0 (w_heap w) []) X f) as [[prm1 d1] r1] eqn:Ef. cbn [fst snd] in *. inversion Er; subst r1.
    unfold params_of. cbn [w_inst w_heap]. rewrite nth_error_put. destruct (Nat.eqb_spec j i); [congruence|]. rewrite Ej, nth_put. cbn [Nat.eqb andb].
    destruct Hw as (T0 & _). destruct (Nat.ltb_spec 0 (length (w_heap w))); [|lia].
    apply fit_dict in Ef as [_ Ef]. rewrite Ho in Ef. destruct Ef as [[_ Ef]|[-> _]]; [discriminate|reflexivity].
  Qed.
End Dict.
