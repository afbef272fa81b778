(** Lemmas for C204. *)
From Coq Require Import Reals List Arith ZArith Bool Lia Lra.
Import ListNotations.
From Verif Require Import Num Err Vec VecR OrdR L_Mat S_Stats S_Weights S_Regress L_Stats L_Lin M_Utils M_Preproc M_Robcent M_Msupport L_Msupport M_Rm M_Snipls L_Scaling L_Scaling2 L_Snipls L_Snipls2 L_Snipls3 L_Rm L_Rm2 M_Sprm S_Sprm L_Sprm L_Sprm2 L_Sprm3 L_Sprm4 S_Irls L_Irls S_IrlsSp L_IrlsSp S_Stop L_Stop S_StopSp.
Open Scope R_scope.

Lemma sp_body_facts : forall (env : sp_env R) P f cc n ys st m st' brk, sp_body env P f cc n ys st m = Ok (st', brk) ->
  q_rold st' = size2 (sn_coef m) /\ q_diff st' = Rabs (size2 (sn_coef m) - q_rold st) / q_rold st /\
  (if brk then (n <= 2 * length (q_w0 st'))%nat else (2 * length (q_w0 st') < n)%nat /\ q_loops st' = S (q_loops st)).
Proof.
  intros env P f cc n ys st m st' brk E. unfold sp_body in E. cbv zeta in E. destruct (snd (sc_fit_transform _ _ _)) as [dt|]; [|discriminate]. destruct cc as [[c b] q]. rewrite size2_eq in E.
  match type of E with (if (?a <=? ?b)%nat then _ else _) = _ => destruct (Nat.leb_spec a b) as [H|H] end; apply Ok_inj in E; injection E as <- <-; cbn [q_rold q_diff q_w0 q_loops]; repeat split; auto.
Qed.
Lemma sp_stop : forall (env : sp_env R) P f k cc Xs ys n, cuts_ok f (normal_cuts env P) -> cuts_ok f cc -> length Xs = n -> length ys = n -> (2 <= n)%nat ->
  forall fuel st w calls st', q_sw st = map nsqrt w -> length w = n -> sp_loop env fuel P f k cc Xs ys st = (calls, Some (Ok st')) ->
  (calls = [] /\ st' = st /\ (q_diff st <= s_tol P \/ (s_maxit P <= q_loops st)%nat)) \/
  calls <> [] /\ s_tol P < q_diff st /\ exists ws fits, length ws = length calls /\ length fits = length calls /\ nth 0 ws [] = w /\
    (forall j, (j < length calls)%nat -> nth j calls ([], []) = weighted_problem (nth j ws []) Xs ys) /\
    (forall j m, nth_error fits j = Some m -> snipls_fit (re_prep (se_rm env)) (se_inv env) (s_eta P) k CMean SNone (fst (nth j calls ([], []))) (snd (nth j calls ([], []))) = Ok m) /\
    (q_loops st + length calls <= s_maxit P)%nat /\
    (forall j m, (S j < length calls)%nat -> nth_error fits j = Some m -> s_tol P < ch (q_rold st) (map sn_coef fits) j /\
       exists wt wr, pass_weights env P f cc ys m (nth j ws []) wt wr /\ (2 * length (zeros (final_weights wt wr)) < length Xs)%nat) /\
    exists m, nth_error fits (length calls - 1) = Some m /\ q_fit st' = Some m /\ length (q_wte st') = n /\ length (q_wye st') = n /\
      q_w0 st' = low (vmul (q_wye st') (q_wte st')) /\ q_we st' = floor_w (vmul (q_wye st') (q_wte st')) /\
      (ch (q_rold st) (map sn_coef fits) (length calls - 1) <= s_tol P \/ (q_loops st + length calls)%nat = s_maxit P \/ (length Xs <= 2 * length (q_w0 st'))%nat).
Proof.
  intros env P f k cc Xs ys n Hc1 Hc2 HX Hy Hn. induction fuel as [|j IH]; intros st w calls st' Hw Lw E; [discriminate|]. rewrite sp_loop_S in E.
  destruct (nltb (s_tol P) (q_diff st) && (q_loops st <? s_maxit P)%nat) eqn:EC.
  2: { injection E as <- <-. left. split; [reflexivity|]. split; [reflexivity|]. apply andb_false_iff in EC as [EC|EC]; [left; rnum; apply Rltb_false in EC; lra|right; apply Nat.ltb_ge in EC; exact EC]. }
  right. apply andb_prop in EC as [EC1 EC2]. assert (EC3 : s_tol P < q_diff st) by (apply Rltb_true; exact EC1). clear EC1. rename EC3 into EC1. apply Nat.ltb_lt in EC2.
  assert (EP := problem_eq w Xs ys ltac:(lia) ltac:(lia)).
  destruct (pass env P f k cc Xs ys st) as [[st1 brk]|e] eqn:Ep; [|discriminate]. unfold pass in Ep. rewrite Hw in Ep, E.
  apply bind_Ok in Ep as (m & Em & Ep). apply bind_Ok in Ep as (cr & _ & Ep).
  pose proof (snipls_fit_rows _ _ _ _ _ _ _ _ _ Em) as [HT Hf]. rewrite row_scale_length, map_length, Lw, HX, Nat.min_id in HT, Hf.
  pose proof (sp_body_facts _ _ _ _ _ _ _ _ _ _ Ep) as (B1 & B2 & B3). apply body_inv in Ep as (T & dt & E1 & E2 & E3 & E4 & E5 & E6 & E7 & E8 & E9).
  rewrite Hw in E2. rewrite (unweighted_eq w (sn_T m)) in E2 by lia. subst T.
  assert (SB : scaled_by (re_prep (se_rm env)) (s_centre P) (score_scale P) (unweighted w (sn_T m)) dt).
  { destruct (sc_fit_transform (re_prep (se_rm env)) (new_scaler (s_centre P) (sp_tsc P) n0) (A2 (unweighted w (sn_T m)))) as [s0 r0] eqn:E0. cbn [snd] in E3. subst r0. exists s0. exact E0. }
  assert (Ldt : length dt = n).
  { destruct SB as [s0 E0]. rewrite (fit_transform_rows _ _ _ _ _ E0). unfold check_input.
    assert (LU : length (unweighted w (sn_T m)) = n) by (unfold unweighted; rewrite map_length, seq_length; exact HT).
    destruct (Nat.eqb_spec (length (unweighted w (sn_T m))) 1) as [H1|_]; [rewrite LU in H1; lia|exact LU]. }
  assert (Hdt : dt <> []) by (intros ->; cbn in Ldt; lia).
  rewrite (diff_eq ys (sn_fitted m)) in E4 by lia. destruct (std_resid_eq (diff_at ys (sn_fitted m))) as (s & Hs & Es).
  { unfold diff_at. destruct ys; [cbn in Hy; lia|discriminate]. }
  rewrite Es in E4. rewrite mweights_at in E4 by exact Hc1. rewrite map_map in E4.
  assert (HL := leverage_eq f (fst (fst cc)) (snd (fst cc)) (snd cc) dt Hc2 Hdt). rewrite <- E5 in HL.
  assert (L1 : length (q_wye st1) = n) by (rewrite E4, map_length; unfold diff_at; rewrite map_length, seq_length; exact Hy).
  assert (L2 : length (q_wte st1) = n) by (rewrite E5, mweights_length, start_dx_length; exact Ldt).
  assert (PW : pass_weights env P f cc ys m w (q_wte st1) (q_wye st1)).
  { exists dt, s. split; [exact SB|]. split; [replace cc with (fst (fst cc), snd (fst cc), snd cc) by (destruct cc as [[? ?] ?]; reflexivity); exact HL|]. split; [exact Hs|]. exact E4. }
  assert (HZ : length (zeros (final_weights (q_wte st1) (q_wye st1))) = length (q_w0 st1)) by (rewrite <- final_comm by lia; rewrite zeros_low by lia; rewrite E6; reflexivity).
  assert (HOne : forall cs, cs = [(row_scale (map nsqrt w) Xs, vmul ys (map nsqrt w))] -> (q_diff st1 <= s_tol P \/ (s_maxit P <= S (q_loops st))%nat \/ (length Xs <= 2 * length (q_w0 st1))%nat) ->
    exists ws fits, length ws = length cs /\ length fits = length cs /\ nth 0 ws [] = w /\
    (forall j, (j < length cs)%nat -> nth j cs ([], []) = weighted_problem (nth j ws []) Xs ys) /\
    (forall j m, nth_error fits j = Some m -> snipls_fit (re_prep (se_rm env)) (se_inv env) (s_eta P) k CMean SNone (fst (nth j cs ([], []))) (snd (nth j cs ([], []))) = Ok m) /\
    (q_loops st + length cs <= s_maxit P)%nat /\
    (forall j m, (S j < length cs)%nat -> nth_error fits j = Some m -> s_tol P < ch (q_rold st) (map sn_coef fits) j /\
       exists wt wr, pass_weights env P f cc ys m (nth j ws []) wt wr /\ (2 * length (zeros (final_weights wt wr)) < length Xs)%nat) /\
    exists m, nth_error fits (length cs - 1) = Some m /\ q_fit st1 = Some m /\ length (q_wte st1) = n /\ length (q_wye st1) = n /\
      q_w0 st1 = low (vmul (q_wye st1) (q_wte st1)) /\ q_we st1 = floor_w (vmul (q_wye st1) (q_wte st1)) /\
      (ch (q_rold st) (map sn_coef fits) (length cs - 1) <= s_tol P \/ (q_loops st + length cs)%nat = s_maxit P \/ (length Xs <= 2 * length (q_w0 st1))%nat)).
  { intros cs -> HF. exists [w], [m]. do 3 (split; [reflexivity|]). split; [intros [|i] Hi; [cbn; exact EP|cbn in Hi; lia]|].
    split; [intros [|[|i]] m0 Hm; try discriminate; injection Hm as <-; exact Em|]. split; [cbn; lia|]. split; [intros i m0 Hi; cbn in Hi; lia|]. exists m. do 6 (split; [reflexivity || assumption|]).
    destruct HF as [HF|[HF|HF]]; [left; rewrite B2 in HF; exact HF|right; left; cbn; lia|right; right; exact HF]. }
  destruct brk.
  - injection E as <- <-. split; [discriminate|]. split; [exact EC1|]. apply HOne; [reflexivity|]. right. right. exact B3.
  - destruct B3 as [B3 B4]. destruct (sp_loop env j P f k cc Xs ys st1) as [cs r1] eqn:ER. injection E as <- ->. destruct (E8 eq_refl) as [_ E10]. split; [discriminate|]. split; [exact EC1|].
    assert (HN : q_sw st1 = map nsqrt (case_weights (q_wte st1) (q_wye st1)) /\ length (case_weights (q_wte st1) (q_wye st1)) = n).
    { rewrite E10, E7, floor_weights, (case_weights_comm (q_wte st1)) by lia. split; [reflexivity|]. unfold case_weights; rewrite map_length, seq_length; exact L2. }
    destruct HN as (Hw1 & Lw1). destruct (IH st1 _ cs st' Hw1 Lw1 ER) as [(-> & -> & HF)|(C0 & D0 & ws & fits & L3 & L4 & F1 & C1 & S1 & M0 & N1 & m1 & M1 & Q1 & Q2 & Q3 & Q4 & Q5 & Q6)].
    + apply HOne; [reflexivity|]. rewrite B4 in HF. tauto.
    + rewrite B1 in N1, Q6. rewrite B4 in M0, Q6. assert (Hcs : (1 <= length cs)%nat) by (destruct cs; [congruence|cbn; lia]).
      exists (w :: ws), (m :: fits). cbn [length map]. replace (S (length cs) - 1)%nat with (S (length cs - 1)) by lia. rewrite ch_S. split; [lia|]. split; [lia|]. split; [reflexivity|].
      split; [intros [|i] Hi; [exact EP|cbn [nth]; apply C1; lia]|].
      split; [intros [|i] m0 Hm; [injection Hm as <-; exact Em|cbn [nth]; apply S1; exact Hm]|].
      split; [lia|]. split.
      * intros [|i] m0 Hi Hm; [injection Hm as <-|rewrite ch_S; cbn [nth]; apply N1; [lia|exact Hm]]. split; [unfold ch; cbn [nth qs]; rewrite B2 in D0; exact D0|]. exists (q_wte st1), (q_wye st1). split; [exact PW|]. rewrite HZ, HX. lia.
      * exists m1. split; [exact M1|]. do 5 (split; [assumption|]). destruct Q6 as [Q6|[Q6|Q6]]; [left; exact Q6|right; left; lia|right; right; exact Q6].
Qed.
Lemma stop_sp_l : forall (env : sp_env R) P df f h n p X y P' m calls X0 y0, is_matrix n p X -> (2 <= n)%nat -> (1 <= p)%nat -> svd_rows env ->
  s_fun P' = Some f -> s_ncomp P' = NInt (Z.of_nat h) -> cuts_ok f (normal_cuts env P') -> (forall d, (1 <= d)%nat -> cuts_ok f (chi2_cuts env P' d)) ->
  sprm_run env P df X y = (P', (calls, Ok m)) -> rm_scaled (se_rm env) (sp_rm P') X y X0 y0 -> length (sp_xsca m) = p ->
  stopping_sp env P' f h (select (nonzero_positions (sp_xsca m)) X0) y0 calls (sp_coef_scaled m) (sp_cw m).
Proof.
  intros env P df f h n p X y P' m calls X0 y0 HX Hn Hp Hsvd Hf Hh Hc1 Hc2 E [[s1 S1] [s2 S2]] Hls.
  apply run_inv in E as (f' & k & c1 & c2 & mX & sX & Xs & my & sy & ys & X' & Xs' & sX' & E). cbv zeta in E.
  destruct E as (Eck & Eco & Hly & H1 & Esc & Edr & EP' & Hk & Hsel & Ee).
  assert (HlX : length X = n) by apply (wf_length _ _ _ HX). assert (Hy : length y = n) by lia.
  assert (Hnc : ncols X = p) by (apply (wf_ncols n p); auto; lia). rewrite Hnc in *.
  apply check_fun in Eck as (Hf0 & z & Hz & Hkz & Hk1).
  assert (HP : s_fun P' = s_fun P /\ s_ncomp P' = s_ncomp P).
  { rewrite EP'. unfold tau_fix. destruct (s_scale (set_columns P c1)); try (split; reflexivity). destruct (existsb _ _); split; reflexivity. }
  destruct HP as [HP1 HP2]. assert (f' = f) by congruence. subst f'. assert (Ekh : k = h) by (rewrite Hh in HP2; rewrite Hz in HP2; injection HP2 as HP2; lia). clear Hkz Hz HP1 HP2 Hf0 z. subst k.
  (* the scaled data *)
  assert (HD : Xs = X0 /\ ys = y0).
  { unfold sp_scaled in Esc. set (P2 := tau_fix (set_columns P c1) X) in *.
    assert (F1 : s_centre P' = s_centre P2 /\ s_scale P' = s_scale P2) by (rewrite EP'; split; reflexivity). destruct F1 as [F1 F2]. cbn [sp_rm r_centre r_scale] in S1, S2. rewrite F1, F2 in S1, S2.
    change (@n0 R Num_R) with 0 in Esc. rewrite S1 in Esc.
    destruct (sc_fit_transform (re_prep (se_rm env)) s1 (A1 y)) as [st2 [Ys|]] eqn:Ey; [|discriminate].
    destruct (a_col_loc s1); [|discriminate]. destruct (a_col_sca s1); [|discriminate]. destruct (a_col_loc st2); [|discriminate]. destruct (a_col_sca st2); [|discriminate].
    apply Ok_inj in Esc. injection Esc as _ _ <- _ _ <-. split; [reflexivity|].
    apply ft_inv in S1 as F. destruct F as (_ & _ & _ & _ & _ & _ & _ & _ & _ & C1 & D1 & T1).
    destruct (ft_same (re_prep (se_rm env)) s1 (new_scaler (s_centre P2) (s_scale P2) 0) st2 (A1 y) (A2 (as_column y)) Ys) as [s3 E3]; auto.
    - rewrite check_A1 by lia. symmetry. apply (check_input_id n 1); auto. rewrite <- Hy. apply as_column_wf.
    - rewrite S2 in E3. injection E3 as _ <-. apply col_as_column. }
  destruct HD as [-> ->].
  assert (W0 : wf n p X0) by (eapply scaled_wf; eauto; exists s1; exact S1).
  assert (Hy0 : length y0 = n).
  { assert (W1 : wf n 1 (as_column y0)) by (eapply scaled_wf; [|exact Hn|exists s2; exact S2]; rewrite <- Hy; apply as_column_wf).
    destruct W1 as [W1 _]. unfold as_column in W1. rewrite map_length in W1. auto. }
  apply estimate_inv in Ee as (Us & rc & c & b & q & st & E1 & E2 & EL & EF).
  apply finish_inv in EF as (fit & Efit & _ & EF). cbv zeta in EF. destruct EF as (_ & _ & _ & _ & Ecs & _ & _ & _ & _ & _ & _ & Ecw & _ & Exs & _).
  rewrite Exs in *. rewrite Ecs.
  assert (EXs : Xs' = select (nonzero_positions sX) X0).
  { destruct Hsel as [(Hz & _ & -> & _)|(_ & -> & _)].
    - apply zero_scale_nil in Hz. rewrite Hz, Hls. symmetry. apply (seq_select n p), W0.
    - rewrite select_sel, (keep_eq p sX Hls). reflexivity. }
  rewrite <- EXs. assert (LXs : length Xs' = n) by (rewrite EXs; unfold select; rewrite map_length; apply (wf_length _ _ _ W0)).
  assert (HS : exists r, start_data env P' Xs' r Us /\ length Us = n /\ (1 <= r)%nat /\ (c, b, q) = start_cuts env P' r).
  { unfold sp_start in E1. unfold start_data, start_cuts. unfold sp_start_cuts in E2. destruct (s_pcapp P').
    - apply bind_Ok in E1 as ([U sv] & EU & E1). apply bind_Ok in E1 as (r & Er & E1).
      destruct (sc_fit_transform _ _ _) as [s0 [Us0|]] eqn:E0; cbn [snd] in E1; [|discriminate]. apply Ok_inj in E1. injection E1 as <- <-.
      assert (Hr := relcomp_count _ _ Er). exists r.
      assert (LU : length (map (firstn r) U) = n) by (rewrite map_length, (Hsvd _ _ _ EU); exact LXs).
      split; [|split; [|split]].
      + exists U, sv. split; [exact EU|]. split; [|exists s0; exact E0].
        replace (shares sv) with (map (fun v => ndiv v (vsum (map nsqr sv))) (map nsqr sv)); [exact Hr|]. rewrite map_map. reflexivity.
      + rewrite (fit_transform_rows _ _ _ _ _ E0). unfold check_input. destruct (Nat.eqb_spec (length (map (firstn r) U)) 1) as [H2|_]; [rewrite LU in H2; lia|exact LU].
      + destruct Hr as (j & -> & _). lia.
      + unfold ctx, cbx, crx, cty, cby, cry in E2. cbn [sp_rm r_specific r_p1 r_p2 r_p3] in E2. destruct (s_specific P'); apply Ok_inj in E2; rewrite <- E2; reflexivity.
    - apply Ok_inj in E1. injection E1 as <- <-. exists 1%nat. split; [reflexivity|]. split; [exact LXs|]. split; [lia|].
      destruct (s_specific P'); [discriminate|]. apply Ok_inj in E2. rewrite <- E2. reflexivity. }
  destruct HS as (r & HS & LU & Hr1 & Ecut).
  assert (Hcs : cuts_ok f (start_cuts env P' r)) by (unfold start_cuts; destruct (s_specific P'); [apply Hc2; exact Hr1|exact Hc1]).
  assert (Hpc : sp_loop_cuts env P' f h (c, b, q) = pass_cuts env P' f h r) by (unfold sp_loop_cuts, pass_cuts; destruct f; try exact Ecut; reflexivity).
  assert (Hpk : cuts_ok f (pass_cuts env P' f h r)) by (unfold pass_cuts; destruct f; try exact Hcs; apply Hc2; exact Hk1).
  rewrite Hpc in EL.
  assert (HUn : Us <> []) by (intros ->; cbn in LU; lia).
  assert (HL : leverage_weights f (start_cuts env P' r) Us (mweights f c b q (start_dx Us))).
  { rewrite <- Ecut. apply leverage_eq; [|exact HUn]. rewrite <- Ecut in Hcs. exact Hcs. }
  set (wx := mweights f c b q (start_dx Us)) in *. assert (Lwx : length wx = n) by (unfold wx; rewrite mweights_length, start_dx_length; exact LU).
  set (d := start_dy (sp_rm P') y y0). assert (Ld : length d = n) by (unfold d; rewrite start_dy_length; lia).
  assert (Esw : q_sw (sp_start_state env P' f c b q Us y y0) = map nsqrt (case_weights wx (map (weight_at f (normal_cuts env P')) d))).
  { unfold sp_start_state. cbv zeta. cbn [q_sw]. fold wx d. rewrite mweights_at by exact Hc1. rewrite floor_weights by (rewrite map_length; lia). reflexivity. }
  destruct (sp_stop env P' f h (pass_cuts env P' f h r) Xs' y0 n Hc1 Hpk LXs Hy0 Hn _ _ _ _ _ Esw ltac:(unfold case_weights; rewrite map_length, seq_length; exact Lwx) EL)
    as [(_ & -> & _)|(C0 & D0 & ws & fits & L1 & L2 & F1 & C1 & SF & M0 & N1 & m1 & M1 & Q1 & Lt & Lr & Ew0 & Ewe & HE)]; [discriminate|].
  rewrite Efit in Q1. injection Q1 as <-.
  change (q_rold (sp_start_state env P' f c b q Us y y0)) with (1 / 100000) in *. change (q_diff (sp_start_state env P' f c b q Us y y0)) with 1 in *. change (q_loops (sp_start_state env P' f c b q Us y y0)) with 1%nat in *.
  assert (Hlen : (1 <= length calls)%nat) by (destruct calls; [congruence|cbn; lia]).
  exists r, Us, ws, fits. split; [exact HS|]. cbv zeta. split; [lia|]. split; [exact D0|]. do 4 (split; [assumption|]).
  split; [symmetry; apply nth_error_nth; rewrite (map_nth_error _ _ _ M1); reflexivity|]. split; [intros k0 m0 Hk0 Hm; apply N1; [lia|exact Hm]|].
  destruct HE as [HE|[HE|HE]]; [left; exact HE|right; left; lia|right; right].
  rewrite Ecw, Ew0, Ewe. change (@n0 R Num_R) with 0. rewrite final_eq by lia. rewrite zeros_low by lia. rewrite <- Ew0. exact HE.
Qed.
