(** Lemmas for C198. *)
From Coq Require Import Reals List Arith ZArith Bool Lia Lra.
Import ListNotations.
From Verif Require Import Num Err Vec VecR OrdR L_Mat S_Stats S_Weights S_Regress L_Stats L_Lin M_Utils M_Preproc M_Robcent M_Msupport L_Msupport M_Rm M_Snipls L_Scaling L_Scaling2 L_Snipls L_Snipls2 L_Snipls3 L_Rm L_Rm2 M_Sprm S_Sprm L_Sprm L_Sprm2 L_Sprm3 L_Sprm4 S_Irls L_Irls S_IrlsSp.
Open Scope R_scope.

Lemma where_first : forall (g : R -> bool) l k j js, where_from g k l = j :: js ->
  (k <= j)%nat /\ (j - k < length l)%nat /\ g (nth (j - k) l 0) = true /\ forall i, (i < j - k)%nat -> g (nth i l 0) = false.
Proof.
  intros g. induction l as [|a l IH]; intros k j js E; [discriminate|]. cbn [where_from] in E. destruct (g a) eqn:Ea.
  - injection E as <- _. rewrite Nat.sub_diag. cbn. repeat split; auto; lia.
  - apply IH in E as (H1 & H2 & H3 & H4). replace (j - k)%nat with (S (j - S k)) by lia. cbn [length nth]. repeat split; auto; try lia.
    intros [|i] Hi; [exact Ea|apply H4; lia].
Qed.
Lemma relcomp_count : forall (spc : list R) rc, relcomp spc = Ok rc -> start_count spc rc.
Proof.
  intros spc rc E. unfold relcomp in E. destruct (where_ _ _) as [|j js] eqn:Ew; [discriminate|]. apply Ok_inj in E as <-. unfold where_ in Ew. apply where_first in Ew as (_ & H2 & H3 & H4).
  rewrite Nat.sub_0_r in *. assert (HL : length (vsub spc (brokenstick (length spc))) = length spc) by (unfold vsub; rewrite map2_length, brokenstick_length; apply Nat.min_id). rewrite HL in H2.
  assert (HB := C28_l (length spc) ltac:(lia)). destruct HB as (_ & _ & _ & _ & HB).
  assert (HN : forall i, (i < length spc)%nat -> nth i (vsub spc (brokenstick (length spc))) 0 = nth i spc 0 - stick (length spc) i).
  { intros i Hi. rewrite nth_vsub by (rewrite ?brokenstick_length; auto). rewrite HB by auto. reflexivity. }
  exists j. split; [reflexivity|]. split; [exact H2|]. rewrite HN in H3 by exact H2. split; [rnum; rcmp_all; lra|].
  intros i Hi. specialize (H4 i Hi). rewrite HN in H4 by lia. rnum. rcmp_all. lra.
Qed.

Lemma leverage_eq : forall f c b q (T : list (list R)), cutoffs_ok f c b q -> T <> [] -> leverage_weights f (c, b, q) T (mweights f c b q (start_dx T)).
Proof. intros f c b q T Hc Hn. destruct (start_dx_eq T Hn) as (md & Hm & E). exists md. split; [exact Hm|]. rewrite mweights_at by exact Hc. rewrite E, map_map. reflexivity. Qed.
Lemma unweighted_eq : forall w (T : list (list R)), length w = length T -> map2 (fun a r => map (fun v => ndiv v a) r) (map nsqrt w) T = unweighted w T.
Proof.
  intros w T H. apply (nth_ext _ _ [] []). { unfold unweighted. rewrite map2_length, !map_length, seq_length. lia. }
  intros i Hi. rewrite map2_length, map_length in Hi. rewrite (nth_map2 _ _ _ i 0 []) by (rewrite ?map_length; lia). unfold unweighted.
  rewrite (nth_map_lt _ _ _ 0) by lia. rewrite (nth_map_lt _ _ _ 0%nat) by (rewrite seq_length; lia). rewrite seq_nth by lia. reflexivity.
Qed.
Lemma diff_eq : forall a b : list R, length a = length b -> vsub a b = diff_at a b.
Proof.
  intros a b H. apply (nth_ext _ _ 0 0). { unfold vsub, diff_at. rewrite map2_length, map_length, seq_length. lia. }
  intros i Hi. unfold vsub in *. rewrite map2_length in Hi. rewrite (nth_map2 _ _ _ i 0 0) by lia. unfold diff_at. rewrite (nth_map_lt _ _ _ 0%nat) by (rewrite seq_length; lia). rewrite seq_nth by lia. reflexivity.
Qed.

Lemma sp_problems : forall (env : sp_env R) P f k cc Xs ys n, cuts_ok f (normal_cuts env P) -> cuts_ok f cc -> length Xs = n -> length ys = n -> (2 <= n)%nat ->
  forall fuel st w calls st', q_sw st = map nsqrt w -> length w = n -> sp_loop env fuel P f k cc Xs ys st = (calls, Some (Ok st')) ->
  (calls = [] /\ st' = st) \/
  exists ws fits, calls <> [] /\ length ws = length calls /\ length fits = length calls /\ nth 0 ws [] = w /\
    (forall j, (j < length calls)%nat -> nth j calls ([], []) = weighted_problem (nth j ws []) Xs ys) /\
    (forall j m, nth_error fits j = Some m -> snipls_fit (re_prep (se_rm env)) (se_inv env) (s_eta P) k CMean SNone (fst (nth j calls ([], []))) (snd (nth j calls ([], []))) = Ok m) /\
    (forall j m, (S j < length calls)%nat -> nth_error fits j = Some m -> next_sp env P f cc ys m (nth j ws []) (nth (S j) ws [])) /\
    exists m, nth_error fits (length calls - 1) = Some m /\ q_fit st' = Some m /\
      pass_weights env P f cc ys m (nth (length calls - 1) ws []) (q_wte st') (q_wye st') /\ length (q_wte st') = n /\ length (q_wye st') = n /\
      q_w0 st' = low (vmul (q_wye st') (q_wte st')) /\ q_we st' = floor_w (vmul (q_wye st') (q_wte st')).
Proof.
  intros env P f k cc Xs ys n Hc1 Hc2 HX Hy Hn. induction fuel as [|j IH]; intros st w calls st' Hw Lw E; [discriminate|]. rewrite sp_loop_S in E.
  destruct (_ && _); [|injection E as <- <-; left; auto]. right.
  assert (EP := problem_eq w Xs ys ltac:(lia) ltac:(lia)).
  destruct (pass env P f k cc Xs ys st) as [[st1 brk]|e] eqn:Ep; [|discriminate]. unfold pass in Ep. rewrite Hw in Ep, E.
  apply bind_Ok in Ep as (m & Em & Ep). apply bind_Ok in Ep as (cr & _ & Ep).
  pose proof (snipls_fit_rows _ _ _ _ _ _ _ _ _ Em) as [HT Hf]. rewrite row_scale_length, map_length, Lw, HX, Nat.min_id in HT, Hf.
  apply body_inv in Ep as (T & dt & E1 & E2 & E3 & E4 & E5 & E6 & E7 & E8 & E9).
  rewrite Hw in E2. rewrite (unweighted_eq w (sn_T m)) in E2 by lia. subst T.
  assert (SB : scaled_by (re_prep (se_rm env)) (s_centre P) (score_scale P) (unweighted w (sn_T m)) dt).
  { destruct (sc_fit_transform (re_prep (se_rm env)) (new_scaler (s_centre P) (sp_tsc P) n0) (A2 (unweighted w (sn_T m)))) as [s0 r0] eqn:E0. cbn [snd] in E3. subst r0. exists s0. exact E0. }
  assert (Ldt : length dt = n).
  { destruct SB as [s0 E0]. rewrite (fit_transform_rows _ _ _ _ _ E0). unfold check_input.
    assert (LU : length (unweighted w (sn_T m)) = n) by (unfold unweighted; rewrite map_length, seq_length; exact HT).
    destruct (Nat.eqb_spec (length (unweighted w (sn_T m))) 1) as [H1|_]; [rewrite LU in H1; lia|exact LU]. }
  assert (Hdt : dt <> []) by (intros ->; cbn in Ldt; lia).
  rewrite (diff_eq ys (sn_fitted m)) in E4 by lia. destruct (std_resid_eq (diff_at ys (sn_fitted m))) as (s & Hs & Es).
  { unfold diff_at. destruct ys; [cbn in Hy; lia|discriminate]. }
  rewrite Es in E4. rewrite mweights_at in E4 by exact Hc1. rewrite map_map in E4.
  assert (HL := leverage_eq f (fst (fst cc)) (snd (fst cc)) (snd cc) dt Hc2 Hdt). rewrite <- E5 in HL.
  assert (L1 : length (q_wye st1) = n) by (rewrite E4, map_length; unfold diff_at; rewrite map_length, seq_length; exact Hy).
  assert (L2 : length (q_wte st1) = n) by (rewrite E5, mweights_length, start_dx_length; exact Ldt).
  assert (PW : pass_weights env P f cc ys m w (q_wte st1) (q_wye st1)).
  { exists dt, s. split; [exact SB|]. split; [replace cc with (fst (fst cc), snd (fst cc), snd cc) by (destruct cc as [[? ?] ?]; reflexivity); exact HL|]. split; [exact Hs|]. exact E4. }
  assert (HOne : forall cs, cs = [(row_scale (map nsqrt w) Xs, vmul ys (map nsqrt w))] ->
    exists ws fits, cs <> [] /\ length ws = length cs /\ length fits = length cs /\ nth 0 ws [] = w /\
    (forall j, (j < length cs)%nat -> nth j cs ([], []) = weighted_problem (nth j ws []) Xs ys) /\
    (forall j m, nth_error fits j = Some m -> snipls_fit (re_prep (se_rm env)) (se_inv env) (s_eta P) k CMean SNone (fst (nth j cs ([], []))) (snd (nth j cs ([], []))) = Ok m) /\
    (forall j m, (S j < length cs)%nat -> nth_error fits j = Some m -> next_sp env P f cc ys m (nth j ws []) (nth (S j) ws [])) /\
    exists m, nth_error fits (length cs - 1) = Some m /\ q_fit st1 = Some m /\
      pass_weights env P f cc ys m (nth (length cs - 1) ws []) (q_wte st1) (q_wye st1) /\ length (q_wte st1) = n /\ length (q_wye st1) = n /\
      q_w0 st1 = low (vmul (q_wye st1) (q_wte st1)) /\ q_we st1 = floor_w (vmul (q_wye st1) (q_wte st1))).
  { intros cs ->. exists [w], [m]. split; [discriminate|]. do 3 (split; [reflexivity|]). split; [intros [|i] Hi; [cbn; exact EP|cbn in Hi; lia]|].
    split; [intros [|[|i]] m0 Hm; try discriminate; injection Hm as <-; exact Em|]. split; [intros i m0 Hi; cbn in Hi; lia|]. exists m. repeat (split; [reflexivity || assumption|]). assumption. }
  destruct brk.
  - injection E as <- <-. apply HOne. reflexivity.
  - destruct (sp_loop env j P f k cc Xs ys st1) as [cs r1] eqn:ER. injection E as <- ->. destruct (E8 eq_refl) as [_ E10].
    assert (HN : exists w1, q_sw st1 = map nsqrt w1 /\ length w1 = n /\ next_sp env P f cc ys m w w1).
    { exists (case_weights (q_wte st1) (q_wye st1)). rewrite E10, E7, floor_weights, (case_weights_comm (q_wte st1)) by lia. split; [reflexivity|].
      split; [unfold case_weights; rewrite map_length, seq_length; exact L2|]. exists (q_wte st1), (q_wye st1). auto. }
    destruct HN as (w1 & Hw1 & Lw1 & HN). destruct (IH st1 w1 cs st' Hw1 Lw1 ER) as [(-> & ->)|(ws & fits & C0 & L3 & L4 & F1 & C1 & S1 & N1 & m1 & M1 & Q1 & Q2)].
    + apply HOne. reflexivity.
    + exists (w :: ws), (m :: fits). split; [discriminate|]. split; [cbn; lia|]. split; [cbn; lia|]. split; [reflexivity|].
      split; [intros [|i] Hi; [exact EP|cbn in Hi |- *; apply C1; lia]|].
      split; [intros [|i] m0 Hm; [injection Hm as <-; exact Em|cbn in Hm |- *; apply S1; exact Hm]|].
      split; [intros [|i] m0 Hi Hm; [injection Hm as <-; cbn [nth]; rewrite F1; exact HN|cbn in Hi, Hm |- *; apply N1; [lia|exact Hm]]|].
      exists m1. destruct cs as [|c0 cs]; [congruence|]. cbn [length] in *. rewrite Nat.sub_succ, Nat.sub_0_r in M1, Q2 |- *. split; [exact M1|]. split; [exact Q1|exact Q2].
Qed.

Lemma check_fun : forall (P : sp_par R) n p f k, sp_check P n p = Ok (f, k) -> s_fun P = Some f /\ exists z, s_ncomp P = NInt z /\ k = Z.to_nat z /\ (1 <= k)%nat.
Proof.
  intros P n p f k E. unfold sp_check in E. destruct (s_ncomp P) as [z|z]; [|discriminate]. destruct (_ || _); [discriminate|]. destruct (z <=? 0)%Z eqn:Ez; [discriminate|].
  destruct (negb _); [discriminate|]. destruct (_ || _); [discriminate|]. apply bind_Ok in E as (f' & Hchk & E). apply Ok_inj in E. injection E as <- <-. split.
  - unfold rm_check in Hchk. cbn [r_fun sp_rm] in Hchk. destruct (s_fun P) as [g|]; [|discriminate]. destruct (_ || _); [discriminate|].
    destruct g; try (apply Ok_inj in Hchk as <-; reflexivity). destruct (negb _); [discriminate|]. apply Ok_inj in Hchk as <-; reflexivity.
  - exists z. apply Z.leb_gt in Ez. repeat split; lia.
Qed.

Lemma irls_sp_l : forall (env : sp_env R) P df f h n p X y P' m calls X0 y0, is_matrix n p X -> (2 <= n)%nat -> (1 <= p)%nat -> svd_rows env ->
  s_fun P' = Some f -> s_ncomp P' = NInt (Z.of_nat h) -> cuts_ok f (normal_cuts env P') -> (forall d, (1 <= d)%nat -> cuts_ok f (chi2_cuts env P' d)) ->
  sprm_run env P df X y = (P', (calls, Ok m)) -> rm_scaled (se_rm env) (sp_rm P') X y X0 y0 -> length (sp_xsca m) = p ->
  reweighting_sp env P' f h y (select (nonzero_positions (sp_xsca m)) X0) y0 calls (sp_coef_scaled m) (sp_cw m).
Proof.
  intros env P df f h n p X y P' m calls X0 y0 HX Hn Hp Hsvd Hf Hh Hc1 Hc2 E [[s1 S1] [s2 S2]] Hls.
  apply run_inv in E as (f' & k & c1 & c2 & mX & sX & Xs & my & sy & ys & X' & Xs' & sX' & E). cbv zeta in E.
  destruct E as (Eck & Eco & Hly & H1 & Esc & Edr & EP' & Hk & Hsel & Ee).
  assert (HlX : length X = n) by apply (wf_length _ _ _ HX). assert (Hy : length y = n) by lia.
  assert (Hnc : ncols X = p) by (apply (wf_ncols n p); auto; lia). rewrite Hnc in *.
  apply check_fun in Eck as (Hf0 & z & Hz & Hkz & Hk1).
  assert (HP : s_fun P' = s_fun P /\ s_ncomp P' = s_ncomp P).
  { rewrite EP'. unfold tau_fix. destruct (s_scale (set_columns P c1)); try (split; reflexivity). destruct (existsb _ _); split; reflexivity. }
  destruct HP as [HP1 HP2]. assert (f' = f) by congruence. subst f'. assert (Ekh : k = h) by (rewrite Hh in HP2; rewrite Hz in HP2; injection HP2 as HP2; lia). clear Hkz Hz HP1 HP2 Hf0 z. subst k.
  (* the scaled data *)
  assert (HD : Xs = X0 /\ ys = y0).
  { unfold sp_scaled in Esc. set (P2 := tau_fix (set_columns P c1) X) in *.
    assert (F1 : s_centre P' = s_centre P2 /\ s_scale P' = s_scale P2) by (rewrite EP'; split; reflexivity). destruct F1 as [F1 F2]. cbn [sp_rm r_centre r_scale] in S1, S2. rewrite F1, F2 in S1, S2.
    change (@n0 R Num_R) with 0 in Esc. rewrite S1 in Esc.
    destruct (sc_fit_transform (re_prep (se_rm env)) s1 (A1 y)) as [st2 [Ys|]] eqn:Ey; [|discriminate].
    destruct (a_col_loc s1); [|discriminate]. destruct (a_col_sca s1); [|discriminate]. destruct (a_col_loc st2); [|discriminate]. destruct (a_col_sca st2); [|discriminate].
    apply Ok_inj in Esc. injection Esc as _ _ <- _ _ <-. split; [reflexivity|].
    apply ft_inv in S1 as F. destruct F as (_ & _ & _ & _ & _ & _ & _ & _ & _ & C1 & D1 & T1).
    destruct (ft_same (re_prep (se_rm env)) s1 (new_scaler (s_centre P2) (s_scale P2) 0) st2 (A1 y) (A2 (as_column y)) Ys) as [s3 E3]; auto.
    - rewrite check_A1 by lia. symmetry. apply (check_input_id n 1); auto. rewrite <- Hy. apply as_column_wf.
    - rewrite S2 in E3. injection E3 as _ <-. apply col_as_column. }
  destruct HD as [-> ->].
  assert (W0 : wf n p X0) by (eapply scaled_wf; eauto; exists s1; exact S1).
  assert (Hy0 : length y0 = n).
  { assert (W1 : wf n 1 (as_column y0)) by (eapply scaled_wf; [|exact Hn|exists s2; exact S2]; rewrite <- Hy; apply as_column_wf).
    destruct W1 as [W1 _]. unfold as_column in W1. rewrite map_length in W1. auto. }
  apply estimate_inv in Ee as (Us & rc & c & b & q & st & E1 & E2 & EL & EF).
  apply finish_inv in EF as (fit & Efit & _ & EF). cbv zeta in EF. destruct EF as (_ & _ & _ & _ & Ecs & _ & _ & _ & _ & _ & _ & Ecw & _ & Exs & _).
  rewrite Exs in *. rewrite Ecs.
  assert (EXs : Xs' = select (nonzero_positions sX) X0).
  { destruct Hsel as [(Hz & _ & -> & _)|(_ & -> & _)].
    - apply zero_scale_nil in Hz. rewrite Hz, Hls. symmetry. apply (seq_select n p), W0.
    - rewrite select_sel, (keep_eq p sX Hls). reflexivity. }
  rewrite <- EXs. assert (LXs : length Xs' = n) by (rewrite EXs; unfold select; rewrite map_length; apply (wf_length _ _ _ W0)).
  assert (HS : exists r, start_data env P' Xs' r Us /\ length Us = n /\ (1 <= r)%nat /\ (c, b, q) = start_cuts env P' r).
  { unfold sp_start in E1. unfold start_data, start_cuts. unfold sp_start_cuts in E2. destruct (s_pcapp P').
    - apply bind_Ok in E1 as ([U sv] & EU & E1). apply bind_Ok in E1 as (r & Er & E1).
      destruct (sc_fit_transform _ _ _) as [s0 [Us0|]] eqn:E0; cbn [snd] in E1; [|discriminate]. apply Ok_inj in E1. injection E1 as <- <-.
      assert (Hr := relcomp_count _ _ Er). exists r.
      assert (LU : length (map (firstn r) U) = n) by (rewrite map_length, (Hsvd _ _ _ EU); exact LXs).
      split; [|split; [|split]].
      + exists U, sv. split; [exact EU|]. split; [|exists s0; exact E0].
        replace (shares sv) with (map (fun v => ndiv v (vsum (map nsqr sv))) (map nsqr sv)); [exact Hr|]. rewrite map_map. reflexivity.
      + rewrite (fit_transform_rows _ _ _ _ _ E0). unfold check_input. destruct (Nat.eqb_spec (length (map (firstn r) U)) 1) as [H2|_]; [rewrite LU in H2; lia|exact LU].
      + destruct Hr as (j & -> & _). lia.
      + unfold ctx, cbx, crx, cty, cby, cry in E2. cbn [sp_rm r_specific r_p1 r_p2 r_p3] in E2. destruct (s_specific P'); apply Ok_inj in E2; rewrite <- E2; reflexivity.
    - apply Ok_inj in E1. injection E1 as <- <-. exists 1%nat. split; [reflexivity|]. split; [exact LXs|]. split; [lia|].
      destruct (s_specific P'); [discriminate|]. apply Ok_inj in E2. rewrite <- E2. reflexivity. }
  destruct HS as (r & HS & LU & Hr1 & Ecut).
  assert (Hcs : cuts_ok f (start_cuts env P' r)) by (unfold start_cuts; destruct (s_specific P'); [apply Hc2; exact Hr1|exact Hc1]).
  assert (Hpc : sp_loop_cuts env P' f h (c, b, q) = pass_cuts env P' f h r) by (unfold sp_loop_cuts, pass_cuts; destruct f; try exact Ecut; reflexivity).
  assert (Hpk : cuts_ok f (pass_cuts env P' f h r)) by (unfold pass_cuts; destruct f; try exact Hcs; apply Hc2; exact Hk1).
  rewrite Hpc in EL.
  assert (HUn : Us <> []) by (intros ->; cbn in LU; lia).
  assert (HL : leverage_weights f (start_cuts env P' r) Us (mweights f c b q (start_dx Us))).
  { rewrite <- Ecut. apply leverage_eq; [|exact HUn]. rewrite <- Ecut in Hcs. exact Hcs. }
  set (wx := mweights f c b q (start_dx Us)) in *. assert (Lwx : length wx = n) by (unfold wx; rewrite mweights_length, start_dx_length; exact LU).
  set (d := start_dy (sp_rm P') y y0). assert (Ld : length d = n) by (unfold d; rewrite start_dy_length; lia).
  assert (Esw : q_sw (sp_start_state env P' f c b q Us y y0) = map nsqrt (case_weights wx (map (weight_at f (normal_cuts env P')) d))).
  { unfold sp_start_state. cbv zeta. cbn [q_sw]. fold wx d. rewrite mweights_at by exact Hc1. rewrite floor_weights by (rewrite map_length; lia). reflexivity. }
  destruct (sp_problems env P' f h (pass_cuts env P' f h r) Xs' y0 n Hc1 Hpk LXs Hy0 Hn _ _ _ _ _ Esw ltac:(unfold case_weights; rewrite map_length, seq_length; exact Lwx) EL)
    as [(_ & ->)|(ws & fits & C0 & L1 & L2 & F1 & C1 & SF & N1 & m1 & M1 & Q1 & PW & Lt & Lr & Ew0 & Ewe)]; [discriminate|].
  rewrite Efit in Q1. injection Q1 as <-.
  exists r, Us, wx, d, ws, fits. split; [exact HS|]. split; [exact HL|]. split; [apply start_dy_eq; intros ->; cbn in Hy; lia|]. do 7 (split; [assumption|]). exists fit. split; [exact M1|]. split; [reflexivity|].
  exists (q_wte st), (q_wye st). split; [exact PW|]. rewrite Ecw, Ew0, Ewe. change (@n0 R Num_R) with 0. rewrite final_eq by lia. apply final_comm. lia.
Qed.
