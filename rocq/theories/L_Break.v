(** One case with an arbitrarily large response: rm. *)

From Coq Require Import Reals String List Arith ZArith Bool Lia Lra Permutation Sorted.
Import List ListNotations.
From Verif Require Import Num Err Vec VecR OrdR L_Mat L_Lin S_Stats L_Stats S_Vars S_Rm S_Weights S_Break M_Utils M_Preproc M_Robcent M_Msupport M_Rm
  L_Msupport L_Scaling L_Scaling2 L_Rm L_Rm2 L_OrderSc L_OrderSn L_OrderRm L_UnitsRm L_Vars L_VarsSn L_VarsRm.
Open Scope R_scope.

Lemma median5 : forall (l : list R) (a b c d e : R), Permutation l [a; b; c; d; e] -> a <= b -> b <= c -> c <= d -> d <= e -> vmedian l = c.
Proof.
  intros l a b c d e H H1 H2 H3 H4. rewrite (vmedian_perm _ _ H). unfold vmedian. cbv zeta.
  assert (Es : sort [a; b; c; d; e] = [a; b; c; d; e]). { apply sort_of_sorted. repeat first [apply SSorted_nil|apply SSorted_cons|apply Forall_nil|apply Forall_cons]; lra. }
  rewrite Es. reflexivity.
Qed.
(** a column of five cells, centred on its median and scaled by its MAD *)
Lemma ft5 : forall env (a b c d e m k : R), vmedian [a; b; c; d; e] = m -> vmadR [a; b; c; d; e] = k -> k <> 0 ->
  ft env CMedian SMad [[a]; [b]; [c]; [d]; [e]] = Ok ([m], [k], map (fun v => [(v - m) / k]) [a; b; c; d; e]).
Proof.
  intros env a b c d e m k Em Ek Hk.
  destruct (ft_plain env CMedian SMad 5 1 [[a]; [b]; [c]; [d]; [e]]) as (m1 & v1 & Z & E & Lm & Lv & WZ & HC & HZ); [split; [reflexivity|repeat constructor]|lia|lia|right; left; reflexivity|right; left; reflexivity|].
  rewrite E. destruct (HC 0%nat ltac:(lia)) as [H1 H2]. cbn [col_loc col_sca] in H1, H2. apply Ok_inj in H1, H2.
  change (col 0 [[a]; [b]; [c]; [d]; [e]]) with [a; b; c; d; e] in H1, H2. rewrite Em in H1. rewrite Ek in H2.
  destruct m1 as [|m0 [|]]; try discriminate. destruct v1 as [|k0 [|]]; try discriminate. cbn [nth] in H1, H2. subst m0 k0. f_equal. f_equal.
  apply (mat_ext 5 1); [exact WZ|split; [reflexivity|repeat constructor]|]. intros i j Hi Hj. assert (j = 0%nat) by lia. subst j. rewrite HZ by lia. cbn [nth]. destruct (Req_EM_T k 0); [contradiction|].
  do 5 (destruct i as [|i]; [reflexivity|]). lia.
Qed.
Section Line.
  Variables (env : rm_env R) (P : rm_par R) (M : R).
  Hypothesis HL : exact_slope env.
  Hypothesis HM : 10000 <= M.
  Hypothesis Hty : 1 <= cty env P. Hypothesis Hby : cty env P < cby env P. Hypothesis Hry : cby env P < cry env P. Hypothesis Hmy : cry env P <= 1000.
  Hypothesis Htx : 2 <= ctx env P 1. Hypothesis Hbx : ctx env P 1 < cbx env P 1. Hypothesis Hrx : cbx env P 1 < crx env P 1.
  Let k := madcR.
  Let e := 1 / 1000000.
  Let b := (9 + e * M) / (2 * (9 + e)).
  Let t := b - 1 / 2.
  Let Xs : list (list R) := [[- (2 * k)]; [- k]; [0]; [k]; [2 * k]].
  Let ys : list R := [- k; - (k / 2); 0; k / 2 * M; k].
  Let sw : list R := [1; 1; 1; sqrt e; 1].
  Lemma k_val : 6/10 < k < 7/10. Proof. unfold k, madcR. lra. Qed.
  Lemma t_val : t = e * (M - 1) / (2 * (9 + e)).
  Proof. unfold t, b, e. field. Qed.
  Lemma t_pos : 0 < t.
  Proof. rewrite t_val. apply Rdiv_lt_0_compat; [apply Rmult_lt_0_compat|]; unfold e; lra. Qed.
  Lemma t_big : 4000000 * t <= M - 1.
  Proof. rewrite t_val. unfold e. replace (4000000 * (1 / 1000000 * (M - 1) / (2 * (9 + 1 / 1000000)))) with ((M - 1) * (4 / (2 * (9 + 1/1000000)))) by field. rewrite <- (Rmult_1_r (M - 1)) at 2. apply Rmult_le_compat_l; [lra|]. apply (Rmult_le_reg_r (2 * (9 + 1/1000000))); [lra|]. unfold Rdiv at 1. rewrite Rmult_assoc, Rinv_l by lra. lra. Qed.
  Lemma sqrt_e : sqrt e * sqrt e = e. Proof. apply sqrt_sqrt. unfold e. lra. Qed.
  Lemma hampel_one : forall c b0 r v, 1 <= c -> c < b0 -> b0 < r -> 0 <= v <= c -> mweight1 MHampel c b0 r v = 1.
  Proof. intros c b0 r v H1 H2 H3 H4. cbn [mweight1]. rewrite hampel1_spec by lra. unfold hampel_weight. destruct (Rle_dec v c); [reflexivity|lra]. Qed.
  Lemma hampel_zero : forall c b0 r v, 1 <= c -> c < b0 -> b0 < r -> r < v -> mweight1 MHampel c b0 r v = 0.
  Proof. intros c b0 r v H1 H2 H3 H4. cbn [mweight1]. rewrite hampel1_spec by lra. unfold hampel_weight. destruct (Rle_dec v c); [lra|]. destruct (Rle_dec v b0); [lra|]. destruct (Rle_dec v r); [lra|reflexivity]. Qed.
  Lemma scaled_X : ft (re_prep env) CMedian SMad line5 = Ok ([0], [1 / k], Xs).
  Proof.
    unfold line5. pose proof k_val. rewrite (ft5 _ _ _ _ _ _ 0 (1 / k)).
    - f_equal. f_equal. unfold Xs. cbn [map]. repeat (f_equal; try (field; lra)).
    - apply (median5 _ (-2) (-1) 0 1 2); [apply Permutation_refl|lra..].
    - unfold vmadR. rewrite (median5 [-2; -1; 0; 1; 2] (-2) (-1) 0 1 2) by (first [apply Permutation_refl|lra]). fold k. f_equal. cbn [map].
      apply (median5 _ 0 1 1 2 2); [|lra..].
      replace (-2 - 0) with (-(2)) by lra. replace (-1 - 0) with (-(1)) by lra. rewrite !Rabs_Ropp. rewrite !Rminus_0_r, (Rabs_right 2), (Rabs_right 1), (Rabs_right 0) by lra.
      apply Permutation_sym. apply (Permutation_cons_app [2; 1] [1; 2]). apply (Permutation_cons_app [2] [1; 2]). apply (Permutation_cons_app [2] [2]). apply Permutation_refl.
    - apply Rgt_not_eq. apply Rdiv_lt_0_compat; lra.
  Qed.
  Lemma scaled_y : ft (re_prep env) CMedian SMad (map (fun v => [v]) (line5_y M)) = Ok ([0], [2 / k], map (fun v => [v]) ys).
  Proof.
    unfold line5_y. cbn [map]. pose proof k_val. assert (EM : vmedian [-2; -1; 0; M; 2] = 0).
    { apply (median5 _ (-2) (-1) 0 2 M); [|lra..]. apply perm_skip, perm_skip, perm_skip. apply perm_swap. }
    rewrite (ft5 _ _ _ _ _ _ 0 (2 / k)).
    - f_equal. f_equal. unfold ys. cbn [map]. repeat (f_equal; try (field; lra)).
    - exact EM.
    - unfold vmadR. rewrite EM. fold k. f_equal. cbn [map].
      apply (median5 _ 0 1 2 2 M); [|lra..].
      replace (-2 - 0) with (-(2)) by lra. replace (-1 - 0) with (-(1)) by lra. rewrite !Rabs_Ropp. rewrite !Rminus_0_r, (Rabs_right 2), (Rabs_right 1), (Rabs_right 0), (Rabs_right M) by lra.
      apply Permutation_sym. apply (Permutation_cons_app [2; 1] [M; 2]). apply (Permutation_cons_app [2] [M; 2]). apply perm_skip. apply perm_swap.
    - apply Rgt_not_eq. apply Rdiv_lt_0_compat; lra.
  Qed.
  Lemma first_dx : start_dx Xs = [2; 1; 0; 1; 2].
  Proof.
    pose proof k_val. unfold start_dx, Xs. cbv zeta. cbn [map]. rewrite !np_median_R. rnum. unfold vsum. cbn [fold_right]. unfold nsqr. rnum.
    replace (- (2 * k) * - (2 * k) + 0) with (Rsqr (2 * k)) by (unfold Rsqr; ring). replace (- k * - k + 0) with (Rsqr k) by (unfold Rsqr; ring). replace (0 * 0 + 0) with (Rsqr 0) by (unfold Rsqr; ring).
    replace (k * k + 0) with (Rsqr k) by (unfold Rsqr; ring). replace (2 * k * (2 * k) + 0) with (Rsqr (2 * k)) by (unfold Rsqr; ring). rewrite !sqrt_Rsqr by lra.
    rewrite (median5 [2 * k; k; 0; k; 2 * k] 0 k k (2 * k) (2 * k)); [repeat (f_equal; try (field; lra))| |lra..].
    apply Permutation_sym. apply (Permutation_cons_app [2 * k; k] [k; 2 * k]). apply (Permutation_cons_app [2 * k] [k; 2 * k]). apply (Permutation_cons_app [2 * k] [2 * k]). apply Permutation_refl.
  Qed.
  Lemma problem : row_scale sw Xs = map (fun v => [v]) [- (2 * k); - k; 0; k * sqrt e; 2 * k] /\ vmul ys sw = [- k; - (k / 2); 0; k / 2 * M * sqrt e; k].
  Proof. split; unfold row_scale, vmul, sw, Xs, ys; cbn [map2 map vscale]; unfold vscale; cbn [map]; rnum; repeat (f_equal; try ring). Qed.
  Lemma solve : re_lstsq env (row_scale sw Xs) (vmul ys sw) = Ok [b].
  Proof.
    pose proof k_val. pose proof sqrt_e. destruct problem as [-> ->]. rewrite HL; [|reflexivity|].
    - f_equal. f_equal. cbn [sum_products]. unfold b.
      replace (- (2 * k) * - k + (- k * - (k / 2) + (0 * 0 + (k * sqrt e * (k / 2 * M * sqrt e) + (2 * k * k + 0))))) with (k * k / 2 * (9 + (sqrt e * sqrt e) * M)) by field.
      replace (- (2 * k) * - (2 * k) + (- k * - k + (0 * 0 + (k * sqrt e * (k * sqrt e) + (2 * k * (2 * k) + 0))))) with (k * k * (9 + sqrt e * sqrt e)) by ring.
      rewrite sqrt_e. unfold e. field. lra.
    - cbn [sum_products]. replace (- (2 * k) * - (2 * k) + (- k * - k + (0 * 0 + (k * sqrt e * (k * sqrt e) + (2 * k * (2 * k) + 0))))) with (k * k * (9 + sqrt e * sqrt e)) by ring.
      rewrite sqrt_e. apply Rgt_not_eq. apply Rmult_lt_0_compat; [apply Rmult_lt_0_compat; lra|unfold e; lra].
  Qed.
  Lemma resid : vsub ys (matvec Xs [b]) = [2 * k * t; k * t; 0; k / 2 * M - k * b; - (2 * k * t)].
  Proof. unfold vsub, ys, Xs, matvec, t, dot, vsum. cbn [map map2 fold_right]. rnum. repeat (f_equal; try lra). Qed.
  Lemma M_resid : 0 < k / 2 * M - k * b /\ 1000 * (14826 / 10000 * (2 * k * t)) < k / 2 * M - k * b.
  Proof.
    pose proof k_val. pose proof t_pos. pose proof t_big. assert (Eb : b = t + 1 / 2) by (unfold t; lra). rewrite Eb.
    replace (k / 2 * M - k * (t + 1 / 2)) with (k * ((M - 1) / 2 - t)) by field. split; [apply Rmult_lt_0_compat; lra|].
    replace (1000 * (14826 / 10000 * (2 * k * t))) with (k * (29652 / 10 * t)) by field. apply Rmult_lt_compat_l; lra.
  Qed.
  Lemma std_res : exists v, std_resid (vsub ys (matvec Xs [b])) = [1 / (14826 / 10000); 1 / 2 / (14826 / 10000); 0; v; 1 / (14826 / 10000)] /\ 1000 < v.
  Proof.
    pose proof k_val as Hk. pose proof t_pos as Ht. pose proof M_resid as [Hr1 Hr2]. rewrite resid. set (u := k * t). assert (Hu : 0 < u) by (apply Rmult_lt_0_compat; lra).
    replace (2 * k * t) with (2 * u) in * by (unfold u; ring). set (g := k / 2 * M - k * b) in *.
    unfold std_resid. cbv zeta. cbn [filter]. rnum. replace (Reqb (2 * u) 0) with false by (symmetry; apply Reqb_false; lra). replace (Reqb u 0) with false by (symmetry; apply Reqb_false; lra).
    replace (Reqb 0 0) with true by (symmetry; apply Reqb_true; reflexivity). replace (Reqb g 0) with false by (symmetry; apply Reqb_false; lra). replace (Reqb (- (2 * u)) 0) with false by (symmetry; apply Reqb_false; lra).
    cbn [length Nat.mul Nat.add Nat.ltb Nat.leb]. cbn [map]. rnum. rewrite Rabs_Ropp, (Rabs_right (2 * u)), (Rabs_right u), (Rabs_right 0), (Rabs_right g) by lra. rewrite np_median_R.
    rewrite (median5 [2 * u; u; 0; g; 2 * u] 0 u (2 * u) (2 * u) g); [| |lra..].
    2: { apply Permutation_sym. apply (Permutation_cons_app [2 * u; u] [g; 2 * u]). apply (Permutation_cons_app [2 * u] [g; 2 * u]). apply perm_skip. apply perm_swap. }
    unfold c14826. rnum. exists (g / (14826 / 10000 * (2 * u))). split; [repeat (f_equal; try (field; lra))|].
    apply (Rmult_lt_reg_r (14826 / 10000 * (2 * u))); [lra|]. unfold Rdiv at 2. rewrite Rmult_assoc, Rinv_l by lra. lra.
  Qed.
  Let ones : list R := [1; 1; 1; 1; 1].
  Let wye : list R := [1; 1; 1; 0; 1].
  Let we : list R := [1; 1; 1; e; 1].
  Lemma low_wye : low wye = [3%nat] /\ floor_w wye = we.
  Proof.
    assert (E : low wye = [3%nat]).
    { unfold low, where_, wye, wmin. cbn. rnum. replace (Rltb 1 (1 / 1000000)) with false by (symmetry; apply Rltb_false; lra). replace (Rltb 0 (1 / 1000000)) with true by (symmetry; apply Rltb_true; lra). reflexivity. }
    split; [exact E|]. unfold floor_w. rewrite E. unfold we, e, wmin. cbn. rnum. reflexivity.
  Qed.
  Lemma sw_we : map nsqrt we = sw.
  Proof. unfold we, sw. cbn [map]. rnum. rewrite sqrt_1. reflexivity. Qed.
  Lemma wye_ones : vmul wye ones = wye /\ vmul ones wye = wye.
  Proof. split; unfold vmul, wye, ones; cbn [map2]; rnum; repeat (f_equal; try ring). Qed.
  Lemma first_weights : mweights MHampel (ctx env P 1) (cbx env P 1) (crx env P 1) (start_dx Xs) = ones.
  Proof. rewrite first_dx, mweights_map. unfold ones. cbn [map]. rewrite !hampel_one by lra. reflexivity. Qed.
  Lemma first_y : mweights MHampel (cty env P) (cby env P) (cry env P) (map nabs ys) = wye.
  Proof.
    pose proof k_val. rewrite mweights_map. unfold ys, wye. cbn [map]. rnum. rewrite !Rabs_Ropp. rewrite (Rabs_right k), (Rabs_right (k / 2)), (Rabs_right 0), (Rabs_right (k / 2 * M)) by (try lra; apply Rle_ge; apply Rmult_le_pos; lra).
    assert (3000 <= k / 2 * M) by (apply Rle_trans with (3 / 10 * 10000); [lra|apply Rmult_le_compat; lra]).
    rewrite (hampel_zero _ _ _ (k / 2 * M)) by lra. rewrite !hampel_one by lra. reflexivity.
  Qed.
  Lemma next_y : mweights MHampel (cty env P) (cby env P) (cry env P) (std_resid (vsub ys (matvec Xs [b]))) = wye.
  Proof. destruct std_res as (v & -> & Hv). rewrite mweights_map. unfold wye. cbn [map]. rewrite (hampel_zero _ _ _ v) by lra. rewrite !hampel_one by lra. reflexivity. Qed.
  Lemma body : forall st, l_sw st = sw -> exists d r, rm_body MHampel (cty env P) (cby env P) (cry env P) Xs ys ones st [b] = (mk_rs (Some [b]) wye we [3%nat] sw r d (S (l_loops st)), false).
  Proof.
    intros st E. unfold rm_body. cbv zeta. rewrite next_y. destruct wye_ones as [-> _]. destruct low_wye as [-> ->]. unfold Xs at 1. cbn [length Nat.mul Nat.add Nat.leb]. rewrite sw_we. eexists. eexists. reflexivity.
  Qed.
  Lemma loop_line : forall fuel st, l_sw st = sw -> (r_maxit P + 1 - l_loops st <= fuel)%nat -> (1 <= fuel)%nat ->
    (nltb (r_tol P) (l_diff st) && (l_loops st <? r_maxit P)%nat = true \/ (l_b st = Some [b] /\ l_wye st = wye /\ l_we st = we /\ l_w0 st = [3%nat])) ->
    exists st', snd (rm_loop env fuel P MHampel Xs ys ones st) = Some (Ok st') /\ l_b st' = Some [b] /\ l_wye st' = wye /\ l_we st' = we /\ l_w0 st' = [3%nat] /\ l_sw st' = sw.
  Proof.
    induction fuel as [|fuel IH]; intros st Es Hf H1 Hc; [lia|]. cbn [rm_loop].
    destruct (nltb (r_tol P) (l_diff st) && (l_loops st <? r_maxit P)%nat) eqn:EC.
    - rewrite Es, solve. destruct (body st Es) as (d & r & ->). apply andb_true_iff in EC as [_ EC]. apply Nat.ltb_lt in EC.
      destruct (IH (mk_rs (Some [b]) wye we [3%nat] sw r d (S (l_loops st)))) as (st' & E1 & E2); cbn [l_sw l_loops l_b l_wye l_we l_w0]; auto; try lia.
      exists st'. destruct (rm_loop env fuel P MHampel Xs ys ones _) as [calls rr]. cbn [snd] in *. auto.
    - destruct Hc as [Hc|(B1 & B2 & B3 & B4)]; [discriminate|]. exists st. cbn [snd]. auto 8.
  Qed.
  Lemma outlier_l : rm_check P = Ok MHampel -> r_centre P = CMedian -> r_scale P = SMad -> (2 <= r_maxit P)%nat -> r_tol P < 1 ->
    exists m, rm_fit env P line5 (line5_y M) = Ok m /\ rm_cw m = [1; 1; 1; 0; 1] /\ rm_coef m = [(9 + M / 1000000) / (9 + 1 / 1000000)].
  Proof.
    intros HP Hc Hs Hm Ht. pose proof k_val as Hk. assert (W5 : wf 5 1 line5) by (split; [reflexivity|repeat constructor]).
    destruct (two_fits (re_prep env) CMedian SMad 5 1 line5 (line5_y M) _ _ _ _ _ _ W5 ltac:(lia) eq_refl scaled_X scaled_y) as (st1 & st2 & F1 & F2 & F3 & F4 & F5 & F6 & F7 & F8).
    unfold rm_fit, rm_run. rewrite HP. change (negb (length (line5_y M) =? length line5)%nat) with false. change ((length line5 =? 1)%nat && (2 <=? ncols line5)%nat)%bool with false. cbv iota.
    rewrite Hc, Hs. change (@n0 R Num_R) with 0. rewrite F1, F2, F3, F4, F5, F6. change (ncols line5) with 1%nat. cbv zeta. change (col 0 (map (fun v => [v]) ys)) with ys.
    unfold start_dy. rewrite Hc, Hs. rewrite first_weights, first_y. destruct wye_ones as [_ ->]. destruct low_wye as [-> ->]. rewrite sw_we.
    destruct (loop_line (S (r_maxit P)) (mk_rs None wye we [3%nat] sw (nlit 1 100000) n1 1)) as (st & EL & B1 & B2 & B3 & B4 & B5); [reflexivity|cbn [l_loops]; lia|lia| |].
    { left. cbn [l_diff l_loops]. rnum. apply andb_true_iff. split; [apply Rltb_true; exact Ht|apply Nat.ltb_lt; lia]. }
    destruct (rm_loop env _ P MHampel Xs ys ones _) as [calls rr]. cbn [snd] in EL. subst rr. cbn [snd]. unfold rm_finish. rewrite B1, B2, B3, B4, B5. cbv zeta.
    assert (WX : wf 5 1 Xs) by (split; [reflexivity|repeat constructor]).
    destruct (ft_ok_SNone 1 ltac:(lia) (re_prep env) 5 (row_scale (map nsqrt sw) Xs) st2 F8 ltac:(rewrite F7; right; left; reflexivity) (row_scale_wf 1 ltac:(lia) 5 (map nsqrt sw) Xs WX eq_refl) ltac:(lia)) as [Z1 ->].
    change (ncols line5) with 1%nat. cbn [length Nat.eqb negb]. rewrite Hs. cbn [bind]. eexists. split; [reflexivity|]. cbn [rm_cw rm_coef]. split.
    - unfold we. cbn. rnum. reflexivity.
    - cbn [map2 nth]. rnum. f_equal. unfold b, e. field. lra.
  Qed.
End Line.
