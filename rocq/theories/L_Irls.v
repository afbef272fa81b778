(** Lemmas for C197. *)
From Coq Require Import Reals List Arith ZArith Bool Lia Lra.
Import ListNotations.
From Verif Require Import Num Err Vec VecR OrdR L_Mat S_Stats S_Weights S_Regress L_Stats L_Lin M_Utils M_Preproc M_Robcent M_Msupport L_Msupport M_Rm L_Scaling L_Scaling2 L_Snipls L_Snipls2 L_Snipls3 L_Rm L_Rm2 S_Irls.
Open Scope R_scope.

Lemma mweight1_any : forall f c b r v, cutoffs_ok f c b r -> mweight1 f c b r v = textbook f c b r v.
Proof.
  intros f c b r v Hc. destruct (Rle_lt_dec 0 v) as [Hv|Hv]; [apply mweight1_textbook; auto|]. destruct f; cbn [mweight1 textbook cutoffs_ok] in *.
  - apply fair1_spec; auto.
  - unfold huber1, huber_weight, Rleb. destruct (Rle_dec v c); [|lra]. unfold Rltb. destruct (Rlt_dec c 1); [lra|reflexivity].
  - destruct Hc as (H1 & H2 & H3). unfold hampel1, hampel_weight. destruct (Rle_dec v c); [|lra]. replace (Rleb v c) with true by (symmetry; apply Rleb_true; auto).
    replace (Rltb c 1) with false by (symmetry; apply Rltb_false; lra). cbn [andb].
    replace (Rltb b 1) with false by (symmetry; apply Rltb_false; lra). cbn [andb].
    replace (Rltb r 1) with false by (symmetry; apply Rltb_false; lra). reflexivity.
Qed.
Lemma mweights_at : forall f c b r v, cutoffs_ok f c b r -> mweights f c b r v = map (weight_at f (c, b, r)) v.
Proof. intros f c b r v H. rewrite mweights_map. apply map_ext. intros a. apply mweight1_any, H. Qed.

Lemma floor_weights : forall wx wr : list R, length wr = length wx -> floor_w (vmul wx wr) = case_weights wx wr.
Proof.
  intros wx wr H2. assert (HL : length (vmul wx wr) = length wx) by (unfold vmul; rewrite map2_length; lia).
  apply (nth_ext _ _ 0 0). { unfold floor_w, case_weights. rewrite set_idx_length, map_length, seq_length. lia. }
  intros i Hi. unfold floor_w in *. rewrite set_idx_length in Hi. rewrite set_idx_nth by exact Hi. rewrite (low_spec _ i 0) by exact Hi.
  assert (EN : nth i (vmul wx wr) 0 = nth i wx 0 * nth i wr 0) by (unfold vmul; rewrite (nth_map2 _ _ _ i 0 0) by lia; rnum; reflexivity).
  rewrite EN. unfold case_weights. rewrite (nth_map_lt _ _ _ 0%nat) by (rewrite seq_length; lia). rewrite seq_nth by lia. cbn [Nat.add].
  unfold wmin. change (nlit 1 1000000) with (1 / 1000000). rnum. set (w := nth i wx 0 * nth i wr 0).
  destruct (Rltb w (1 / 1000000)) eqn:E; rcmp_all; [rewrite Rmax_left by lra; reflexivity|rewrite Rmax_right by lra; reflexivity].
Qed.
Lemma final_eq : forall wx wr : list R, length wr = length wx -> set_idx (low (vmul wx wr)) 0 (floor_w (vmul wx wr)) = final_weights wx wr.
Proof.
  intros wx wr H2. assert (HL : length (vmul wx wr) = length wx) by (unfold vmul; rewrite map2_length; lia).
  apply (nth_ext _ _ 0 0). { unfold floor_w, final_weights. rewrite !set_idx_length, map_length, seq_length. lia. }
  intros i Hi. unfold floor_w in *. rewrite !set_idx_length in Hi. rewrite set_idx_nth by (rewrite set_idx_length; exact Hi). rewrite set_idx_nth by exact Hi. rewrite (low_spec _ i 0) by exact Hi.
  assert (EN : nth i (vmul wx wr) 0 = nth i wx 0 * nth i wr 0) by (unfold vmul; rewrite (nth_map2 _ _ _ i 0 0) by lia; rnum; reflexivity).
  rewrite EN. unfold final_weights. rewrite (nth_map_lt _ _ _ 0%nat) by (rewrite seq_length; lia). rewrite seq_nth by lia. cbn [Nat.add].
  unfold wmin. change (nlit 1 1000000) with (1 / 1000000). rnum. set (w := nth i wx 0 * nth i wr 0).
  destruct (Rltb w (1 / 1000000)) eqn:E; rcmp_all; destruct (Rlt_dec w (1 / 1000000)); lra.
Qed.
Lemma final_comm : forall wx wr, length wx = length wr -> final_weights wr wx = final_weights wx wr.
Proof. intros wx wr H. unfold final_weights. rewrite H. apply map_ext. intros i. rewrite (Rmult_comm (nth i wx 0)). reflexivity. Qed.
Lemma case_weights_comm : forall wx wr, length wx = length wr -> case_weights wr wx = case_weights wx wr.
Proof. intros wx wr H. unfold case_weights. rewrite H. apply map_ext. intros i. rewrite Rmult_comm. reflexivity. Qed.

Lemma problem_eq : forall w (Xs : list (list R)) ys, length w = length Xs -> length ys = length Xs -> (row_scale (map nsqrt w) Xs, vmul ys (map nsqrt w)) = weighted_problem w Xs ys.
Proof.
  intros w Xs ys H1 H2. unfold weighted_problem. f_equal.
  - apply (nth_ext _ _ [] []). { unfold row_scale. rewrite map2_length, !map_length, seq_length. lia. }
    intros i Hi. unfold row_scale in *. rewrite map2_length, map_length in Hi. rewrite (nth_map2 _ _ _ i 0 []) by (rewrite ?map_length; lia).
    rewrite (nth_map_lt _ _ _ 0) by lia. rewrite (nth_map_lt _ _ _ 0%nat) by (rewrite seq_length; lia). rewrite seq_nth by lia. reflexivity.
  - apply (nth_ext _ _ 0 0). { unfold vmul. rewrite map2_length, !map_length, seq_length. lia. }
    intros i Hi. unfold vmul in *. rewrite map2_length, map_length in Hi. rewrite (nth_map2 _ _ _ i 0 0) by (rewrite ?map_length; lia).
    rewrite (nth_map_lt _ _ _ 0) by lia. rewrite (nth_map_lt _ _ _ 0%nat) by (rewrite seq_length; lia). rewrite seq_nth by lia. reflexivity.
Qed.
Lemma resid_eq : forall (Xs : list (list R)) ys b, length ys = length Xs -> vsub ys (matvec Xs b) = resid_of Xs ys b.
Proof.
  intros Xs ys b H. apply (nth_ext _ _ 0 0). { unfold vsub, matvec, resid_of. rewrite map2_length, !map_length, seq_length. lia. }
  intros i Hi. unfold vsub, matvec in *. rewrite map2_length, map_length in Hi. rewrite (nth_map2 _ _ _ i 0 0) by (rewrite ?map_length; lia).
  unfold resid_of. rewrite (nth_map_lt _ _ _ []) by lia. rewrite (nth_map_lt _ _ _ 0%nat) by (rewrite seq_length; lia). rewrite seq_nth by lia. cbn [Nat.add]. rnum. f_equal.
  unfold dot, vmul. generalize (nth i Xs []). intros r. clear. revert b. induction r as [|a r IH]; intros [|c b]; cbn; try reflexivity. rnum. unfold sum_of in *. cbn in IH. rewrite <- IH. reflexivity.
Qed.

Lemma zeros_eq : forall e : list R, filter (fun v => neqb v n0) e = zeros e.
Proof. intros e. apply filter_ext. intros a. rnum. unfold Reqb. destruct (Req_EM_T a 0); reflexivity. Qed.
Lemma nonzeros_eq : forall e : list R, filter (fun v => negb (neqb v n0)) e = nonzeros e.
Proof. intros e. apply filter_ext. intros a. rnum. unfold Reqb. destruct (Req_EM_T a 0); reflexivity. Qed.
Lemma std_resid_eq : forall e : list R, e <> [] -> exists s, resid_scale e s /\ std_resid e = map (fun v => Rabs v / (14826 / 10000 * s)) e.
Proof.
  intros e He. unfold std_resid. rewrite zeros_eq, nonzeros_eq. cbv zeta.
  destruct (Nat.ltb_spec (2 * length (zeros e)) (length e)) as [H|H]; eexists; (split; [split|apply map_ext; intros v; rnum; unfold c14826; reflexivity]); intros H'; try lia.
  - rewrite np_median_R. apply is_median_vmedian. destruct e; [congruence|discriminate].
  - intros Hn. rewrite np_median_R. apply is_median_vmedian. destruct (nonzeros e); [congruence|discriminate].
Qed.

(** the sequence of least-squares problems of the loop *)
Lemma loop_problems : forall (env : rm_env R) P f Xs ys wx, cuts_ok f (resid_cuts env P) -> length ys = length Xs -> length wx = length Xs -> Xs <> [] ->
  forall fuel st w calls r, l_sw st = map nsqrt w -> length w = length Xs -> rm_loop env fuel P f Xs ys wx st = (calls, r) ->
  exists ws, length ws = length calls /\ (calls <> [] -> nth 0 ws [] = w) /\
    (forall k, (k < length calls)%nat -> nth k calls ([], []) = weighted_problem (nth k ws []) Xs ys) /\
    (forall k, (S k < length calls)%nat -> exists b, re_lstsq env (fst (nth k calls ([], []))) (snd (nth k calls ([], []))) = Ok b /\ next_weights env P f wx Xs ys b (nth (S k) ws [])).
Proof.
  intros env P f Xs ys wx Hc Hy Hx Hn. induction fuel as [|j IH]; intros st w calls r Hw Lw E.
  - injection E as <- <-. exists []. repeat split; try (intros; cbn in *; lia); congruence.
  - cbn [rm_loop] in E. destruct (_ && _).
    2:{ injection E as <- <-. exists []. repeat split; try (intros; cbn in *; lia); congruence. }
    assert (EP := problem_eq w Xs ys Lw Hy). rewrite <- Hw in EP. rewrite Hw in E, EP.
    assert (Hone : forall cs, cs = [(row_scale (map nsqrt w) Xs, vmul ys (map nsqrt w))] -> exists ws, length ws = length cs /\ (cs <> [] -> nth 0 ws [] = w) /\
      (forall k, (k < length cs)%nat -> nth k cs ([], []) = weighted_problem (nth k ws []) Xs ys) /\
      (forall k, (S k < length cs)%nat -> exists b, re_lstsq env (fst (nth k cs ([], []))) (snd (nth k cs ([], []))) = Ok b /\ next_weights env P f wx Xs ys b (nth (S k) ws []))).
    { intros cs ->. exists [w]. split; [reflexivity|]. split; [reflexivity|]. split; [|intros k Hk; cbn in Hk; lia].
      intros [|k] Hk; [cbn; exact EP|cbn in Hk; lia]. }
    destruct (re_lstsq env _ _) as [b|e] eqn:EL; [|injection E as <- _; apply Hone; reflexivity].
    destruct (rm_body _ _ _ _ _ _ _ st b) as [st1 brk] eqn:EB. destruct brk; [injection E as <- _; apply Hone; reflexivity|].
    destruct (rm_loop env j P f Xs ys wx st1) as [cs r1] eqn:ER. injection E as <- <-.
    assert (HS : exists w1, l_sw st1 = map nsqrt w1 /\ length w1 = length Xs /\ next_weights env P f wx Xs ys b w1).
    { unfold rm_body in EB. cbv zeta in EB. destruct (_ <=? _)%nat; [discriminate|]. injection EB as <-. cbn [l_sw].
      rewrite (resid_eq Xs ys b Hy). destruct (std_resid_eq (resid_of Xs ys b)) as (s & Hs & Es).
      { unfold resid_of. destruct Xs; [congruence|discriminate]. }
      rewrite Es. rewrite mweights_at by exact Hc. rewrite map_map. set (wr := map _ (resid_of Xs ys b)).
      assert (Lr : length wr = length Xs) by (unfold wr, resid_of; rewrite !map_length, seq_length; reflexivity).
      exists (case_weights wx wr). rewrite (floor_weights wr wx) by lia. rewrite (case_weights_comm wx wr) by lia. split; [reflexivity|]. split; [unfold case_weights; rewrite map_length, seq_length; exact Hx|].
      exists wr. split; [exists s; split; [exact Hs|reflexivity]|reflexivity]. }
    destruct HS as (w1 & Hw1 & Lw1 & HN). destruct (IH st1 w1 cs r1 Hw1 Lw1 ER) as (ws & L1 & F1 & C1 & N1). exists (w :: ws). split; [cbn; lia|]. split; [reflexivity|]. split.
    + intros [|k] Hk; [exact EP|cbn in Hk |- *; apply C1; lia].
    + intros [|k] Hk; [|cbn in Hk |- *; apply N1; lia]. exists b. cbn [nth fst snd]. split; [exact EL|]. rewrite F1; [exact HN|]. destruct cs; [cbn in Hk; lia|discriminate].
Qed.

Lemma body_b : forall f c b2 r3 (Xs : list (list R)) ys wx st b, l_b (fst (rm_body f c b2 r3 Xs ys wx st b)) = Some b.
Proof. intros. unfold rm_body. cbv zeta. destruct (_ <=? _)%nat; reflexivity. Qed.
Lemma loop_solution : forall (env : rm_env R) P f Xs ys wx fuel st calls st', rm_loop env fuel P f Xs ys wx st = (calls, Some (Ok st')) ->
  (calls = [] /\ st' = st) \/ calls <> [] /\ exists b, l_b st' = Some b /\ re_lstsq env (fst (last calls ([], []))) (snd (last calls ([], []))) = Ok b.
Proof.
  intros env P f Xs ys wx. induction fuel as [|j IH]; intros st calls st' E; [discriminate|]. cbn [rm_loop] in E. destruct (_ && _); [|injection E as <- <-; left; auto]. right.
  destruct (re_lstsq env _ _) as [b|e] eqn:EL; [|discriminate]. pose proof (body_b f (cty env P) (cby env P) (cry env P) Xs ys wx st b) as Hb.
  destruct (rm_body _ _ _ _ _ _ _ st b) as [st1 []]; cbn [fst] in Hb.
  - injection E as <- <-. split; [discriminate|]. exists b. cbn [last fst snd]. auto.
  - destruct (rm_loop env j P f Xs ys wx st1) as [cs r1] eqn:ER. injection E as <- ->. split; [discriminate|]. destruct (IH st1 cs st' ER) as [(-> & ->)|(Hn & b' & H1 & H2)].
    + exists b. cbn [last fst snd]. auto.
    + exists b'. split; [exact H1|]. destruct cs as [|c0 cs]; [congruence|exact H2].
Qed.

Lemma start_dx_eq : forall Xs : list (list R), Xs <> [] -> exists md, is_median (map norm2 Xs) md /\ start_dx Xs = map (fun r => norm2 r / md) Xs.
Proof.
  intros Xs Hn. exists (vmedian (map norm2 Xs)). split; [apply is_median_vmedian; destruct Xs; [congruence|discriminate]|].
  unfold start_dx. cbv zeta. assert (E : map (fun r : list R => nsqrt (vsum (map nsqr r))) Xs = map norm2 Xs).
  { apply map_ext. intros r. unfold norm2. rnum. f_equal. }
  rewrite E, np_median_R, map_map. apply map_ext. intros r. reflexivity.
Qed.
Lemma start_dy_eq : forall (P : rm_par R) y ys, y <> [] -> start_distances P y ys (start_dy P y ys).
Proof.
  intros P y ys Hn.
  assert (H : exists m e, is_median y m /\ is_median (map (fun v => Rabs (v - m)) y) e /\
     (let m := np_median y in let s := nmul c14826 (np_median (map (fun v => nabs (nsub v m)) y)) in map (fun v => ndiv (nsub v m) s) y) = map (fun v => (v - m) / (14826 / 10000 * e)) y).
  { exists (vmedian y), (vmedian (map (fun v => Rabs (v - vmedian y)) y)). split; [apply is_median_vmedian; auto|]. split; [apply is_median_vmedian; destruct y; [congruence|discriminate]|].
    cbv zeta. rewrite !np_median_R. reflexivity. }
  unfold start_distances, start_dy. split.
  - intros [-> ->]. reflexivity.
  - intros Hne. destruct (r_centre P), (r_scale P); try exact H. exfalso. apply Hne. auto.
Qed.

(** the data as centred and scaled by rm, and the run *)
Lemma irls_l : forall (env : rm_env R) P f n p X y m calls X0 y0, is_matrix n p X -> (2 <= n)%nat -> (1 <= p)%nat -> length y = n ->
  r_fun P = Some f -> cuts_ok f (resid_cuts env P) -> cuts_ok f (lever_cuts env P p) -> rm_scaled env P X y X0 y0 -> rm_run env P X y = (calls, Ok m) -> reweighting env P f p y X0 y0 calls (rm_coef_scaled m) (rm_cw m).
Proof.
  intros env P f n p X y m calls X0 y0 HX Hn Hp Hy Hf Hc1 Hc2 [[s1 S1] [s2 S2]] E0.
  assert (E : rm_fit env P X y = Ok m) by (unfold rm_fit; rewrite E0; reflexivity).
  apply rm_fit_inv in E as (f' & st1 & Xs & st2 & Ys & mX & sX & my & sy & st & calls' & Hchk & Hly & H1 & Ex & Ey & EmX & EsX & Emy & Esy & El & Ef).
  assert (f' = f).
  { unfold rm_check in Hchk. rewrite Hf in Hchk. destruct (_ || _); [discriminate|].
    destruct f; try (apply Ok_inj in Hchk as <-; reflexivity). destruct (negb _); [discriminate|]. apply Ok_inj in Hchk as <-; reflexivity. }
  subst f'.
  assert (calls' = calls).
  { unfold rm_run in E0. rewrite Hchk in E0. rewrite (proj2 (Nat.eqb_eq _ _) Hly) in E0. cbn [negb] in E0. rewrite H1, Ex, Ey, EmX, EsX, Emy, Esy in E0. cbv zeta in E0.
    unfold start_wx, start_state in El. rewrite El in E0. injection E0 as E0 _. exact E0. }
  subst calls'.
  apply rm_finish_inv in Ef as (b & Eb & HsX & Ef). cbv zeta in Ef. destruct Ef as (_ & _ & Ecs & _ & _ & _ & _ & Ecw & _).
  change (@n0 R Num_R) with 0 in Ex. rewrite S1 in Ex. injection Ex as -> ->.
  assert (Hcol : as_column y0 = Ys).
  { apply ft_inv in S1 as F. destruct F as (_ & _ & _ & _ & _ & _ & _ & _ & _ & C1 & D1 & T1).
    destruct (ft_same (re_prep env) st1 (new_scaler (r_centre P) (r_scale P) 0) st2 (A1 y) (A2 (as_column y)) Ys) as [s3 E3]; auto.
    - rewrite check_A1 by lia. symmetry. apply (check_input_id n 1); auto. rewrite <- Hy. apply as_column_wf.
    - rewrite S2 in E3. congruence. }
  subst Ys. rewrite col_as_column in *. rewrite Ecs.
  assert (W0 : wf n p Xs) by (eapply scaled_wf; eauto; exists st1; exact S1).
  assert (Hy0 : length y0 = n).
  { assert (W1 : wf n 1 (as_column y0)) by (eapply scaled_wf; [|exact Hn|exists s2; exact S2]; rewrite <- Hy; apply as_column_wf).
    destruct W1 as [W1 _]. unfold as_column in W1. rewrite map_length in W1. auto. }
  assert (LX : length Xs = n) by apply (wf_length _ _ _ W0).
  assert (Hne : Xs <> []) by (intros ->; cbn in LX; lia).
  assert (Hnc : ncols X = p) by (apply (wf_ncols n p); auto; lia). rewrite Hnc in El.
  destruct (start_dx_eq Xs Hne) as (md & Hmd & Edx).
  assert (Ewx : start_wx env P f p Xs = map (fun r => weight_at f (lever_cuts env P p) (norm2 r / md)) Xs).
  { unfold start_wx. unfold cuts_ok, lever_cuts in Hc2. unfold ctx, cbx, crx, lever_cuts. destruct (r_specific P); cbn [resid_cuts fst snd] in Hc2; rewrite mweights_at by exact Hc2; rewrite Edx, map_map; reflexivity. }
  set (wx := start_wx env P f p Xs) in *. assert (Lwx : length wx = n) by (rewrite Ewx, map_length; exact LX).
  set (d := start_dy P y y0) in *. assert (Ld : length d = n).
  { unfold d, start_dy. destruct (r_centre P), (r_scale P); rewrite map_length; lia. }
  assert (Esw : l_sw (start_state env P f wx y y0) = map nsqrt (case_weights wx (map (weight_at f (resid_cuts env P)) d))).
  { unfold start_state. cbv zeta. cbn [l_sw]. fold d. rewrite mweights_at by exact Hc1. rewrite floor_weights by (rewrite map_length; lia). reflexivity. }
  destruct (loop_solution _ _ _ _ _ _ _ _ _ _ El) as [(_ & ->)|(Hcn & b' & Hb' & Hlast)]; [unfold start_state in Eb; discriminate|].
  rewrite Eb in Hb'. injection Hb' as <-.
  destruct (loop_problems env P f Xs y0 wx Hc1) with (fuel := S (r_maxit P)) (st := start_state env P f wx y y0) (w := case_weights wx (map (weight_at f (resid_cuts env P)) d)) (calls := calls) (r := Some (Ok st))
    as (ws & L & F & C & N); auto; try lia. { unfold case_weights. rewrite map_length, seq_length. lia. }
  exists md, d, ws. split; [exact Hmd|]. split; [apply start_dy_eq; intros ->; cbn in Hy; lia|]. split; [exact Hcn|]. split; [exact L|]. rewrite <- Ewx. split; [apply F, Hcn|]. split; [exact C|]. split; [exact N|]. split; [exact Hlast|].
  apply loop_passed in El as [[-> _]|(b2 & Eb2 & Ewye & Ew0 & Ewe)]; [unfold start_state in Eb; discriminate|]. rewrite Eb in Eb2. injection Eb2 as <-.
  rewrite (resid_eq Xs y0 b) in Ewye by lia. destruct (std_resid_eq (resid_of Xs y0 b)) as (s & Hs & Es). { unfold resid_of. destruct Xs; [congruence|discriminate]. }
  rewrite Es in Ewye. rewrite mweights_at in Ewye by exact Hc1. rewrite map_map in Ewye.
  assert (Lr : length (l_wye st) = n) by (rewrite Ewye; unfold resid_of; rewrite !map_length, seq_length; exact LX).
  exists (l_wye st). split; [exists s; split; [exact Hs|exact Ewye]|]. rewrite Ecw, Ew0, Ewe. change (@n0 R Num_R) with 0. rewrite final_eq by lia. apply final_comm. lia.
Qed.
