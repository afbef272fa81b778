(** Change of units: sprm. *)

From Coq Require Import Reals String List Arith ZArith Bool Lia Lra Permutation.
Import List ListNotations.
From Verif Require Import Num Err Vec VecR OrdR L_Mat L_Lin L_Matmul S_Stats L_Stats S_Dicomo S_Units M_Utils M_Preproc M_Robcent M_Msupport M_Rm M_Snipls M_Sprm
  L_Scaling L_Scaling2 L_Snipls L_Msupport L_Rm L_Rm2 L_Sprm L_OrderSc L_OrderSn L_OrderRm L_Units L_UnitsSn L_UnitsRm.
Open Scope R_scope.

Lemma spread_exists : forall s v, unit_scale s -> v <> [] -> exists q, is_spread s v q.
Proof. intros s v [->| ->] Hv; cbn [is_spread]; [eexists; reflexivity|]. eexists. apply is_mad_vmad. exact Hv. Qed.
Lemma visible_spread : forall s v, unit_scale s -> v <> [] -> visible s v -> has_spread s v.
Proof.
  intros s v [->| ->] Hv H; cbn [has_spread].
  - intros E. specialize (H _ eq_refl). rewrite E, sqrt_0 in H. lra.
  - intros E. apply is_mad_unique in E. specialize (H _ (is_mad_vmad madcR v Hv)). unfold Rdiv in E at 1. rewrite Rinv_1, Rmult_1_r in E. rewrite <- E in H. unfold Rdiv in H. lra.
Qed.
Lemma visible_sca : forall s v q, unit_scale s -> v <> [] -> visible s v -> col_sca s 0 v = Ok q -> 1 / 100000 <= q.
Proof.
  intros s v q Hs Hv H E. destruct (spread_exists s v Hs Hv) as [q' Hq]. pose proof (is_spread_sca s v q' Hs Hv Hq) as E'. rewrite E in E'. apply Ok_inj in E'. subst q'. apply H, Hq.
Qed.
Lemma where_none : forall (f : R -> bool) l, (forall j, (j < length l)%nat -> f (nth j l 0) = false) -> where_ f l = [].
Proof.
  intros f l H. destruct (where_ f l) as [|i w] eqn:E; [reflexivity|]. assert (Hi : In i (where_ f l)) by (rewrite E; left; reflexivity).
  apply (where_in f l i 0) in Hi as [Hi Hf]. rewrite H in Hf by exact Hi. discriminate.
Qed.

Lemma lit_small : forall v : R, nltb v (nlit 1 100000) = if Rlt_dec v (1 / 100000) then true else false.
Proof. intros v. replace (nlit 1 100000 : R) with (1 / 100000) by (unfold nlit; rnum; rewrite ?nZ_R, ?nnat_R; cbn; lra). reflexivity. Qed.
Lemma zero_scale_none : forall v : list R, (forall j, (j < length v)%nat -> 1 / 100000 <= nth j v 0) -> zero_scale v = [].
Proof. intros v H. apply where_none. intros j Hj. rewrite lit_small. destruct (Rlt_dec _ _); auto. specialize (H j Hj). lra. Qed.
Lemma keep_none : forall p (v : list R), length v = p -> (forall j, (j < p)%nat -> nth j v 0 < 1 / 100000) -> vars_to_keep p v = [].
Proof.
  intros p v L H. unfold vars_to_keep. destruct (filter _ _) as [|j w] eqn:E; [reflexivity|]. assert (Hj : In j (j :: w)) by (left; reflexivity). rewrite <- E in Hj.
  apply filter_In in Hj as [Hj Hf]. apply in_seq in Hj. apply negb_true_iff in Hf. assert (existsb (Nat.eqb j) (zero_scale v) = true); [|congruence].
  apply existsb_exists. exists j. split; [|apply Nat.eqb_refl]. apply (where_in _ v j 0). split; [lia|]. rewrite lit_small. destruct (Rlt_dec _ _); auto. exfalso. apply n. apply H. lia.
Qed.

Lemma sp_scaled_ft : forall env P n p X y m v Z my sy Y, wf n p X -> (2 <= n)%nat -> length y = n ->
  ft (re_prep (se_rm env)) (s_centre P) (s_scale P) X = Ok (m, v, Z) -> ft (re_prep (se_rm env)) (s_centre P) (s_scale P) (map (fun u => [u]) y) = Ok (my, sy, Y) ->
  sp_scaled env P X y = Ok (m, v, Z, (my, sy, col 0 Y)).
Proof.
  intros env P n p X y m v Z my sy Y HX Hn Hy EX EY. destruct (two_fits _ _ _ n p X y _ _ _ _ _ _ HX Hn Hy EX EY) as (st1 & st2 & F1 & F2 & F3 & F4 & F5 & F6 & _).
  unfold sp_scaled. change (@n0 R Num_R) with 0. rewrite F1, F2, F3, F4, F5, F6. reflexivity.
Qed.

Lemma sp_finish_units : forall env P f k cuts keep p0 n p a b c d X Xs y ys mX sXf sX my sy st,
  unit_centre (s_centre P) -> unit_scale (s_scale P) -> (2 <= n)%nat -> wf n p X -> wf n p Xs -> length y = n -> unit_change p a b -> 
  length sX = p -> length sy = 1%nat -> (forall j, (j < p)%nat -> 0 < nth j sX 0) ->
  sp_finish env P f k cuts keep p0 (units a b X) Xs (affine c d y) ys (unit_loc a b mX) (unit_sca a sXf) (unit_sca a sX) (unit_loc [c] [d] my) (unit_sca [c] sy) st =
  match sp_finish env P f k cuts keep p0 X Xs y ys mX sXf sX my sy st with Ok m => Ok (unit_sp a b c d m) | Err e => Err e end.
Proof.
  intros env P f k cuts keep p0 n p a b c d X Xs y ys mX sXf sX my sy st Hc Hs Hn HX HXs Hy Hu LsX Lsy PX. pose proof Hu as (Ha & Hb & _).
  assert (WU : wf n p (units a b X)) by (apply units_wf; auto). assert (Hn0 : (0 < n)%nat) by lia. assert (LX : length X = n) by (eapply wf_length; eauto).
  unfold sp_finish. destruct (q_fit st) as [m|]; [|reflexivity]. cbv zeta. rewrite (wf_ncols n p Xs) by auto.
  destruct (snd (sc_fit_transform _ _ _)); [|reflexivity].
  assert (LUs : length (unit_sca a sX) = p) by (unfold unit_sca; rewrite map2_length; lia). rewrite LUs, LsX, Nat.eqb_refl. cbn [negb].
  set (beta := sn_coef m).
  change (map2 (fun sx bj : R => nmul (ndiv (nth 0 (unit_sca [c] sy) n0) sx) bj) (unit_sca a sX) beta) with (map2 (fun sx bj => nth 0 (unit_sca [c] sy) 0 / sx * bj) (unit_sca a sX) beta).
  rewrite (unit_bres p a b) by auto.
  change (map2 (fun sx bj : R => nmul (ndiv (nth 0 sy n0) sx) bj) sX beta) with (map2 (fun sx bj => nth 0 sy 0 / sx * bj) sX beta).
  set (Bres := map2 _ sX beta). rewrite (unit_matvec n p a b c X Bres) by auto. set (K := inner b (unit_coef a c Bres)).
  assert (Lyp : length (matvec X Bres) = n) by (rewrite matvec_length; auto). rewrite affine_vsub by congruence.
  assert (NE : vsub y (matvec X Bres) <> []). { intros E. apply (f_equal (@length R)) in E. rewrite vsub_length in E by congruence. cbn in E. lia. }
  assert (EC : forall ce, unit_centre ce -> match ce with CMean => vmean (affine c (d - K) (vsub y (matvec X Bres))) | CNone => n0 | _ => np_median (affine c (d - K) (vsub y (matvec X Bres))) end =
     c * match ce with CMean => vmean (vsub y (matvec X Bres)) | CNone => n0 | _ => np_median (vsub y (matvec X Bres)) end + (d - K)).
  { intros ce [->| ->]; [apply vmean_affine|apply np_median_affine]; auto. }
  rewrite (EC _ Hc). set (b0 := match s_centre P with CMean => vmean (vsub y (matvec X Bres)) | CNone => n0 | _ => np_median (vsub y (matvec X Bres)) end).
  change (fun v : R => nadd v (c * b0 + (d - K))) with (fun v : R => v + (c * b0 + (d - K))). change (fun v : R => nadd v b0) with (fun v : R => v + b0).
  rewrite affine_fit. rewrite affine_vsub by (rewrite map_length; congruence). replace (d - d) with 0 by ring.
  destruct (sp_colret_of (s_columns P) m) as [cr|]; [|reflexivity]. cbn [bind]. destruct cuts as [[cx bx] rx].
  destruct Hs as [Es|Es]; rewrite Es; f_equal; unfold unit_sp;
    cbn [sp_p sp_keep sp_coef sp_intercept sp_coef_scaled sp_intercept_scaled sp_resid sp_fitted sp_W sp_P sp_R sp_T sp_xcw sp_ycw sp_cw sp_xloc sp_yloc sp_xsca sp_ysca sp_colret sp_fun sp_ctx sp_cbx sp_crx sp_tcentre sp_tscale];
    (assert (EI : unit_icpt a b c d Bres b0 = c * b0 + (d - K)) by (unfold unit_icpt; fold K; ring)); rewrite EI; reflexivity.
Qed.
Lemma sp_estimate_units : forall env P f k keep p0 n p a b c d X Xs y ys mX sX my sy,
  unit_centre (s_centre P) -> unit_scale (s_scale P) -> (2 <= n)%nat -> wf n p X -> wf n p Xs -> length y = n -> unit_change p a b -> 0 < c ->
  length sX = p -> length sy = 1%nat -> (forall j, (j < p)%nat -> 0 < nth j sX 0) ->
  sp_estimate env P f k keep p0 (units a b X) Xs (affine c d y) ys (unit_loc a b mX) (unit_sca a sX) (unit_sca a sX) (unit_loc [c] [d] my) (unit_sca [c] sy) =
  (fst (sp_estimate env P f k keep p0 X Xs y ys mX sX sX my sy), 
   match snd (sp_estimate env P f k keep p0 X Xs y ys mX sX sX my sy) with Ok m => Ok (unit_sp a b c d m) | Err e => Err e end).
Proof.
  intros env P f k keep p0 n p a b c d X Xs y ys mX sX my sy Hc Hs Hn HX HXs Hy Hu Hc0 LsX Lsy PX. unfold sp_estimate.
  destruct (sp_start env P Xs) as [[Us rc]|e]; [|reflexivity]. destruct (sp_start_cuts env P rc) as [[[cc cb] cr]|e]; [|reflexivity]. cbv zeta.
  rewrite start_dy_units by (auto; intros ->; cbn in Hy; lia).
  destruct (sp_loop _ _ _ _ _ _ _ _ _) as [calls r]. cbn [fst snd]. f_equal. destruct r as [[st|e]|]; [|reflexivity|reflexivity]. apply (sp_finish_units env P f k _ keep p0 n p); auto.
Qed.
Definition unit_res (a b : list R) (c d : R) (r : res (sp_model R)) : res (sp_model R) := match r with Ok m => Ok (unit_sp a b c d m) | Err e => Err e end.
Lemma column_nonempty : forall n p (X : list (list R)) j, is_matrix n p X -> (0 < n)%nat -> column j X <> [].
Proof. intros n p X j [HL _] Hn E. apply (f_equal (@length R)) in E. unfold column in E. rewrite map_length in E. cbn in E. lia. Qed.
Lemma sprm_units_l : forall env P df n p a b c d X y, unit_centre (s_centre P) -> unit_scale (s_scale P) -> is_matrix n p X -> (2 <= n)%nat -> (1 <= p)%nat -> length y = n ->
  unit_change p a b -> 0 < c -> (forall j, (j < p)%nat -> visible (s_scale P) (column j X) /\ visible (s_scale P) (column j (units a b X))) -> has_spread (s_scale P) y ->
  let r := sprm_run env P df X y in let r' := sprm_run env P df (units a b X) (affine c d y) in
  fst r' = fst r /\ fst (snd r') = fst (snd r) /\ snd (snd r') = match snd (snd r) with Ok m => Ok (unit_sp a b c d m) | Err e => Err e end.
Proof.
  intros env P df n p a b c d X y Hc Hs HX Hn Hp Hy Hu Hc0 HV Hsy. pose proof Hu as (Ha & Hb & _). assert (Hn0 : (0 < n)%nat) by lia.
  assert (LX : length X = n) by (eapply wf_length; eauto). assert (WU : wf n p (units a b X)) by (apply units_wf; auto). assert (LU : length (units a b X) = n) by (eapply wf_length; eauto).
  assert (Wy : wf n 1 (map (fun v => [v]) y)) by (rewrite <- Hy; apply as_column_wf).
  assert (HsX : forall j, (j < p)%nat -> has_spread (s_scale P) (column j X)) by (intros j Hj; apply visible_spread; auto; [apply (column_nonempty n p); auto|apply HV; auto]).
  destruct (ft_units (re_prep (se_rm env)) (s_centre P) (s_scale P) n p a b X HX Hn Hp Hc Hs Hu HsX) as (mX & sX & Xs & EX & EX' & LmX & LsX & WX0 & PX).
  destruct (ft_units (re_prep (se_rm env)) (s_centre P) (s_scale P) n 1 [c] [d] (map (fun v => [v]) y) Wy Hn (le_n 1) Hc Hs (unit_change1 c d Hc0)) as (my & sy & Ys & EY & EY' & Lmy & Lsy & WY0 & PY).
  { intros j Hj. assert (j = 0)%nat by lia. subst j. rewrite column_single. exact Hsy. }
  rewrite <- column_units in EY'.
  assert (Z1 : zero_scale sX = []).
  { apply zero_scale_none. intros j Hj. rewrite LsX in Hj. apply (visible_sca (s_scale P) (column j X)); auto; [apply (column_nonempty n p); auto|apply HV; auto|apply PX; auto]. }
  assert (Z2 : zero_scale (unit_sca a sX) = []).
  { apply zero_scale_none. intros j Hj. assert (Hj' : (j < p)%nat) by (unfold unit_sca in Hj; rewrite map2_length in Hj; lia).
    destruct (ft_columns (re_prep (se_rm env)) (s_centre P) (s_scale P) n p (units a b X) WU Hn Hp Hc Hs) as (m' & v' & Z' & E' & _ & _ & _ & HC' & _).
    rewrite EX' in E'. apply Ok_inj in E'. injection E' as _ Ev _. rewrite Ev.
    apply (visible_sca (s_scale P) (column j (units a b X))); auto; [apply (column_nonempty n p); auto|apply HV; auto|apply HC'; auto]. }
  intros r r'. unfold r, r', sprm_run. clear r r'. rewrite affine_length, LU, LX, Hy. rewrite (wf_ncols n p X), (wf_ncols n p (units a b X)) by auto.
  destruct (sp_check P n p) as [[f k]|e]; [|repeat split; reflexivity]. destruct (sp_columns P df) as [c1|e]; [|repeat split; reflexivity].
  rewrite Nat.eqb_refl. cbn [negb]. destruct (Nat.eqb_spec n 1) as [|_]; [lia|]. cbn [andb]. cbv zeta.
  assert (EP : forall M, match s_scale (set_columns P c1) with STau2 => if existsb (fun v : R => neqb v n0) (mad M) then set_scale (set_columns P c1) SMad else set_columns P c1 | _ => set_columns P c1 end = set_columns P c1).
  { intros M. cbn [set_columns s_scale]. destruct Hs as [E|E]; rewrite E; reflexivity. }
  rewrite !EP. clear EP.
  rewrite (sp_scaled_ft env (set_columns P c1) n p X y mX sX Xs my sy Ys) by auto.
  rewrite (sp_scaled_ft env (set_columns P c1) n p (units a b X) (affine c d y) _ _ _ _ _ _ WU Hn ltac:(rewrite affine_length; auto) EX' EY').
  assert (EK : vars_to_keep p (unit_sca a sX) = vars_to_keep p sX) by (unfold vars_to_keep; rewrite Z1, Z2; reflexivity). rewrite EK.
  unfold sp_drop. rewrite Z1, Z2. destruct (_ <? _)%nat; [repeat split; reflexivity|].
  rewrite (sp_estimate_units env _ f k _ p n p) by (auto; intros j Hj; apply PX; auto). cbn [fst snd]. repeat split; reflexivity.
Qed.

(** some change of units makes every fit fail *)
Lemma nth_le_sum : forall (v : list R) j, (forall i, (i < length v)%nat -> 0 <= nth i v 0) -> nth j v 0 <= sum_of v.
Proof.
  induction v as [|x v IH]; intros j H; [destruct j; cbn; lra|]. assert (H0 : 0 <= x) by (apply (H 0%nat); cbn; lia).
  assert (HS : forall i, (i < length v)%nat -> 0 <= nth i v 0) by (intros i Hi; apply (H (S i)); cbn; lia).
  cbn [sum_of fold_right]. fold (sum_of v). destruct j as [|j]; cbn [nth].
  - assert (0 <= sum_of v). { destruct v as [|z v]; [cbn; lra|]. pose proof (IH 0%nat HS). specialize (HS 0%nat ltac:(cbn; lia)). lra. } lra.
  - pose proof (IH j HS). lra.
Qed.
Lemma col_sca_nonneg : forall s v q, unit_scale s -> col_sca s 0 v = Ok q -> 0 <= q.
Proof. intros s v q [->| ->] E; cbn [col_sca] in E; [destruct (Req_EM_T 0 0); [|lra]|]; apply Ok_inj in E; subst q; [apply sqrt_pos|apply vmadR_nonneg]. Qed.
Lemma sprm_units_refuted_l : forall env P df n p X y m, unit_centre (s_centre P) -> unit_scale (s_scale P) -> s_columns P = ColBool false -> is_matrix n p X -> (2 <= n)%nat -> (1 <= p)%nat ->
  sprm_fit env P df X y = Ok m ->
  exists a, unit_change p a (repeat 0 p) /\ sprm_fit env P df (units a (repeat 0 p) X) y = Err MyException.
Proof.
  intros env P df n p X y m Hc Hs HC HX Hn Hp E. assert (Hn0 : (0 < n)%nat) by lia. assert (LX : length X = n) by (eapply wf_length; eauto).
  destruct (ft_columns (re_prep (se_rm env)) (s_centre P) (s_scale P) n p X HX Hn Hp Hc Hs) as (mX & sX & Xs & EX & LmX & LsX & _ & PX & _).
  assert (NN : forall j, (j < length sX)%nat -> 0 <= nth j sX 0) by (intros j Hj; rewrite LsX in Hj; apply (col_sca_nonneg (s_scale P) (col j X)); auto; apply PX; auto).
  set (S := sum_of sX). assert (HS : 0 <= S). { unfold S. pose proof (nth_le_sum sX 0 NN). specialize (NN 0%nat ltac:(lia)). lra. }
  set (t := 1 / 100000 * / (1 + S)). assert (Ht : 0 < t) by (unfold t; apply Rmult_lt_0_compat; [lra|apply Rinv_0_lt_compat; lra]).
  assert (HtS : forall j, t * nth j sX 0 < 1 / 100000).
  { intros j. pose proof (nth_le_sum sX j NN) as Hj. fold S in Hj. apply Rle_lt_trans with (t * S); [apply Rmult_le_compat_l; lra|]. unfold t.
    apply Rmult_lt_reg_r with (1 + S); [lra|]. replace (1 / 100000 * / (1 + S) * S * (1 + S)) with (1 / 100000 * S * (/ (1 + S) * (1 + S))) by ring. rewrite Rinv_l by lra. lra. }
  set (a := repeat t p). set (b := repeat 0 p). assert (La : length a = p) by apply repeat_length. assert (Lb : length b = p) by apply repeat_length.
  assert (Hu : unit_change p a b). { repeat split; auto. apply Forall_forall. intros x Hx. apply repeat_spec in Hx. subst x. exact Ht. }
  exists a. split; [exact Hu|]. assert (WU : wf n p (units a b X)) by (apply units_wf; auto). assert (LU : length (units a b X) = n) by (eapply wf_length; eauto).
  destruct (ft_columns (re_prep (se_rm env)) (s_centre P) (s_scale P) n p (units a b X) WU Hn Hp Hc Hs) as (mU & sU & Us & EU & LmU & LsU & _ & PU & _).
  assert (SU : forall j, (j < p)%nat -> nth j sU 0 < 1 / 100000).
  { intros j Hj. destruct (PU j Hj) as [_ H1]. destruct (PX j Hj) as [_ H2]. rewrite (col_units n p) in H1 by auto.
    rewrite (col_sca_affine (s_scale P) 0 (col j X) (nth j sX 0)) in H1 by (auto; try lra; apply (column_nonempty n p); auto). apply Ok_inj in H1.
    unfold a in H1. rewrite (nth_indep _ 0 t) in H1 by (rewrite repeat_length; auto). rewrite nth_repeat in H1. rewrite Rabs_right in H1 by lra. rewrite <- H1. apply HtS. }
  revert E. unfold sprm_fit, sprm_run. rewrite LU, LX. rewrite (wf_ncols n p X), (wf_ncols n p (units a b X)) by auto.
  destruct (sp_check P n p) as [[f k]|e] eqn:EC; [|intros E; discriminate]. unfold sp_columns. rewrite HC.
  destruct (Nat.eqb_spec (length y) n) as [Hy|]; cbn [negb]; [|intros E; discriminate]. destruct (Nat.eqb_spec n 1) as [|_]; [lia|]. cbn [andb]. cbv zeta. intros _.
  assert (Hk : (1 <= k)%nat).
  { unfold sp_check in EC. destruct (s_ncomp P) as [z|]; [|discriminate]. destruct (_ || _); [discriminate|]. destruct (Z.leb_spec z 0); [discriminate|]. destruct (negb _); [discriminate|].
    destruct (_ || _); [discriminate|]. destruct (rm_check _); [|discriminate]. cbn [bind] in EC. apply Ok_inj in EC. injection EC as _ <-. lia. }
  assert (EP : match s_scale (set_columns P (ColBool false)) with STau2 => if existsb (fun v : R => neqb v n0) (mad (units a b X)) then set_scale (set_columns P (ColBool false)) SMad else set_columns P (ColBool false) | _ => set_columns P (ColBool false) end = set_columns P (ColBool false)).
  { cbn [set_columns s_scale]. destruct Hs as [E|E]; rewrite E; reflexivity. }
  rewrite EP. clear EP.
  assert (Wy : wf n 1 (map (fun v => [v]) y)) by (rewrite <- Hy; apply as_column_wf).
  destruct (ft_columns (re_prep (se_rm env)) (s_centre P) (s_scale P) n 1 _ Wy Hn (le_n 1) Hc Hs) as (my & sy & Ys & EY & _).
  rewrite (sp_scaled_ft env (set_columns P (ColBool false)) n p (units a b X) y mU sU Us my sy Ys) by auto.
  assert (ED : sp_drop (ColBool false) p sU = Ok (ColBool false)) by (unfold sp_drop; destruct (zero_scale sU); reflexivity). rewrite ED.
  rewrite (keep_none p sU) by auto. cbn [length]. destruct (Nat.ltb_spec 0 k); [reflexivity|lia].
Qed.
(** new data in the new units *)
Lemma sel_all : forall p r, length r = p -> M_Sprm.sel (seq 0 p) r = r :> list R.
Proof.
  intros p r H. unfold M_Sprm.sel. apply (list_ext _ _ 0); [rewrite map_length, seq_length; auto|]. intros j Hj. rewrite map_length, seq_length in Hj.
  rewrite (nth_map_lt _ _ _ 0%nat) by (rewrite seq_length; auto). rewrite seq_nth by auto. reflexivity.
Qed.
Lemma map_sel_all : forall q p X, wf q p X -> map (M_Sprm.sel (seq 0 p)) X = X :> list (list R).
Proof. intros q p X [_ HF]. rewrite <- (map_id X) at 2. apply map_ext_in. intros r Hr. rewrite Forall_forall in HF. apply sel_all; auto. Qed.
Lemma sprm_new_units_l : forall env P df n p a b c d X y m q Xn, unit_centre (s_centre P) -> unit_scale (s_scale P) -> is_matrix n p X -> (2 <= n)%nat -> (1 <= p)%nat ->
  unit_change p a b -> (forall j, (j < p)%nat -> visible (s_scale P) (column j X)) -> is_matrix q p Xn -> (1 <= q)%nat ->
  sprm_fit env P df X y = Ok m ->
  sprm_predict (unit_sp a b c d m) (A2 (units a b Xn)) = match sprm_predict m (A2 Xn) with Ok v => Ok (affine c d v) | Err e => Err e end /\
  sprm_transform (unit_sp a b c d m) (A2 (units a b Xn)) = sprm_transform m (A2 Xn) /\
  sprm_weightnewx env (unit_sp a b c d m) (A2 (units a b Xn)) = sprm_weightnewx env m (A2 Xn).
Proof.
  intros env P df n p a b c d X y m q Xn Hc Hs HX Hn Hp Hu HV HXn Hq E. pose proof Hu as (Ha & Hb & _). assert (Hn0 : (0 < n)%nat) by lia.
  assert (LX : length X = n) by (eapply wf_length; eauto). assert (WU : wf q p (units a b Xn)) by (apply units_wf; auto).
  assert (F : sp_keep m = seq 0 p /\ length (sp_xloc m) = p /\ length (sp_xsca m) = p /\ forall j, (j < p)%nat -> 0 < nth j (sp_xsca m) 0).
  { unfold sprm_fit in E. destruct (sprm_run env P df X y) as [P' [calls r]] eqn:ER. cbn [snd] in E. subst r.
    apply run_inv in ER as (f & k & c1 & c2 & mX & sX & Xs & my & sy & ys & X' & Xs' & sX' & _ & _ & Hy & _ & E4 & _ & _ & _ & _ & E6).
    rewrite (wf_ncols n p X) in E6 by auto.
    apply estimate_inv in E6 as (Us & rc & cc & cb & cq & st & _ & _ & _ & E7). apply finish_inv in E7 as (fit & _ & _ & F). cbv zeta in F.
    destruct F as (_ & Fk & _ & _ & _ & _ & _ & _ & _ & _ & _ & _ & Fl & Fs & _). rewrite Fk, Fl, Fs. clear Fk Fl Fs.
    assert (EP : tau_fix (set_columns P c1) X = set_columns P c1) by (unfold tau_fix; cbn [set_columns s_scale]; destruct Hs as [Es|Es]; rewrite Es; reflexivity). rewrite EP in E4.
    assert (Wy : wf n 1 (map (fun v => [v]) y)) by (rewrite <- LX, <- Hy; apply as_column_wf).
    destruct (ft_columns (re_prep (se_rm env)) (s_centre P) (s_scale P) n p X HX Hn Hp Hc Hs) as (mX0 & sX0 & Xs0 & EX & LmX & LsX & _ & PX & _).
    destruct (ft_columns (re_prep (se_rm env)) (s_centre P) (s_scale P) n 1 _ Wy Hn (le_n 1) Hc Hs) as (my0 & sy0 & Ys0 & EY & _).
    rewrite (sp_scaled_ft env (set_columns P c1) n p X y mX0 sX0 Xs0 my0 sy0 Ys0) in E4 by (auto; congruence). apply Ok_inj in E4. injection E4 as <- <- <- <- <- <-.
    assert (VS : forall j, (j < p)%nat -> 1 / 100000 <= nth j sX0 0) by (intros j Hj; apply (visible_sca (s_scale P) (column j X)); auto; [apply (column_nonempty n p); auto|apply PX; auto]).
    repeat split; auto.
    - unfold vars_to_keep. rewrite zero_scale_none by (intros j Hj; apply VS; lia). cbn [existsb]. clear. induction (seq 0 p) as [|i l IH]; [reflexivity|]. cbn [filter negb]. f_equal. exact IH.
    - intros j Hj. specialize (VS j Hj). lra. }
  clear E. destruct F as (Fk & Fl & Fs & FP).
  assert (ET : sprm_transform (unit_sp a b c d m) (A2 (units a b Xn)) = sprm_transform m (A2 Xn)).
  { unfold sprm_transform, predict_check_input. rewrite (wf_ncols q p Xn), (wf_ncols q p (units a b Xn)) by auto. cbn [unit_sp sp_p sp_keep sp_xloc sp_xsca sp_R].
    destruct (sp_p m) as [p'|]; [|reflexivity]. destruct (negb (p =? p')%nat); [reflexivity|]. rewrite Fk. rewrite (map_sel_all q p Xn), (map_sel_all q p (units a b Xn)) by auto.
    assert (L1 : length (unit_loc a b (sp_xloc m)) = p) by (apply unit_row_length; auto). assert (L2 : length (unit_sca a (sp_xsca m)) = p) by (unfold unit_sca; rewrite map2_length; lia).
    rewrite !sel_all by auto. rewrite (unit_scale_data a b p q) by auto. reflexivity. }
  split; [|split; [exact ET|]].
  - unfold sprm_predict, predict_check_input. rewrite (wf_ncols q p Xn), (wf_ncols q p (units a b Xn)) by auto. cbn [unit_sp sp_p sp_keep sp_coef sp_intercept].
    destruct (sp_p m) as [p'|]; [|reflexivity]. destruct (negb (p =? p')%nat); [reflexivity|]. rewrite Fk. rewrite (map_sel_all q p Xn), (map_sel_all q p (units a b Xn)) by auto.
    f_equal. apply (unit_predict a b c d p q); auto.
  - unfold sprm_weightnewx. rewrite ET. reflexivity.
Qed.
