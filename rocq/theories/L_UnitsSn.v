(** Change of units: snipls. *)

From Coq Require Import Reals List Arith ZArith Bool Lia Lra Permutation.
Import ListNotations.
From Verif Require Import Num Err Vec VecR OrdR L_Mat L_Lin L_Matmul S_Stats L_Stats S_Dicomo S_Units M_Utils M_Preproc M_Robcent M_Plot M_Snipls
  L_Scaling L_Scaling2 L_Snipls L_Snipls2 L_OrderSc L_OrderSn L_Units.
Open Scope R_scope.

Lemma affine_vsub : forall c d k (u v : list R), length u = length v -> vsub (affine c d u) (affine c k v) = affine c (d - k) (vsub u v).
Proof.
  intros c d k. unfold vsub, affine. induction u as [|x u IH]; intros [|y v] H; try discriminate; [reflexivity|]. cbn [map map2]. f_equal; [rnum; ring|]. apply IH. cbn in H. lia.
Qed.
Lemma sn_intercept_affine : forall ce c k (r : list R), unit_centre ce -> r <> [] -> snipls_intercept ce (affine c k r) = c * snipls_intercept ce r + k.
Proof.
  intros ce c k r [->| ->] Hr; unfold snipls_intercept, nanmean, nanmedian; rewrite !nonnan_R; unfold affine; [apply vmean_affine|apply vmedian_affine]; auto.
Qed.
Lemma affine_fit : forall c d k i (yp : list R), map (fun v => v + (c * i + (d - k))) (affine c k yp) = affine c d (map (fun v => v + i) yp).
Proof. intros. unfold affine. rewrite !map_map. apply map_ext. intros. ring. Qed.

Lemma snipls_units_l : forall env inv eta k ce s n p a b c d X y, unit_centre ce -> unit_scale s -> is_matrix n p X -> (2 <= n)%nat -> (1 <= p)%nat -> length y = n ->
  unit_change p a b -> 0 < c -> (forall j, (j < p)%nat -> has_spread s (column j X)) -> has_spread s y ->
  snipls_fit env inv eta k ce s (units a b X) (affine c d y) =
  match snipls_fit env inv eta k ce s X y with Ok f => Ok (unit_model a b c d f) | Err e => Err e end.
Proof.
  intros env inv eta k ce s n p a b c d X y Hc Hs HX Hn Hp Hy Hu Hc0 HsX Hsy. pose proof Hu as (Ha & Hb & _). assert (Hn0 : (0 < n)%nat) by lia.
  assert (LX : length X = n) by (eapply wf_length; eauto).
  assert (WU : wf n p (units a b X)) by (apply units_wf; auto). assert (LU : length (units a b X) = n) by (eapply wf_length; eauto).
  assert (Wy : wf n 1 (map (fun v => [v]) y)) by (rewrite <- Hy; apply as_column_wf).
  assert (WUy : wf n 1 (units [c] [d] (map (fun v => [v]) y))) by (apply units_wf; auto).
  unfold snipls_fit. rewrite affine_length, LU, LX, Hy, Nat.eqb_refl. rewrite (wf_ncols n p X), (wf_ncols n p (units a b X)) by auto. cbn [negb].
  destruct ((n =? 1)%nat && (2 <=? p)%nat); [reflexivity|].
  rewrite column_units. rewrite (scaled_ft env ce s n p X), (scaled_ft env ce s n p (units a b X)) by auto. rewrite (scaled_ft env ce s n 1 (map (fun v => [v]) y)), (scaled_ft env ce s n 1 (units [c] [d] _)) by auto.
  destruct (ft_units env ce s n p a b X HX Hn Hp Hc Hs Hu HsX) as (mX & sX & X0 & EX & EX' & LmX & LsX & WX0 & PX).
  destruct (ft_units env ce s n 1 [c] [d] (map (fun v => [v]) y) Wy Hn (le_n 1) Hc Hs (unit_change1 c d Hc0)) as (my & sy & Y0 & EY & EY' & Lmy & Lsy & WY0 & PY).
  { intros j Hj. assert (j = 0)%nat by lia. subst j. rewrite column_single. exact Hsy. }
  rewrite EX, EX'. cbn [bind]. rewrite EY, EY'. cbn [bind]. cbv zeta.
  set (comps := snipls_loop _ _ _ _ _ _ _ _).
  match goal with |- bind ?e _ = match bind ?e _ with _ => _ end => assert (LB : forall B Rm T, e = Ok (B, Rm, T) -> length B = p); [|destruct e as [[[B Rm] T]|e']; [|reflexivity]] end.
  { intros B Rm T E. destruct comps as [|cp cs].
    - apply Ok_inj in E. injection E as <- _ _. apply repeat_length.
    - destruct (inv (matmul _ _)); [|discriminate]. cbn [bind] in E. destruct (inv (matmul _ _)); [|discriminate]. cbn [bind] in E. apply Ok_inj in E. injection E as <- _ _. rewrite matvec_length.
      unfold of_cols. rewrite map_length, seq_length. reflexivity. }
  specialize (LB _ _ _ eq_refl). cbn [bind].
  assert (LUs : length (unit_sca a sX) = p) by (unfold unit_sca; rewrite map2_length; lia). rewrite LUs, LsX, Nat.eqb_refl. cbn [negb].
  rewrite !manynan_R, !vanynan_R. cbn [orb]. rewrite !xw_R.
  change (map2 (fun sx bj : R => nmul (ndiv (nth 0 (unit_sca [c] sy) n0) sx) bj) (unit_sca a sX) B) with (map2 (fun sx bj => nth 0 (unit_sca [c] sy) 0 / sx * bj) (unit_sca a sX) B).
  rewrite (unit_bres p a b) by (auto; intros j Hj; apply PX; auto).
  change (map2 (fun sx bj : R => nmul (ndiv (nth 0 sy n0) sx) bj) sX B) with (map2 (fun sx bj => nth 0 sy 0 / sx * bj) sX B).
  set (Bres := map2 _ sX B). assert (LBr : length Bres = p) by (unfold Bres; rewrite map2_length; lia).
  rewrite (unit_matvec n p a b c X Bres) by auto. set (K := inner b (unit_coef a c Bres)).
  assert (Lyp : length (matvec X Bres) = n) by (rewrite matvec_length; auto).
  rewrite affine_vsub by congruence. 
  assert (NE : vsub y (matvec X Bres) <> []). { intros E. apply (f_equal (@length R)) in E. rewrite vsub_length in E by congruence. cbn in E. lia. }
  rewrite sn_intercept_affine by auto. set (b0 := snipls_intercept ce _).
  change (fun v : R => nadd v (nadd (nmul c b0) (nsub d K))) with (fun v : R => v + (c * b0 + (d - K))). change (fun v : R => nadd v b0) with (fun v : R => v + b0).
  change (fun v : R => nadd v (c * b0 + (d - K))) with (fun v : R => v + (c * b0 + (d - K))).
  rewrite affine_fit. rewrite affine_vsub by (rewrite map_length; congruence). unfold Rminus at 2. rewrite Rplus_opp_r.
  unfold unit_model. cbn [sn_eta sn_ncomp sn_p sn_W sn_P sn_C sn_T sn_coef sn_coef_scaled sn_intercept sn_xev sn_yev sn_fitted sn_resid sn_R sn_retained sn_colret sn_xloc sn_yloc sn_xsca sn_ysca].
  assert (EI : unit_icpt a b c d Bres b0 = c * b0 + (d - K)) by (unfold unit_icpt; fold K; ring). rewrite EI. reflexivity.
Qed.

(** new data in the new units *)
Lemma unit_predict : forall a b c d p m Xn beta i, unit_change p a b -> wf m p Xn ->
  map (fun v => v + unit_icpt a b c d beta i) (matvec (units a b Xn) (unit_coef a c beta)) = affine c d (map (fun v => v + i) (matvec Xn beta)).
Proof.
  intros a b c d p m Xn beta i Hu HX. rewrite (unit_matvec m p) by auto. unfold unit_icpt, affine. rewrite !map_map. apply map_ext. intros v. ring.
Qed.
Lemma unit_scale_data : forall a b p n Xn m s, unit_change p a b -> wf n p Xn -> (1 <= n)%nat -> (1 <= p)%nat -> length m = p -> length s = p -> (forall j, (j < p)%nat -> 0 < nth j s 0) ->
  scale_data (units a b Xn) (unit_loc a b m) (unit_sca a s) = scale_data Xn m s.
Proof.
  intros a b p n Xn m s Hu HX Hn Hp Lm Ls HP. pose proof Hu as (Ha & Hb & _).
  assert (WU : wf n p (units a b Xn)) by (apply units_wf; auto).
  assert (L1 : length (unit_loc a b m) = p) by (apply unit_row_length; auto). assert (L2 : length (unit_sca a s) = p) by (unfold unit_sca; rewrite map2_length; lia).
  destruct (scale_data_cells n p Xn m s HX Hn Hp Lm Ls) as (Z & -> & WZ & HZ). destruct (scale_data_cells n p _ _ _ WU Hn Hp L1 L2) as (Z' & -> & WZ' & HZ').
  f_equal. apply (mat_ext n p); auto. intros i j Hi Hj. rewrite HZ, HZ' by auto. rewrite (mget_units n p) by auto. unfold unit_loc, unit_sca.
  change (nth j (map2 Rplus (map2 Rmult a m) b) 0) with (nth j (unit_row a b m) 0). rewrite (nth_unit_row p) by auto. rewrite (nth_map2 Rmult _ _ j 0 0 0) by lia.
  pose proof (HP j Hj). pose proof (unit_factor p a b j Hu Hj). assert (0 < nth j a 0 * nth j s 0) by (apply Rmult_lt_0_compat; auto).
  destruct (Req_EM_T (nth j a 0 * nth j s 0) 0); [lra|]. destruct (Req_EM_T (nth j s 0) 0); [lra|]. field. lra.
Qed.
Lemma snipls_new_units_l : forall env inv eta k ce s n p a b c d X y m Xn f, unit_centre ce -> unit_scale s -> is_matrix n p X -> (2 <= n)%nat -> (1 <= p)%nat -> length y = n ->
  unit_change p a b -> 0 < c -> (forall j, (j < p)%nat -> has_spread s (column j X)) -> has_spread s y -> is_matrix m p Xn -> (1 <= m)%nat ->
  snipls_fit env inv eta k ce s X y = Ok f ->
  exists f' v, snipls_fit env inv eta k ce s (units a b X) (affine c d y) = Ok f' /\
    snipls_predict f (A2 Xn) = Ok v /\ snipls_predict f' (A2 (units a b Xn)) = Ok (affine c d v) /\
    snipls_transform f' (A2 (units a b Xn)) = snipls_transform f (A2 Xn).
Proof.
  intros env inv eta k ce s n p a b c d X y m Xn f Hc Hs HX Hn Hp Hy Hu Hc0 HsX Hsy HXn Hm E. pose proof Hu as (Ha & Hb & _).
  exists (unit_model a b c d f). rewrite (snipls_units_l env inv eta k ce s n p) by auto. rewrite E.
  assert (F : sn_p f = p /\ length (sn_coef f) = p /\ length (sn_xloc f) = p /\ length (sn_xsca f) = p /\ forall j, (j < p)%nat -> 0 < nth j (sn_xsca f) 0).
  { assert (LX : length X = n) by (eapply wf_length; eauto). unfold snipls_fit in E. rewrite (wf_ncols n p X) in E by (auto; lia).
    destruct ((length X =? 1)%nat && (2 <=? p)%nat); [discriminate|]. destruct (negb (length X =? length y)%nat); [discriminate|].
    rewrite (scaled_ft env ce s n p X) in E by auto. destruct (ft_units env ce s n p a b X HX Hn Hp Hc Hs Hu HsX) as (mX & sX & X0 & EX & _ & LmX & LsX & WX0 & PX). rewrite EX in E. cbn [bind] in E.
    destruct (scaled env ce s (map (fun v => [v]) y)) as [[[my sy] Y0]|]; [|discriminate]. cbn [bind] in E. cbv zeta in E. set (comps := snipls_loop _ _ _ _ _ _ _ _) in E.
    match type of E with bind ?e _ = _ => assert (LB : forall B Rm T, e = Ok (B, Rm, T) -> length B = p); [|destruct e as [[[B Rm] T]|e']; [|discriminate]] end.
    { intros B Rm T E0. destruct comps as [|cp cs].
      - apply Ok_inj in E0. injection E0 as <- _ _. apply repeat_length.
      - destruct (inv (matmul _ _)); [|discriminate]. cbn [bind] in E0. destruct (inv (matmul _ _)); [|discriminate]. cbn [bind] in E0. apply Ok_inj in E0. injection E0 as <- _ _. rewrite matvec_length.
        unfold of_cols. rewrite map_length, seq_length. reflexivity. }
    specialize (LB _ _ _ eq_refl). cbn [bind] in E. rewrite LsX, Nat.eqb_refl in E. cbn [negb] in E. apply Ok_inj in E. subst f. cbn [sn_p sn_coef sn_xloc sn_xsca].
    split; [reflexivity|]. split; [rewrite map2_length; lia|]. repeat split; auto. apply PX. }
  clear E. destruct F as (Fp & Fc & Fl & Fs & FP).
  assert (WU : wf m p (units a b Xn)) by (apply units_wf; auto).
  exists (map (fun v => v + sn_intercept f) (matvec Xn (sn_coef f))). split; [reflexivity|].
  unfold snipls_predict, snipls_transform, predict_check_input. rewrite (wf_ncols m p Xn), (wf_ncols m p (units a b Xn)) by auto.
  cbn [unit_model sn_p sn_coef sn_intercept sn_xloc sn_xsca sn_R]. rewrite Fp, Nat.eqb_refl. cbn [negb]. split; [reflexivity|]. split.
  - f_equal. apply (unit_predict a b c d p m); auto.
  - rewrite (unit_scale_data a b p m) by auto. reflexivity.
Qed.
