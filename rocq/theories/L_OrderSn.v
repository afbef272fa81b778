(** Order of the cases: scaling and snipls. *)

From Coq Require Import Reals List Arith ZArith Bool Lia Lra Permutation.
Import ListNotations.
From Verif Require Import Num Err Vec VecR OrdR L_Mat L_Lin L_Matmul S_Stats L_Stats S_Order L_Order M_Utils M_Preproc M_Robcent M_Plot M_Snipls
  L_Scaling L_Scaling2 L_Snipls L_Snipls2 L_OrderSc.
Open Scope R_scope.

Lemma scaled_ft : forall env c s n p X, wf n p X -> (2 <= n)%nat -> scaled env c s X = ft env c s X.
Proof.
  intros env c s n p X HX Hn. unfold scaled. change (@n0 R Num_R) with 0. destruct (sc_fit_transform_ft env (new_scaler c s 0) (A2 X) eq_refl) as [E1 E2].
  rewrite (check_input_id n p) in E1, E2 by auto. cbn [new_scaler sc_center sc_scale] in E1, E2.
  destruct (sc_fit_transform env (new_scaler c s 0) (A2 X)) as [st r]. cbn [snd fst] in E1, E2. subst r.
  destruct (ft env c s X) as [[[m v] Z]|e]; cbn [ft_data]; [|reflexivity]. destruct E2 as (-> & -> & _). reflexivity.
Qed.
Lemma reorder_scaled : forall env c s n p o X, documented_centre c -> documented_scale s -> l1opt_order_free env -> case_order n o -> wf n p X -> (2 <= n)%nat ->
  scaled env c s (reorder o X) = match scaled env c s X with Ok (m, v, Z) => Ok (m, v, reorder o Z) | Err e => Err e end.
Proof.
  intros env c s n p o X Hc Hs He Ho HX Hn. rewrite !(scaled_ft env c s n p) by (auto; apply reorder_wf; auto). rewrite (ft_reorder env c s n p) by (auto; lia). reflexivity.
Qed.

(** one component *)
Definition reorder_comp (o : list nat) (c : scomp R) : scomp R :=
  mk_scomp (c_w c) (reorder o (c_t c)) (c_q c) (c_p c) (c_c c) (c_xev c) (c_yev c) (c_good c) (reorder o (c_X c)) (reorder o (c_y c)).
Lemma reorder_vnorm : forall n o (u : list R), case_order n o -> length u = n -> vnorm (reorder o u) = vnorm u.
Proof. intros n o u Ho Hu. unfold vnorm. rewrite (reorder_sqnorm n) by auto. reflexivity. Qed.
Lemma reorder_step : forall nan eta ssx ssy n p o (X : list (list R)) y old, case_order n o -> wf n p X -> (0 < n)%nat -> length y = n ->
  snipls_step nan eta ssx ssy (reorder o X) (reorder o y) old = option_map (reorder_comp o) (snipls_step nan eta ssx ssy X y old).
Proof.
  intros nan eta ssx ssy n p o X y old Ho HX Hn Hy. unfold snipls_step. cbv zeta.
  assert (LX : length X = n) by (eapply wf_length; eauto).
  rewrite !xty_R, !xw_R, !dotv_R, !reorder_matvec. rewrite (reorder_tmatvec n p _ _ y) by auto.
  match goal with |- match ?g with [] => _ | _ => _ end = _ => destruct g as [|g0 gs]; [reflexivity|] end.
  cbn [option_map]. f_equal. unfold reorder_comp. cbn [c_w c_t c_q c_p c_c c_xev c_yev c_good c_X c_y].
  match goal with |- context [matvec X ?w] => set (t := matvec X w) end.
  assert (Lt : length t = n) by (unfold t; rewrite matvec_length; auto).
  rewrite (reorder_vnorm n) by auto. rewrite (reorder_tmatvec n p) by auto. rewrite (reorder_dot n) by auto.
  rewrite reorder_outer. rewrite (reorder_msub n) by (auto; unfold outer; rewrite map_length; auto).
  f_equal. unfold vscale. rewrite <- reorder_map. apply (reorder_vsub n); auto. rewrite map_length. auto.
Qed.
Lemma step_out_wf : forall nan eta ssx ssy n p (X : list (list R)) y old c, wf n p X -> (0 < n)%nat -> (0 < p)%nat -> length y = n ->
  snipls_step nan eta ssx ssy X y old = Some c -> wf n p (c_X c) /\ length (c_y c) = n /\ length (c_t c) = n.
Proof.
  intros nan eta ssx ssy n p X y old c HX Hn Hp Hy E. pose proof (step_spec nan eta ssx ssy n p X y old c HX Hn Hp Hy E) as F.
  destruct (step_lengths eta ssx ssy n p X y old c HX Hn Hy F) as (L1 & L2 & L3 & L4 & L5 & L6). auto.
Qed.
Lemma reorder_loop : forall nan eta ssx ssy n p o, case_order n o -> (0 < n)%nat -> (0 < p)%nat -> forall k (X : list (list R)) y old, wf n p X -> length y = n ->
  snipls_loop nan eta ssx ssy k (reorder o X) (reorder o y) old = map (reorder_comp o) (snipls_loop nan eta ssx ssy k X y old).
Proof.
  intros nan eta ssx ssy n p o Ho Hn Hp. induction k as [|k IH]; intros X y old HX Hy; [reflexivity|]. cbn [snipls_loop].
  rewrite (reorder_step nan eta ssx ssy n p) by auto. destruct (snipls_step nan eta ssx ssy X y old) as [c|] eqn:E; [|reflexivity]. cbn [option_map map]. f_equal.
  destruct (step_out_wf nan eta ssx ssy n p X y old c HX Hn Hp Hy E) as (A1 & A2 & _). unfold reorder_comp at 1 2 3. cbn [c_X c_y c_good]. apply IH; auto.
Qed.
Lemma loop_t_length : forall nan eta ssx ssy n p, (0 < n)%nat -> (0 < p)%nat -> forall k (X : list (list R)) y old, wf n p X -> length y = n ->
  Forall (fun t => length t = n) (map c_t (snipls_loop nan eta ssx ssy k X y old)).
Proof.
  intros nan eta ssx ssy n p Hn Hp. induction k as [|k IH]; intros X y old HX Hy; [constructor|]. cbn [snipls_loop].
  destruct (snipls_step nan eta ssx ssy X y old) as [c|] eqn:E; [|constructor]. destruct (step_out_wf nan eta ssx ssy n p X y old c HX Hn Hp Hy E) as (A1 & A2 & A3).
  cbn [map]. constructor; auto.
Qed.

(** the fit *)
Lemma ssx_perm : forall (X X' : list (list R)), Permutation X X' -> vsum (map nansum (map (map nsqr) X)) = vsum (map nansum (map (map nsqr) X')).
Proof. intros. apply vsum_perm. do 2 apply Permutation_map. auto. Qed.
Lemma nansum_R : forall l : list R, nansum l = vsum l.
Proof. intros. unfold nansum. rewrite nonnan_R. reflexivity. Qed.
Lemma snipls_intercept_perm : forall c (r r' : list R), Permutation r r' -> snipls_intercept c r = snipls_intercept c r'.
Proof.
  intros c r r' HP. unfold snipls_intercept, nanmean, nanmedian. rewrite !nonnan_R. destruct c; auto using vmean_perm, vmedian_perm.
Qed.
Lemma zeros_reorder : forall n k o, case_order n o -> reorder o (of_cols n (repeat (vzeros n) k)) = of_cols n (repeat (vzeros n) k) :> list (list R).
Proof.
  intros n k o Ho. rewrite <- (reorder_of_cols n) by (auto; apply Forall_forall; intros z Hz; apply repeat_spec in Hz; subst z; apply repeat_length). f_equal.
  induction k as [|k IH]; [reflexivity|]. cbn [repeat map]. f_equal; [|exact IH]. unfold vzeros. apply (reorder_repeat n); auto.
Qed.
Lemma snipls_order_l : forall env inv eta k c s n p o X y, documented_centre c -> documented_scale s -> l1opt_order_free env -> is_matrix n p X -> (2 <= n)%nat -> (1 <= p)%nat -> length y = n -> case_order n o ->
  snipls_fit env inv eta k c s (reorder o X) (reorder o y) =
  match snipls_fit env inv eta k c s X y with Ok f => Ok (reorder_model o f) | Err e => Err e end.
Proof.
  intros env inv eta k c s n p o X y Hc Hs He HX Hn Hp Hy Ho. assert (Hn0 : (0 < n)%nat) by lia.
  assert (LX : length X = n) by (eapply wf_length; eauto).
  assert (WO : wf n p (reorder o X)) by (apply reorder_wf; auto).
  unfold snipls_fit. rewrite !(reorder_length n) by auto. rewrite (wf_ncols n p X), (wf_ncols n p (reorder o X)) by auto. rewrite LX, Hy, Nat.eqb_refl. cbn [negb].
  destruct ((n =? 1)%nat && (2 <=? p)%nat); [reflexivity|].
  rewrite (reorder_scaled env c s n p) by auto. destruct (scaled env c s X) as [[[mX sX] X0]|e] eqn:EX; [|reflexivity]. cbn [bind].
  assert (Wy : wf n 1 (map (fun v => [v]) y)) by (rewrite <- Hy; apply as_column_wf).
  change (fun v : R => [v]) with (fun v : R => [v]). rewrite <- reorder_map. rewrite (reorder_scaled env c s n 1) by auto.
  destruct (scaled env c s (map (fun v => [v]) y)) as [[[my sy] Y0]|e] eqn:EY; [|reflexivity]. cbn [bind].
  assert (WX0 : wf n p X0) by (apply (scaled_wf env c s n p X); auto; eapply scaled_inv; eauto).
  assert (WY0 : wf n 1 Y0) by (apply (scaled_wf env c s n 1 (map (fun v => [v]) y)); auto; eapply scaled_inv; eauto).
  rewrite reorder_col. set (y0 := col 0 Y0). assert (Ly0 : length y0 = n) by (unfold y0; rewrite col_length; eapply wf_length; eauto).
  rewrite !manynan_R, !vanynan_R. cbn [orb]. rewrite !xty_R. rewrite (reorder_gram n p p) by auto. rewrite (reorder_tmatvec n p) by auto.
  rewrite <- (ssx_perm X0 (reorder o X0)) by (apply (reorder_perm n); auto; eapply wf_length; eauto).
  rewrite !nansum_R. rewrite <- (vsum_perm (map nsqr y0) (map nsqr (reorder o y0))) by (apply Permutation_map, (reorder_perm n); auto).
  rewrite (reorder_loop false eta _ _ n p) by auto. set (comps := snipls_loop _ _ _ _ _ _ _ _).
  assert (FT : Forall (fun t => length t = n) (map c_t comps)) by (apply (loop_t_length false eta _ _ n p); auto).
  rewrite !map_map. cbn [reorder_comp c_w c_t c_q c_p c_c c_xev c_yev c_good]. 
  replace (map (fun x => reorder o (c_t x)) comps) with (map (reorder o) (map c_t comps)) by (rewrite map_map; reflexivity). rewrite (reorder_of_cols n) by auto.
  assert (EM : forall {T} (a b : T), match map (reorder_comp o) comps with [] => a | _ => b end = match comps with [] => a | _ => b end) by (intros; destruct comps; reflexivity).
  assert (EB : forall (W Pm S : list (list R)) v (T0 T1 : list (list R)), T1 = reorder o T0 -> 
    bind (inv (matmul (transpose Pm) W)) (fun PWi => bind (inv (matmul (matmul (transpose W) S) W)) (fun Gi => Ok (matvec W (matvec Gi (matvec (transpose W) v)), matmul W PWi, T1))) =
    match bind (inv (matmul (transpose Pm) W)) (fun PWi => bind (inv (matmul (matmul (transpose W) S) W)) (fun Gi => Ok (matvec W (matvec Gi (matvec (transpose W) v)), matmul W PWi, T0))) with Ok (a, b, t) => Ok (a, b, reorder o t) | Err e => Err e end).
  { intros W Pm S v T0 T1 ->. destruct (inv (matmul (transpose Pm) W)); [|reflexivity]. cbn [bind]. destruct (inv (matmul (matmul (transpose W) S) W)); reflexivity. }
  rewrite !EM. rewrite EB with (T0 := of_cols n (map c_t comps)) by reflexivity.
  assert (EZ : of_cols n (repeat (vzeros n) k) = reorder o (of_cols n (repeat (vzeros n) k)) :> list (list R)).
  { symmetry. apply zeros_reorder. auto. }
  match goal with |- bind ?a _ = match bind ?b _ with _ => _ end => 
    assert (EAB : a = match b with Ok (x1, x2, t) => Ok (x1, x2, reorder o t) | Err e => Err e end) by (destruct comps; [cbn; rewrite <- EZ; reflexivity|reflexivity]);
    rewrite EAB; destruct b as [[[B Rm] T]|e]; [|reflexivity] end.
  cbn [bind]. destruct (negb (length sX =? p)%nat); [reflexivity|].
  rewrite !xw_R, !reorder_matvec. set (Bres := map2 _ sX B).
  assert (LB : length (matvec X Bres) = n) by (rewrite matvec_length; auto).
  rewrite (reorder_vsub n) by auto.
  rewrite <- (snipls_intercept_perm c (vsub y (matvec X Bres)) (reorder o (vsub y (matvec X Bres)))) by (apply (reorder_perm n); auto; rewrite vsub_length; congruence).
  set (b0 := snipls_intercept c _). rewrite <- reorder_map. rewrite (reorder_vsub n) by (auto; rewrite map_length; auto).
  unfold reorder_model. cbn [sn_eta sn_ncomp sn_p sn_W sn_P sn_C sn_T sn_coef sn_coef_scaled sn_intercept sn_xev sn_yev sn_fitted sn_resid sn_R sn_retained sn_colret sn_xloc sn_yloc sn_xsca sn_ysca].
  destruct comps; reflexivity.
Qed.
