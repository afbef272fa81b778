(** Bias-corrected, trimmed and median statistics through fit. *)

From Coq Require Import String Reals List Arith ZArith Bool Lia Lra Psatz Permutation Sorted.
Import ListNotations.
From Verif Require Import Num Err Vec VecR OrdR L_Mat L_Lin S_Stats L_Stats M_Utils M_Preproc L_Radial L_Preproc M_Dicomo S_Dicomo S_Dicomo2 L_Dicomo L_Dicomo2 L_Dicomo5 L_Dicomo6 L_Dicomo7 L_Energy L_Dicomo8.
Import List. Open Scope R_scope.

(** ** the fast distance correlation *)
Lemma fit_dcorr_fast : forall dc s kw n p q X Y, dcor_exact dc -> configured s "distance" "corr" "mean" -> no_trimming kw -> biascorr kw = false ->
  fast_mode kw -> is_matrix n p X -> is_matrix n q Y -> (0 < n)%nat -> k_y kw = Some (A2 Y) -> k_order kw = None ->
  fit_result dc s (A2 X) kw = Ok (sqrt (dcov_sq n X Y) / (sqrt (sqrt (dcov_sq n X X)) * sqrt (sqrt (dcov_sq n Y Y)))).
Proof.
  intros dc s kw n p q X Y Hdc [C1 [C2 C3]] Ht Hb Hf HX HY Hn Hy Ho. pose proof (proj1 (is_matrix_wf _ _ _) HX) as HX'.
  destruct s as [e m c mo xm ym co]; cbn [d_est d_mode d_center] in C1, C2, C3; subst e m c.
  unfold fit_result, dicomo_fit. rewrite (no_trimming_t kw Ht). dsimp. cbn [alen]. rewrite (mat_ne n p X HX' Hn). rewrite (fast_test kw Hf), Ho. rnum. rewrite Reqb_refl. dsimp.
  unfold fit_fast. rewrite (bias_dflt kw Hb). dsimp. cbn [arows]. rewrite (Hdc n p p X X HX HX Hn). dsimp. unfold get_y. rewrite Hy. dsimp.
  rewrite (Hdc n p q X Y HX HY Hn). dsimp. rewrite (Hdc n q q Y Y HY HY Hn). dsimp. unfold fit_tail. dsimp. reflexivity.
Qed.
Lemma C99_corr_l : forall dc s kw kw' n p q X Y, dcor_exact dc -> no_trimming kw -> biascorr kw = false -> k_metric kw = None -> naive_mode kw ->
  no_trimming kw' -> biascorr kw' = false -> fast_mode kw' -> is_matrix n p X -> is_matrix n q Y -> (0 < n)%nat ->
  configured s "distance" "corr" "mean" -> k_y kw = Some (A2 Y) -> k_y kw' = Some (A2 Y) -> k_order kw = None -> k_order kw' = None ->
  fit_result dc s (A2 X) kw' = fit_result dc s (A2 X) kw.
Proof.
  intros dc s kw kw' n p q X Y Hdc T1 B1 M1 N1 T2 B2 F2 HX HY Hn Hc Y1 Y2 O1 O2.
  rewrite (fit_dcorr_fast dc s kw' n p q X Y), (fit_dcorr dc s kw n p q X Y) by auto.
  rewrite !Rabs_pos_eq by (first [apply dcov_sq_self_nonneg; auto | eapply dcov_sq_nonneg; eauto]). reflexivity.
Qed.

(** ** bias correction *)
Lemma u_centred_eq : forall n d i j, u_centred n d i j = ucentred n d i j.
Proof.
  intros. unfold u_centred, ucentred. destruct (i =? j)%nat; [reflexivity|]. rewrite !sum_below_sumn. f_equal. f_equal. apply sumn_ext. intros. apply sum_below_sumn.
Qed.
Lemma u_inner_sumn : forall n d e, u_inner n d e = sumn n (fun i => sumn n (fun j => ucentred n d i j * ucentred n e i j)) / (INR n * (INR n - 3)).
Proof.
  intros. unfold u_inner. rewrite sum_below_sumn. f_equal. apply sumn_ext. intros i Hi. rewrite sum_below_sumn. apply sumn_ext. intros j Hj. rewrite !u_centred_eq. reflexivity.
Qed.
Lemma dmc_u : forall n p X, wf n p X -> (3 <= n)%nat -> distance_matrix_centered euclid X "mean" 0 true = Ok (famat n (ucentred n (rowdist X)), Z.of_nat n).
Proof. intros n p X HX Hn. unfold distance_matrix_centered. rewrite (dist_matrix_euclid n p X HX). apply double_center_u; auto. Qed.
Lemma distance_moment_u : forall alias n f g nn opt, (alias = true -> f = g) -> (4 <= n)%nat ->
  distance_moment alias (famat n f) (famat n g) nn "mean" 0 true 2 opt =
  Ok (famat n f, famat n g, sqrt (Rabs (sumn n (fun i => sumn n (fun j => f i j * g i j)) / (INR n * (INR n - 3))))).
Proof.
  intros alias n f g nn opt Ha Hn. unfold distance_moment. change (2 <? 2)%nat with false. cbv iota zeta. change (1 - 1)%nat with 0%nat. cbn [Nat.iter nat_rect].
  rewrite !famat_length, Nat.eqb_refl. cbn [negb String.eqb Ascii.eqb Bool.eqb]. rnum. rewrite Reqb_refl.
  assert (E : (if alias then famat n f else famat n g) = famat n g) by (destruct alias; [rewrite (Ha eq_refl)|]; reflexivity). rewrite E.
  assert (E3 : (if alias then famat n g else famat n f) = famat n f) by (destruct alias; [rewrite (Ha eq_refl)|]; reflexivity). rewrite E3.
  rewrite famat_mul, dtrim_mean_0. cbn [bind Nat.eqb Nat.even]. rewrite famat_mean. f_equal. f_equal. change (1 / IZR (Z.pos (Pos.of_nat 2))) with (1 / 2).
  rewrite Rpowr_half by apply Rabs_pos. f_equal. f_equal. rewrite !nZ_R, !mult_IZR, minus_IZR, <- INR_IZR_INZ. assert (4 <= INR n) by (apply (le_INR 4) in Hn; cbn in Hn; lra). field. lra.
Qed.
Section U.
  Context (dc : dcor_env R).
  Ltac startu s kw :=
    let C1 := fresh in let C2 := fresh in let C3 := fresh in
    intros [C1 [C2 C3]] Ht Hb Hm; destruct s as [e m c mo xm ym co]; cbn [d_est d_mode d_center] in C1, C2, C3; subst e m c;
    unfold fit_result, dicomo_fit; rewrite (no_trimming_t kw Ht); dsimp; change (biascorr kw) with (dflt (k_bias kw) false) in Hb.
  Lemma fit_uvar : forall s kw n p X, configured s "distance" "var" "mean" -> no_trimming kw -> biascorr kw = true -> k_metric kw = None ->
    naive_mode kw -> is_matrix n p X -> (4 <= n)%nat -> fit_result dc s (A2 X) kw = Ok (sqrt (Rabs (ucov_sq n X X))).
  Proof.
    intros s kw n p X Hc Ht Hb Hm Hnv HX Hn. apply is_matrix_wf in HX. revert Hc Ht Hb Hm. startu s kw.
    cbn [alen]. rewrite (mat_ne n p X HX) by lia. rewrite (naive_test kw Hnv). dsimp.
    unfold fit_distance. rewrite (no_trimming_t kw Ht), Hb, Hm. dsimp. cbn [arows].
    rewrite (dmc_u n p X HX) by lia. dsimp. rewrite distance_moment_u by auto. dsimp. unfold fit_tail. dsimp.
    unfold ucov_sq. rewrite u_inner_sumn. reflexivity.
  Qed.
  Lemma fit_ucov : forall s kw n p q X Y, configured s "distance" "cov" "mean" -> no_trimming kw -> biascorr kw = true -> k_metric kw = None ->
    naive_mode kw -> is_matrix n p X -> is_matrix n q Y -> (4 <= n)%nat -> k_y kw = Some (A2 Y) ->
    fit_result dc s (A2 X) kw = Ok (sqrt (Rabs (ucov_sq n X Y))).
  Proof.
    intros s kw n p q X Y Hc Ht Hb Hm Hnv HX HY Hn Hy. apply is_matrix_wf in HX. apply is_matrix_wf in HY. revert Hc Ht Hb Hm. startu s kw.
    cbn [alen]. rewrite (mat_ne n p X HX) by lia. rewrite (naive_test kw Hnv). dsimp.
    unfold fit_distance. rewrite (no_trimming_t kw Ht), Hb, Hm. dsimp. cbn [arows].
    rewrite (dmc_u n p X HX) by lia. dsimp. unfold get_y. rewrite Hy. dsimp. cbn [alen].
    rewrite (mat_ne n q Y HY) by lia. rewrite (wf_length n p X HX), (wf_length n q Y HY), Nat.eqb_refl. dsimp. cbn [prows]. dsimp.
    rewrite (dmc_u n q Y HY) by lia. dsimp. rewrite distance_moment_u by (auto; discriminate). dsimp. unfold fit_tail. dsimp.
    unfold ucov_sq. rewrite u_inner_sumn. reflexivity.
  Qed.
  Lemma fit_ucorr : forall s kw n p q X Y, configured s "distance" "corr" "mean" -> no_trimming kw -> biascorr kw = true -> k_metric kw = None ->
    naive_mode kw -> is_matrix n p X -> is_matrix n q Y -> (4 <= n)%nat -> k_y kw = Some (A2 Y) -> k_order kw = None ->
    fit_result dc s (A2 X) kw = Ok (sqrt (Rabs (ucov_sq n X Y)) / (sqrt (sqrt (Rabs (ucov_sq n X X))) * sqrt (sqrt (Rabs (ucov_sq n Y Y))))).
  Proof.
    intros s kw n p q X Y Hc Ht Hb Hm Hnv HX HY Hn Hy Ho. apply is_matrix_wf in HX. apply is_matrix_wf in HY. revert Hc Ht Hb Hm. startu s kw.
    cbn [alen]. rewrite (mat_ne n p X HX) by lia. rewrite (naive_test kw Hnv). rewrite Ho. dsimp.
    unfold fit_distance. rewrite (no_trimming_t kw Ht), Hb, Hm. dsimp. cbn [arows].
    rewrite (dmc_u n p X HX) by lia. dsimp. rewrite distance_moment_u by auto. dsimp.
    unfold get_y. rewrite Hy. dsimp. cbn [alen].
    rewrite (mat_ne n q Y HY) by lia. rewrite (wf_length n p X HX), (wf_length n q Y HY), Nat.eqb_refl. dsimp. cbn [prows]. dsimp.
    rewrite (dmc_u n q Y HY) by lia. dsimp. rewrite !distance_moment_u by (auto; discriminate). dsimp.
    rewrite !distance_moment_u by (auto; discriminate). dsimp. unfold fit_tail. dsimp.
    unfold ucov_sq. rewrite !u_inner_sumn. reflexivity.
  Qed.
  Lemma fit_ucov_fast : forall s kw n p q X Y, dcor_u_exact dc -> configured s "distance" "cov" "mean" -> no_trimming kw -> biascorr kw = true ->
    fast_mode kw -> is_matrix n p X -> is_matrix n q Y -> (4 <= n)%nat -> k_y kw = Some (A2 Y) ->
    fit_result dc s (A2 X) kw = Ok (sqrt (ucov_sq n X Y)).
  Proof.
    intros s kw n p q X Y Hdc Hc Ht Hb Hnv HX HY Hn Hy. pose proof (proj1 (is_matrix_wf _ _ _) HX) as HX'. assert (Hm : True) by auto. revert Hc Ht Hb Hm. startu s kw.
    cbn [alen]. rewrite (mat_ne n p X HX') by lia. rewrite (fast_test kw Hnv). rnum. rewrite Reqb_refl. dsimp.
    unfold fit_fast. rewrite Hb. dsimp. cbn [arows]. unfold get_y. rewrite Hy. dsimp.
    rewrite (Hdc n p q X Y HX HY Hn). dsimp. unfold fit_tail. dsimp. reflexivity.
  Qed.
End U.
Lemma ucov_sym : forall n X Y, ucov_sq n X Y = ucov_sq n Y X.
Proof. intros. unfold ucov_sq. rewrite !u_inner_sumn. f_equal. apply sumn_ext. intros. apply sumn_ext. intros. ring. Qed.
Lemma ucov_self_nonneg : forall n X, (4 <= n)%nat -> 0 <= ucov_sq n X X.
Proof.
  intros n X Hn. unfold ucov_sq. rewrite u_inner_sumn. assert (4 <= INR n) by (apply (le_INR 4) in Hn; cbn in Hn; lra).
  apply Rmult_le_pos; [|apply Rlt_le, Rinv_0_lt_compat; nra]. apply sumn_nonneg. intros. apply sumn_nonneg. intros. nra.
Qed.
Lemma ucov_cs : forall n X Y, (4 <= n)%nat -> ucov_sq n X Y * ucov_sq n X Y <= ucov_sq n X X * ucov_sq n Y Y.
Proof.
  intros n X Y Hn. unfold ucov_sq. rewrite !u_inner_sumn. assert (4 <= INR n) by (apply (le_INR 4) in Hn; cbn in Hn; lra).
  pose proof (double_cs n (ucentred n (rowdist X)) (ucentred n (rowdist Y))) as H1. set (c := INR n * (INR n - 3)). assert (Hc : 0 < c) by (unfold c; nra).
  unfold Rdiv. assert (0 <= / c * / c) by (apply Rmult_le_pos; apply Rlt_le, Rinv_0_lt_compat; auto).
  match goal with |- ?a * / c * (?a * / c) <= ?b * / c * (?d * / c) => replace (a * / c * (a * / c)) with (a * a * (/ c * / c)) by ring; replace (b * / c * (d * / c)) with (b * d * (/ c * / c)) by ring end.
  apply Rmult_le_compat_r; auto.
Qed.
(** two independent designs of four points have a negative estimate *)
Lemma rowdist1 : forall (x : list R) i j, (i < length x)%nat -> (j < length x)%nat -> rowdist (map (fun v => [v]) x) i j = Rabs (nth i x 0 - nth j x 0).
Proof. intros x i j Hi Hj. unfold rowdist. rewrite !(nth_map_lt _ _ _ 0) by lia. unfold edist. cbn. rewrite <- sqrt_Rsqr_abs. f_equal. unfold Rsqr. ring. Qed.
Lemma ucov_negative : ucov_sq 4 [[0];[0];[1];[1]] [[0];[1];[0];[1]] = - (1/3).
Proof.
  change [[0];[0];[1];[1]] with (map (fun v => [v]) [0;0;1;1]). change [[0];[1];[0];[1]] with (map (fun v => [v]) [0;1;0;1]).
  assert (EA : forall i j, (i < 4)%nat -> (j < 4)%nat -> rowdist (map (fun v => [v]) [0;0;1;1]) i j = nth j (nth i [[0;0;1;1];[0;0;1;1];[1;1;0;0];[1;1;0;0]] []) 0).
  { intros i j Hi Hj. rewrite rowdist1 by (cbn; lia). destruct i as [|[|[|[|i]]]]; try lia; destruct j as [|[|[|[|j]]]]; try lia; cbn; unfold Rabs; destruct (Rcase_abs _); lra. }
  assert (EB : forall i j, (i < 4)%nat -> (j < 4)%nat -> rowdist (map (fun v => [v]) [0;1;0;1]) i j = nth j (nth i [[0;1;0;1];[1;0;1;0];[0;1;0;1];[1;0;1;0]] []) 0).
  { intros i j Hi Hj. rewrite rowdist1 by (cbn; lia). destruct i as [|[|[|[|i]]]]; try lia; destruct j as [|[|[|[|j]]]]; try lia; cbn; unfold Rabs; destruct (Rcase_abs _); lra. }
  unfold ucov_sq, u_inner, u_centred. cbn [sum_below Nat.eqb]. rewrite !EA, !EB by lia. cbn [nth]. cbn [INR]. lra.
Qed.

(** ** the bias-corrected martingale difference divergence *)
Lemma dd_u_value : forall n p X ya y, wf n p X -> (4 <= n)%nat -> sample ya y -> length y = n ->
  difference_divergence X ya "mean" 0 true = Ok (umdd_sq n X y).
Proof.
  intros n p X ya y HX Hn Hy Hl. unfold difference_divergence. rewrite (dmc_u n p X HX) by lia. cbn [bind].
  rewrite (flat_sample ya y Hy), (singleton_dist y n Hl).
  assert (E : map (map (fun d => nmul (nlit 1 2) (nsqr d))) (famat n (fun i j => Rabs (nth i y 0 - nth j y 0))) = famat n (fun i j => (nth i y 0 - nth j y 0) ^ 2 / 2)).
  { unfold famat. rewrite map_map. apply map_ext. intros i. rewrite map_map. apply map_ext. intros j. unfold nsqr. rnum.
    change (Rabs (nth i y 0 - nth j y 0) * Rabs (nth i y 0 - nth j y 0)) with (Rsqr (Rabs (nth i y 0 - nth j y 0))). rewrite <- Rsqr_abs. unfold Rsqr. lra. }
  rewrite E, double_center_u by lia. cbn [bind fst]. unfold U_inner. rewrite !famat_length, Nat.eqb_refl. cbn [negb]. unfold inner_slice.
  rnum. rewrite Reqb_refl. rewrite famat_mul, famat_sum. rewrite (concat_len n n) by apply famat_wf.
  rewrite nnat_R, mult_INR, sqrt_square by apply pos_INR. rewrite nnat_R. f_equal. unfold umdd_sq. rewrite u_inner_sumn. 
  replace (INR 3) with 3 by (cbn; lra). assert (4 <= INR n) by (apply (le_INR 4) in Hn; cbn in Hn; lra). field. lra.
Qed.
