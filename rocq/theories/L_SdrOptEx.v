(** A solver which answers only when the given point is a constrained minimum, and
    data for which it answers: used in the examples of T_SdrOpt *)

From Coq Require Import String Reals List Arith ZArith Bool Lra Lia ClassicalDedekindReals Classical.
Import List. Import ListNotations.
From Verif Require Import Num Err Vec VecR S_Stats S_Regress L_Mat L_Lin L_Matmul L_Stats M_Utils M_Preproc M_Robcent L_Scaling M_Dicomo S_Dicomo M_Ipopt M_SdrUtils M_Sudire S_Sudire S_SdrDim S_SdrOpt
  L_Dicomo5 L_Dicomo10 L_Sdr L_SdrMat L_SdrKer L_SdrEig L_SdrPow L_SdrMeth L_SdrFit L_SdrFit2 L_SdrFit3 L_SdrCov L_SdrEst L_SdrMore L_SdrEx L_SdrOpt.
Open Scope R_scope.

Definition em (P : Prop) : {P} + {~ P} := match sig_not_dec P with left H => left (NNPP P H) | right H => right H end.
Definition sure {D : Type} (cand : list R) (_ : D) (f : list R -> res R) (cons : list (list R -> res R)) (x0 : list R) : res (list R) :=
  if em (length cand = length x0 /\ constrained_minimum f cons cand) then Ok cand else Err ValueError.
Lemma sure_optimal : forall D cand, optimal (@sure D cand).
Proof. intros D cand d f cons x0 x E. unfold sure in E. destruct (em _) as [H|]; [|discriminate]. apply Ok_inj in E. subst x. exact H. Qed.
Lemma sure_ok : forall D cand (d : D) f cons x0, length cand = length x0 -> constrained_minimum f cons cand -> sure cand d f cons x0 = Ok cand.
Proof. intros D cand d f cons x0 HL HC. unfold sure. destruct (em _) as [|N]; [reflexivity|exfalso; apply N; auto]. Qed.

Definition y5e : list R := [0; 0; 0; 0; 1].
Lemma X5_scores : forall a b, matmul X5 [[a]; [b]] = map (fun v => [v]) [a + b; a - b; - a + b; - a - b; 0].
Proof. intros a b. unfold X5. cbn. rnum. repeat (apply (f_equal2 cons); [apply (f_equal (fun z => [z])); ring|]). reflexivity. Qed.
Lemma abs_scale : forall c x, 0 <= c -> Rabs (c * x) = c * Rabs x.
Proof. intros. rewrite Rabs_mult, (Rabs_pos_eq c) by auto. reflexivity. Qed.
Definition dtab (p q u v : R) : list (list R) :=
  [[0; 2*q; 2*p; 2*u; u]; [2*q; 0; 2*v; 2*p; v]; [2*p; 2*v; 0; 2*q; v]; [2*u; 2*p; 2*q; 0; u]; [u; v; v; u; 0]].
Lemma X5_dist : forall a b i j, (i < 5)%nat -> (j < 5)%nat ->
  rowdist (matmul X5 [[a]; [b]]) i j = nth j (nth i (dtab (Rabs a) (Rabs b) (Rabs (a + b)) (Rabs (a - b))) []) 0.
Proof.
  intros a b i j Hi Hj. rewrite X5_scores, rowdist1 by (cbn; lia).
  destruct i as [|[|[|[|[|i]]]]]; try lia; destruct j as [|[|[|[|[|j]]]]]; try lia; cbn [nth dtab];
    first [match goal with |- Rabs ?x = 0 => replace x with 0 by ring; apply Rabs_R0 end
          | rewrite <- (abs_scale 2) by lra; first [apply f_equal; ring | rewrite <- Rabs_Ropp; apply f_equal; ring]
          | apply f_equal; ring | rewrite <- Rabs_Ropp; apply f_equal; ring].
Qed.
Lemma y5e_dist : forall i j, (i < 5)%nat -> (j < 5)%nat ->
  rowdist (map (fun v => [v]) y5e) i j = nth j (nth i [[0;0;0;0;1];[0;0;0;0;1];[0;0;0;0;1];[0;0;0;0;1];[1;1;1;1;0]] []) 0.
Proof.
  intros i j Hi Hj. rewrite rowdist1 by (cbn; lia). unfold y5e.
  destruct i as [|[|[|[|[|i]]]]]; try lia; destruct j as [|[|[|[|[|j]]]]]; try lia; cbn [nth]; unfold Rabs; destruct (Rcase_abs _); lra.
Qed.
Lemma X5_dcov : forall a b, dcov_sq 5 (matmul X5 [[a]; [b]]) (map (fun v => [v]) y5e) = (24 * (Rabs (a + b) + Rabs (a - b)) - 16 * (Rabs a + Rabs b)) / 625.
Proof.
  intros a b. unfold dcov_sq.
  set (F := fun i j => nth j (nth i (dtab (Rabs a) (Rabs b) (Rabs (a + b)) (Rabs (a - b))) []) 0).
  set (G := fun i j => nth j (nth i [[0;0;0;0;1];[0;0;0;0;1];[0;0;0;0;1];[0;0;0;0;1];[1;1;1;1;0]] []) 0).
  rewrite (sum_below_ext 5 _ (fun i => sum_below 5 (fun j => dcentred 5 F i j * dcentred 5 G i j))).
  2: { intros i Hi. apply sum_below_ext. intros j Hj. rewrite (dcentred_ext 5 _ F) by (auto; intros; apply X5_dist; auto). rewrite (dcentred_ext 5 (rowdist _) G) by (auto; intros; apply y5e_dist; auto). reflexivity. }
  unfold dcentred, F, G, dtab. cbn [sum_below nth].
  replace (INR 5) with 5 by (cbn; lra). generalize (Rabs a) (Rabs b) (Rabs (a + b)) (Rabs (a - b)). intros. field.
Qed.
Lemma X5_mdd : forall a b, mdd_sq 5 (matmul X5 [[a]; [b]]) y5e = (12 * (Rabs (a + b) + Rabs (a - b)) - 8 * (Rabs a + Rabs b)) / 625.
Proof.
  intros a b. unfold mdd_sq. assert (EM : mean_of y5e = 1 / 5) by (unfold mean_of, sum_of, y5e; cbn; field). rewrite EM.
  cbn [sum_below]. rewrite !X5_dist by lia. unfold dtab, y5e. cbn [nth].
  replace (INR 5) with 5 by (cbn; lra). generalize (Rabs a) (Rabs b) (Rabs (a + b)) (Rabs (a - b)). intros. field.
Qed.
Lemma circle_bound : forall a b, a * a + b * b = 1 -> 3 * (Rabs (a + b) + Rabs (a - b)) - 2 * (Rabs a + Rabs b) <= 4.
Proof.
  intros a b H. assert (Ha : Rabs a <= 1) by (apply Rabs_le; nra). assert (Hb : Rabs b <= 1) by (apply Rabs_le; nra).
  unfold Rabs in *. repeat destruct (Rcase_abs _); lra.
Qed.
Lemma admissible_circle : forall a b, admissible (constraints false X5 1) [a; b] <-> a * a + b * b = 1.
Proof.
  intros a b. assert (WB : wf 2 1 [[a]; [b]]) by (split; [reflexivity|repeat constructor]).
  assert (EC : const_xscale [a; b] X5 1 0 0 = Ok (a * a + b * b - 1)).
  { replace (const_xscale [a; b] X5 1 0 0) with (const_xscale (flatF [[a]; [b]]) X5 1 0 0) by reflexivity. rewrite (const_xscale_ok 5 2 1 X5 [[a]; [b]] 0 0) by (auto; try lia; apply X5_wf).
    f_equal. unfold sumn. cbn [seq map]. rewrite !X5_cov_entry by lia. unfold delta, mget. cbn. ring. }
  unfold admissible, constraints. cbn [seq map concat app In]. split.
  - intros H. specialize (H _ (or_introl eq_refl)). cbv beta iota in H. rewrite EC in H. apply Ok_inj in H. lra.
  - intros H c [<-|[]]. rewrite EC. f_equal. lra.
Qed.
Definition a5 (mc : list R -> list R -> R) (bias : bool) : sargs R := mk_sargs X5 y5e 1 0 "mean" mc bias.
Lemma sqrt_bound : forall x y, x <= y -> - 10 * sqrt y <= - 10 * sqrt x.
Proof. intros x y H. assert (sqrt x <= sqrt y) by (apply sqrt_le_1_alt; auto). lra. Qed.
Lemma two_list : forall z : list R, length z = 2%nat -> exists a b, z = [a; b].
Proof. intros [|a [|b [|? ?]]] H; try discriminate. eauto. Qed.
Lemma e1_min_dcov : constrained_minimum (fun b => dcov_trim b (a5 euclid false)) (constraints false X5 1) [1; 0].
Proof.
  split; [apply admissible_circle; ring|]. intros z w Lz Az Ez. destruct (two_list z Lz) as [a [b ->]]. apply admissible_circle in Az.
  assert (V : forall a b, dcov_trim [a; b] (a5 euclid false) = Ok (- 10 * sqrt (dcov_sq 5 (matmul X5 [[a]; [b]]) (map (fun v => [v]) y5e)))).
  { intros a' b'. change [a'; b'] with (flatF [[a']; [b']]). apply (objective_values 5 2 1 X5 [[a']; [b']] y5e (a5 euclid false)); try reflexivity; try lia; [exact X5_wf|split; [reflexivity|repeat constructor]]. }
  rewrite V in Ez. apply Ok_inj in Ez. subst w. rewrite V. eexists. split; [reflexivity|]. apply sqrt_bound. rewrite !X5_dcov.
  pose proof (circle_bound a b Az). replace (Rabs (1 + 0)) with 1 by (rewrite Rplus_0_r, Rabs_R1; reflexivity). replace (Rabs (1 - 0)) with 1 by (rewrite Rminus_0_r, Rabs_R1; reflexivity). rewrite Rabs_R1, Rabs_R0. lra.
Qed.
Lemma e1_min_mdd : forall mc, constrained_minimum (fun b => mdd_trim b (a5 mc false)) (constraints false X5 1) [1; 0].
Proof.
  intros mc. split; [apply admissible_circle; ring|]. intros z w Lz Az Ez. destruct (two_list z Lz) as [a [b ->]]. apply admissible_circle in Az.
  assert (V : forall a b, mdd_trim [a; b] (a5 mc false) = Ok (- 10 * sqrt (mdd_sq 5 (matmul X5 [[a]; [b]]) y5e))).
  { intros a' b'. change [a'; b'] with (flatF [[a']; [b']]). apply (objective_values 5 2 1 X5 [[a']; [b']] y5e (a5 mc false)); try reflexivity; try lia; [exact X5_wf|split; [reflexivity|repeat constructor]]. }
  rewrite V in Ez. apply Ok_inj in Ez. subst w. rewrite V. eexists. split; [reflexivity|]. apply sqrt_bound. rewrite !X5_mdd.
  pose proof (circle_bound a b Az). replace (Rabs (1 + 0)) with 1 by (rewrite Rplus_0_r, Rabs_R1; reflexivity). replace (Rabs (1 - 0)) with 1 by (rewrite Rminus_0_r, Rabs_R1; reflexivity). rewrite Rabs_R1, Rabs_R0. lra.
Qed.
(** the fit, for the two methods *)
Lemma ex_fit_sure : forall ols d meth, (forall M v, exists b, ols M v = Ok b) -> meth = MDcov \/ meth = MMdd ->
  exists st' m, sd_fit (ex_env inv_id (sure [1; 0]) ols) (mk_ss (ex_prm meth 1 false false) None (Some [1; 0]) None None d) X5 (A1 y5e) euclid false = (st', Ok m) /\ sm_P m = [[1]; [0]].
Proof.
  intros ols d meth Ho Hm. unfold sd_fit. cbn [ss_prm ex_prm sp_copy sp_ncomp ss_start ss_cons ss_args ss_dict sd_whitening sp_whiten].
  pose proof X5_wf as W. rewrite (wf_length _ _ _ W), (wf_ncols 5 2 X5 W) by lia. rewrite Nat.min_r by lia. cbn [Nat.ltb Nat.leb].
  destruct X5_isqrt as [N EN].
  assert (EPr : exists pd, sd_prepare (ex_env inv_id (sure [1; 0]) ols) (ex_prm meth 1 false false) X5 = Ok pd /\ pd_Xs pd = X5 /\ pd_V pd = None).
  { unfold sd_prepare. rewrite (wf_ncols 5 2 X5 W) by lia. cbn [Nat.eqb]. cbv zeta. unfold ex_env at 1. cbn [se_isqrt]. rewrite EN. cbn [bind].
    cbn [ex_prm sp_compress sp_center_data sp_scale_data sp_whiten]. rewrite andb_false_r. cbn [bind]. eexists. split; [reflexivity|]. auto. }
  destruct EPr as [pd [EPr [EX EV]]]. unfold ex_prm in EPr |- *. rewrite EPr. cbn [bind].
  assert (EY : sd_response 5 (A1 y5e) = Ok y5e) by reflexivity.
  assert (EU : unvec 1 [1; 0] = Ok [[1]; [0]]) by reflexivity.
  assert (WP : wf 2 1 [[1]; [0]]) by (split; [reflexivity|repeat constructor]).
  rewrite EY. cbn [bind].
  match goal with |- context [sd_direct ?e ?prm ?X ?y] => assert (ED : sd_direct e prm X y = None) by (unfold sd_direct; destruct Hm as [-> | ->]; reflexivity); rewrite ED; clear ED end.
  match goal with |- context [sd_optimise ?e ?st ?X ?y ?N2 ?mc ?b] =>
    assert (EO : exists st1, sd_optimise e st X y N2 mc b = (st1, Ok [[1]; [0]])) end.
  { unfold sd_optimise. cbn [ss_start ss_prm ss_cons ss_args ss_dict ss_X0 sp_scale_data sp_ncomp sp_trim sp_center center_name]. rewrite EX. cbv zeta.
    unfold ex_env. cbn [se_ipopt]. fold (a5 euclid false).
    rewrite (sure_ok _ [1; 0] d (fun b => dcov_trim b (a5 euclid false)) (constraints false X5 1) [1; 0] eq_refl e1_min_dcov). cbn [bind]. rewrite EU. cbn [bind n2_times].
    cbn [sp_meth]. destruct Hm as [-> | ->]; [eexists; reflexivity|].
    change (flatF [[1]; [0]]) with [1; 0].
    rewrite (sure_ok _ [1; 0] (solver_options VNone d) (fun b => mdd_trim b (a5 euclid false)) (constraints false X5 1) [1; 0] eq_refl (e1_min_mdd euclid)). cbn [bind]. rewrite EU. cbn [bind n2_times]. eexists; reflexivity. }
  destruct EO as [st1 EO]. rewrite EO. cbn [bind].
  unfold sd_finish, projector. unfold ex_env. cbn [se_inv se_ols].
  rewrite (inv_id_orth 2 1 [[1]; [0]]); [|lia|exact WP|intros i j Hi Hj; assert (i = 0%nat) by lia; assert (j = 0%nat) by lia; subst; unfold sum_to, sum_of, cell, delta; cbn; ring].
  cbn [bind]. rewrite (npmatmul_total 5 2 1) by (auto; lia). cbn [bind].
  destruct (Ho (add_constant (matmul X5 [[1]; [0]])) y5e) as [bb Ebb]. rewrite Ebb. cbn [bind]. rewrite EV. cbn [bind sp_return sd_is_mean sp_center andb negb]. eexists. eexists. split; reflexivity.
Qed.
