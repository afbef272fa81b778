(** Final statements on distance statistics. *)

From Coq Require Import String Reals List Arith ZArith Bool Lia Lra Psatz.
Import ListNotations.
From Verif Require Import Num Err Vec VecR OrdR L_Mat L_Lin S_Stats L_Stats M_Utils M_Preproc L_Radial L_Preproc M_Dicomo S_Dicomo L_Dicomo L_Dicomo2 L_Dicomo5 L_Dicomo6 L_Dicomo7 L_Energy.
Import List. Open Scope R_scope.

(** C57: naive algorithm *)
Lemma C57_l : forall dc, exists C : nat -> list (list R) -> list (list R) -> R,
  (forall s kw n p q X Y, configured s "distance" "cov" "mean" -> no_trimming kw -> biascorr kw = false -> k_metric kw = None ->
     naive_mode kw -> is_matrix n p X -> is_matrix n q Y -> (0 < n)%nat -> k_y kw = Some (A2 Y) -> fit_result dc s (A2 X) kw = Ok (C n X Y)) /\
  (forall s kw n p X, configured s "distance" "var" "mean" -> no_trimming kw -> biascorr kw = false -> k_metric kw = None ->
     naive_mode kw -> is_matrix n p X -> (0 < n)%nat -> fit_result dc s (A2 X) kw = Ok (C n X X)) /\
  (forall n X Y, C n X Y = C n Y X) /\
  (forall n X Y, 0 <= C n X Y) /\
  (forall n p q X Y, is_matrix n p X -> is_matrix n q Y -> (0 < n)%nat -> C n X Y ^ 2 = dcov_sq n X Y) /\
  (forall n p c X Y, is_matrix n p X -> length c = p -> C n (translate c X) Y = C n X Y) /\
  (forall n p X Y, is_matrix n p X -> (0 < n)%nat -> constant_rows X -> C n X Y = 0) /\
  (forall n p a X Y, is_matrix n p X -> C n (scale_rows a X) Y = sqrt (Rabs a) * C n X Y).
Proof.
  intros dc. exists (fun n X Y => sqrt (Rabs (dcov_sq n X Y))). split; [|split; [|split; [|split; [|split; [|split; [|split]]]]]].
  - intros. eapply fit_dcov; eauto.
  - intros. eapply fit_dvar; eauto.
  - intros. rewrite dcov_sq_sym. reflexivity.
  - intros. apply sqrt_pos.
  - intros n p q X Y HX HY Hn. pose proof (dcov_sq_nonneg n p q X Y HX HY Hn). rewrite Rabs_pos_eq by auto. rewrite pow2_sqrt by auto. reflexivity.
  - intros n p c X Y HX Hc. rewrite (dcov_sq_translate n p c X Y HX Hc). reflexivity.
  - intros n p X Y HX Hn Hc. rewrite (dcov_sq_const n p X Y HX Hn Hc), Rabs_R0, sqrt_0. reflexivity.
  - intros n p a X Y HX. rewrite (dcov_sq_scale n p a X Y HX), Rabs_mult, Rabs_Rabsolu, sqrt_mult by apply Rabs_pos. reflexivity.
Qed.

(** fast and naive agree *)
Lemma C99_l : forall dc s kw kw' n p q X Y, dcor_exact dc -> no_trimming kw -> biascorr kw = false -> k_metric kw = None -> naive_mode kw -> 
  no_trimming kw' -> biascorr kw' = false -> k_metric kw' = None -> fast_mode kw' -> is_matrix n p X -> is_matrix n q Y -> (0 < n)%nat ->
  (configured s "distance" "var" "mean" -> fit_result dc s (A2 X) kw' = fit_result dc s (A2 X) kw) /\
  (configured s "distance" "cov" "mean" -> k_y kw = Some (A2 Y) -> k_y kw' = Some (A2 Y) -> fit_result dc s (A2 X) kw' = fit_result dc s (A2 X) kw).
Proof.
  intros dc s kw kw' n p q X Y Hdc T1 B1 M1 N1 T2 B2 M2 F2 HX HY Hn. split.
  - intros Hc. rewrite (fit_dvar_fast dc s kw' n p X), (fit_dvar dc s kw n p X) by auto. rewrite Rabs_pos_eq by (apply dcov_sq_self_nonneg; auto). reflexivity.
  - intros Hc Y1 Y2. rewrite (fit_dcov_fast dc s kw' n p q X Y), (fit_dcov dc s kw n p q X Y) by auto. rewrite Rabs_pos_eq by (eapply dcov_sq_nonneg; eauto). reflexivity.
Qed.

(** C100: distance correlation *)
Lemma C100_l : forall dc, exists r : nat -> list (list R) -> list (list R) -> R,
  (forall s kw n p q X Y, configured s "distance" "corr" "mean" -> no_trimming kw -> biascorr kw = false -> k_metric kw = None ->
     naive_mode kw -> is_matrix n p X -> is_matrix n q Y -> (0 < n)%nat -> k_y kw = Some (A2 Y) -> k_order kw = None ->
     fit_result dc s (A2 X) kw = Ok (r n X Y)) /\
  (forall n X Y, (0 < n)%nat -> dcov_sq n X X <> 0 -> dcov_sq n Y Y <> 0 -> 0 <= r n X Y <= 1) /\
  (forall n X, (0 < n)%nat -> dcov_sq n X X <> 0 -> r n X X = 1) /\
  (forall n X Y, r n X Y = r n Y X) /\
  (forall n p X Y a c, is_matrix n p X -> length c = p -> a <> 0 -> r n (translate c (scale_rows a X)) Y = r n X Y).
Proof.
  intros dc. exists dcorf. split; [|split; [|split; [|split]]].
  - intros. eapply fit_dcorr; eauto.
  - intros n X Y Hn Hx Hy. apply dcorf_bounds; auto; [pose proof (dcov_sq_self_nonneg n X Hn)|pose proof (dcov_sq_self_nonneg n Y Hn)]; lra.
  - intros n X Hn Hx. apply dcorf_self. pose proof (dcov_sq_self_nonneg n X Hn). lra.
  - intros. apply dcorf_sym.
  - intros n p X Y a c HX Hc Ha. rewrite (dcorf_translate n p c) by (auto; apply scale_rows_matrix; auto). apply (dcorf_scale n p); auto.
Qed.

(** C58 *)
Lemma Rpowr_root : forall z k, 0 <= z -> (0 < k)%nat -> 0 <= Rpowr z (1 / INR k) /\ Rpowr z (1 / INR k) ^ k = z.
Proof.
  intros z k Hz Hk. assert (K : INR k <> 0) by (apply not_0_INR; lia). assert (K' : 0 < INR k) by (apply lt_0_INR; lia).
  assert (1 / INR k <> 0) by (apply Rgt_not_eq, Rdiv_lt_0_compat; lra). split; [apply Rpowr_nonneg; auto|].
  destruct (Req_EM_T z 0) as [->|Hn].
  - rewrite Rpowr_zero by auto. apply pow_ne_zero. lia.
  - rewrite Rpowr_pos by lra. rewrite <- Rpower_pow by apply exp_pos. rewrite Rpower_mult. replace (1 / INR k * INR k) with 1 by (field; auto). apply Rpower_1. lra.
Qed.

Lemma C58_l : forall n A B nn order opt, is_matrix n n A -> is_matrix n n B -> (0 < order)%nat ->
  exists A' B' v, distance_moment false A B nn "mean" 0 false order opt = Ok (A', B', v) /\
    is_matrix n n A' /\ is_matrix n n B' /\
    (forall i j, (i < n)%nat -> (j < n)%nat ->
       cell A' i j = cell A i j ^ (2 ^ (if (2 <? order)%nat then order - opt - 1 else 0)) /\
       cell B' i j = cell B i j ^ (2 ^ (if (2 <? order)%nat then opt - 1 else 0))) /\
    let w := if Nat.even order then v else - v in
    0 <= w /\ w ^ order = Rabs (sum_below n (fun i => sum_below n (fun j => cell A' i j * cell B' i j)) / (INR n * INR n)).
Proof.
  intros n A B nn order opt HA HB Ho. apply is_matrix_wf in HA. apply is_matrix_wf in HB.
  pose proof (distance_moment_mean false n (mget A) (mget B) nn order opt Ho ltac:(discriminate)) as E. cbv zeta in E.
  rewrite <- (famat_of n A HA), <- (famat_of n B HB) in E.
  do 3 eexists. split; [exact E|]. split; [apply is_matrix_wf, famat_wf|]. split; [apply is_matrix_wf, famat_wf|]. split.
  - intros i j Hi Hj. change @cell with (@mget R Num_R). rewrite !famat_mget by auto. destruct (2 <? order)%nat; split; reflexivity.
  - set (f := fun i j => mget A i j ^ _). set (g := fun i j => mget B i j ^ _). unfold dmom_value. rewrite Rmult_1_r.
    set (z := Rabs _). assert (Hz : 0 <= z) by apply Rabs_pos. destruct (Rpowr_root z order Hz Ho) as [R1 R2].
    assert (Ez : z = Rabs (sum_below n (fun i => sum_below n (fun j => cell (famat n f) i j * cell (famat n g) i j)) / (INR n * INR n))).
    { unfold z. f_equal. f_equal. rewrite sum_below_sumn. apply sumn_ext. intros i Hi. rewrite sum_below_sumn. apply sumn_ext. intros j Hj.
      change @cell with (@mget R Num_R). rewrite !famat_mget by auto. reflexivity. }
    rewrite <- Ez. destruct (Nat.even order); [auto|]. rewrite Ropp_involutive. auto.
Qed.

(** order at most 2 leaves the arguments alone *)
Lemma C58_order2_l : forall n A B nn opt, is_matrix n n A -> is_matrix n n B ->
  distance_moment false A B nn "mean" 0 false 2 opt = Ok (A, B, sqrt (Rabs (sum_below n (fun i => sum_below n (fun j => cell A i j * cell B i j)) / (INR n * INR n)))).
Proof.
  intros n A B nn opt HA HB. apply is_matrix_wf in HA. apply is_matrix_wf in HB.
  rewrite (famat_of n A HA), (famat_of n B HB) at 1. rewrite distance_moment_2 by discriminate. rewrite <- (famat_of n A HA), <- (famat_of n B HB).
  f_equal. f_equal. f_equal. f_equal. f_equal. rewrite sum_below_sumn. apply sumn_ext. intros i Hi. rewrite sum_below_sumn. reflexivity.
Qed.
(** which orders and options have the exponents k-o and o *)
Lemma C58_exponents_l : forall order opt, (2 < order)%nat -> (1 <= opt < order)%nat ->
  (2 ^ (order - opt - 1) = order - opt /\ 2 ^ (opt - 1) = opt)%nat <-> (order - opt <= 2 /\ opt <= 2)%nat.
Proof.
  assert (P : forall k, (1 <= k)%nat -> (2 ^ (k - 1) = k)%nat <-> (k <= 2)%nat).
  { intros k Hk. split.
    - intros E. destruct (le_lt_dec k 2) as [|Hlt]; auto. exfalso.
      assert (G : forall m, (3 + m < 2 ^ (2 + m))%nat). { induction m as [|m IH]; [cbn; lia|]. replace (2 + S m)%nat with (S (2 + m)) by lia. cbn [Nat.pow]. cbn [Nat.pow] in IH. lia. }
      specialize (G (k - 3)%nat). replace (2 + (k - 3))%nat with (k - 1)%nat in G by lia. lia.
    - intros H. destruct k as [|[|[|k]]]; try lia; reflexivity. }
  intros order opt H1 [H2 H3]. rewrite (P opt H2). rewrite (P (order - opt)%nat) by lia. reflexivity.
Qed.
Lemma C58_refuted_l : exists (A B A' B' : list (list R)) v, distance_moment false A B 1 "mean" 0 false 4 1 = Ok (A', B', v) /\
  A' <> A /\ v ^ 4 <> sum_below 1 (fun i => sum_below 1 (fun j => cell A i j ^ 3 * cell B i j)) / (INR 1 * INR 1).
Proof.
  destruct (C58_l 1 [[2]] [[1]] 1 4 1) as [A' [B' [v [E [H1 [H2 [H3 H4]]]]]]]; [repeat constructor|repeat constructor|lia|].
  exists [[2]], [[1]], A', B', v. split; [exact E|]. specialize (H3 0%nat 0%nat Nat.lt_0_1 Nat.lt_0_1). destruct H3 as [G1 G2].
  change (2 ^ (if (2 <? 4)%nat then 4 - 1 - 1 else 0))%nat with 4%nat in G1. change (2 ^ (if (2 <? 4)%nat then 1 - 1 else 0))%nat with 1%nat in G2.
  cbn [cell nth] in G1, G2. split.
  - intros ->. cbn in G1. lra.
  - cbn [Nat.even sum_below] in H4. destruct H4 as [_ H4]. rewrite H4, G1, G2. cbn. rewrite Rabs_pos_eq; lra.
Qed.

(** C59 *)
Lemma C59_l : forall dc s kw n p X ya y, configured s "distance" "mdd" "mean" -> no_trimming kw -> biascorr kw = false ->
  is_matrix n p X -> (0 < n)%nat -> k_y kw = Some ya -> sample ya y -> length y = n ->
  exists v, fit_result dc s (A2 X) kw = Ok v /\ 0 <= v /\ v ^ 2 = mdd_sq n X y /\
    (p <> 1%nat \/ n = 1%nat -> MDDM X (map (fun u => [u]) y) = Ok [[v ^ 2]]).
Proof.
  intros dc s kw n p X ya y Hc Ht Hb HX Hn Hy Hs Hl. exists (sqrt (mdd_sq n X y)).
  pose proof (mdd_sq_nonneg n p X y HX Hn Hl) as Hp. split; [eapply fit_mdd_value; eauto|]. split; [apply sqrt_pos|]. rewrite pow2_sqrt by auto. split; [reflexivity|].
  intros Hpn. apply is_matrix_wf in HX. assert (HY : wf n 1 (map (fun u : R => [u]) y)).
  { split; [rewrite map_length; auto|]. apply Forall_forall. intros r Hr. apply in_map_iff in Hr as [u [<- _]]. reflexivity. }
  destruct (MDDM_value n p 1 X (map (fun u => [u]) y) HX HY Hn Hpn) as [M [E [W G]]]. rewrite E. f_equal.
  apply (mat_ext 1 1); auto; [repeat constructor|]. intros i j Hi Hj. assert (i = 0%nat) by lia. assert (j = 0%nat) by lia. subst. rewrite G by lia. rewrite mddm_entry_single. reflexivity.
Qed.

Lemma mddm_quad : forall n q X Y v, is_matrix n q Y -> length v = q ->
  sum_below q (fun a => sum_below q (fun b => nth a v 0 * nth b v 0 * mddm_entry n X Y a b)) = mdd_sq n X (map (fun r => dot r v) Y).
Proof.
  intros n q X Y v HY Hv. apply is_matrix_wf in HY.
  set (cy := fun i a => nth a (nth i Y []) 0 - mean_of (column_of Y a)).
  assert (Hn0 : forall i, (i < n)%nat -> nth i (map (fun r => dot r v) Y) 0 - mean_of (map (fun r => dot r v) Y) = sumn q (fun a => nth a v 0 * cy i a)).
  { intros i Hi. rewrite (nth_map_lt _ _ _ []) by (rewrite (wf_length n q Y HY); auto). rewrite (dot_row_sumn n q) by auto.
    assert (Em : mean_of (map (fun r => dot r v) Y) = sumn q (fun a => nth a v 0 * mean_of (column_of Y a))).
    { unfold mean_of at 1. rewrite map_length, (wf_length n q Y HY). change sum_of with (@vsum R Num_R). rewrite vsum_sumn, map_length, (wf_length n q Y HY).
      rewrite (sumn_ext n _ (fun k => sumn q (fun a => mget Y k a * nth a v 0))).
      2:{ intros k Hk. rewrite (nth_map_lt _ _ _ []) by (rewrite (wf_length n q Y HY); auto). apply (dot_row_sumn n q); auto. }
      rewrite sumn_exchange. unfold Rdiv. rewrite <- sumn_scal_r. apply sumn_ext. intros a Ha. unfold mean_of. change sum_of with (@vsum R Num_R).
      rewrite vsum_sumn. unfold column_of. rewrite map_length, (wf_length n q Y HY).
      rewrite (sumn_ext n (fun i0 => nth i0 (map (fun r => nth a r 0) Y) 0) (fun k => mget Y k a)).
      - rewrite sumn_scal_r. unfold Rdiv. ring.
      - intros k Hk. rewrite (nth_map_lt _ _ _ []) by (rewrite (wf_length n q Y HY); auto). reflexivity. }
    rewrite Em, <- sumn_minus. apply sumn_ext. intros a Ha. unfold cy. change (nth a (nth i Y []) 0) with (mget Y i a). ring. }
  unfold mdd_sq. rewrite !sum_below_sumn.
  rewrite (sumn_ext n (fun i => sum_below n _) (fun i => sumn n (fun j => sumn q (fun a => sumn q (fun b => rowdist X i j * (nth a v 0 * cy i a * (nth b v 0 * cy j b))))))).
  2:{ intros i Hi. rewrite sum_below_sumn. apply sumn_ext. intros j Hj. rewrite !Hn0 by auto.
      rewrite <- sumn_scal_r. rewrite <- sumn_scal. apply sumn_ext. intros a Ha. rewrite <- sumn_scal, <- sumn_scal. apply sumn_ext. intros b Hb. ring. }
  rewrite (sumn_ext q (fun a => sum_below q _) (fun a => sumn q (fun b => - / (INR n * INR n) * sumn n (fun i => sumn n (fun j => rowdist X i j * (nth a v 0 * cy i a * (nth b v 0 * cy j b))))))).
  2:{ intros a Ha. rewrite sum_below_sumn. apply sumn_ext. intros b Hb. unfold mddm_entry. rewrite sum_below_sumn.
      rewrite (sumn_ext n (fun i => sum_below n _) (fun i => sumn n (fun j => rowdist X i j * (cy i a * cy j b)))) by (intros; apply sum_below_sumn).
      rewrite (sumn_ext n (fun i => sumn n (fun j => rowdist X i j * (nth a v 0 * cy i a * (nth b v 0 * cy j b)))) (fun i => (nth a v 0 * nth b v 0) * sumn n (fun j => rowdist X i j * (cy i a * cy j b)))).
      - rewrite sumn_scal. unfold Rdiv. ring.
      - intros i Hi. rewrite <- sumn_scal. apply sumn_ext. intros j Hj. ring. }
  rewrite (sumn_ext q _ (fun a => - / (INR n * INR n) * sumn q (fun b => sumn n (fun i => sumn n (fun j => rowdist X i j * (nth a v 0 * cy i a * (nth b v 0 * cy j b))))))) by (intros; apply sumn_scal).
  rewrite sumn_scal. unfold Rdiv. rewrite Ropp_mult_distr_l_reverse, Rmult_comm. f_equal. f_equal.
  set (F := fun i j a b => rowdist X i j * (nth a v 0 * cy i a * (nth b v 0 * cy j b))).
  change (sumn q (fun a => sumn q (fun b => sumn n (fun i => sumn n (fun j => F i j a b)))) = sumn n (fun i => sumn n (fun j => sumn q (fun a => sumn q (fun b => F i j a b))))).
  symmetry. transitivity (sumn n (fun i => sumn q (fun a => sumn n (fun j => sumn q (fun b => F i j a b))))); [apply sumn_ext; intros; apply sumn_exchange|].
  transitivity (sumn q (fun a => sumn n (fun i => sumn n (fun j => sumn q (fun b => F i j a b))))); [apply sumn_exchange|].
  apply sumn_ext. intros a Ha. transitivity (sumn n (fun i => sumn q (fun b => sumn n (fun j => F i j a b)))); [apply sumn_ext; intros; apply sumn_exchange|apply sumn_exchange].
Qed.

Lemma C59_mddm_l : forall n p q X Y, is_matrix n p X -> is_matrix n q Y -> (0 < n)%nat -> (2 <= p)%nat ->
  exists M, MDDM X Y = Ok M /\ is_matrix q q M /\
    (forall a b, (a < q)%nat -> (b < q)%nat -> cell M a b = mddm_entry n X Y a b) /\
    (forall a b, (a < q)%nat -> (b < q)%nat -> cell M a b = cell M b a) /\
    (forall v, length v = q -> 0 <= sum_below q (fun a => sum_below q (fun b => nth a v 0 * nth b v 0 * cell M a b))) /\
    (forall a b, (a < q)%nat -> (b < q)%nat -> constant (column_of Y a) -> cell M a b = 0).
Proof.
  intros n p q X Y HX HY Hn Hp. pose proof (proj1 (is_matrix_wf _ _ _) HX) as WX. pose proof (proj1 (is_matrix_wf _ _ _) HY) as WY.
  destruct (MDDM_value n p q X Y WX WY Hn ltac:(lia)) as [M [E [W G]]]. exists M. change @cell with (@mget R Num_R).
  split; [exact E|]. split; [apply is_matrix_wf; auto|]. split; [exact G|]. split; [|split].
  - intros a b Ha Hb. rewrite !G by auto. eapply mddm_entry_sym; eauto.
  - intros v Hv. assert (Eq : sum_below q (fun a => sum_below q (fun b => nth a v 0 * nth b v 0 * mget M a b)) = mdd_sq n X (map (fun r => dot r v) Y)).
    { rewrite <- (mddm_quad n q X Y v HY Hv). rewrite !sum_below_sumn. apply sumn_ext. intros a Ha. rewrite !sum_below_sumn. apply sumn_ext. intros b Hb. rewrite G by auto. reflexivity. }
    rewrite Eq. apply (mdd_sq_nonneg n p); auto. rewrite map_length. apply HY.
  - intros a b Ha Hb Hc. rewrite G by auto. apply mddm_entry_const; auto. apply HY.
Qed.
Lemma C60_l : forall n q X Y, is_matrix n 1 X -> is_matrix n q Y -> (2 <= n)%nat -> MDDM X Y = Err ValueError.
Proof.
  intros n q X Y HX HY Hn. apply is_matrix_wf in HX. apply is_matrix_wf in HY. apply (MDDM_single n 1 q); auto; lia.
Qed.
