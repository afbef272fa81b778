(** Witnesses for T_UnitsSd: five points and their rotation *)

From Coq Require Import String Reals List Arith ZArith Bool Lra Lia.
Import List. Import ListNotations.
From Verif Require Import Num Err Vec VecR S_Stats S_Regress L_Mat L_Lin L_Matmul L_Stats M_Utils M_Preproc M_Robcent M_Dicomo M_Ipopt M_SdrUtils M_Sudire S_Sudire S_SdrDim S_UnitsSd
  L_SdrMat L_SdrEig L_SdrCov L_SdrMore L_SdrEx L_EqMat L_EqKer L_EqFit L_EqSd.
Open Scope R_scope.

(** regression on a line through centred values *)
Definition ols_line (Z : list (list R)) (y : list R) : res (list R) :=
  let t := column 1 Z in
  let s := sum_of (map (fun v => v * v) t) in
  if mat_eq_dec Z (map (fun v => [1; v]) t) then if Req_EM_T (sum_of t) 0 then if Req_EM_T s 0 then Err LinAlgError
    else Ok [mean_of y; inner t y / s] else Err LinAlgError else Err LinAlgError.
Lemma ols_line_ok : least_squares ols_line.
Proof.
  intros n k Z y b WZ Ly E. unfold ols_line in E. cbv zeta in E. set (t := column 1 Z) in *.
  destruct (mat_eq_dec Z (map (fun v => [1; v]) t)) as [EZ|]; [|discriminate]. destruct (Req_EM_T (sum_of t) 0) as [E0|]; [|discriminate].
  destruct (Req_EM_T (sum_of (map (fun v => v * v) t)) 0) as [|ES]; [discriminate|]. apply Ok_inj in E.
  assert (Lt : length t = n) by (unfold t, column; rewrite map_length; exact (proj1 WZ)).
  assert (Hn : (0 < n)%nat) by (destruct t; [exfalso; apply ES; reflexivity|cbn in Lt; lia]).
  assert (Hk : k = 2%nat).
  { destruct t as [|v0 t0]; [cbn in Lt; lia|]. destruct WZ as [_ FZ]. rewrite EZ in FZ. cbn in FZ. inversion FZ as [|? ? H0 _]. cbn in H0. congruence. }
  subst k. subst b. split; [reflexivity|]. intros cc Lc. destruct cc as [|c0 [|c1 [|? ?]]]; try discriminate.
  assert (HC : forall b0 b1, rss n 2 Z y [b0; b1] = sumn n (fun i => (nth i y 0 - (b0 + b1 * nth i t 0)) ^ 2)).
  { intros b0 b1. unfold rss. change sum_to with sumn. apply sumn_ext. intros i Hi. f_equal. f_equal. rewrite EZ.
    unfold sumn, cell. cbn [seq map]. rewrite (nth_map_lt _ t i 0 []) by lia. unfold vsum. cbn. rnum. ring. }
  rewrite !HC. set (b0 := mean_of y). set (b1 := inner t y / sum_of (map (fun v => v * v) t)).
  assert (N1 : sumn n (fun i => nth i t 0) = 0) by (rewrite sum_of_vsum, vsum_sumn, Lt in E0; exact E0).
  assert (N2 : sumn n (fun i => nth i y 0) = INR n * b0).
  { unfold b0, mean_of. rewrite sum_of_vsum, vsum_sumn, Ly. field. apply not_0_INR. lia. }
  assert (N3 : sum_of (map (fun v => v * v) t) = sumn n (fun i => nth i t 0 * nth i t 0)) by (rewrite sum_of_vsum, vsum_sumn, map_length, Lt; apply sumn_ext; intros i Hi; rewrite (nth_map_lt _ _ _ 0) by lia; reflexivity).
  assert (N4 : sumn n (fun i => nth i t 0 * nth i y 0) = b1 * sumn n (fun i => nth i t 0 * nth i t 0)).
  { rewrite <- N3. unfold b1. rewrite inner_dot, (dot_sumn _ _ n) by auto. field. auto. }
  assert (HD : sumn n (fun i => (nth i y 0 - (c0 + c1 * nth i t 0)) ^ 2) = sumn n (fun i => (nth i y 0 - (b0 + b1 * nth i t 0)) ^ 2) + sumn n (fun i => ((b0 - c0) + (b1 - c1) * nth i t 0) ^ 2)
    + 2 * ((b0 - c0) * (sumn n (fun i => nth i y 0) - INR n * b0 - b1 * sumn n (fun i => nth i t 0)) + (b1 - c1) * (sumn n (fun i => nth i t 0 * nth i y 0) - b0 * sumn n (fun i => nth i t 0) - b1 * sumn n (fun i => nth i t 0 * nth i t 0)))).
  { rewrite <- (sumn_const n b0). rewrite <- !sumn_scal. rewrite <- !sumn_minus. rewrite <- !sumn_scal. rewrite <- !sumn_plus. rewrite <- sumn_scal. rewrite <- sumn_plus. apply sumn_ext. intros; ring. }
  rewrite HD, N1, N2, N4. pose proof (sumn_nonneg n (fun i => ((b0 - c0) + (b1 - c1) * nth i t 0) ^ 2) ltac:(intros; apply pow2_ge_0)). lra.
Qed.

Definition rot : list (list R) := [[3/5; 4/5]; [-4/5; 3/5]].
Definition X5r : list (list R) := [[-1/5; 7/5]; [7/5; 1/5]; [-7/5; -1/5]; [1/5; -7/5]; [0; 0]].
Definition y5r : list R := [1; 0; 0; 1; 0].
Lemma X5r_change : linear_change 5 2 X5 rot (fun _ => 0) X5r.
Proof.
  split; [split; [reflexivity|repeat constructor]|]. intros i j Hi Hj. unfold sum_to, sum_of, cell, X5, rot, X5r.
  destruct (two_cases j Hj) as [->| ->]; do 5 (destruct i as [|i]; [cbn; field|]); lia.
Qed.
Lemma X5r_mean : forall j, (j < 2)%nat -> mean_of (column j X5r) = 0.
Proof. intros j Hj. destruct (two_cases j Hj) as [->| ->]; unfold mean_of, sum_of, column, X5r; cbn; field. Qed.
Lemma X5r_cov : forall i j, (i < 2)%nat -> (j < 2)%nat -> cov_of (column i X5r) (column j X5r) = delta i j.
Proof.
  intros i j Hi Hj. unfold cov_of. rewrite !X5r_mean by auto. destruct (two_cases i Hi) as [->| ->], (two_cases j Hj) as [->| ->]; unfold sum_of, column, X5r, delta; cbn; field.
Qed.

(** the design of a regression on a centred unit combination of the points *)
Lemma ols_line_total : forall X y B, wf 5 2 X -> (forall j, (j < 2)%nat -> mean_of (column j X) = 0) ->
  (forall i j, (i < 2)%nat -> (j < 2)%nat -> cov_of (column i X) (column j X) = delta i j) -> wf 2 1 B -> orthonormal_columns 2 1 B ->
  exists b, ols_line (add_constant (matmul X B)) y = Ok b.
Proof.
  intros X y B W HM HC WB OB. set (T := matmul X B).
  destruct (rep_matmul 5 2 1 X B _ _ ltac:(lia) (rep_self _ _ _ W) (rep_self _ _ _ WB)) as [WT HT]. fold T in WT, HT.
  assert (MT : mean_of (column 0 T) = 0).
  { rewrite (mean_column 5 1) by auto. rewrite (mf_ext 5 _ (fun r => sumn 2 (fun a => mget X r a * mget B a 0))) by (intros; apply HT; auto; lia).
    rewrite mf_comb. apply sumn_zero. intros a Ha. rewrite <- (mean_column 5 2), HM by auto. ring. }
  assert (CT : cov_of (column 0 T) (column 0 T) = 1).
  { rewrite (cov_mix 5 2 1 X T (fun _ => 0) (mget B) W WT ltac:(lia)) by (try lia; intros r j Hr Hj; rewrite HT by auto; apply sumn_ext; intros; ring).
    transitivity (sumn 2 (fun a => sumn 2 (fun b => mget B a 0 * delta a b * mget B b 0))).
    - apply sumn_ext. intros a Ha. apply sumn_ext. intros b Hb. rewrite HC by auto. reflexivity.
    - rewrite sum_delta2. apply (OB 0%nat 0%nat); lia. }
  assert (HA : add_constant T = map (cons 1) T).
  { apply (add_constant_spec 5 1 T ltac:(lia) WT). intros [j [v [Hj [Hv HV]]]]. assert (j = 0%nat) by lia. subst j. 
    rewrite (mean_column 5 1), (mf_ext 5 _ (fun _ => v)) in MT by (auto; intros; apply HV; auto). unfold mf in MT. rewrite sumn_const in MT. replace (INR 5 * v / INR 5) with v in MT; [auto|]. field. apply not_0_INR. lia. }
  rewrite HA. unfold ols_line. cbv zeta.
  assert (EC : column 1 (map (cons 1) T) = column 0 T) by (unfold column; rewrite map_map; reflexivity). rewrite EC.
  destruct (mat_eq_dec _ _) as [_|NE].
  2:{ exfalso. apply NE. unfold column. rewrite map_map. apply map_ext_in. intros r Hr. pose proof (wf_row _ _ _ _ WT Hr) as Lr. destruct r as [|a [|? ?]]; try discriminate. reflexivity. }
  destruct (Req_EM_T (sum_of (column 0 T)) 0) as [_|NE].
  2:{ exfalso. apply NE. unfold mean_of in MT. assert (L : length (column 0 T) = 5%nat) by (unfold column; rewrite map_length; apply (wf_length _ _ _ WT)). rewrite L in MT.
      apply Rmult_eq_reg_r with (/ INR 5); [|apply Rinv_neq_0_compat, not_0_INR; lia]. unfold Rdiv in MT. rewrite MT. ring. }
  destruct (Req_EM_T (sum_of (map (fun v => v * v) (column 0 T))) 0) as [EZ|]; [|eauto].
  exfalso. unfold cov_of in CT. rewrite MT in CT. assert (L : length (column 0 T) = 5%nat) by (unfold column; rewrite map_length; apply (wf_length _ _ _ WT)). rewrite L in CT.
  assert (ES : sum_of (map (fun xy => (fst xy - 0) * (snd xy - 0)) (combine (column 0 T) (column 0 T))) = sum_of (map (fun v => v * v) (column 0 T))).
  { generalize (column 0 T). intros l. unfold sum_of. induction l as [|a l IH]; [reflexivity|]. cbn. rewrite IH. ring. }
  rewrite ES, EZ in CT. unfold Rdiv in CT. lra.
Qed.
(** the points are standardised; the matrix of the method is (2/25) I + (2/5) (offdiagonal) *)
Lemma X5_separated : separated 5 2 1 X5 (fun Z => response_weighted Z y5r).
Proof.
  destruct (rep_identity 2) as [WI HI].
  exists (identity 2), X5. split; [|split].
  - split; [exact WI|]. split; [intros i j Hi Hj; change cell with (mget (A := R)); rewrite !HI by auto; apply delta_sym|].
    intros i j Hi Hj. change sum_to with sumn. change cell with (mget (A := R)). rewrite <- (delta_sum2 2 i j Hi). apply sumn_ext. intros a Ha. apply sumn_ext. intros b Hb.
    rewrite !HI by auto. unfold covariance_matrix. rewrite mget_matrix_of by auto. rewrite X5_cov_entry by auto. reflexivity.
  - split; [exact X5_wf|]. intros i j Hi Hj. cbv zeta. change sum_to with sumn. change cell with (mget (A := R)).
    rewrite (sumn_ext 2 _ (fun a => mget X5 i a * delta a j)) by (intros a Ha; rewrite X5_mean, HI by auto; ring). rewrite (sumn_delta_r 2 j (mget X5 i)) by auto. reflexivity.
  - set (M := matrix_of 2 (response_weighted X5 y5r)).
    assert (EM : M = [[2/25; 2/5]; [2/5; 2/25]]).
    { unfold M, matrix_of, response_weighted, sum_to, sum_of, mean_of, cell, X5, y5r. cbn. f_equal; [f_equal; [|f_equal]|f_equal; f_equal; [|f_equal]]; field. }
    rewrite EM. clear M EM. set (M := [[2/25; 2/5]; [2/5; 2/25]]).
    pose proof (sqrt_sqrt 2 ltac:(lra)) as HS2. set (r := / sqrt 2). assert (Hr : r * r = / 2).
    { unfold r. rewrite <- Rinv_mult. rewrite HS2. reflexivity. }
    exists [[r]; [r]].
    assert (HQ : forall v, length v = 2%nat -> quad_form 2 M v = 2/25 * (nth 0 v 0 * nth 0 v 0 + nth 1 v 0 * nth 1 v 0) + 4/5 * (nth 0 v 0 * nth 1 v 0)).
    { intros v Lv. unfold quad_form, sum_to, sum_of, cell, M. cbn. field. }
    assert (HL : quad_form 2 M (column 0 [[r]; [r]]) = 12/25).
    { rewrite HQ by reflexivity. cbn. replace (2 / 25 * (r * r + r * r) + 4 / 5 * (r * r)) with (24/25 * (r * r)) by field. rewrite Hr. field. }
    assert (HN : forall v, length v = 2%nat -> sqlen v = nth 0 v 0 * nth 0 v 0 + nth 1 v 0 * nth 1 v 0).
    { intros v Lv. destruct v as [|a [|b [|? ?]]]; try discriminate. unfold sqlen, inner, sum_of. cbn. ring. }
    split; [split; [split; [reflexivity|repeat constructor]|split; [|split]]|].
    + intros i j Hi Hj. assert (i = 0%nat) by lia. assert (j = 0%nat) by lia. subst. unfold sum_to, sum_of, cell, delta. cbn. lra.
    + intros i c Hi Hc. assert (c = 0%nat) by lia. subst c. rewrite HL. destruct (two_cases i Hi) as [->| ->]; unfold sum_to, sum_of, cell, M; cbn; field.
    + intros c v Hc Lv _. assert (c = 0%nat) by lia. subst c. rewrite HL, HQ, HN by auto. pose proof (Rle_0_sqr (nth 0 v 0 - nth 1 v 0)) as H. unfold Rsqr in H. lra.
    + intros v Lv Hv Ho c Hc. assert (c = 0%nat) by lia. subst c. rewrite HL, HQ by auto. rewrite HN in * by auto. specialize (Ho 0%nat Hc).
      destruct v as [|a [|b [|? ?]]]; try discriminate. unfold inner, sum_of in Ho. cbn in Ho. cbn [nth] in *.
      assert (Hab : (a + b) * r = 0) by lra. assert (r <> 0) by (intros H0; rewrite H0 in Hr; lra). apply Rmult_integral in Hab as [Hab|]; [|contradiction].
      assert (b = - a) by lra. subst b. assert (0 < a * a) by (pose proof (Rle_0_sqr a) as H1; unfold Rsqr in H1; lra). lra.
Qed.
