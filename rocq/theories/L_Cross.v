(** snipls fits depend on the scaled data through inner products only *)
From Coq Require Import String Reals List Arith ZArith Bool Lia Lra.
Import List. Import ListNotations.
From Verif Require Import Num Err Vec VecR OrdR L_Mat S_Stats S_Regress L_Stats M_Utils M_Preproc M_Robcent M_Plot M_Snipls
  L_Lin L_Matmul L_Deflate L_Scaling L_Scaling2 L_Preproc L_Msupport L_Snipls L_Snipls2 L_Snipls3 S_Sudire S_Krylov L_Krylov.
From Verif Require L_OrderSn.
Open Scope R_scope.

Definition alike (p : nat) (X X' : list (list R)) (y y' : list R) : Prop :=
  (forall i j, (i < p)%nat -> (j < p)%nat -> dot (col i X) (col j X) = dot (col i X') (col j X')) /\ tmatvec X y = tmatvec X' y'.

Lemma nth_colR : forall (X : list (list R)) i j, nth i (col j X) 0 = mget X i j.
Proof. intros X i j. exact (nth_col X i j). Qed.
Section Step.
  Variables (n n' p : nat) (X X' : list (list R)) (y y' : list R).
  Hypothesis Hn : (0 < n)%nat.
  Hypothesis Hn' : (0 < n')%nat.
  Hypothesis HX : wf n p X.
  Hypothesis HX' : wf n' p X'.
  Hypothesis Hy : length y = n.
  Hypothesis Hy' : length y' = n'.
  Hypothesis HA : alike p X X' y y'.

  Lemma cols_t : forall w, length w = p -> tmatvec X (matvec X w) = tmatvec X' (matvec X' w).
  Proof.
    intros w Hw. apply (nth_ext _ _ 0 0); [rewrite (tmatvec_length n p), (tmatvec_length n' p); auto|]. intros j Hj. rewrite (tmatvec_length n p) in Hj by auto.
    rewrite (nth_tmatvec n p), (nth_tmatvec n' p) by auto. rewrite <- (app_dot n p X), <- (app_dot n' p X') by (auto; rewrite col_length; eapply wf_length; eauto).
    apply sumn_ext. intros i Hi. f_equal. apply HA; auto.
  Qed.
  Lemma t_t : forall w, length w = p -> dot (matvec X w) (matvec X w) = dot (matvec X' w) (matvec X' w).
  Proof.
    intros w Hw. rewrite <- (L_Lin.adjoint n p X) by (auto; rewrite matvec_length; eapply wf_length; eauto). rewrite <- (L_Lin.adjoint n' p X') by (auto; rewrite matvec_length; eapply wf_length; eauto).
    rewrite cols_t by auto. reflexivity.
  Qed.
  Lemma y_t : forall w, length w = p -> dot y (matvec X w) = dot y' (matvec X' w).
  Proof. intros w Hw. rewrite <- (L_Lin.adjoint n p X), <- (L_Lin.adjoint n' p X') by auto. destruct HA as [_ ->]. reflexivity. Qed.
  Lemma def_dot : forall m (Z : list (list R)) w q j v, wf m p Z -> length w = p -> length q = p -> length v = m -> (j < p)%nat ->
    dot (col j (msub Z (outer (matvec Z w) q))) v = dot (col j Z) v - nth j q 0 * dot (matvec Z w) v.
  Proof.
    intros m Z w q j v HZ Hw Hq Hv Hj. assert (Lt : length (matvec Z w) = m) by (rewrite matvec_length; eapply wf_length; eauto).
    assert (WO : wf m p (outer (matvec Z w) q)) by (rewrite <- Lt, <- Hq; apply wf_outer).
    assert (LM : length (msub Z (outer (matvec Z w) q)) = m) by (apply (wf_length m p); apply wf_msub; auto).
    rewrite !(dot_sumn _ _ m) by (auto; rewrite ?col_length; auto; eapply wf_length; eauto). rewrite <- sumn_scal, <- sumn_minus. apply sumn_ext. intros i Hi.
    rewrite !nth_colR. rewrite (mget_msub m p) by auto. rewrite mget_outer by lia. ring.
  Qed.
  Lemma step_alike : forall w q cc, length w = p -> length q = p ->
    alike p (msub X (outer (matvec X w) q)) (msub X' (outer (matvec X' w) q)) (vsub y (vscale cc (matvec X w))) (vsub y' (vscale cc (matvec X' w))).
  Proof.
    intros w q cc Hw Hq. assert (Lt : length (matvec X w) = n) by (rewrite matvec_length; eapply wf_length; eauto). assert (Lt' : length (matvec X' w) = n') by (rewrite matvec_length; eapply wf_length; eauto).
    assert (W1 : wf n p (msub X (outer (matvec X w) q))) by (apply wf_msub; auto; rewrite <- Lt, <- Hq; apply wf_outer).
    assert (W2 : wf n' p (msub X' (outer (matvec X' w) q))) by (apply wf_msub; auto; rewrite <- Lt', <- Hq; apply wf_outer).
    assert (CT : forall j, (j < p)%nat -> dot (col j X) (matvec X w) = dot (col j X') (matvec X' w)).
    { intros j Hj. rewrite <- (nth_tmatvec n p), <- (nth_tmatvec n' p) by auto. rewrite cols_t by auto. reflexivity. }
    assert (CY : forall j, (j < p)%nat -> dot (col j X) y = dot (col j X') y').
    { intros j Hj. rewrite <- (nth_tmatvec n p), <- (nth_tmatvec n' p) by auto. destruct HA as [_ ->]. reflexivity. }
    assert (LC : forall j, length (col j X) = n) by (intros; rewrite col_length; eapply wf_length; eauto).
    assert (LC' : forall j, length (col j X') = n') by (intros; rewrite col_length; eapply wf_length; eauto).
    split.
    - intros i j Hi Hj.
      rewrite (def_dot n X w q i) by (auto; rewrite col_length; eapply wf_length; eauto). rewrite (def_dot n' X' w q i) by (auto; rewrite col_length; eapply wf_length; eauto).
      rewrite (dot_comm (col i X)), (dot_comm (matvec X w)), (dot_comm (col i X')), (dot_comm (matvec X' w)).
      rewrite !(def_dot n X w q j), !(def_dot n' X' w q j) by auto. rewrite (dot_comm (matvec X w) (col i X)), (dot_comm (matvec X' w) (col i X')), !CT, t_t by auto.
      replace (dot (col j X') (col i X')) with (dot (col j X) (col i X)) by (apply HA; auto). ring.
    - apply (nth_ext _ _ 0 0); [rewrite (tmatvec_length n p), (tmatvec_length n' p); auto|]. intros j Hj. rewrite (tmatvec_length n p) in Hj by auto.
      rewrite (nth_tmatvec n p), (nth_tmatvec n' p) by auto.
      rewrite (def_dot n X w q j), (def_dot n' X' w q j) by (auto; rewrite vsub_length; rewrite ?vscale_length; lia).
      rewrite !dot_vsub_r, !dot_vscale_r by (rewrite vscale_length; lia). rewrite CT, CY, t_t by auto. rewrite (dot_comm (matvec X w) y), (dot_comm (matvec X' w) y'), y_t by auto. ring.
  Qed.
End Step.

Definition core (c : scomp R) := (c_w c, c_q c, c_p c, c_c c, c_good c).
Lemma step_same : forall nan nan' eta ssx ssx' ssy ssy' n n' p X X' y y' old, (0 < n)%nat -> (0 < n')%nat -> wf n p X -> wf n' p X' -> length y = n -> length y' = n' -> alike p X X' y y' ->
  match snipls_step nan eta ssx ssy X y old, snipls_step nan' eta ssx' ssy' X' y' old with
  | None, None => True
  | Some c, Some c' => core c = core c' /\ (ssx = ssx' -> c_xev c = c_xev c') /\ (ssy = ssy' -> c_yev c = c_yev c') /\
      wf n p (c_X c) /\ wf n' p (c_X c') /\ length (c_y c) = n /\ length (c_y c') = n' /\ alike p (c_X c) (c_X c') (c_y c) (c_y c')
  | _, _ => False
  end.
Proof.
  intros nan nan' eta ssx ssx' ssy ssy' n n' p X X' y y' old Hn Hn' HX HX' Hy Hy' HA. unfold snipls_step. cbv zeta. rewrite !xw_R, !xty_R, !dotv_R, !nsqr_vnorm. pose proof HA as [_ Ecov]. rewrite <- Ecov.
  set (cov := tmatvec X y). assert (Lcov : length cov = p) by (apply (tmatvec_length n p); auto).
  match goal with |- context [union1d old ?N] => set (new := N) end. match goal with |- context [keep (union1d old new) ?N] => set (wh := N) end.
  assert (Lwh : length wh = p) by (unfold wh; rewrite map2_length, !map_length, Lcov; apply Nat.min_id).
  destruct (union1d old new) as [|g0 gs] eqn:Eg; [exact I|].
  set (w := keep (g0 :: gs) wh). assert (Lw : length w = p) by (unfold w; rewrite keep_length; exact Lwh).
  assert (Et : dot (matvec X w) (matvec X w) = dot (matvec X' w) (matvec X' w)) by (apply (t_t n n' p X X' y y'); auto).
  assert (Eq : tmatvec X (matvec X w) = tmatvec X' (matvec X' w)) by (apply (cols_t n n' p X X' y y'); auto).
  assert (Ey : dot y (matvec X w) = dot y' (matvec X' w)) by (apply (y_t n n' p X X' y y'); auto).
  rewrite <- Et, <- Eq, <- Ey.
  match goal with |- context [keep (g0 :: gs) (map ?F (tmatvec X (matvec X w)))] => set (q := map F (tmatvec X (matvec X w))) end.
  assert (Lq : length q = p) by (unfold q; rewrite map_length; apply (tmatvec_length n p); auto).
  assert (Lt : length (matvec X w) = n) by (rewrite matvec_length; eapply wf_length; eauto). assert (Lt' : length (matvec X' w) = n') by (rewrite matvec_length; eapply wf_length; eauto).
  cbn [c_w c_q c_p c_c c_good c_X c_y c_xev c_yev core]. unfold core. cbn [c_w c_q c_p c_c c_good]. split; [reflexivity|]. split; [intros ->; reflexivity|]. split; [intros ->; reflexivity|].
  split; [apply wf_msub; auto; rewrite <- Lt, <- Lq; apply wf_outer|]. split; [apply wf_msub; auto; rewrite <- Lt', <- Lq; apply wf_outer|].
  split; [rewrite vsub_length; rewrite ?vscale_length; lia|]. split; [rewrite vsub_length; rewrite ?vscale_length; lia|].
  apply (step_alike n n'); auto.
Qed.
Lemma loop_same : forall nan nan' eta ssx ssx' ssy ssy' n n' p k X X' y y' old, (0 < n)%nat -> (0 < n')%nat -> wf n p X -> wf n' p X' -> length y = n -> length y' = n' -> alike p X X' y y' ->
  let l := snipls_loop nan eta ssx ssy k X y old in let l' := snipls_loop nan' eta ssx' ssy' k X' y' old in
  map core l = map core l' /\ (ssx = ssx' -> map c_xev l = map c_xev l') /\ (ssy = ssy' -> map c_yev l = map c_yev l').
Proof.
  intros nan nan' eta ssx ssx' ssy ssy' n n' p k. induction k as [|k IH]; intros X X' y y' old Hn Hn' HX HX' Hy Hy' HA; cbn zeta; [repeat split; reflexivity|]. cbn [snipls_loop].
  pose proof (step_same nan nan' eta ssx ssx' ssy ssy' n n' p X X' y y' old Hn Hn' HX HX' Hy Hy' HA) as HS.
  destruct (snipls_step nan eta ssx ssy X y old) as [c|], (snipls_step nan' eta ssx' ssy' X' y' old) as [c'|]; try contradiction; [|repeat split; reflexivity].
  destruct HS as (EC & EX & EY & W1 & W2 & L1 & L2 & HA'). assert (Eg : c_good c = c_good c') by (unfold core in EC; congruence).
  destruct (IH (c_X c) (c_X c') (c_y c) (c_y c') (c_good c) Hn Hn' W1 W2 L1 L2 HA') as (I1 & I2 & I3). rewrite <- Eg. cbn [map]. split; [congruence|]. split; intros E; f_equal; auto.
Qed.

Lemma matmul_gram : forall n p (X : list (list R)), wf n p X -> (0 < n)%nat -> matmul (transpose X) X = map (fun i => map (fun j => dot (col i X) (col j X)) (seq 0 p)) (seq 0 p).
Proof. intros n p X HX Hn. unfold matmul, transpose, cols. rewrite (wf_ncols n p X) by auto. rewrite map_map. apply map_ext. intros i. rewrite map_map. reflexivity. Qed.
Lemma ss_gram : forall n p (X : list (list R)), wf n p X -> vsum (map nansum (map (map nsqr) X)) = sumn p (fun j => dot (col j X) (col j X)).
Proof.
  intros n p X HX. rewrite map_map. rewrite vsum_sumn, map_length, (wf_length _ _ _ HX).
  rewrite (sumn_ext n _ (fun i => sumn p (fun j => mget X i j * mget X i j))).
  - rewrite sumn_exchange. apply sumn_ext. intros j Hj. rewrite (dot_sumn _ _ n) by (rewrite col_length; eapply wf_length; eauto). apply sumn_ext. intros i Hi. rewrite !nth_colR. reflexivity.
  - intros i Hi. rewrite (nth_map_lt _ _ _ []) by (rewrite (wf_length _ _ _ HX); auto). rewrite L_OrderSn.nansum_R, vsum_sumn, map_length, (wf_nth_row n p) by auto. apply sumn_ext. intros j Hj.
    rewrite (nth_map_lt _ _ _ 0) by (rewrite (wf_nth_row n p) by auto; auto). reflexivity.
Qed.
Lemma ss_y : forall y : list R, nansum (map nsqr y) = inner y y.
Proof. intros y. rewrite inner_dot, L_OrderSn.nansum_R. unfold dot. f_equal. induction y as [|a y IH]; cbn; auto. f_equal; auto. Qed.

Lemma C187_l : forall env env' inv eta k c c' s s' n n' p X X' y y' f f' X0 X0' y0 y0',
  snipls_run env inv eta k c s n p X y f X0 y0 -> snipls_run env' inv eta k c' s' n' p X' y' f' X0' y0' ->
  gram_of p X0 = gram_of p X0' -> cross_of p X0 y0 = cross_of p X0' y0' ->
  sn_W f = sn_W f' /\ sn_P f = sn_P f' /\ sn_C f = sn_C f' /\ sn_R f = sn_R f' /\ sn_coef_scaled f = sn_coef_scaled f' /\
  sn_retained f = sn_retained f' /\ sn_colret f = sn_colret f' /\ sn_xev f = sn_xev f' /\ (inner y0 y0 = inner y0' y0' -> sn_yev f = sn_yev f').
Proof.
  intros env env' inv eta k c c' s s' n n' p X X' y y' f f' X0 X0' y0 y0' H H' HG HC.
  destruct (run_scaled _ _ _ _ _ _ _ _ _ _ _ _ _ H) as [W L]. destruct (run_scaled _ _ _ _ _ _ _ _ _ _ _ _ _ H') as [W' L'].
  destruct H as (HX & Hn & Hp & Hy & Hf & HX0 & Hy0). destruct H' as (HX' & Hn' & Hp' & Hy' & Hf' & HX0' & Hy0').
  rewrite (cross_tmatvec n p), (cross_tmatvec n' p) in HC by (auto; lia).
  assert (HD : forall i j, (i < p)%nat -> (j < p)%nat -> dot (col i X0) (col j X0) = dot (col i X0') (col j X0')) by (intros i j Hi Hj; rewrite <- !(cell_gram p) by auto; rewrite HG; reflexivity).
  destruct (fit_attrs env inv eta k c s n p X y f X0 y0 HX Hn Hp Hy Hf HX0 Hy0) as (M & _ & _ & A2 & A3 & A4 & _ & _ & _ & _ & A9 & A10 & A11 & A12 & _).
  destruct (fit_attrs env' inv eta k c' s' n' p X' y' f' X0' y0' HX' Hn' Hp Hy' Hf' HX0' Hy0') as (M' & _ & _ & B2 & B3 & B4 & _ & _ & _ & _ & B9 & B10 & B11 & B12 & _).
  assert (EG : matmul (transpose X0) X0 = matmul (transpose X0') X0').
  { rewrite (matmul_gram n p), (matmul_gram n' p) by (auto; lia). apply map_ext_in. intros i Hi. apply map_ext_in. intros j Hj. apply in_seq in Hi. apply in_seq in Hj. apply HD; lia. }
  destruct (loop_same false false eta (vsum (map nansum (map (map nsqr) X0))) (vsum (map nansum (map (map nsqr) X0'))) (nansum (map nsqr y0)) (nansum (map nsqr y0')) n n' p k X0 X0' y0 y0' [] ltac:(lia) ltac:(lia) W W' L L' (conj HD HC)) as (I1 & I2 & I3).
  change (snipls_loop false eta (vsum (map nansum (map (map nsqr) X0))) (nansum (map nsqr y0)) k X0 y0 []) with (comps_of eta k X0 y0) in *.
  change (snipls_loop false eta (vsum (map nansum (map (map nsqr) X0'))) (nansum (map nsqr y0')) k X0' y0' []) with (comps_of eta k X0' y0') in *.
  set (l := comps_of eta k X0 y0) in *. set (l' := comps_of eta k X0' y0') in *.
  assert (Ew : map c_w l = map c_w l') by (apply (f_equal (map (fun x => fst (fst (fst (fst x)))))) in I1; rewrite !map_map in I1; exact I1).
  assert (Ep : map c_p l = map c_p l') by (apply (f_equal (map (fun x => snd (fst (fst x))))) in I1; rewrite !map_map in I1; exact I1).
  assert (Ec : map c_c l = map c_c l') by (apply (f_equal (map (fun x => snd (fst x)))) in I1; rewrite !map_map in I1; exact I1).
  assert (Eg : map c_good l = map c_good l') by (apply (f_equal (map (fun x => snd x))) in I1; rewrite !map_map in I1; exact I1).
  assert (EW : sn_W f = sn_W f') by (rewrite A2, B2, Ew; reflexivity). assert (EP : sn_P f = sn_P f') by (rewrite A3, B3, Ep; reflexivity).
  split; [exact EW|]. split; [exact EP|]. split; [congruence|].
  assert (EN : sn_R f = sn_R f' /\ sn_coef_scaled f = sn_coef_scaled f' /\ sn_colret f = sn_colret f').
  { rewrite A12, B12, Eg. destruct l as [|c0 l0], l' as [|c0' l0']; try discriminate.
    - destruct M as (M1 & M2 & _), M' as (M1' & M2' & _). repeat split; congruence.
    - destruct M as (PW & Gi & M1 & M2 & M3 & M4 & _), M' as (PW' & Gi' & M1' & M2' & M3' & M4' & _). rewrite <- EW, <- EP, <- ?EG in *.
      assert (PW = PW') by congruence. assert (Gi = Gi') by congruence. subst PW' Gi'. repeat split; congruence. }
  destruct EN as (E1 & E2 & E3). split; [exact E1|]. split; [exact E2|]. split; [congruence|]. split; [exact E3|]. split.
  - rewrite A9, B9. apply I2. rewrite (ss_gram n p), (ss_gram n' p) by auto. apply sumn_ext. intros j Hj. apply HD; auto.
  - intros Ey. rewrite A10, B10. apply I3. rewrite !ss_y. exact Ey.
Qed.
