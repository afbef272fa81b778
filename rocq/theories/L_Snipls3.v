(** Statements of the snipls properties in terms of a completed fit. *)

From Coq Require Import Reals List Arith ZArith Bool Lia Lra Permutation.
Import ListNotations.
From Verif Require Import Num Err Vec VecR OrdR L_Mat S_Stats S_Regress L_Stats M_Utils M_Preproc M_Robcent M_Plot M_Snipls
  L_Lin L_Matmul L_Deflate L_Scaling L_Scaling2 L_Preproc L_Msupport L_Snipls L_Snipls2.
Open Scope R_scope.

(** [f] is the estimator after fit(X, y); [X0], [y0] are X and y as scaled by
    the VersatileScaler with the estimator's centre and scale options *)
Definition snipls_run (env : prep_env R) inv (eta : R) (k : nat) c s (n p : nat) (X : list (list R)) (y : list R)
  (f : snipls_model R) (X0 : list (list R)) (y0 : list R) : Prop :=
  is_matrix n p X /\ (2 <= n)%nat /\ (1 <= p)%nat /\ length y = n /\
  snipls_fit env inv eta k c s X y = Ok f /\
  scaled_by env c s X X0 /\ scaled_by env c s (as_column y) (as_column y0).

(** covariance (up to a constant) of variable [j] of the scaled data with the
    y residual after [a] components *)
Definition residual_cov (f : snipls_model R) (X0 : list (list R)) (y0 : list R) (a j : nat) : R :=
  inner (column j X0) (partial_residual y0 (sn_T f) (sn_C f) a).
Definition passes (f : snipls_model R) (eta : R) (X0 : list (list R)) (y0 : list R) (p a j : nat) : Prop :=
  (j < p)%nat /\ forall m, is_max (map (fun i => Rabs (residual_cov f X0 y0 a i)) (seq 0 p)) m -> eta * m < Rabs (residual_cov f X0 y0 a j).

Lemma run_scaled : forall env inv eta k c s n p X y f X0 y0, snipls_run env inv eta k c s n p X y f X0 y0 -> is_matrix n p X0 /\ length y0 = n.
Proof.
  intros env inv eta k c s n p X y f X0 y0 (HX & Hn & Hp & Hy & Hf & HX0 & Hy0). split.
  - eapply scaled_wf; eauto.
  - eapply Wy0; eauto.
Qed.
Ltac run H := destruct H as (HX & Hn & Hp & Hy & Hf & HX0 & Hy0).

Lemma C32_l : forall env inv eta k c s n p X y f X0 y0, snipls_run env inv eta k c s n p X y f X0 y0 -> nonzero_scores f ->
  forall a b, (a < k)%nat -> (b < k)%nat -> a <> b -> orthogonal (column a (sn_T f)) (column b (sn_T f)).
Proof. intros env inv eta k c s n p X y f X0 y0 H Hnz. run H. apply (scores_orth_l env inv eta k c s n p X y f X0 y0); auto. Qed.

Lemma C33_l : forall env inv eta k c s n p X y f X0 y0, snipls_run env inv eta k c s n p X y f X0 y0 ->
  (length (sn_retained f) = k \/ (sn_retained f = [] /\ sn_colret f = None)) /\
  (forall a j, (S a < length (sn_retained f))%nat -> In j (nth a (sn_retained f) []) -> In j (nth (S a) (sn_retained f) [])) /\
  (forall g, sn_colret f = Some g -> g = nth (k - 1) (sn_retained f) []) /\
  (forall a j, (a < length (sn_retained f))%nat -> (j < p)%nat -> ~ In j (nth a (sn_retained f) []) ->
     cell (sn_W f) j a = 0 /\ cell (sn_P f) j a = 0) /\
  (forall j, (j < p)%nat -> (forall g, sn_colret f = Some g -> ~ In j g) ->
     nth j (sn_coef_scaled f) 0 = 0 /\ (nth j (sn_xsca f) 0 <> 0 -> nth j (sn_coef f) 0 = 0)).
Proof.
  intros env inv eta k c s n p X y f X0 y0 H. run H.
  assert (Hrl := ret_length env inv eta k c s n p X y f X0 y0 HX Hn Hp Hy Hf HX0 Hy0).
  assert (Hll := l_length env eta k c s n p X y X0 y0 HX Hn Hp Hy HX0 Hy0).
  assert (Hcr := colret_eq env inv eta k c s n p X y f X0 y0 HX Hn Hp Hy Hf HX0 Hy0).
  set (l := comps_of eta k X0 y0) in *.
  split; [|split; [|split; [|split]]].
  - destruct Hll as [Hll|[Hll Hk]]; [left; lia|right]. rewrite Hll in Hrl, Hcr. split; [|exact Hcr]. destruct (sn_retained f); [auto|discriminate].
  - apply (nested_l env inv eta k c s n p X y f X0 y0); auto.
  - intros g Hg. rewrite Hcr in Hg. destruct (Nat.eqb_spec (length l) 0) as [|Hne]; [discriminate|]. injection Hg as <-.
    destruct Hll as [->|[Hll _]]; [reflexivity|]. rewrite Hll in Hne. cbn in Hne. lia.
  - intros a j Ha Hj Hni. rewrite Hrl in Ha. split; [apply (W_zero env inv eta k c s n p X y f X0 y0)|apply (P_zero env inv eta k c s n p X y f X0 y0)]; auto.
  - intros j Hj Hni.
    assert (E : nth j (sn_coef_scaled f) 0 = 0).
    { apply (coefs_zero env inv eta k c s n p X y f X0 y0); auto. intros [Hp0 Hin]. fold l in Hp0, Hin.
      destruct (Nat.eqb_spec (length l) 0); [lia|]. apply (Hni _ Hcr). exact Hin. }
    split; auto. intros _. rewrite (coef_nth env inv eta k c s n p X y f X0 y0) by auto. rewrite E. ring.
Qed.

Lemma C34_exact_l : forall env inv eta k c s n p X y f X0 y0, snipls_run env inv eta k c s n p X y f X0 y0 -> nonzero_scores f ->
  forall a, (a < length (sn_retained f))%nat ->
  (forall j, In j (nth a (sn_retained f) []) <->
     ((0 < a)%nat /\ In j (nth (a - 1) (sn_retained f) [])) \/ passes f eta X0 y0 p a j) /\
  (forall j m, (j < p)%nat -> In j (nth a (sn_retained f) []) -> is_max (map (fun i => Rabs (residual_cov f X0 y0 a i)) (seq 0 p)) m ->
     cell (sn_W f) j a = (Rabs (residual_cov f X0 y0 a j) - eta * m) * sign_of (residual_cov f X0 y0 a j)
                         / sqrt (sum_of (map (fun i => residual_cov f X0 y0 a i * residual_cov f X0 y0 a i) (seq 0 p)))).
Proof.
  intros env inv eta k c s n p X y f X0 y0 H Hnz a Ha. run H. rewrite (ret_length env inv eta k c s n p X y f X0 y0) in Ha by auto. split.
  - intros j. apply (retained_exact env inv eta k c s n p X y f X0 y0); auto.
  - intros j m Hj Hin Hm. apply (weight_exact env inv eta k c s n p X y f X0 y0); auto.
Qed.
Lemma max_exists : forall l : list R, l <> [] -> exists m, is_max l m.
Proof. intros l Hl. exists (vmaxl l). apply vmaxl_is_max; auto. Qed.
Lemma C34_largest_l : forall env inv eta k c s n p X y f X0 y0, snipls_run env inv eta k c s n p X y f X0 y0 -> nonzero_scores f ->
  0 <= eta < 1 -> forall a j, (a < length (sn_retained f))%nat -> (j < p)%nat ->
  (forall i, (i < p)%nat -> Rabs (residual_cov f X0 y0 a i) <= Rabs (residual_cov f X0 y0 a j)) ->
  residual_cov f X0 y0 a j <> 0 -> In j (nth a (sn_retained f) []).
Proof.
  intros env inv eta k c s n p X y f X0 y0 H Hnz He a j Ha Hj Hmax H0.
  destruct (C34_exact_l env inv eta k c s n p X y f X0 y0 H Hnz a Ha) as [Hg _]. apply Hg. right. split; auto. intros m [Hm _].
  apply in_map_iff in Hm as (i & <- & Hi). apply in_seq in Hi. specialize (Hmax i ltac:(lia)).
  assert (0 < Rabs (residual_cov f X0 y0 a j)) by (apply Rabs_pos_lt; auto). pose proof (Rabs_pos (residual_cov f X0 y0 a i)). nra.
Qed.
Lemma C34_eta0_l : forall env inv k c s n p X y f X0 y0, snipls_run env inv 0 k c s n p X y f X0 y0 -> nonzero_scores f ->
  forall a j, (a < length (sn_retained f))%nat ->
  (In j (nth a (sn_retained f) []) <-> (j < p)%nat /\ exists b, (b <= a)%nat /\ residual_cov f X0 y0 b j <> 0).
Proof.
  intros env inv k c s n p X y f X0 y0 H Hnz a j Ha. revert Ha.
  assert (Hpass : forall b, passes f 0 X0 y0 p b j <-> (j < p)%nat /\ residual_cov f X0 y0 b j <> 0).
  { intros b. unfold passes. split; intros [Hj Hm]; split; auto.
    - destruct (max_exists (map (fun i => Rabs (residual_cov f X0 y0 b i)) (seq 0 p))) as [m Hmm].
      + destruct p; [lia|discriminate].
      + specialize (Hm m Hmm). rewrite Rmult_0_l in Hm. intros E. rewrite E, Rabs_R0 in Hm. lra.
    - intros m _. rewrite Rmult_0_l. apply Rabs_pos_lt; auto. }
  induction a as [|a IH]; intros Ha.
  - destruct (C34_exact_l env inv 0 k c s n p X y f X0 y0 H Hnz 0%nat Ha) as [Hg _]. rewrite Hg, Hpass. split.
    + intros [[Hlt _]|[Hj H0]]; [lia|]. split; auto. exists 0%nat. auto.
    + intros (Hj & b & Hb & H0). right. split; auto. assert (b = 0)%nat by lia. subst; auto.
  - destruct (C34_exact_l env inv 0 k c s n p X y f X0 y0 H Hnz (S a) Ha) as [Hg _]. rewrite Hg, Hpass.
    replace (S a - 1)%nat with a by lia. rewrite IH by lia. split.
    + intros [[_ (Hj & b & Hb & H0)]|[Hj H0]]; split; auto; [exists b; split; [lia|auto]|exists (S a); auto].
    + intros (Hj & b & Hb & H0). destruct (Nat.eq_dec b (S a)) as [->|Hne]; [right; auto|left]. split; [lia|]. split; auto. exists b. split; [lia|auto].
Qed.
Lemma C34_monotone_l : forall env inv eta eta' k k' c s n p X y f f' X0 y0,
  snipls_run env inv eta k c s n p X y f X0 y0 -> snipls_run env inv eta' k' c s n p X y f' X0 y0 ->
  nonzero_scores f -> nonzero_scores f' -> eta <= eta' -> (0 < length (sn_retained f))%nat -> (0 < length (sn_retained f'))%nat ->
  forall j, In j (nth 0 (sn_retained f') []) -> In j (nth 0 (sn_retained f) []).
Proof.
  intros env inv eta eta' k k' c s n p X y f f' X0 y0 H H' Hz Hz' He Hr Hr' j Hin.
  destruct (C34_exact_l env inv eta k c s n p X y f X0 y0 H Hz 0%nat Hr) as [Hg _].
  destruct (C34_exact_l env inv eta' k' c s n p X y f' X0 y0 H' Hz' 0%nat Hr') as [Hg' _].
  apply Hg' in Hin as [[Hlt _]|[Hj Hm]]; [lia|]. apply Hg. right. split; auto. intros m Hmm. specialize (Hm m Hmm).
  unfold residual_cov, partial_residual in *. cbn [seq map] in *.
  destruct Hmm as [Hi _]. apply in_map_iff in Hi as (i & <- & _).
  match goal with |- eta * Rabs ?u < _ => pose proof (Rabs_pos u) end. nra.
Qed.

Lemma C35_l : forall env inv eta k c s n p X y f X0 y0, snipls_run env inv eta k c s n p X y f X0 y0 ->
  snipls_predict f (A2 X) = Ok (sn_fitted f) /\
  length (sn_fitted f) = n /\ length (sn_resid f) = n /\
  (forall i, (i < n)%nat -> nth i (sn_fitted f) 0 + nth i (sn_resid f) 0 = nth i y 0) /\
  (c = CMean -> sum_of (sn_resid f) = 0) /\
  (c <> CMean -> c <> CNone -> is_median (sn_resid f) 0).
Proof.
  intros env inv eta k c s n p X y f X0 y0 H. run H.
  split; [apply (predict_train env inv eta k c s n p X y f X0 y0); auto|].
  split; [apply (fitted_length env inv eta k c s n p X y f X0 y0); auto|].
  split; [apply (resid_length env inv eta k c s n p X y f X0 y0); auto|].
  split; [intros i Hi; rewrite (resid_nth env inv eta k c s n p X y f X0 y0) by auto; ring|].
  apply (resid_centred env inv eta k c s n p X y f X0 y0); auto.
Qed.
Lemma C35_affine_l : forall env inv eta k c s n p X y f X0 y0, snipls_run env inv eta k c s n p X y f X0 y0 ->
  exists b, length b = p /\
    (forall m Xn, is_matrix m p Xn -> (1 <= m)%nat ->
       snipls_predict f (A2 Xn) = Ok (map (fun r => inner r b + sn_intercept f) Xn)) /\
    (forall x, ncols (match x with A1 v => [v] | A2 Z => Z end) <> p <-> snipls_predict f x = Err ValueError).
Proof.
  intros env inv eta k c s n p X y f X0 y0 H. run H. exists (sn_coef f).
  assert (Ep : sn_p f = p) by (pose proof (fit_attrs env inv eta k c s n p X y f X0 y0 HX Hn Hp Hy Hf HX0 Hy0) as A; tauto).
  split; [apply (coef_length env inv eta k c s n p X y f X0 y0); auto|]. split.
  - intros m Xn HXn Hm. unfold snipls_predict, predict_check_input. rewrite (wf_ncols m p) by (auto; lia). rewrite Ep, Nat.eqb_refl. cbn [negb].
    f_equal. unfold matvec. rewrite map_map. apply map_ext. intros r. rewrite inner_dot. reflexivity.
  - intros x. unfold snipls_predict, predict_check_input. rewrite Ep. destruct (Nat.eqb_spec (ncols match x with A1 v => [v] | A2 Z => Z end) p) as [E|E]; cbn [negb].
    + split; [intros; contradiction|discriminate].
    + split; auto.
Qed.

Lemma C36_l : forall env inv eta k c s n p X y f X0 y0, snipls_run env inv eta k c s n p X y f X0 y0 -> nonzero_scores f -> inverse_ok inv ->
  sn_retained f <> [] ->
  (forall a j, (a < length (sn_retained f))%nat -> In j (nth a (sn_retained f) []) -> In j (nth 0 (sn_retained f) [])) ->
  snipls_transform f (A2 X) = Ok (sn_T f).
Proof.
  intros env inv eta k c s n p X y f X0 y0 H Hnz Hinv Hne Hcr. run H.
  assert (Hrl := ret_length env inv eta k c s n p X y f X0 y0 HX Hn Hp Hy Hf HX0 Hy0).
  apply (transform_train env inv eta k c s n p X y f X0 y0); auto.
  - rewrite <- Hrl. destruct (sn_retained f); [congruence|cbn; lia].
  - rewrite <- Hrl. exact Hcr.
Qed.

Lemma C37_l : forall env inv eta k c s n p X y f X0 y0, snipls_run env inv eta k c s n p X y f X0 y0 -> nonzero_scores f ->
  Forall (fun v => 0 <= v) (sn_xev f) /\ sum_of (sn_xev f) <= 100 /\
  (sqlen y0 <> 0 -> Forall (fun v => 0 <= v) (sn_yev f) /\ sum_of (sn_yev f) <= 100 /\
     sum_of (sn_yev f) = 100 - 100 * sqlen (partial_residual y0 (sn_T f) (sn_C f) (length (sn_C f))) / sqlen y0).
Proof.
  intros env inv eta k c s n p X y f X0 y0 H Hnz. run H.
  split; [|split].
  - apply Forall_forall. intros v Hv. apply (In_nth _ _ 0) in Hv as (a & Ha & <-). rewrite (xev_length env inv eta k c s n p X y f X0 y0) in Ha by auto.
    apply (xev_nonneg env inv eta k c s n p X y f X0 y0); auto.
  - apply (xev_sum env inv eta k c s n p X y f X0 y0); auto.
  - intros H0. rewrite sqlen_dot in H0. split; [|apply (yev_sum env inv eta k c s n p X y f X0 y0); auto].
    apply Forall_forall. intros v Hv. apply (In_nth _ _ 0) in Hv as (a & Ha & <-). rewrite (yev_length env inv eta k c s n p X y f X0 y0) in Ha by auto.
    apply (yev_nonneg env inv eta k c s n p X y f X0 y0); auto.
Qed.

Lemma fitted_by_matvec : forall (X : list (list R)) b, fitted_by X b = matvec X b.
Proof. intros. unfold fitted_by, matvec. apply map_ext. intros; apply inner_dot. Qed.
Lemma C38_l : forall env inv eta k c s n p X y f X0 y0, snipls_run env inv eta k c s n p X y f X0 y0 -> inverse_ok inv ->
  in_span (sn_W f) (sn_coef_scaled f) /\
  (forall b, in_span (sn_W f) b -> inner (vdiff y0 (fitted_by X0 (sn_coef_scaled f))) (fitted_by X0 b) = 0) /\
  (forall b, in_span (sn_W f) b -> sqlen (vdiff y0 (fitted_by X0 (sn_coef_scaled f))) <= sqlen (vdiff y0 (fitted_by X0 b))) /\
  (nonzero_scores f -> vdiff y0 (fitted_by X0 (sn_coef_scaled f)) = partial_residual y0 (sn_T f) (sn_C f) (length (sn_C f))).
Proof.
  intros env inv eta k c s n p X y f X0 y0 H Hinv. destruct (run_scaled _ _ _ _ _ _ _ _ _ _ _ _ _ H) as [HW0 Hl0]. run H.
  assert (HW := W_wf env inv eta k c s n p X y f X0 y0 HX Hn Hp Hy Hf HX0 Hy0).
  assert (HB := coef_len env inv eta k c s n p X y f X0 y0 HX Hn Hp Hy Hf HX0 Hy0).
  assert (Hsp := W_span env inv eta k c s n p X y f X0 y0 HX Hn Hp Hy Hf HX0 Hy0 Hinv).
  assert (Hspan : forall b, in_span (sn_W f) b -> exists z, b = matvec (sn_W f) z /\ length z = length (comps_of eta k X0 y0)).
  { intros b (z & -> & Hz). exists z. split; [apply fitted_by_matvec|]. destruct (sn_W f) as [|r0 W'] eqn:EW; [apply wf_length in HW; cbn in HW; lia|].
    rewrite (Hz r0 (or_introl eq_refl)). apply (wf_row p _ (sn_W f)); rewrite EW; auto. left; auto. }
  assert (Hort : forall b, in_span (sn_W f) b -> dot (vsub y0 (matvec X0 (sn_coef_scaled f))) (matvec X0 b) = 0).
  { intros b Hb. apply Hspan in Hb as (z & -> & Hz).
    destruct (Nat.eq_dec (length (comps_of eta k X0 y0)) 0) as [E0|E0].
    - replace (matvec X0 (matvec (sn_W f) z)) with (vzeros (A:=R) n); [rewrite dot_comm; apply dot_zeros_l|].
      apply (nth_ext _ _ 0 0); [unfold vzeros; rewrite repeat_length, matvec_length, (wf_length _ _ _ HW0); auto|].
      intros i Hi. unfold vzeros in Hi. rewrite repeat_length in Hi. rewrite nth_zeros. rewrite nth_matvec by (rewrite (wf_length _ _ _ HW0); auto).
      symmetry. rewrite (dot_row_sumn n p) by (auto; rewrite matvec_length; apply (wf_length _ _ _ HW)). apply sumn_zero. intros j Hj.
      rewrite nth_matvec by (rewrite (wf_length _ _ _ HW); auto). rewrite E0 in Hz. destruct z; [|discriminate]. rewrite dot_comm. cbn. rnum. ring.
    - apply (normal_eq env inv eta k c s n p X y f X0 y0); auto. lia. }
  rewrite !fitted_by_matvec. rewrite vdiff_vsub. split; [exact Hsp|]. split; [|split].
  - intros b Hb. rewrite inner_dot, fitted_by_matvec. apply Hort; auto.
  - intros b Hb. rewrite fitted_by_matvec, vdiff_vsub. apply (ls_optimal n); auto; [apply (wf_length _ _ _ HW0)|].
    rewrite dot_comm, dot_vsub_l by (rewrite !matvec_length; auto). rewrite (dot_comm (matvec X0 (sn_coef_scaled f))), (dot_comm (matvec X0 b)).
    rewrite !Hort by auto. ring.
  - intros Hnz. apply (resid_final env inv eta k c s n p X y f X0 y0); auto.
Qed.

Lemma C89_l : forall env inv eta k c s n p X y f X0 y0, snipls_run env inv eta k c s n p X y f X0 y0 -> nonzero_scores f ->
  forall a j m, (a < length (sn_retained f))%nat -> (j < p)%nat -> In j (nth a (sn_retained f) []) ->
  is_max (map (fun i => Rabs (residual_cov f X0 y0 a i)) (seq 0 p)) m ->
  (cell (sn_W f) j a * residual_cov f X0 y0 a j < 0 <-> 0 < Rabs (residual_cov f X0 y0 a j) < eta * m).
Proof.
  intros env inv eta k c s n p X y f X0 y0 H Hnz a j m Ha Hj Hin Hm.
  destruct (C34_exact_l env inv eta k c s n p X y f X0 y0 H Hnz a Ha) as [_ Hw]. rewrite (Hw j m Hj Hin Hm).
  set (v := residual_cov f X0 y0 a j). set (N := sqrt _).
  assert (Habs : sign_of v * v = Rabs v).
  { unfold sign_of. destruct (Rlt_dec 0 v); [rewrite Rabs_right; lra|]. destruct (Rlt_dec v 0); [rewrite Rabs_left; lra|].
    assert (v = 0) by lra. rewrite H0, Rabs_R0. ring. }
  replace ((Rabs v - eta * m) * sign_of v / N * v) with ((Rabs v - eta * m) * (sign_of v * v) / N) by (unfold Rdiv; ring). rewrite Habs.
  destruct (Req_dec v 0) as [E|E]; [rewrite E, Rabs_R0; unfold Rdiv; lra|].
  assert (Hv : 0 < Rabs v) by (apply Rabs_pos_lt; auto).
  assert (HN : 0 < N).
  { unfold N. apply sqrt_lt_R0. rewrite sum_of_seq. apply (sumn_pos_at p _ j Hj); [intros; apply Rle_0_sqr|]. fold v. nra. }
  assert (Hi := Rinv_0_lt_compat _ HN). unfold Rdiv. split.
  - intros Hlt. split; auto. destruct (Rlt_le_dec (Rabs v) (eta * m)) as [|Hge]; auto. exfalso.
    assert (0 <= (Rabs v - eta * m) * Rabs v * / N); [|lra]. apply Rmult_le_pos; [apply Rmult_le_pos; lra|lra].
  - intros [_ Hlt]. assert (0 < (eta * m - Rabs v) * Rabs v * / N); [|lra]. apply Rmult_lt_0_compat; [apply Rmult_lt_0_compat; lra|lra].
Qed.
