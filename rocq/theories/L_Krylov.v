(** Partial least squares as least squares over Krylov spaces *)
From Coq Require Import String Reals List Arith ZArith Bool Lia Lra.
Import List. Import ListNotations.
From Verif Require L_Pls.
From Verif Require Import Num Err Vec VecR OrdR L_Mat S_Stats S_Regress L_Stats M_Utils M_Preproc M_Robcent M_Plot M_Snipls
  L_Lin L_Matmul L_Deflate L_Scaling L_Scaling2 L_Preproc L_Msupport L_Snipls L_Snipls2 L_Snipls3 S_Sudire S_Krylov.
Open Scope R_scope.

Section Span.
  Variable p : nat.
  Definition sp (m : nat) (e : nat -> nat -> R) (v : nat -> R) : Prop := exists z, forall j, (j < p)%nat -> v j = sumn m (fun a => z a * e a j).
  Lemma sp_ext : forall m e v v', (forall j, (j < p)%nat -> v' j = v j) -> sp m e v -> sp m e v'.
  Proof. intros m e v v' E (z & Hz). exists z. intros j Hj. rewrite E by auto. auto. Qed.
  Lemma sp_S : forall m e v, sp m e v -> sp (S m) e v.
  Proof.
    intros m e v (z & Hz). exists (fun a => if (a =? m)%nat then 0 else z a). intros j Hj. rewrite sumn_S, Nat.eqb_refl, Hz by auto.
    rewrite (sumn_ext m (fun a => (if (a =? m)%nat then 0 else z a) * e a j) (fun a => z a * e a j)); [ring|]. intros a Ha. destruct (Nat.eqb_spec a m); [lia|reflexivity].
  Qed.
  Lemma sp_le : forall m m' e v, (m <= m')%nat -> sp m e v -> sp m' e v.
  Proof. intros m m' e v H Hs. induction H; auto. apply sp_S. auto. Qed.
  Lemma sp_base : forall m e a, (a < m)%nat -> sp m e (e a).
  Proof.
    intros m e a Ha. exists (fun b => if (b =? a)%nat then 1 else 0). intros j Hj.
    rewrite (sumn_ext m _ (fun b => if (b =? a)%nat then e b j else 0)) by (intros b Hb; destruct (b =? a)%nat; ring). rewrite sumn_delta by auto. reflexivity.
  Qed.
  Lemma sp_comb : forall m e v v' a b, sp m e v -> sp m e v' -> sp m e (fun j => a * v j + b * v' j).
  Proof.
    intros m e v v' a b (z & Hz) (z' & Hz'). exists (fun t => a * z t + b * z' t). intros j Hj. rewrite Hz, Hz' by auto. rewrite <- !sumn_scal, <- sumn_plus. apply sumn_ext. intros; ring.
  Qed.
  Lemma sp_zero : forall m e, sp m e (fun _ => 0).
  Proof. intros m e. exists (fun _ => 0). intros j Hj. symmetry. apply sumn_zero. intros; ring. Qed.
  Lemma sp_sum : forall N m e (h : nat -> R) (v : nat -> nat -> R), (forall b, (b < N)%nat -> sp m e (v b)) -> sp m e (fun j => sumn N (fun b => h b * v b j)).
  Proof.
    induction N as [|N IH]; intros m e h v Hv; [apply sp_zero|].
    eapply sp_ext; [|apply (sp_comb m e (fun j => sumn N (fun b => h b * v b j)) (v N) 1 (h N)); [apply IH; intros; apply Hv; lia|apply Hv; lia]].
    intros j Hj. cbv beta. rewrite sumn_S. ring.
  Qed.
  Lemma sp_trans : forall m e m' e' v, (forall a, (a < m)%nat -> sp m' e' (e a)) -> sp m e v -> sp m' e' v.
  Proof. intros m e m' e' v He (z & Hz). eapply sp_ext; [exact Hz|]. apply sp_sum. exact He. Qed.

  Variable M : nat -> nat -> R.
  Definition app (v : nat -> R) (j : nat) : R := sumn p (fun i => M j i * v i).
  Lemma app_ext : forall v v' j, (forall i, (i < p)%nat -> v i = v' i) -> app v j = app v' j.
  Proof. intros v v' j E. apply sumn_ext. intros i Hi. rewrite E by auto. reflexivity. Qed.
  Lemma sp_app : forall m e m' e' v, sp m e v -> (forall a, (a < m)%nat -> sp m' e' (app (e a))) -> sp m' e' (app v).
  Proof.
    intros m e m' e' v (z & Hz) He. apply (sp_ext m' e' (fun j => sumn m (fun a => z a * app (e a) j))); [|apply sp_sum; auto].
    intros j Hj. rewrite (app_ext v (fun i => sumn m (fun a => z a * e a i))) by auto. unfold app.
    rewrite (sumn_ext p _ (fun i => sumn m (fun a => z a * (M j i * e a i)))) by (intros i Hi; rewrite <- sumn_scal; apply sumn_ext; intros; ring).
    rewrite sumn_exchange. apply sumn_ext. intros a Ha. apply sumn_scal.
  Qed.
  Variable s : nat -> R.
  Fixpoint pw (t : nat) : nat -> R := match t with O => s | S u => app (pw u) end.

  Variables (k : nat) (w u cv g : nat -> nat -> R) (cc nu : nat -> R).
  Hypothesis H0 : forall j, (j < p)%nat -> cv 0%nat j = s j.
  Hypothesis Hw : forall a j, (a < k)%nat -> (j < p)%nat -> nu a * w a j = cv a j.
  Hypothesis Hnu : forall a, (a < k)%nat -> nu a <> 0.
  Hypothesis Hc : forall a, (a < k)%nat -> cc a <> 0.
  Hypothesis Hcv : forall a j, (a < k)%nat -> (j < p)%nat -> cv (S a) j = cv a j - cc a * u a j.
  Hypothesis Hu : forall a j, (a < k)%nat -> (j < p)%nat -> u a j = app (w a) j - sumn a (fun b => g a b * u b j).

  Lemma pw_app : forall m v, sp m pw v -> sp (S m) pw (app v).
  Proof. intros m v Hv. eapply sp_app; [exact Hv|]. intros a Ha. apply (sp_base (S m) pw (S a)). lia. Qed.
  Lemma cv_sp : forall a, (a < k)%nat -> sp (S a) w (cv a).
  Proof.
    intros a Ha. eapply sp_ext; [|apply (sp_comb (S a) w (w a) (fun _ => 0) (nu a) 0); [apply sp_base; lia|apply sp_zero]].
    intros j Hj. cbv beta. rewrite Hw by auto. ring.
  Qed.
  Lemma into_pw : forall a, (a < k)%nat -> sp (S a) pw (w a) /\ sp (S (S a)) pw (u a).
  Proof.
    induction a as [a IH] using (well_founded_induction lt_wf). intros Ha.
    assert (W : sp (S a) pw (w a)).
    { assert (C : sp (S a) pw (cv a)).
      { destruct a as [|a]; [eapply sp_ext; [|apply (sp_base 1 pw 0); lia]; intros j Hj; apply H0; auto|].
        destruct (IH a ltac:(lia) ltac:(lia)) as [W1 U1].
        eapply sp_ext; [|apply (sp_comb _ pw (w a) (u a) (nu a) (- cc a)); [apply sp_S; exact W1|exact U1]]. intros j Hj. cbv beta. rewrite Hcv, <- Hw by (auto; lia). ring. }
      eapply sp_ext; [|apply (sp_comb _ pw (cv a) (fun _ => 0) (/ nu a) 0); [exact C|apply sp_zero]]. intros j Hj. cbv beta. rewrite <- Hw by auto. field. auto. }
    split; [exact W|].
    eapply sp_ext; [|apply (sp_comb _ pw (app (w a)) (fun j => sumn a (fun b => g a b * u b j)) 1 (-1)); [apply pw_app; exact W|]].
    - intros j Hj. cbv beta. rewrite Hu by auto. ring.
    - apply (sp_sum a (S (S a)) pw (g a) u). intros b Hb. apply (sp_le (S (S b))); [lia|]. apply IH; lia.
  Qed.
  Lemma u_sp : forall a, (S a < k)%nat -> sp (S (S a)) w (u a).
  Proof.
    intros a Ha. eapply sp_ext; [|apply (sp_comb _ w (cv a) (cv (S a)) (/ cc a) (- / cc a)); [apply sp_S, cv_sp; lia|apply cv_sp; lia]].
    intros j Hj. cbv beta. rewrite Hcv by (auto; lia). field. apply Hc. lia.
  Qed.
  Lemma app_w : forall a, (S a < k)%nat -> sp (S (S a)) w (app (w a)).
  Proof.
    intros a Ha. eapply sp_ext; [|apply (sp_comb _ w (u a) (fun j => sumn a (fun b => g a b * u b j)) 1 1); [apply u_sp; auto|]].
    - intros j Hj. cbv beta. rewrite (Hu a j) by (auto; lia). ring.
    - apply (sp_sum a (S (S a)) w (g a) u). intros b Hb. apply (sp_le (S (S b))); [lia|]. apply u_sp. lia.
  Qed.
  Lemma into_w : forall t, (t < k)%nat -> sp (S t) w (pw t).
  Proof.
    induction t as [|t IH]; intros Ht.
    - eapply sp_ext; [|apply (cv_sp 0%nat Ht)]. intros j Hj. symmetry. apply H0; auto.
    - cbn [pw]. eapply sp_app; [apply IH; lia|]. intros a Ha. apply (sp_le (S (S a))); [lia|]. apply app_w. lia.
  Qed.
  Lemma same_span : forall v, sp k w v <-> sp k pw v.
  Proof.
    intros v. split; apply sp_trans; intros a Ha; [apply (sp_le (S a)); [lia|]; apply into_pw; auto|apply (sp_le (S a)); [lia|]; apply into_w; auto].
  Qed.
End Span.

Lemma col_length : forall j (X : list (list R)), length (col j X) = length X.
Proof. intros. unfold col. apply map_length. Qed.
Lemma cross_tmatvec : forall n p X y, wf n p X -> (0 < n)%nat -> cross_of p X y = tmatvec X y.
Proof.
  intros n p X y HX Hn. apply (nth_ext _ _ 0 0); [unfold cross_of; rewrite map_length, seq_length; symmetry; apply (tmatvec_length n p); auto|].
  intros j Hj. unfold cross_of in *. rewrite map_length, seq_length in Hj. rewrite (nth_map_lt _ _ _ 0%nat), seq_nth by (try rewrite seq_length; auto).
  rewrite (nth_tmatvec n p) by auto. apply inner_dot.
Qed.
Lemma cell_gram : forall p X i j, (i < p)%nat -> (j < p)%nat -> cell (gram_of p X) i j = dot (col i X) (col j X).
Proof.
  intros p X i j Hi Hj. unfold gram_of, matrix_of, cell. rewrite (nth_map_lt _ _ _ 0%nat), seq_nth by (try rewrite seq_length; auto).
  rewrite (nth_map_lt _ _ _ 0%nat), seq_nth by (try rewrite seq_length; auto). apply inner_dot.
Qed.
Lemma app_dot : forall n p X c w, wf n p X -> (0 < n)%nat -> length c = n -> length w = p ->
  sumn p (fun i => dot c (col i X) * nth i w 0) = dot c (matvec X w).
Proof.
  intros n p X c w HX Hn Hc Hw. rewrite <- (L_Lin.adjoint n p) by auto. rewrite (dot_sumn _ _ p) by (auto; apply (tmatvec_length n p); auto).
  apply sumn_ext. intros i Hi. rewrite (nth_tmatvec n p), dot_comm by auto. reflexivity.
Qed.
Lemma vsum_firstn : forall {A} (h : A -> R) l d a, (a <= length l)%nat -> vsum (map h (firstn a l)) = sumn a (fun b => h (nth b l d)).
Proof.
  intros A h l d a Ha. rewrite vsum_sumn, map_length, firstn_length, Nat.min_l by auto. apply sumn_ext. intros b Hb.
  rewrite (nth_map_lt _ _ _ d) by (rewrite firstn_length; lia). f_equal. clear Ha. revert b a Hb. induction l as [|x l IH]; intros [|b] [|a] Hb; cbn; auto; try lia. apply IH. lia.
Qed.
Lemma pw_power : forall p M s t j, length s = p -> (j < p)%nat -> nth j (power_times p M t s) 0 = pw p (cell M) (fun j => nth j s 0) t j.
Proof.
  intros p M s t. induction t as [|t IH]; intros j Hs Hj; [reflexivity|]. cbn [power_times pw]. unfold app.
  rewrite (nth_map_lt _ _ _ 0%nat), seq_nth by (try rewrite seq_length; auto). change sum_to with sumn. apply sumn_ext. intros i Hi. rewrite IH by auto. reflexivity.
Qed.
Lemma pw_ext : forall p M M' s s' t j, (forall a b, (a < p)%nat -> (b < p)%nat -> M a b = M' a b) -> (forall a, (a < p)%nat -> s a = s' a) -> (j < p)%nat -> pw p M s t j = pw p M' s' t j.
Proof.
  intros p M M' s s' t. induction t as [|t IH]; intros j HM Hs Hj; [apply Hs; auto|]. cbn [pw]. unfold app. apply sumn_ext. intros i Hi. rewrite HM, IH by auto. reflexivity.
Qed.
Lemma sp_ebase : forall p m e e' v, (forall a j, (a < m)%nat -> (j < p)%nat -> e a j = e' a j) -> sp p m e v -> sp p m e' v.
Proof. intros p m e e' v E (z & Hz). exists z. intros j Hj. rewrite Hz by auto. apply sumn_ext. intros a Ha. rewrite E by auto. reflexivity. Qed.

Section Fit.
  Variables (env : prep_env R) (inv : list (list R) -> res (list (list R))) (k : nat) (c : centre_opt R) (s : scale_opt R) (n p : nat) (X : list (list R)) (y : list R) (f : snipls_model R) (X0 : list (list R)) (y0 : list R).
  Hypothesis H : snipls_run env inv 0 k c s n p X y f X0 y0.
  Hypothesis Hz : nonzero_scores f.
  Local Notation l := (comps_of 0 k X0 y0).
  Local Notation C a := (nth a l sc0).
  Local Notation cva a := (tmatvec X0 (ybefore y0 l a)).

  Lemma kry_n : (0 < n)%nat. Proof. destruct H as (_ & Hn & _). lia. Qed.
  Lemma kry_wf : wf n p X0 /\ length y0 = n. Proof. eapply run_scaled; eauto. Qed.
  Lemma kry_step : forall a, (a < length l)%nat -> vnorm (cva a) * vnorm (cva a) = dot (cva a) (cva a) /\ vnorm (cva a) <> 0 /\ c_w (C a) = map (fun v => v / vnorm (cva a)) (cva a) /\
     c_t (C a) = matvec (before X0 l a) (c_w (C a)) /\ c_c (C a) = dot (ybefore y0 l a) (c_t (C a)) / dot (c_t (C a)) (c_t (C a)) /\ c_y (C a) = vsub (ybefore y0 l a) (vscale (c_c (C a)) (c_t (C a)))
     /\ dot (c_t (C a)) (c_t (C a)) <> 0.
  Proof.
    intros a Ha. pose proof H as H'. destruct H' as (HX & Hn & Hp & Hy & Hf & HX0 & Hy0). pose proof kry_wf as [HW Hl]. pose proof kry_n as Hn0.
    destruct (l_facts env 0 k c s n p X y X0 y0 HX Hn Hp Hy HX0 Hy0 a Ha) as (A1 & A2 & (Fg & Fw & Ft & _ & _ & Fc & _ & _ & _ & Fy)).
   
    rewrite (cov_eq env inv 0 k c s n p X y f X0 y0 HX Hn Hp Hy Hf HX0 Hy0 Hz a ltac:(lia)) in Fg, Fw.
    assert (Ew : c_w (C a) = map (fun v => v / vnorm (cva a)) (cva a)).
    { rewrite Fw. apply L_Pls.soft0. intros j Hj Hnz. apply Fg. right. split; [exact Hj|]. rewrite Rmult_0_l. apply Rabs_pos_lt. exact Hnz. }
    assert (Htt : dot (c_t (C a)) (c_t (C a)) <> 0).
    { pose proof (C_length env inv 0 k c s n p X y f X0 y0 HX Hn Hp Hy Hf HX0 Hy0) as HCl. specialize (Hz a).
      rewrite HCl in Hz. specialize (Hz Ha). rewrite (T_col env inv 0 k c s n p X y f X0 y0 HX Hn Hp Hy Hf HX0 Hy0 a Ha), sqlen_dot in Hz. exact Hz. }
    assert (Hsq : vnorm (cva a) * vnorm (cva a) = dot (cva a) (cva a)) by apply norm_sq.
    assert (Hnv : vnorm (cva a) <> 0).
    { intros E0. apply Htt. assert (Zc : Forall (fun v => v = 0) (cva a)) by (apply dot_self_zero; rewrite <- Hsq, E0; ring).
      assert (Zw : Forall (fun v => v = 0) (c_w (C a))).
      { rewrite Ew. apply Forall_forall. intros v Hv. apply in_map_iff in Hv as (v0 & <- & Hv0). rewrite Forall_forall in Zc. rewrite (Zc v0 Hv0). unfold Rdiv; ring. }
      assert (Lw : length (c_w (C a)) = p) by (rewrite Ew, map_length; apply (tmatvec_length n p); auto).
      rewrite Ft. rewrite <- (L_Lin.adjoint n p) by (auto; rewrite matvec_length; apply (wf_length _ _ _ A1)). rewrite dot_comm. apply dot_zero_l. exact Zw. }
    repeat (split; [assumption|]). assumption.
  Qed.
  Lemma kry_len : forall a, (a < length l)%nat -> length (c_w (C a)) = p /\ length (c_t (C a)) = n.
  Proof. intros a Ha. pose proof H as H'. destruct H' as (HX & Hn & Hp & Hy & Hf & HX0 & Hy0). destruct (l_lengths env 0 k c s n p X y X0 y0 HX Hn Hp Hy HX0 Hy0 a Ha) as (A & B & _). split; auto. Qed.
  Lemma kry_span : forall v, sp p (length l) (fun a j => nth j (c_w (C a)) 0) v <-> sp p (length l) (pw p (fun i j => dot (col i X0) (col j X0)) (fun j => nth j (cva 0) 0)) v.
  Proof.
    pose proof kry_wf as [HW Hl]. pose proof kry_n as Hn0. pose proof H as H'. destruct H' as (HX & Hn & Hp & Hy & Hf & HX0 & Hy0).
    destruct (chain_l env inv 0 k c s n p X y f X0 y0 HX Hn Hp Hy Hf HX0 Hy0 Hz) as (Hch & _ & HB).
    assert (Lv : forall a, length (cva a) = p) by (intros a; apply (tmatvec_length n p); auto).
    assert (Wa : forall a j, (a < length l)%nat -> (j < p)%nat -> vnorm (cva a) * nth j (c_w (C a)) 0 = nth j (cva a) 0).
    { intros a j Ha Hj. destruct (kry_step a Ha) as (_ & Hnv & Ew & _). rewrite Ew, (nth_map_lt _ _ _ 0) by (rewrite Lv; auto). field. exact Hnv. }
    apply (same_span p (fun i j => dot (col i X0) (col j X0)) (fun j => nth j (cva 0) 0) (length l) (fun a j => nth j (c_w (C a)) 0)
      (fun a j => nth j (tmatvec X0 (c_t (C a))) 0) (fun a j => nth j (cva a) 0) (fun a b => dot (c_q (C b)) (c_w (C a))) (fun a => c_c (C a)) (fun a => vnorm (cva a))).
    - reflexivity.
    - exact Wa.
    - intros a Ha. apply kry_step; auto.
    - intros a Ha. destruct (kry_step a Ha) as (Hsq & Hnv & Ew & Et & Ec & _ & Htt). destruct (kry_len a Ha) as [Lw Lt].
      destruct (l_facts env 0 k c s n p X y X0 y0 HX Hn Hp Hy HX0 Hy0 a Ha) as (A1 & A2 & _).
      rewrite Ec. assert (E : dot (ybefore y0 l a) (c_t (C a)) = vnorm (cva a)).
      { rewrite Et, <- (L_Lin.adjoint n p) by auto. pose proof (cov_eq env inv 0 k c s n p X y f X0 y0 HX Hn Hp Hy Hf HX0 Hy0 Hz a ltac:(lia)) as EC. rewrite EC.
        apply (Rmult_eq_reg_r (vnorm (cva a))); [|exact Hnv]. rewrite Hsq, !(dot_sumn _ _ p) by auto. rewrite Rmult_comm, <- sumn_scal. apply sumn_ext. intros j Hj. rewrite <- (Wa a j Ha Hj) at 3. ring. }
      rewrite E. unfold Rdiv. apply Rmult_integral_contrapositive_currified; [exact Hnv|]. apply Rinv_neq_0_compat. exact Htt.
    - intros a j Ha Hj. destruct (kry_step a Ha) as (_ & _ & _ & _ & _ & Ey & _). destruct (kry_len a Ha) as [_ Lt].
      destruct (l_facts env 0 k c s n p X y X0 y0 HX Hn Hp Hy HX0 Hy0 a Ha) as (A1 & A2 & _).
      cbn [ybefore]. rewrite Ey, !(nth_tmatvec n p) by auto. rewrite dot_vsub_r by (rewrite vscale_length; lia). rewrite dot_vscale_r. reflexivity.
    - intros a j Ha Hj. destruct (kry_step a Ha) as (_ & _ & _ & Et & _). destruct (kry_len a Ha) as [Lw Lt]. destruct (HB a ltac:(lia)) as [EB _].
      assert (Lc : length (col j X0) = n) by (rewrite col_length; apply (wf_length _ _ _ HW)).
      unfold app. rewrite (app_dot n p) by auto. rewrite (recon n p Hn0 (firstn a (map L_Snipls.todc l)) X0 (c_w (C a)) (col j X0)) by (auto; apply is_chain_firstn; exact Hch).
      rewrite (vsum_firstn _ _ dc0) by (rewrite map_length; lia). rewrite <- EB, <- Et, (nth_tmatvec n p) by auto.
      rewrite (sumn_ext a (fun b => dot (c_q (C b)) (c_w (C a)) * nth j (tmatvec X0 (c_t (C b))) 0) (fun b => dot (d_q (nth b (map L_Snipls.todc l) dc0)) (c_w (C a)) * dot (col j X0) (d_t (nth b (map L_Snipls.todc l) dc0)))); [ring|].
      intros b Hb. rewrite L_Snipls2.nth_todc. cbn [d_q d_t L_Snipls.todc]. rewrite (nth_tmatvec n p) by auto. reflexivity.
  Qed.
  Lemma in_span_sp : forall b, in_span (sn_W f) b <-> length b = p /\ sp p (length l) (fun a j => nth j (c_w (C a)) 0) (fun j => nth j b 0).
  Proof.
    intros b. pose proof H as H'. destruct H' as (HX & Hn & Hp & Hy & Hf & HX0 & Hy0).
    pose proof (W_wf env inv 0 k c s n p X y f X0 y0 HX Hn Hp Hy Hf HX0 Hy0) as HWf.
    assert (HN : forall z j, length z = length l -> (j < p)%nat -> nth j (fitted_by (sn_W f) z) 0 = sumn (length l) (fun a => nth a z 0 * nth j (c_w (C a)) 0)).
    { intros z j Lz Hj. rewrite fitted_by_matvec, nth_matvec by (rewrite (wf_length _ _ _ HWf); exact Hj). rewrite (dot_row_sumn p (length l)) by auto. apply sumn_ext. intros a Ha.
      rewrite <- cell_mget. rewrite (W_cell env inv 0 k c s n p X y f X0 y0 HX Hn Hp Hy Hf HX0 Hy0) by auto. ring. }
    assert (HL : forall z, length (fitted_by (sn_W f) z) = p) by (intros z; unfold fitted_by; rewrite map_length; apply (wf_length _ _ _ HWf)).
    split.
    - intros (z & -> & Hl). assert (Lz : length z = length l).
      { assert (Hin : In (nth 0 (sn_W f) []) (sn_W f)) by (apply nth_In; rewrite (wf_length _ _ _ HWf); lia). rewrite (Hl _ Hin). destruct HWf as [_ HF]. rewrite Forall_forall in HF. apply HF. exact Hin. }
      split; [apply HL|]. exists (fun a => nth a z 0). intros j Hj. apply HN; auto.
    - intros (Lb & z & Hzz). exists (map z (seq 0 (length l))). assert (Lz : length (map z (seq 0 (length l))) = length l) by (rewrite map_length, seq_length; reflexivity). split.
      + apply (nth_ext _ _ 0 0); [rewrite HL; exact Lb|]. intros j Hj. rewrite Lb in Hj. rewrite HN by auto. rewrite Hzz by auto. apply sumn_ext. intros a Ha.
        rewrite (nth_map_lt _ _ _ 0%nat), seq_nth by (try rewrite seq_length; auto). reflexivity.
      + intros r Hr. rewrite Lz. destruct HWf as [_ HF]. rewrite Forall_forall in HF. symmetry. apply HF. exact Hr.
  Qed.
  Lemma C186_span_l : forall b, in_span (sn_W f) b <-> in_krylov p (length (sn_C f)) (gram_of p X0) (cross_of p X0 y0) b.
  Proof.
    intros b. pose proof kry_wf as [HW Hl]. pose proof kry_n as Hn0. pose proof H as H'. destruct H' as (HX & Hn & Hp & Hy & Hf & HX0 & Hy0).
    pose proof (C_length env inv 0 k c s n p X y f X0 y0 HX Hn Hp Hy Hf HX0 Hy0) as HCl.
    rewrite in_span_sp, kry_span, HCl. unfold in_krylov. change sum_to with sumn. rewrite (cross_tmatvec n p) by auto.
    assert (Lc : length (tmatvec X0 y0) = p) by (apply (tmatvec_length n p); auto).
    assert (E : forall t j, (j < p)%nat -> nth j (power_times p (gram_of p X0) t (tmatvec X0 y0)) 0 = pw p (fun i j => dot (col i X0) (col j X0)) (fun j => nth j (cva 0) 0) t j).
    { intros t j Hj. rewrite pw_power by auto. apply pw_ext; auto. intros a b0 Ha Hb. apply cell_gram; auto. }
    split; intros (Lb & z & Hzz); (split; [exact Lb|]); exists z; intros j Hj; rewrite Hzz by auto; apply sumn_ext; intros a Ha; rewrite E by auto; reflexivity.
  Qed.
End Fit.
