(** Lemmas for C199. *)
From Coq Require Import Reals List Arith ZArith Bool Lia Lra.
Import ListNotations.
From Verif Require Import Num Err Vec VecR OrdR L_Mat S_Stats S_Weights S_Regress L_Stats L_Lin M_Utils M_Preproc M_Robcent M_Msupport L_Msupport M_Rm M_Snipls L_Scaling L_Scaling2 L_Snipls L_Snipls2 L_Snipls3 L_Rm L_Rm2 M_Sprm S_Sprm L_Sprm L_Sprm2 L_Sprm3 L_Sprm4 S_Irls L_Irls S_IrlsSp L_IrlsSp S_Clean.
Open Scope R_scope.

Lemma full_weight : forall f c v, f <> MFair -> v <= first_cut c -> weight_at f c v = 1.
Proof.
  intros f c v Hf Hv. unfold weight_at, first_cut in *. destruct f; cbn [textbook]; [congruence| |]; unfold huber_weight, hampel_weight; destruct (Rle_dec v (fst (fst c))); auto; contradiction.
Qed.
Lemma map_ones : forall {B} (g : B -> R) l, (forall v, In v l -> g v = 1) -> map g l = ones (length l).
Proof. intros B g l H. induction l as [|a l IH]; [reflexivity|]. cbn. rewrite H by (left; auto). f_equal. apply IH. intros v Hv. apply H. right. auto. Qed.
Lemma nth_ones : forall n i, (i < n)%nat -> nth i (ones n) 0 = 1.
Proof. intros n i H. unfold ones. rewrite (nth_indep _ 0 1) by (rewrite repeat_length; exact H). apply nth_repeat. Qed.
Lemma case_ones : forall n, case_weights (ones n) (ones n) = ones n.
Proof.
  intros n. unfold case_weights. assert (L : length (ones n) = n) by apply repeat_length. rewrite L. rewrite map_ones; [rewrite seq_length; reflexivity|].
  intros i Hi. apply in_seq in Hi. rewrite nth_ones by lia. rewrite Rmult_1_r. apply Rmax_right. lra.
Qed.
Lemma problem_ones : forall n (Xs : list (list R)) ys, length Xs = n -> length ys = n -> weighted_problem (ones n) Xs ys = (Xs, ys).
Proof.
  intros n Xs ys H1 H2. unfold weighted_problem. f_equal.
  - apply (nth_ext _ _ [] []); [rewrite map_length, seq_length; reflexivity|]. intros i Hi. rewrite map_length, seq_length in Hi.
    rewrite (nth_map_lt _ _ _ 0%nat) by (rewrite seq_length; lia). rewrite seq_nth by lia. cbn [Nat.add]. rewrite nth_ones by lia. rewrite sqrt_1. rewrite <- (map_id (nth i Xs [])) at 2. apply map_ext. intros. ring.
  - apply (nth_ext _ _ 0 0); [rewrite map_length, seq_length; lia|]. intros i Hi. rewrite map_length, seq_length in Hi.
    rewrite (nth_map_lt _ _ _ 0%nat) by (rewrite seq_length; lia). rewrite seq_nth by lia. cbn [Nat.add]. rewrite nth_ones by lia. rewrite sqrt_1. ring.
Qed.
Lemma unweighted_ones : forall n (T : list (list R)), length T = n -> unweighted (ones n) T = T.
Proof.
  intros n T H. unfold unweighted. apply (nth_ext _ _ [] []); [rewrite map_length, seq_length; reflexivity|]. intros i Hi. rewrite map_length, seq_length in Hi.
  rewrite (nth_map_lt _ _ _ 0%nat) by (rewrite seq_length; lia). rewrite seq_nth by lia. cbn [Nat.add]. rewrite nth_ones by lia. rewrite sqrt_1. rewrite <- (map_id (nth i T [])) at 2. apply map_ext. intros. field.
Qed.
Lemma rows_ones : forall f c T md n, f <> MFair -> rows_within c T -> is_median (map norm2 T) md -> length T = n -> map (fun r => weight_at f c (norm2 r / md)) T = ones n.
Proof. intros f c T md n Hf Hr Hm <-. apply map_ones. intros r Hi. apply full_weight; auto. Qed.
Lemma resid_ones : forall f c e s n, f <> MFair -> residuals_within c e -> resid_scale e s -> length e = n -> map (fun v => weight_at f c (Rabs v / (14826 / 10000 * s))) e = ones n.
Proof. intros f c e s n Hf Hr Hm <-. apply map_ones. intros r Hi. apply full_weight; auto. Qed.
Lemma last_nth : forall {B} (l : list B) d, last l d = nth (length l - 1) l d.
Proof. intros B l d. induction l as [|a [|b l] IH]; [reflexivity|reflexivity|]. change (last (a :: b :: l) d) with (last (b :: l) d). rewrite IH. cbn [length]. rewrite !Nat.sub_succ, Nat.sub_0_r. reflexivity. Qed.

Lemma final_ones : forall n, final_weights (ones n) (ones n) = ones n.
Proof.
  intros n. unfold final_weights. assert (L : length (ones n) = n) by apply repeat_length. rewrite L. rewrite map_ones; [rewrite seq_length; reflexivity|].
  intros i Hi. apply in_seq in Hi. rewrite nth_ones by lia. rewrite Rmult_1_r. destruct (Rlt_dec 1 (1 / 1000000)); lra.
Qed.

Lemma clean_rm_l : forall (env : rm_env R) P f p y n Xs ys calls coef cw b, length Xs = n -> length ys = n -> length y = n -> f <> MFair -> re_lstsq env Xs ys = Ok b -> clean_rm env P p y Xs ys b ->
  reweighting env P f p y Xs ys calls coef cw -> coef = b /\ cw = ones n /\ forall c, In c calls -> c = (Xs, ys).
Proof.
  intros env P f p y n Xs ys calls coef cw b LX Ly Ly' Hf Hb (HR & HD & HE) (md & d & ws & Hmd & Hd & Hne & Lw & H0 & HC & HN & HL & wr & (sr & Hsr & Ewr) & Ecw). cbv zeta in *.
  rewrite (rows_ones f _ Xs md n Hf HR Hmd LX) in H0, HN, Ecw.
  assert (Ld : length d = n).
  { destruct Hd as [D1 D2]. destruct (r_centre P) eqn:E1; try (destruct D2 as (m & e & _ & _ & ->); [intros [? _]; discriminate|rewrite map_length; exact Ly']).
    destruct (r_scale P) eqn:E2; try (destruct D2 as (m & e & _ & _ & ->); [intros [_ ?]; discriminate|rewrite map_length; exact Ly']). rewrite D1 by auto. rewrite map_length. exact Ly. }
  rewrite (map_ones (weight_at f (resid_cuts env P)) d) in H0 by (intros v Hv; apply full_weight; [exact Hf|apply (HD d v Hd Hv)]). rewrite Ld, case_ones in H0.
  assert (HW : forall k, (k < length calls)%nat -> nth k ws [] = ones n).
  { induction k as [|k IH]; intros Hk; [exact H0|]. destruct (HN k Hk) as (b' & Eb & wk & (s & Hs & Ewk) & Ew). rewrite HC in Eb by lia. rewrite IH in Eb by lia. rewrite (problem_ones n Xs ys LX Ly) in Eb. cbn [fst snd] in Eb. rewrite Hb in Eb. apply Ok_inj in Eb as <-.
    rewrite Ew, Ewk. rewrite (resid_ones f _ _ s n Hf HE Hs); [apply case_ones|]. unfold resid_of. rewrite map_length, seq_length. exact LX. }
  assert (HA : forall k, (k < length calls)%nat -> nth k calls ([], []) = (Xs, ys)) by (intros k Hk; rewrite HC, HW by lia; apply (problem_ones n); auto).
  assert (Ecb : coef = b) by (rewrite last_nth in HL; rewrite HA in HL by (destruct calls; [congruence|cbn; lia]); cbn [fst snd] in HL; rewrite Hb in HL; apply Ok_inj in HL; auto).
  split; [exact Ecb|split].
  - subst coef. rewrite Ecw, Ewr, (resid_ones f _ _ sr n Hf HE Hsr); [apply final_ones|]. unfold resid_of. rewrite map_length, seq_length. exact LX.
  - intros c Hc. apply (In_nth _ _ ([], [])) in Hc as (k & Hk & <-). apply HA, Hk.
Qed.

Lemma clean_sp_l : forall (env : sp_env R) P f h y n Xs ys calls coef cw m, length Xs = n -> length ys = n -> length y = n -> (2 <= n)%nat -> svd_rows env -> f <> MFair ->
  snipls_fit (re_prep (se_rm env)) (se_inv env) (s_eta P) h CMean SNone Xs ys = Ok m -> clean_sp env P f h y Xs ys m ->
  reweighting_sp env P f h y Xs ys calls coef cw -> coef = sn_coef m /\ cw = ones n /\ forall c, In c calls -> c = (Xs, ys).
Proof.
  intros env P f h y n Xs ys calls coef cw m LX Ly Ly' Hn Hsvd Hf Hm (HU & HD & HT & HE) (rc & Us & wx & d & ws & fits & Hst & (md & Hmd & Ewx) & Hd & Hne & Lw & Lf & H0 & HC & HF & HN & m1 & Hm1 & -> & wtl & wrl & PWl & Ecw).
  assert (LSc : forall c s (T Z : list (list R)), length T = n -> scaled_by (re_prep (se_rm env)) c s T Z -> length Z = n).
  { intros c s T Z HTl [s0 E0]. rewrite (fit_transform_rows _ _ _ _ _ E0). unfold check_input. destruct (Nat.eqb_spec (length T) 1) as [H1|_]; [lia|exact HTl]. }
  assert (LU : length Us = n).
  { unfold start_data in Hst. destruct (s_pcapp P); [|rewrite Hst; exact LX]. destruct Hst as (U & sv & EU & _ & Hs). apply (LSc _ _ _ _ ltac:(rewrite map_length, (Hsvd _ _ _ EU); exact LX) Hs). }
  assert (Ld : length d = n).
  { destruct Hd as [D1 D2]. cbn [sp_rm r_centre r_scale] in *. destruct (s_centre P) eqn:E1; try (destruct D2 as (m0 & e & _ & _ & ->); [intros [? _]; discriminate|rewrite map_length; exact Ly']).
    destruct (s_scale P) eqn:E2; try (destruct D2 as (m0 & e & _ & _ & ->); [intros [_ ?]; discriminate|rewrite map_length; exact Ly']). rewrite D1 by auto. rewrite map_length. exact Ly. }
  rewrite (rows_ones f _ Us md n Hf (HU rc Us Hst) Hmd LU) in Ewx. rewrite Ewx in H0.
  rewrite (map_ones (weight_at f (normal_cuts env P)) d) in H0 by (intros v Hv; apply full_weight; [exact Hf|apply (HD d v Hd Hv)]). rewrite Ld, case_ones in H0.
  pose proof (snipls_fit_rows _ _ _ _ _ _ _ _ _ Hm) as [LT LF].
  assert (HW : forall k, (k < length calls)%nat -> nth k ws [] = ones n).
  { induction k as [|k IH]; intros Hk; [exact H0|]. destruct (nth_error fits k) as [mk|] eqn:Ek; [|apply nth_error_None in Ek; lia].
    pose proof (HF k mk Ek) as Fk. rewrite HC, IH, (problem_ones n Xs ys LX Ly) in Fk by lia. cbn [fst snd] in Fk. rewrite Hm in Fk. apply Ok_inj in Fk. subst mk.
    destruct (HN k m Hk Ek) as (wt & wr & (T & s & HS & (mt & Hmt & Ewt) & Hs & Ewr) & Ew). rewrite IH in HS by lia. rewrite (unweighted_ones n) in HS by lia.
    rewrite (rows_ones f _ T mt n Hf (HT rc T HS) Hmt (LSc _ _ (sn_T m) T (eq_trans LT LX) HS)) in Ewt. rewrite Ew, Ewt, Ewr. rewrite (resid_ones f _ _ s n Hf HE Hs); [apply case_ones|]. unfold diff_at. rewrite map_length, seq_length. exact Ly. }
  assert (HA : forall k, (k < length calls)%nat -> nth k calls ([], []) = (Xs, ys)) by (intros k Hk; rewrite HC, HW by lia; apply (problem_ones n); auto).
  assert (Hlt : (length calls - 1 < length calls)%nat) by (destruct calls; [congruence|cbn; lia]).
  assert (Emm : m1 = m) by (pose proof (HF _ _ Hm1) as Fk; rewrite HA in Fk by exact Hlt; cbn [fst snd] in Fk; rewrite Hm in Fk; apply Ok_inj in Fk; congruence). subst m1.
  split; [reflexivity|split].
  - destruct PWl as (T & s & HS & (mt & Hmt & Ewt) & Hs & Ewr). rewrite HW in HS by exact Hlt. rewrite (unweighted_ones n) in HS by lia.
    rewrite (rows_ones f _ T mt n Hf (HT rc T HS) Hmt (LSc _ _ (sn_T m) T (eq_trans LT LX) HS)) in Ewt. rewrite Ecw, Ewt, Ewr. rewrite (resid_ones f _ _ s n Hf HE Hs); [apply final_ones|]. unfold diff_at. rewrite map_length, seq_length. exact Ly.
  - intros c Hc. apply (In_nth _ _ ([], [])) in Hc as (k & Hk & <-). apply HA, Hk.
Qed.

Lemma scaled_lengths : forall (env : rm_env R) P n p (X : list (list R)) y X0 y0, is_matrix n p X -> (2 <= n)%nat -> length y = n -> rm_scaled env P X y X0 y0 -> is_matrix n p X0 /\ length y0 = n.
Proof.
  intros env P n p X y X0 y0 HX Hn Hy [H1 H2]. split; [eapply scaled_wf; eauto|].
  assert (W1 : wf n 1 (as_column y0)) by (eapply scaled_wf; [|exact Hn|exact H2]; rewrite <- Hy; apply as_column_wf).
  destruct W1 as [W1 _]. unfold as_column in W1. rewrite map_length in W1. auto.
Qed.
Lemma clean_rm_fit : forall (env : rm_env R) P f n p X y m X0 y0 b, is_matrix n p X -> (2 <= n)%nat -> (1 <= p)%nat -> length y = n ->
  r_fun P = Some f -> f <> MFair -> cuts_ok f (resid_cuts env P) -> cuts_ok f (lever_cuts env P p) -> rm_scaled env P X y X0 y0 ->
  re_lstsq env X0 y0 = Ok b -> clean_rm env P p y X0 y0 b -> rm_fit env P X y = Ok m -> rm_coef_scaled m = b /\ rm_cw m = ones n.
Proof.
  intros env P f n p X y m X0 y0 b HX Hn Hp Hy Hf Hff H1 H2 Hs Hb Hc E. unfold rm_fit in E. destruct (rm_run env P X y) as [calls r] eqn:ER. cbn [snd] in E. subst r.
  destruct (scaled_lengths env P n p X y X0 y0 HX Hn Hy Hs) as [W0 L0].
  pose proof (irls_l env P f n p X y m calls X0 y0 HX Hn Hp Hy Hf H1 H2 Hs ER) as HI.
  destruct (clean_rm_l env P f p y n X0 y0 calls _ _ b (wf_length _ _ _ W0) L0 Hy Hff Hb Hc HI) as (A & B & _). auto.
Qed.
Lemma clean_sp_fit : forall (env : sp_env R) P df f h n p X y P' calls m X0 y0 fit, is_matrix n p X -> (2 <= n)%nat -> (1 <= p)%nat -> length y = n -> svd_rows env ->
  s_fun P' = Some f -> s_ncomp P' = NInt (Z.of_nat h) -> f <> MFair -> cuts_ok f (normal_cuts env P') -> (forall d, (1 <= d)%nat -> cuts_ok f (chi2_cuts env P' d)) ->
  sprm_run env P df X y = (P', (calls, Ok m)) -> rm_scaled (se_rm env) (sp_rm P') X y X0 y0 -> length (sp_xsca m) = p ->
  let Xk := select (nonzero_positions (sp_xsca m)) X0 in
  snipls_fit (re_prep (se_rm env)) (se_inv env) (s_eta P') h CMean SNone Xk y0 = Ok fit -> clean_sp env P' f h y Xk y0 fit ->
  sp_coef_scaled m = sn_coef fit /\ sp_cw m = ones n.
Proof.
  intros env P df f h n p X y P' calls m X0 y0 fit HX Hn Hp Hy Hsvd Hf Hh Hff H1 H2 E Hs Hl Xk Hfit Hc.
  destruct (scaled_lengths _ _ n p X y X0 y0 HX Hn Hy Hs) as [W0 L0].
  pose proof (irls_sp_l env P df f h n p X y P' m calls X0 y0 HX Hn Hp Hsvd Hf Hh H1 H2 E Hs Hl) as HI.
  assert (LX : length Xk = n) by (unfold Xk, select; rewrite map_length; apply (wf_length _ _ _ W0)).
  destruct (clean_sp_l env P' f h y n Xk y0 calls _ _ fit LX L0 Hy Hn Hsvd Hff Hfit Hc HI) as (A & B & _). auto.
Qed.
