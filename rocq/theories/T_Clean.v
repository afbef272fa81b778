(** Property theorems C199: data without outlying cases. *)
From Coq Require Import Reals String List Arith ZArith Bool Lia Lra Permutation.
Import ListNotations.
Import List.
From Verif Require Import Num Err Vec VecR L_Mat S_Stats S_Weights S_Regress L_Stats M_Utils M_Preproc M_Robcent M_Msupport M_Rm M_Snipls S_Rm L_Scaling L_Scaling2 T_Scaling L_Snipls L_Snipls2 L_Snipls3 T_Snipls L_Rm L_Rm2 T_Rm
  M_Sprm S_Sprm L_Sprm L_Sprm2 L_Sprm3 L_Sprm4 T_Sprm S_Irls S_IrlsSp L_IrlsSp S_Clean L_Clean.
Open Scope R_scope.

(** rm is least squares on the scaled data, and every case has weight one *)
Theorem C199_rm : forall (env : rm_env R) P f n p X y m X0 y0 b, is_matrix n p X -> (2 <= n)%nat -> (1 <= p)%nat -> length y = n ->
  r_fun P = Some f -> f <> MFair -> cuts_ok f (resid_cuts env P) -> cuts_ok f (lever_cuts env P p) -> rm_scaled env P X y X0 y0 ->
  re_lstsq env X0 y0 = Ok b -> clean_rm env P p y X0 y0 b -> rm_fit env P X y = Ok m ->
  rm_coef_scaled m = b /\ rm_cw m = ones n.
Proof. exact clean_rm_fit. Qed.
Print Assumptions C199_rm.
(** sprm is snipls on the scaled variables of non-zero scale *)
Theorem C199_sprm : forall (env : sp_env R) P df f h n p X y P' calls m X0 y0 fit, is_matrix n p X -> (2 <= n)%nat -> (1 <= p)%nat -> length y = n -> svd_rows env ->
  s_fun P' = Some f -> s_ncomp P' = NInt (Z.of_nat h) -> f <> MFair -> cuts_ok f (normal_cuts env P') -> (forall d, (1 <= d)%nat -> cuts_ok f (chi2_cuts env P' d)) ->
  sprm_run env P df X y = (P', (calls, Ok m)) -> rm_scaled (se_rm env) (sp_rm P') X y X0 y0 -> length (sp_xsca m) = p ->
  let Xk := select (nonzero_positions (sp_xsca m)) X0 in
  snipls_fit (re_prep (se_rm env)) (se_inv env) (s_eta P') h CMean SNone Xk y0 = Ok fit -> clean_sp env P' f h y Xk y0 fit ->
  sp_coef_scaled m = sn_coef fit /\ sp_cw m = ones n.
Proof. exact clean_sp_fit. Qed.
Print Assumptions C199_sprm.

(** two cases are never outlying if the cut-offs are at least two *)
Lemma med2 : forall a b m, is_median [a; b] m -> m = (a + b) / 2.
Proof.
  intros a b m (s & Hp & _ & _ & ->). cbn. apply Permutation_length_2_inv in Hp as [-> | ->]; cbn; lra.
Qed.
Lemma med1 : forall a m, is_median [a] m -> m = a.
Proof. intros a m (s & Hp & _ & _ & ->). cbn. apply Permutation_length_1_inv in Hp as ->. cbn. lra. Qed.
Lemma ratio2 : forall a b c, 0 <= a -> 0 <= b -> 2 <= c -> a / ((a + b) / 2) <= c.
Proof.
  intros a b c Ha Hb Hc. destruct (Req_dec (a + b) 0) as [E|E].
  - replace a with 0 by lra. unfold Rdiv. rewrite Rmult_0_l. lra.
  - apply (Rmult_le_reg_r ((a + b) / 2)); [lra|]. unfold Rdiv at 1. rewrite Rmult_assoc, Rinv_l by lra. nra.
Qed.
Lemma two_rows : forall c (T : list (list R)), length T = 2%nat -> 2 <= first_cut c -> rows_within c T.
Proof.
  intros c [|r1 [|r2 [|]]] HL Hc md r Hm Hr; try discriminate. cbn [map] in Hm. apply med2 in Hm. subst md.
  pose proof (sqrt_pos (sum_of (map (fun x => x * x) r1))). pose proof (sqrt_pos (sum_of (map (fun x => x * x) r2))). fold (norm2 r1) in *. fold (norm2 r2) in *.
  destruct Hr as [<-|[<-|[]]]; [apply ratio2; auto|]. rewrite (Rplus_comm (norm2 r1)). apply ratio2; auto.
Qed.
Lemma ratio3 : forall v a c, 0 <= v -> v / a <= 2 -> 2 <= c -> v / (14826 / 10000 * a) <= c.
Proof.
  intros v a c Hv H Hc. destruct (Req_dec a 0) as [->|Ha].
  - rewrite Rmult_0_r. lra.
  - replace (v / (14826 / 10000 * a)) with (v / a * (10000 / 14826)) by (field; exact Ha). destruct (Rle_lt_dec 0 (v / a)); nra.
Qed.
Lemma two_residuals : forall c e, length e = 2%nat -> 2 <= first_cut c -> residuals_within c e.
Proof.
  intros c [|a [|b [|]]] HL Hc s v [H1 H2] Hv; try discriminate. pose proof (Rabs_pos a). pose proof (Rabs_pos b).
  apply ratio3; [apply Rabs_pos| |exact Hc]. unfold zeros, nonzeros in *. cbn [filter length map] in *.
  assert (Z : forall u, Rabs 0 / u <= 2) by (intros u; rewrite Rabs_R0; unfold Rdiv; rewrite Rmult_0_l; lra).
  destruct (Req_EM_T a 0) as [->|Ha], (Req_EM_T b 0) as [->|Hb]; cbn [filter length map] in *.
  - destruct Hv as [<-|[<-|[]]]; apply Z.
  - specialize (H2 ltac:(lia) ltac:(discriminate)). apply med1 in H2. subst s. destruct Hv as [<-|[<-|[]]]; [apply Z|]. unfold Rdiv. rewrite Rinv_r by (apply Rabs_no_R0; exact Hb). lra.
  - specialize (H2 ltac:(lia) ltac:(discriminate)). apply med1 in H2. subst s. destruct Hv as [<-|[<-|[]]]; [|apply Z]. unfold Rdiv. rewrite Rinv_r by (apply Rabs_no_R0; exact Ha). lra.
  - specialize (H1 ltac:(lia)). apply med2 in H1. subst s. destruct Hv as [<-|[<-|[]]]; [apply ratio2; auto; lra|]. rewrite (Rplus_comm (Rabs a)). apply ratio2; auto; lra.
Qed.
Lemma two_responses : forall P c a b ys, r_centre P = CMean -> 2 <= first_cut c -> responses_within P c [a; b] ys.
Proof.
  intros P c a b ys HP Hc d v [_ H] Hv. destruct H as (m & e & Hm & He & ->); [intros [H _]; congruence|]. apply med2 in Hm. subst m. cbn [map] in He. apply med2 in He.
  assert (E : e = Rabs (a - b) / 2).
  { rewrite He. replace (a - (a + b) / 2) with ((a - b) / 2) by field. replace (b - (a + b) / 2) with (- ((a - b) / 2)) by field. rewrite Rabs_Ropp. unfold Rdiv. rewrite Rabs_mult. rewrite (Rabs_right (/ 2)) by lra. field. }
  clear He. subst e. apply in_map_iff in Hv as (u & <- & Hu).
  assert (Hb : u - (a + b) / 2 <= Rabs (a - b) / 2).
  { destruct Hu as [<-|[<-|[]]]; [pose proof (Rle_abs (a - b)); lra|pose proof (Rle_abs (- (a - b))) as Q; rewrite Rabs_Ropp in Q; lra]. }
  pose proof (Rabs_pos (a - b)) as Hp. destruct (Req_dec (Rabs (a - b)) 0) as [E0|E0].
  - assert (a = b) by (destruct (Req_dec (a - b) 0); [lra|apply Rabs_no_R0 in H; contradiction]). subst b. replace (u - (a + a) / 2) with 0; [unfold Rdiv; rewrite Rmult_0_l; lra|]. destruct Hu as [<-|[<-|[]]]; lra.
  - apply (Rmult_le_reg_r (14826 / 10000 * (Rabs (a - b) / 2))); [lra|]. unfold Rdiv at 1. rewrite Rmult_assoc, Rinv_l by lra. nra.
Qed.

Definition XC : list (list R) := [[1]; [3]].
Definition yC : list R := [0; 2].
Lemma XC_matrix : is_matrix 2 1 XC. Proof. split; [reflexivity|repeat constructor]. Qed.
Lemma scaledC : forall s, plain_scale s -> exists X0 y0, scaled_by env0 CMean s XC X0 /\ scaled_by env0 CMean s (as_column yC) (as_column y0) /\ is_matrix 2 1 X0 /\ length y0 = 2%nat.
Proof.
  intros s Hs.
  destruct (ft_plain env0 (new_scaler CMean s 0) 2 1 (A2 XC) XC) as (st & Y & _ & _ & E & W & _); auto; [apply XC_matrix|left; auto|].
  destruct (ft_plain env0 (new_scaler CMean s 0) 2 1 (A2 (as_column yC)) (as_column yC)) as (st' & Y' & _ & _ & E' & W' & _); auto; [apply (as_column_wf yC)|left; auto|].
  exists Y, (col 0 Y'). split; [exists st; exact E|]. split; [exists st'; rewrite (as_column_col 2 Y' W'); exact E'|]. split; [exact W|]. unfold col. rewrite map_length. apply (wf_length _ _ _ W').
Qed.
Example C199_case_rm : exists X0 y0 b m, let P := PR CMean SStd in
  rm_scaled rmR P XC yC X0 y0 /\ re_lstsq rmR X0 y0 = Ok b /\ clean_rm rmR P 1 yC X0 y0 b /\ rm_fit rmR P XC yC = Ok m /\
  r_fun P = Some MHampel /\ cuts_ok MHampel (resid_cuts rmR P) /\ cuts_ok MHampel (lever_cuts rmR P 1).
Proof.
  destruct (scaledC SStd) as (X0 & y0 & H1 & H2 & W & L); [left; auto|].
  destruct (C42_supported_l rmR (PR CMean SStd) 2 1 XC yC) as [m E]; auto; try lia; [apply PR_valid|apply XC_matrix|left; auto|left; auto|intros [H _]; discriminate|cbn; lia|cbn; lra|apply rmR_total|].
  exists X0, y0. eexists. exists m. cbv zeta. split; [split; [exact H1|exact H2]|]. split; [reflexivity|]. split.
  - split; [apply two_rows; [apply (wf_length _ _ _ W)|cbn; lra]|]. split; [apply two_responses; [reflexivity|cbn; lra]|]. apply two_residuals; [|cbn; lra]. unfold resid_of. rewrite map_length, seq_length. apply (wf_length _ _ _ W).
  - split; [exact E|]. split; [reflexivity|]. split; unfold cuts_ok, resid_cuts, lever_cuts; cbn; lra.
Qed.
Definition SC : sp_par R := SR 1 CMean SNone false false (ColBool false).
Lemma SC_names : names_cover SC None 1. Proof. split; intros l E; discriminate. Qed.
Lemma SC_valid : ~ invalid_sp SC None 2 1 2.
Proof.
  intros [H|[H|[H|[H|[[H H']|H]]]]].
  - apply H. exists 1%Z. split; [reflexivity|]. cbn. lia.
  - discriminate. - apply H. cbn. lra. - exact (PR_valid CMean SNone H). - discriminate. - congruence.
Qed.
Lemma sp_caseC : exists m, sprm_fit spR SC None XC yC = Ok m.
Proof.
  assert (Hfit : exists st, sc_fit env0 (new_scaler CMean SNone 0) (A2 XC) = (st, Ok tt) /\ a_col_sca st = Some [1]).
  { assert (E0 : exists st, sc_fit env0 (new_scaler CMean SNone 0) (A2 XC) = (st, Ok tt)).
    { apply (fit_succeeds env0 CMean SNone 0 2 1 XC); [apply XC_matrix|lia|left; auto|right; right; auto|lra|].
      intros g Hg. assert (H : INR g < INR 1) by (cbn; lra). apply INR_lt in H. lia. }
    destruct E0 as [st E].
    exists st. split; auto. apply fit_ok_inv in E as (m' & v' & _ & Ev & _ & _ & ->). cbn in Ev. apply Ok_inj in Ev as <-. reflexivity. }
  destruct Hfit as (st & Est & Ess).
  destruct (C49_supported_l spR SC None 2 1 XC yC) as [H|(e & He & [->|[[M HM]|[Z HZ]]])]; auto; try lia; try discriminate.
  - apply XC_matrix. - left; auto. - right; right; reflexivity. - apply SC_names. - apply spR_quiet. - intros [_ H]; discriminate. - cbn; lia. - cbn; lra. - apply spR_svd.
  - exfalso. apply (C45_l spR SC None 2 1 XC yC) in He as [He|(st' & s & z & E1 & E2 & E3 & E4)]; auto; try lia.
    + revert He. apply SC_valid.
    + cbn [s_centre s_scale SC SR se_rm spR re_prep rmR] in E1. rewrite Est in E1. injection E1 as <-. rewrite Ess in E2. injection E2 as <-.
      cbn [s_ncomp SC SR] in E3. injection E3 as <-. unfold nonzero_scales in E4. cbn [filter] in E4. destruct (Rlt_dec 1 (1 / 100000)); [lra|]. cbn in E4. lia.
    + apply XC_matrix. + left; auto. + right; right; reflexivity. + apply SC_names. + apply spR_quiet.
Qed.
Example C199_case_sprm : exists P' calls m X0 y0 fit, let Xk := select (nonzero_positions (sp_xsca m)) X0 in
  sprm_run spR SC None XC yC = (P', (calls, Ok m)) /\ rm_scaled (se_rm spR) (sp_rm P') XC yC X0 y0 /\ length (sp_xsca m) = 1%nat /\
  s_fun P' = Some MHampel /\ s_ncomp P' = NInt (Z.of_nat 1) /\ cuts_ok MHampel (normal_cuts spR P') /\ (forall d, (1 <= d)%nat -> cuts_ok MHampel (chi2_cuts spR P' d)) /\
  snipls_fit (re_prep (se_rm spR)) (se_inv spR) (s_eta P') 1 CMean SNone Xk y0 = Ok fit /\ clean_sp spR P' MHampel 1 yC Xk y0 fit.
Proof.
  destruct sp_caseC as [m E]. unfold sprm_fit in E. destruct (sprm_run spR SC None XC yC) as [P' [calls r]] eqn:ER. cbn [snd] in E. subst r.
  assert (EP : P' = SC) by (pose proof (C93_unchanged R Num_R spR SC None XC yC eq_refl ltac:(discriminate)) as H; rewrite ER in H; exact H). subst P'.
  destruct (run_plain spR SC None 2 1 XC yC) as (f & k & c1 & c2 & mX & sX & Xs & my & sy & ys & Hf & Hk & Hk1 & He & Hy & Hc1 & Hc2 & Esc & WX & Hys & HmX & HsX & Elo & Ese & Esd & _ & Er); auto; try lia.
  { apply XC_matrix. } { left; auto. } { right; right; auto. } { apply SC_names. } { apply SC_valid. }
  rewrite ER in Er. destruct (Nat.ltb_spec (length (vars_to_keep 1 sX)) k) as [|HK]; [discriminate|].
  assert (Hatt : sp_xsca m = sX).
  { destruct (zero_scale sX); injection Er as _ Er; symmetry in Er;
      destruct (estimate_same _ _ _ _ _ (vars_to_keep 1 sX) _ 1 _ _ _ _ _ mX _ sX _ _ _ _ _ Er) as (m' & E' & _ & _ & A1 & A2); rewrite Er in E'; injection E' as <-; auto. }
  rewrite keep_eq in HK by exact HsX.
  destruct (scaledC SNone) as (X0 & y0 & H1 & H2 & W & L); [right; right; auto|].
  assert (WK : is_matrix 2 (length (nonzero_positions sX)) (select (nonzero_positions sX) X0)) by (apply (select_wf 2 1); exact W).
  destruct (one_component env0 (fun M => Ok M) (1 / 2) CMean SNone 2 _ _ y0 WK) as (fit & Ef & _); auto; try lia; [left; auto|right; right; auto|lra|intros a _; eexists; reflexivity|].
  exists SC, calls, m, X0, y0, fit. cbv zeta. rewrite Hatt. split; [reflexivity|]. split; [split; [exact H1|exact H2]|]. split; [exact HsX|]. split; [reflexivity|]. split; [reflexivity|].
  split; [unfold cuts_ok, normal_cuts, resid_cuts; cbn; lra|]. split; [intros d _; unfold cuts_ok, chi2_cuts; cbn; lra|]. split; [exact Ef|].
  pose proof (snipls_fit_rows _ _ _ _ _ _ _ _ _ Ef) as [LT LF]. rewrite (wf_length _ _ _ WK) in LT.
  split; [|split; [apply two_responses; [reflexivity|cbn; lra]|split]].
  - intros rc Us HU. cbn in HU. subst Us. apply two_rows; [apply (wf_length _ _ _ WK)|cbn; lra].
  - intros rc T [st ET]. apply two_rows; [|cbn; lra]. rewrite (fit_transform_rows _ _ _ _ _ ET). unfold check_input. rewrite LT. exact LT.
  - apply two_residuals; [|cbn; lra]. unfold diff_at. rewrite map_length, seq_length. exact L.
Qed.
