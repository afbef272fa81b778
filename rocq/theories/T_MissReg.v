(** C196: missing values in the data given to the regression estimators. *)
From Coq Require Import Reals String List Arith ZArith Bool Lia Lra.
Import List. Import ListNotations.
From Verif Require Import Num Err Vec VecR OrdR L_Mat S_Utils S_Stats S_Weights M_Utils M_Preproc M_Robcent M_Msupport M_Rm M_Snipls M_Sprm S_Rm S_Sprm S_MissReg L_Missing L_Rm L_Rm2 L_Snipls L_MissReg T_Rm T_Sprm.
Open Scope R_scope.

(** rm: one missing value, in X or in y, and there is no fit *)
Theorem C196_rm : forall (env : rm_env XR) (P : rm_par XR) X y m, rm_fit env P X y = Ok m -> length (rm_coef m) = ncols X ->
  missing_in (ncols X) X \/ In NaN y ->
  rm_intercept m = NaN /\ all_missing (rm_fitted m) /\ all_missing (rm_resid m) /\ (forall x z, rm_predict m x = Ok z -> all_missing z).
Proof. exact rm_missing. Qed.
Print Assumptions C196_rm.
Example C196_rm_case : exists m, rm_fit rmX PX XX [Fin 3; Fin 4] = Ok m /\ length (rm_coef m) = ncols XX /\ missing_in (ncols XX) XX.
Proof.
  destruct C39_caseX as ((m & E) & _). exists m. split; [exact E|]. split.
  - apply (rm_coef_len rmX PX XX [Fin 3; Fin 4] m); [|exact E]. intros M b c Ec. apply Ok_inj in Ec as <-. reflexivity.
  - exists [NaN]. cbn. auto.
Qed.

(** sprm: the same for a missing value in a column that is kept, unless the data are not centred *)
Theorem C196_sprm : forall (env : sp_env XR) (P : sp_par XR) df n p X y m, is_xmatrix n p X -> (1 <= n)%nat -> sprm_fit env P df X y = Ok m -> length (sp_coef m) = length (sp_keep m) ->
  s_centre P <> CNone -> missing_kept (sp_keep m) X \/ In NaN y ->
  sp_intercept m = NaN /\ all_missing (sp_fitted m) /\ all_missing (sp_resid m) /\ (forall x z, sprm_predict m x = Ok z -> all_missing z).
Proof. exact sprm_missing. Qed.
Print Assumptions C196_sprm.
Example C196_sprm_case : exists m, is_xmatrix 2 1 XX /\ sprm_fit spX SX None XX [Fin 3; Fin 4] = Ok m /\ length (sp_coef m) = length (sp_keep m) /\
  s_centre SX <> CNone /\ missing_kept (sp_keep m) XX.
Proof.
  destruct C47_caseX as (m & E & _). exists m. split; [split; [reflexivity|repeat constructor]|]. split; [exact E|].
  destruct (ftX (new_scaler (s_centre SX) (s_scale SX) (Fin 0)) (A2 XX)) as (st1 & Xs & s1 & E1 & L1 & S1 & Hs1 & C1 & D1 & T1); auto.
  rewrite Hs1 in S1 by discriminate.
  assert (HXs : ncols Xs = 1%nat) by (eapply (ft_ncols (new_scaler (s_centre SX) (s_scale SX) (Fin 0)) st1 (Fin 1) [[NaN]]); eauto).
  assert (Hz : zero_scale [Fin 1] = []).
  { unfold zero_scale, where_. cbn [where_from]. xnum. cbn [XRltb].
    replace (Rltb 1 (1 / 100000)) with false by (symmetry; apply Rltb_false; lra). reflexivity. }
  assert (HK : length (sp_coef m) = length (sp_keep m) /\ sp_keep m = [0%nat]).
  { refine (sprm_coef_len spX SX None XX [Fin 3; Fin 4] m _ _ E st1 Xs [Fin 1] E1 S1 _ Hz _); [cbn; lia|intros ? ? ? EE; apply Ok_inj in EE; injection EE as <- _; reflexivity|discriminate|exact HXs]. }
  destruct HK as [HK1 HK2]. split; [exact HK1|]. split; [discriminate|]. rewrite HK2. exists [NaN], 0%nat. cbn. auto.
Qed.

(** snipls: the fitted value of a case with missing values uses its observed entries;
    predicting the same case gives no value *)
Theorem C196_snipls_refuted : forall (env : prep_env XR) inv eta k c s n p X y f i b, is_xmatrix n p X -> (1 <= n)%nat -> entries_ok X -> snipls_fit env inv eta k c s X y = Ok f ->
  sn_coef f = map Fin b -> length b = p -> (i < n)%nat -> In NaN (nth i X []) ->
  nth i (sn_fitted f) NaN = nadd (Fin (sum_of (observed_products (nth i X []) (map Fin b)))) (sn_intercept f) /\
  forall z, snipls_predict f (A2 X) = Ok z -> nth i z (Fin 0) = NaN.
Proof. exact snipls_missing. Qed.
Print Assumptions C196_snipls_refuted.

Lemma scaled_plainX : forall v w : XR, scaled (re_prep rmX) CNone SNone [[v]; [w]] = Ok ([Fin 0], [Fin 1], [[v]; [w]]).
Proof.
  intros v w. set (X := [[v]; [w]]). unfold scaled.
  assert (Hd : scale_data X [Fin 0] [Fin 1] = Ok X).
  { unfold scale_data, X. cbn [ncols hd length Nat.eqb handle_zeros map]. 
    assert (E1 : neqb (Fin 1) n0 = false) by (xnum; cbn; apply Reqb_false; lra). unfold handle_zeros. cbn [map]. rewrite E1.
    assert (H : forall x, ndiv (nsub x (Fin 0)) (Fin 1) = x).
    { intros [a| | |]; xnum; cbn; try reflexivity; [destruct (Req_EM_T 1 0); [lra|]; f_equal; field|destruct (Rlt_dec 1 0); [lra|reflexivity]|destruct (Rlt_dec 1 0); [lra|reflexivity]]. }
    rewrite !H. reflexivity. }
  destruct (ft_intro (re_prep rmX) (new_scaler CNone SNone (Fin 0)) (A2 X) X [Fin 0] [Fin 1]) as [st' E]; auto.
  - apply tr0X.
  - change (new_scaler CNone SNone (@n0 XR Num_XR)) with (new_scaler (@CNone XR) SNone (Fin 0)). rewrite E.
    apply ft_inv in E as (m & s & F1 & F2 & _ & _ & _ & F3 & F4 & _). rewrite F3, F4. cbn in F1, F2. apply Ok_inj in F1 as <-. apply Ok_inj in F2 as <-. reflexivity.
Qed.
Example C196_snipls_case : exists f, is_xmatrix 2 1 XX /\ entries_ok XX /\
  snipls_fit (re_prep rmX) (fun _ => Ok [[Fin 1]]) (Fin 0) 1 CNone SNone XX [Fin 1; Fin 3] = Ok f /\
  sn_coef f = map Fin [1] /\ In NaN (nth 1 XX []).
Proof.
  assert (HM : manynan XX = true) by (unfold manynan, vanynan, XX; cbn [existsb]; rewrite isnan_Fin, isnan_NaN; reflexivity).
  assert (Hxty : xty true XX [Fin 1; Fin 3] = [Fin 1]).
  { unfold xty, cols, XX. cbn [ncols hd length seq map col nth]. unfold dotv, nansum, vmul, nonnan. cbn [map2 filter]. change (nmul (Fin 1) (Fin 1)) with (Fin (1 * 1)). change (nmul NaN (Fin 3)) with NaN.
    rewrite isnan_Fin, isnan_NaN. cbn [negb filter vsum fold_right]. xnum. cbn. do 2 f_equal. ring. }
  assert (Hst : exists c, snipls_step true (Fin 0) (vsum (map nansum (map (map nsqr) XX))) (nansum (map nsqr [Fin 1; Fin 3])) XX [Fin 1; Fin 3] [] = Some c /\ c_w c = [Fin 1]).
  { unfold snipls_step. rewrite Hxty.
    assert (E1 : vnorm [Fin 1] = Fin 1) by (unfold vnorm, nsqr; cbn; xnum; cbn; rewrite ?Rmult_1_l, ?Rplus_0_r; rewrite ?sqrt_1; destruct (Rlt_dec 1 0); [lra|reflexivity]).
    rewrite E1. cbn [map]. 
    assert (E2 : ndiv (Fin 1) (Fin 1) = Fin 1) by (xnum; cbn; destruct (Req_EM_T 1 0); [lra|f_equal; field]). rewrite E2.
    assert (E3 : nabs (Fin 1) = Fin 1) by (xnum; cbn; f_equal; apply Rabs_R1). rewrite E3.
    assert (E4 : nsub (Fin 1) (nmul (Fin 0) (vmaxl [Fin 1])) = Fin 1) by (cbn; xnum; cbn; f_equal; ring). rewrite E4.
    assert (E5 : nsign (Fin 1) = Fin 1) by (unfold nsign; xnum; cbn; replace (Rltb 0 1) with true by (symmetry; apply Rltb_true; lra); rewrite ?Tauto.if_same; reflexivity). 
    cbn [map2]. rewrite E5. unfold where_. cbn [where_from].
    assert (E6 : nltb n0 (Fin 1) = true) by (xnum; cbn; apply Rltb_true; lra). rewrite E6. cbv zeta. eexists. split; [reflexivity|]. cbn. xnum. cbn. f_equal. f_equal. ring. }
  destruct Hst as (c & Ec & Ew).
  unfold snipls_fit. change (length XX) with 2%nat. change (ncols XX) with 1%nat. cbn [Nat.eqb andb length negb]. rewrite (scaled_plainX (Fin 1) NaN : scaled (re_prep rmX) CNone SNone XX = Ok ([Fin 0], [Fin 1], XX)). cbn [bind]. rewrite (scaled_plainX (Fin 1) (Fin 3) : scaled (re_prep rmX) CNone SNone (map (fun v => [v]) [Fin 1; Fin 3]) = _). cbn [bind]. cbv zeta.
  change (col 0 [[Fin 1]; [Fin 3]]) with [Fin 1; Fin 3]. rewrite HM. cbn [orb snipls_loop]. change (map (@nsqr XR Num_XR)) with (map (@nsqr XR Num_XR)). rewrite Ec. cbn [bind]. cbn [length Nat.eqb negb].
  eexists. split; [split; [reflexivity|repeat constructor]|]. split; [repeat constructor|]. split; [reflexivity|]. split; [|cbn; auto]. cbn [sn_coef map]. rewrite ?Hxty, ?Ew.
  cbn. xnum. cbn. destruct (Req_EM_T 1 0); [lra|]. cbn [XRmul]. do 2 f_equal. field.
Qed.
