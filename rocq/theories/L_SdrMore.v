(** Starting values, predictions, refits, invariances of sudire *)

From Coq Require Import String Reals List Arith ZArith Bool Lra Lia.
Import List. Import ListNotations.
From Verif Require Import Num Err Vec VecR S_Stats S_Regress L_Mat L_Lin L_Matmul L_Stats M_Utils M_Preproc M_Robcent L_Scaling M_Dicomo M_Ipopt M_SdrUtils M_Sudire S_Sudire S_SdrDim
  L_Sdr L_SdrMat L_SdrKer L_SdrEig L_SdrPow L_SdrMeth L_SdrFit L_SdrFit2 L_SdrFit3 L_SdrCov S_Dicomo L_Preproc L_Dicomo5 L_Dicomo7 L_Energy L_Pp4.
Open Scope R_scope.

(** ** starting values *)
Lemma start_needs : forall (env : sd_env R) prm n q Xs ys N2 v, eigh_ok (se_eigh env) -> (0 < n)%nat -> (0 < q)%nat -> wf n q Xs -> length ys = n ->
  start_value env prm Xs ys N2 = Ok v -> (6 <= length (distinct ys))%nat.
Proof.
  intros env prm n q Xs ys N2 v He Hn Hq W Ly E. unfold start_value in E. cbv zeta in E.
  destruct (bind (SAVE _ _ _ _ _ _ _ _) _) as [sv|]; [|discriminate]. cbn [bind] in E.
  destruct (SIR (se_eigh env) Xs ys 6 (sp_ncomp prm) false (sp_scale_data prm) true) as [sr|] eqn:ES; [|discriminate].
  destruct (SIR_ok (se_eigh env) n q Xs He Hn Hq W ys 6 false Ly _ _ _ _ ES) as [labels [HL [HK _]]]. cbn in HL. subst labels. lia.
Qed.
Lemma optimised_direct : forall (env : sd_env R) prm Xs ys, optimised (sp_meth prm) <-> sd_direct env prm Xs ys = None.
Proof. intros. unfold sd_direct. cbv zeta. destruct (sp_meth prm); cbn; split; try tauto; try discriminate. Qed.
Lemma whiten_meth : forall prm : sparams R, sp_meth (sd_whitening prm) = sp_meth prm.
Proof. intros. unfold sd_whitening. destruct (sp_whiten prm); reflexivity. Qed.
Lemma fit_start : forall (env : sd_env R) st st' X y metric bias m n p, eigh_ok (se_eigh env) -> square_shape (se_isqrt env) -> svd_shapes (se_svd env) -> wf n p X -> (2 <= n)%nat -> (0 < p)%nat ->
  sp_copy (ss_prm st) = true -> optimised (sp_meth (ss_prm st)) -> ss_start st = None -> sd_fit env st X (A1 y) metric bias = (st', Ok m) -> (6 <= length (distinct y))%nat.
Proof.
  intros env st st' X y metric bias m n p He HQ HS W Hn Hp Hc HM Hs E.
  assert (WC : wf p p (npcov X)) by (apply (rep_npcov n p X); auto; lia).
  assert (HQ' : forall N, se_isqrt env (npcov X) = Ok N -> wf p p N) by (intros N EN; apply (HQ p _ _ WC EN)).
  destruct (fit_basis env st st' X (A1 y) metric bias m n p He HQ' HS W Hn Hp Hc E) as (pd & ys & P & EP & EY & EV & _ & _ & _ & _ & HP & _).
  destruct (response_inv _ _ _ EY) as [Ly [Ey|Ey]]; [|discriminate]. injection Ey as <-.
  destruct (prepare_shapes env _ X n p pd W Hn Hp HQ' HS (whiten_compress _) EP) as [_ [_ [[_ [q [Wq [_ Hq]]]]|[_ [_ [_ [[V [EV' _]] _]]]]]]]; [|congruence].
  rewrite <- whiten_meth in HM. apply (optimised_direct env _ (pd_Xs pd) y) in HM. destruct HP as [[P0 [ED _]]|[_ EO]]; [congruence|].
  unfold sd_optimise in EO. cbv zeta in EO. cbn [ss_start ss_prm] in EO. rewrite Hs in EO.
  destruct (start_value env (sd_whitening (ss_prm st)) (pd_Xs pd) y (pd_N2 pd)) as [v|] eqn:EV2; [|discriminate].
  apply (start_needs env (sd_whitening (ss_prm st)) n q (pd_Xs pd) y (pd_N2 pd) v); auto. lia.
Qed.

(** ** predictions *)
Lemma const_column_spec : forall c : list R, const_column c = true <-> exists v, v <> 0 /\ (c = [] \/ True) /\ forall i, (i < length c)%nat -> nth i c 0 = v.
Proof.
  intros c. unfold const_column. rewrite andb_true_iff, !forallb_forall. split.
  - intros [H1 H2]. destruct c as [|a c]; [exists 1; split; [lra|split; [auto|cbn; lia]]|]. exists a. split.
    + specialize (H2 a (or_introl eq_refl)). apply negb_true_iff in H2. apply Reqb_false in H2. exact H2.
    + split; [auto|]. intros i Hi. specialize (H1 (nth i (a :: c) 0) (nth_In _ _ Hi)). apply Reqb_true in H1. exact H1.
  - intros [v [Hv [_ Hc]]]. destruct c as [|a c]; [split; intros ? []|]. assert (Ea : a = v) by (apply (Hc 0%nat); cbn; lia). subst a. split.
    + intros x Hx. apply (In_nth _ _ 0) in Hx as [i [Hi <-]]. apply Reqb_true. rewrite (Hc i Hi). reflexivity.
    + intros x Hx. apply (In_nth _ _ 0) in Hx as [i [Hi <-]]. apply negb_true_iff. apply Reqb_false. rewrite (Hc i Hi). exact Hv.
Qed.
Lemma add_constant_spec : forall n h T, (0 < n)%nat -> wf n h T -> (constant_column n h T -> add_constant T = T) /\ (~ constant_column n h T -> add_constant T = map (cons 1) T).
Proof.
  intros n h T Hn W. unfold add_constant.
  assert (HC : existsb const_column (cols T) = true <-> constant_column n h T).
  { rewrite existsb_exists. split.
    - intros [c [Hc Ec]]. apply (In_nth _ _ []) in Hc as [j [Hj <-]]. rewrite cols_length, (wf_ncols n h T W Hn) in Hj. apply const_column_spec in Ec as [v [Hv [_ Ec]]].
      exists j, v. split; [auto|]. split; [auto|]. intros i Hi. rewrite nth_cols in Ec by (rewrite (wf_ncols n h T W Hn); auto).
      rewrite <- (Ec i); [symmetry; exact (nth_col T i j)|unfold col; rewrite map_length, (wf_length _ _ _ W); auto].
    - intros [j [v [Hj [Hv Hc]]]]. exists (col j T). split; [rewrite <- (nth_cols T j []) by (rewrite (wf_ncols n h T W Hn); auto); apply nth_In; rewrite cols_length, (wf_ncols n h T W Hn); auto|].
      apply const_column_spec. exists v. split; [auto|]. split; [auto|]. intros i Hi. unfold col in Hi. rewrite map_length, (wf_length _ _ _ W) in Hi. rewrite <- (Hc i Hi).
      exact (nth_col T i j). }
  split; intros H; destruct (existsb const_column (cols T)); auto; exfalso; intuition; discriminate.
Qed.
Lemma predict_cases : forall (m : smodel R) n p h X, (0 < n)%nat -> (0 < p)%nat -> wf p h (sm_P m) -> length (sm_ols m) = S h -> wf n p X ->
  let T := matmul X (sm_P m) in
  (constant_column n h T -> sd_predict m X = Err ValueError) /\
  (~ constant_column n h T -> exists z, sd_predict m X = Ok z /\ length z = n /\
     forall i, (i < n)%nat -> nth i z 0 = nth 0 (sm_ols m) 0 + sumn h (fun k => mget T i k * nth (S k) (sm_ols m) 0)).
Proof.
  intros m n p h X Hn Hp WP Lb W T.
  assert (WT : wf n h T) by (apply (rep_matmul n p h X (sm_P m) _ _ Hp (rep_self _ _ _ W) (rep_self _ _ _ WP))).
  destruct (add_constant_spec n h T Hn WT) as [A1 A2].
  unfold sd_predict, sd_transform. rewrite (wf_ncols n p X W Hn), (wf_length _ _ _ WP), Nat.eqb_refl. cbn [negb bind]. cbv zeta. fold T. split; intros HC.
  - rewrite A1 by auto. rewrite (wf_ncols n h T WT Hn), Lb. destruct (Nat.eqb_spec h (S h)); [lia|reflexivity].
  - rewrite A2 by auto. assert (EN : ncols (map (cons 1) T) = S h).
    { pose proof (wf_ncols n h T WT Hn) as EN. pose proof (wf_length _ _ _ WT) as LT. destruct T as [|r T']; [cbn in LT; lia|]. cbn in *. congruence. }
    rewrite EN, Lb, Nat.eqb_refl. eexists. split; [reflexivity|]. split; [unfold matvec; rewrite !map_length; apply (wf_length _ _ _ WT)|].
    intros i Hi. unfold matvec. rewrite map_map. rewrite (nth_map_lt _ T i [] 0) by (rewrite (wf_length _ _ _ WT); auto).
    destruct (sm_ols m) as [|b0 bs]; [discriminate|]. injection Lb as Lb. cbn [nth]. rewrite dot_cons.
    assert (Lr : length (nth i T []) = h) by (apply (wf_nth_row n h T i WT Hi)).
    rewrite (dot_sumn (nth i T []) bs h) by auto. unfold mget. rnum. ring.
Qed.

(** ** settings with which no fit succeeds *)
Lemma optimise_bcov : forall (env : sd_env R) st Xs ys N2 metric bias, sp_meth (ss_prm st) = MBcov -> exists st' e, sd_optimise env st Xs ys N2 metric bias = (st', Err e).
Proof.
  intros env st Xs ys N2 metric bias HM. unfold sd_optimise. cbv zeta. rewrite HM.
  destruct (match ss_start st with Some b => Ok b | None => _ end) as [start|e]; [|eauto].
  destruct (bind (se_ipopt _ _ _ _ _) _) as [B|e]; eauto.
Qed.
Lemma fit_bcov : forall (env : sd_env R) st X y metric bias, sp_meth (ss_prm st) = MBcov -> exists st' e, sd_fit env st X y metric bias = (st', Err e).
Proof.
  intros env st X y metric bias HM. unfold sd_fit. cbv zeta. destruct (_ <? _)%nat; [eauto|].
  destruct (bind (sd_prepare _ _ _) _) as [[pd ys]|e]; [|eauto]. unfold sd_direct. cbv zeta. rewrite whiten_meth, HM.
  set (st0 := mk_ss _ _ _ _ _ _). destruct (optimise_bcov env st0 (pd_Xs pd) ys (pd_N2 pd) metric bias) as [st' [e Ee]].
  { unfold st0. cbn [ss_prm]. rewrite whiten_meth. auto. }
  rewrite Ee. cbn [bind]. eauto.
Qed.
Lemma finish_no_X0 : forall (env : sd_env R) prm pd ys P, exists e, sd_finish env prm None pd ys P = Err e.
Proof. intros. unfold sd_finish. destruct (projector env P); cbn [bind]; eauto. Qed.
Lemma fit_no_copy : forall (env : sd_env R) st X y metric bias, sp_copy (ss_prm st) = false -> ss_X0 st = None -> exists st' e, sd_fit env st X y metric bias = (st', Err e).
Proof.
  intros env st X y metric bias HC HX. unfold sd_fit. cbv zeta. rewrite HC, HX. destruct (_ <? _)%nat; [eauto|].
  destruct (bind (sd_prepare _ _ _) _) as [[pd ys]|e]; [|eauto]. destruct (sd_direct env (sd_whitening (ss_prm st)) (pd_Xs pd) ys) as [r|].
  - destruct r as [P0|e]; cbn [bind]; [|eauto]. destruct (n2_times _ _ _) as [P|e]; cbn [bind]; [|eauto]. destruct (finish_no_X0 env (sd_whitening (ss_prm st)) pd ys P) as [e ->]. eauto.
  - destruct (sd_optimise _ _ _ _ _ _ _) as [st' [P|e]]; cbn [bind]; [|eauto]. destruct (finish_no_X0 env (sd_whitening (ss_prm st)) pd ys P) as [e ->]. eauto.
Qed.
Lemma finish_no_scaler : forall (env : sd_env R) prm X0 pd ys P, sp_return prm = true -> sp_center prm <> CMean -> pd_obj pd = false -> exists e, sd_finish env prm X0 pd ys P = Err e.
Proof.
  intros env prm X0 pd ys P HR HC HO. unfold sd_finish. destruct (projector env P); cbn [bind]; [|eauto]. destruct X0 as [X|]; [|eauto].
  destruct (npmatmul X P); cbn [bind]; [|eauto]. cbv zeta. destruct (se_ols _ _ _); cbn [bind]; [|eauto].
  destruct (match pd_V pd with Some V => _ | None => _ end); cbn [bind]; [|eauto]. rewrite HR, HO. unfold sd_is_mean. destruct (sp_center prm); try congruence; cbn; eauto.
Qed.
Lemma fit_no_scaler : forall (env : sd_env R) st X y metric bias, sp_return (ss_prm st) = true -> sp_center (ss_prm st) <> CMean -> sp_center_data (ss_prm st) = false -> sp_scale_data (ss_prm st) = false ->
  sp_whiten (ss_prm st) = false -> exists st' e, sd_fit env st X y metric bias = (st', Err e).
Proof.
  intros env st X y metric bias HR HC HCd HSd HW. assert (EW : sd_whitening (ss_prm st) = ss_prm st) by (unfold sd_whitening; rewrite HW; auto).
  unfold sd_fit. cbv zeta. rewrite EW. destruct (_ <? _)%nat; [eauto|].
  destruct (sd_prepare env (ss_prm st) X) as [pd|e] eqn:EP; cbn [bind]; [|eauto].
  assert (HO : pd_obj pd = false).
  { unfold sd_prepare in EP. cbv zeta in EP. rewrite HCd, HSd, HW in EP. destruct (_ =? 1)%nat; [discriminate|]. destruct (se_isqrt env (npcov X)) as [N2|]; [|discriminate]. cbn [bind] in EP.
    destruct (if _ : bool then _ else _) as [[[X1 p1] d1]|]; [|discriminate]. cbn [bind] in EP. apply Ok_inj in EP. subst pd. reflexivity. }
  destruct (sd_response (length X) y) as [ys|e]; cbn [bind]; [|eauto].
  destruct (sd_direct env (ss_prm st) (pd_Xs pd) ys) as [r|].
  - destruct r as [P0|e]; cbn [bind]; [|eauto]. destruct (n2_times _ _ _) as [P|e]; cbn [bind]; [|eauto].
    match goal with |- context [sd_finish env ?a ?b ?c ?d ?e] => destruct (finish_no_scaler env a b c d e HR HC HO) as [e' ->] end. eauto.
  - destruct (sd_optimise _ _ _ _ _ _ _) as [st' [P|e]]; cbn [bind]; [|eauto].
    match goal with |- context [sd_finish env ?a ?b ?c ?d ?e] => destruct (finish_no_scaler env a b c d e HR HC HO) as [e' ->] end. eauto.
Qed.

(** ** refits of the optimised methods *)
Lemma optimise_caches : forall (env : sd_env R) st Xs ys N2 metric bias st' P, sd_optimise env st Xs ys N2 metric bias = (st', Ok P) ->
  (exists b, ss_start st' = Some b) /\ (exists c, ss_cons st' = Some c) /\
  ss_args st' = Some (match ss_args st with Some a => a | None => mk_sargs Xs ys (sp_ncomp (ss_prm st)) (sp_trim (ss_prm st)) (center_name (sp_center (ss_prm st))) metric bias end).
Proof.
  intros env st Xs ys N2 metric bias st' P E. unfold sd_optimise in E. cbv zeta in E.
  destruct (match ss_start st with Some b => Ok b | None => _ end) as [start|e]; [|discriminate].
  destruct (bind (se_ipopt _ _ _ _ _) _) as [B|e]; [|discriminate].
  destruct (sp_meth (ss_prm st)); try discriminate; injection E as <- _; cbn [ss_start ss_cons ss_args]; eauto.
Qed.
Lemma optimise_cached : forall (env : sd_env R) st Xs ys N2 metric bias Xs' ys' N2' metric' bias' X0 b c a st1 P st2 P',
  ss_start st = Some b -> ss_cons st = Some c -> ss_args st = Some a -> sp_scale_data (ss_prm st) = false ->
  sd_optimise env st Xs ys N2 metric bias = (st1, Ok P) ->
  sd_optimise env (mk_ss (ss_prm st) X0 (ss_start st) (ss_cons st) (ss_args st) (ss_dict st)) Xs' ys' N2' metric' bias' = (st2, Ok P') -> P = P'.
Proof.
  intros env st Xs ys N2 metric bias Xs' ys' N2' metric' bias' X0 b c a st1 P st2 P' Hb Hc Ha Hs E1 E2.
  unfold sd_optimise in E1, E2. cbv zeta in E1, E2. cbn [ss_prm ss_start ss_cons ss_args ss_dict ss_X0] in E2. rewrite Hb, Hc, Ha, Hs in *.
  destruct (se_ipopt env (ss_dict st) (fun b => dcov_trim b a) c b) as [x|]; [|discriminate]. cbn [bind] in *.
  destruct (unvec (sp_ncomp (ss_prm st)) x) as [B|]; [|discriminate]. cbn [bind n2_times] in *.
  destruct (sp_meth (ss_prm st)); try discriminate; try congruence;
  (match goal with H : (_, bind (se_ipopt env ?d ?f ?c ?z) _) = (st1, _) |- _ => destruct (se_ipopt env d f c z) as [x2|]; [|discriminate] end; cbn [bind] in *;
   destruct (unvec (sp_ncomp (ss_prm st)) x2) as [B2|]; [|discriminate]; cbn [bind n2_times] in *; congruence).
Qed.
Lemma refit_cached : forall (env : sd_env R) st X y metric bias X' y' metric' bias' n p n' p' b c a st1 m st2 m',
  eigh_ok (se_eigh env) -> square_shape (se_isqrt env) -> svd_shapes (se_svd env) -> wf n p X -> (2 <= n)%nat -> (0 < p)%nat -> wf n' p' X' -> (2 <= n')%nat -> (0 < p')%nat ->
  sp_copy (ss_prm st) = true -> optimised (sp_meth (ss_prm st)) -> ss_start st = Some b -> ss_cons st = Some c -> ss_args st = Some a -> sp_scale_data (ss_prm st) = false ->
  sd_fit env st X y metric bias = (st1, Ok m) -> sd_fit env st X' y' metric' bias' = (st2, Ok m') -> sm_P m = sm_P m' /\ p = p'.
Proof.
  intros env st X y metric bias X' y' metric' bias' n p n' p' b c a st1 m st2 m' He HQ HS W Hn Hp W' Hn' Hp' Hcp HM Hb Hc Ha Hs E1 E2.
  assert (HSw : sp_scale_data (sd_whitening (ss_prm st)) = false) by (unfold sd_whitening; destruct (sp_whiten (ss_prm st)); auto).
  assert (HQ1 : forall N, se_isqrt env (npcov X) = Ok N -> wf p p N) by (intros N EN; apply (HQ p _ _ (proj1 (rep_npcov n p X ltac:(lia) W)) EN)).
  assert (HQ2 : forall N, se_isqrt env (npcov X') = Ok N -> wf p' p' N) by (intros N EN; apply (HQ p' _ _ (proj1 (rep_npcov n' p' X' ltac:(lia) W')) EN)).
  destruct (fit_basis env st st1 X y metric bias m n p He HQ1 HS W Hn Hp Hcp E1) as (pd & ys & P & _ & _ & EV & WP & _ & _ & _ & HP & EF).
  destruct (fit_basis env st st2 X' y' metric' bias' m' n' p' He HQ2 HS W' Hn' Hp' Hcp E2) as (pd' & ys' & P' & _ & _ & EV' & WP' & _ & _ & _ & HP' & EF').
  rewrite <- whiten_meth in HM.
  destruct HP as [[P0 [ED _]]|[_ EO]]; [apply (optimised_direct env _ (pd_Xs pd) ys) in HM; congruence|].
  destruct HP' as [[P0 [ED _]]|[_ EO']]; [apply (optimised_direct env _ (pd_Xs pd') ys') in HM; congruence|].
  assert (EE : P = P').
  { eapply (optimise_cached env (mk_ss (sd_whitening (ss_prm st)) (Some X) (ss_start st) (ss_cons st) (ss_args st) (ss_dict st)) _ _ _ _ _ _ _ _ _ _ (Some X')); cbn [ss_prm ss_start ss_cons ss_args ss_dict]; eauto. }
  subst P'. destruct (finish_inv _ _ _ _ _ _ _ EF) as [? [_ [_ [_ [_ [_ [EP _]]]]]]]. destruct (finish_inv _ _ _ _ _ _ _ EF') as [? [_ [_ [_ [_ [_ [EP' _]]]]]]].
  rewrite (EP EV), (EP' EV'). split; [auto|]. rewrite <- (wf_length _ _ _ WP). apply (wf_length _ _ _ WP').
Qed.

(** ** the response enters the sliced methods through its order only *)
Lemma sliced_incr : forall eigh f X (y : list R) k d c s, increasing f ->
  SIR eigh X (map f y) k d true c s = SIR eigh X y k d true c s /\ SAVE eigh X (map f y) k d true c s = SAVE eigh X y k d true c s /\ DR eigh X (map f y) k d true c s = DR eigh X y k d true c s.
Proof.
  intros eigh f X y k d c s Hf. assert (ER : response_labels (map f y) k true = response_labels y k true) by (unfold response_labels; rewrite discretize_incr; auto).
  unfold SIR, SAVE, DR, sliced. rewrite ER. auto.
Qed.

(** ** translation of the data *)
Lemma npcov_shift : forall n p X X' (c : nat -> R), (0 < n)%nat -> wf n p X -> wf n p X' -> (forall i j, (i < n)%nat -> (j < p)%nat -> cell X' i j = cell X i j + c j) -> npcov X' = npcov X.
Proof.
  intros n p X X' c Hn W W' HX. apply (rep_eq p p _ _ _ _ (rep_cov n p X' Hn W') (rep_cov n p X Hn W)). intros i j Hi Hj. rewrite !(cov_columns n p) by auto.
  rewrite <- (covf_shift n (fun r => mget X r i) (fun r => mget X r j) (- c i) (- c j)) by auto. apply covf_ext; intros r Hr; change (mget X' r) with (cell X' r); rewrite HX by auto; unfold cell, mget; rnum; ring.
Qed.
Lemma minus_mean_shift : forall n p X X' (c : nat -> R), (0 < n)%nat -> wf n p X -> wf n p X' -> (forall i j, (i < n)%nat -> (j < p)%nat -> cell X' i j = cell X i j + c j) -> minus_mean X' = minus_mean X.
Proof.
  intros n p X X' c Hn W W' HX. apply (rep_eq n p _ _ _ _ (rep_minus_mean n p X' Hn W') (rep_minus_mean n p X Hn W)). intros i j Hi Hj. rewrite !(mean_column n p) by auto.
  rewrite (mf_ext n (fun r => mget X' r j) (fun r => mget X r j - - c j)) by (intros r Hr; change (mget X' r j) with (cell X' r j); rewrite HX by auto; unfold cell, mget; rnum; ring).
  rewrite mf_shift by auto. change (mget X' i j) with (cell X' i j). rewrite HX by auto. unfold cell, mget. rnum. ring.
Qed.
Lemma mapM_trim0 : forall n p (X : list (list R)), (0 < n)%nat -> wf n p X -> mapM (trim_mean1 0) (cols X) = Ok (map vmean (cols X)).
Proof.
  intros n p X Hn W. pose proof (cols_even n p X W) as HE. induction HE as [|c cs Lc HE IH]; [reflexivity|]. cbn [mapM map]. rewrite trim_mean_zero by (destruct c; [cbn in Lc; lia|discriminate]).
  cbn [bind]. rewrite IH. reflexivity.
Qed.
Lemma prepare_shift : forall (env : sd_env R) prm n p X X' c pd, (0 < n)%nat -> wf n p X -> wf n p X' -> (forall i j, (i < n)%nat -> (j < p)%nat -> cell X' i j = cell X i j + c j) ->
  sp_center prm = CMean -> sp_center_data prm = true -> sp_trim prm = 0 -> sp_compress prm = false -> sd_prepare env prm X = Ok pd ->
  exists pd', sd_prepare env prm X' = Ok pd' /\ pd_Xs pd' = pd_Xs pd /\ pd_N2 pd' = pd_N2 pd.
Proof.
  intros env prm n p X X' c pd Hn W W' HX HC HD HT HP E. unfold sd_prepare in *. cbv zeta in *. rewrite (wf_ncols n p X W Hn) in E. rewrite (wf_ncols n p X' W' Hn).
  destruct (p =? 1)%nat; [discriminate|]. rewrite (npcov_shift n p X X' c) by auto. destruct (se_isqrt env (npcov X)) as [N2|]; [|discriminate]. cbn [bind] in *.
  rewrite HP, andb_false_r in *. cbn [bind] in *. rewrite HD, HC, HT in *. cbn [sd_is_mean] in *. rewrite (mapM_trim0 n p X Hn W) in E. rewrite (mapM_trim0 n p X' Hn W'). cbn [bind] in *.
  change (map (fun r => vsub r (map vmean (cols X))) X) with (minus_mean X) in E. change (map (fun r => vsub r (map vmean (cols X'))) X') with (minus_mean X').
  rewrite (minus_mean_shift n p X X' c) by auto. destruct (sp_scale_data prm).
  - destruct (npmatmul (minus_mean X) N2) as [Z|]; [|discriminate]. cbn [bind] in *. destruct (if sp_whiten prm then _ else _) as [[Xs K]|]; [|discriminate]. cbn [bind] in *.
    apply Ok_inj in E. subst pd. eexists. split; [reflexivity|]. auto.
  - cbn [bind] in *. destruct (if sp_whiten prm then _ else _) as [[Xs K]|]; [|discriminate]. cbn [bind] in *. apply Ok_inj in E. subst pd. eexists. split; [reflexivity|]. auto.
Qed.
Lemma fit_shift : forall (env : sd_env R) st X X' y metric bias st1 m st2 m' n p c,
  eigh_ok (se_eigh env) -> square_shape (se_isqrt env) -> svd_shapes (se_svd env) -> wf n p X -> wf n p X' -> (2 <= n)%nat -> (0 < p)%nat ->
  (forall i j, (i < n)%nat -> (j < p)%nat -> cell X' i j = cell X i j + c j) ->
  sp_copy (ss_prm st) = true -> sp_center (ss_prm st) = CMean -> sp_center_data (ss_prm st) = true -> sp_trim (ss_prm st) = 0 -> sp_compress (ss_prm st) = false ->
  sd_fit env st X y metric bias = (st1, Ok m) -> sd_fit env st X' y metric bias = (st2, Ok m') ->
  sm_P m' = sm_P m /\ sm_proj m' = sm_proj m /\
  forall i k, (i < n)%nat -> (k < sp_ncomp (ss_prm st))%nat -> cell (sm_T m') i k = cell (sm_T m) i k + sum_to p (fun j => c j * cell (sm_P m) j k).
Proof.
  intros env st X X' y metric bias st1 m st2 m' n p c He HQ HS W W' Hn Hp HX Hcp HC HD HT HZ E1 E2.
  assert (HQ1 : forall N, se_isqrt env (npcov X) = Ok N -> wf p p N) by (intros N EN; apply (HQ p _ _ (proj1 (rep_npcov n p X ltac:(lia) W)) EN)).
  assert (HQ2 : forall N, se_isqrt env (npcov X') = Ok N -> wf p p N) by (intros N EN; apply (HQ p _ _ (proj1 (rep_npcov n p X' ltac:(lia) W')) EN)).
  destruct (fit_basis env st st1 X y metric bias m n p He HQ1 HS W Hn Hp Hcp E1) as (pd & ys & P & EPr & EY & EV & WP & _ & _ & _ & HP & EF).
  destruct (fit_basis env st st2 X' y metric bias m' n p He HQ2 HS W' Hn Hp Hcp E2) as (pd' & ys' & P' & EPr' & EY' & EV' & WP' & _ & _ & _ & HP' & EF').
  set (prm := sd_whitening (ss_prm st)) in *. assert (ys' = ys) by congruence. subst ys'.
  assert (HPr : sp_center prm = CMean /\ sp_center_data prm = true /\ sp_trim prm = 0 /\ sp_compress prm = false) by (unfold prm, sd_whitening; destruct (sp_whiten (ss_prm st)); auto).
  destruct HPr as [H1 [H2 [H3 H4]]]. destruct (prepare_shift env prm n p X X' c pd) as [pd2 [E3 [EXs EN2]]]; auto; try lia.
  assert (pd2 = pd') by congruence. subst pd2. rewrite EXs, EN2 in HP'.
  assert (EE : P' = P).
  { destruct HP as [[P0 [ED EN]]|[ED EO]], HP' as [[P0' [ED' EN']]|[ED' EO']]; try congruence.
    clear - EO EO'. unfold sd_optimise in EO, EO'. cbv zeta in EO, EO'. cbn [ss_prm ss_start ss_cons ss_args ss_dict ss_X0] in EO, EO'.
    destruct (match ss_start st with Some b => Ok b | None => _ end) as [start|e]; [|discriminate].
    destruct (bind (se_ipopt _ _ _ _ _) _) as [B|e] in EO, EO'; [|discriminate]. destruct (sp_meth prm); try discriminate; congruence. }
  subst P'. destruct (finish_inv _ _ _ _ _ _ _ EF) as [X1 [EX1 [ET [EJ [_ [_ [EP _]]]]]]]. destruct (finish_inv _ _ _ _ _ _ _ EF') as [X2 [EX2 [ET' [EJ' [_ [_ [EP' _]]]]]]].
  injection EX1 as <-. injection EX2 as <-. rewrite (EP EV), (EP' EV'). split; [auto|]. split; [congruence|]. intros i k Hi Hk.
  destruct (npmatmul_ok n p _ X P _ _ _ ltac:(lia) Hp (rep_self _ _ _ W) (rep_self _ _ _ WP) ET) as [_ HT1].
  destruct (npmatmul_ok n p _ X' P _ _ _ ltac:(lia) Hp (rep_self _ _ _ W') (rep_self _ _ _ WP) ET') as [_ HT2].
  change cell with (mget (A := R)) in *. change sum_to with sumn. rewrite HT1, HT2 by auto. rewrite <- sumn_plus. apply sumn_ext. intros j Hj. rewrite HX by auto. rnum. ring.
Qed.

(** ** rotation of the basis *)
Lemma rotate_dist : forall n p h X B O, (0 < n)%nat -> (0 < p)%nat -> (0 < h)%nat -> wf n p X -> wf p h B -> orthogonal_matrix h O ->
  dist_matrix euclid (matmul X (matmul B O)) = dist_matrix euclid (matmul X B).
Proof.
  intros n p h X B O Hn Hp Hh WX WB [WO HO].
  pose proof (rep_matmul p h h B O _ _ Hh (rep_self _ _ _ WB) (rep_self _ _ _ WO)) as RBO.
  pose proof (rep_matmul n p h X _ _ _ Hp (rep_self _ _ _ WX) RBO) as [W1 E1].
  pose proof (rep_matmul n p h X B _ _ Hp (rep_self _ _ _ WX) (rep_self _ _ _ WB)) as [W2 E2].
  rewrite (dist_matrix_euclid n h _ W1), (dist_matrix_euclid n h _ W2). apply famat_ext. intros i j Hi Hj. unfold rowdist, edist. f_equal.
  rewrite !(fun r m => sqdist_sumn r m h) by (apply (wf_nth_row n h); auto).
  set (u := fun l => mget (matmul X B) i l - mget (matmul X B) j l).
  rewrite (sumn_ext h _ (fun k => sumn h (fun l => u l * mget O l k) * sumn h (fun l => u l * mget O l k))).
  2: { intros k Hk. assert (EQ : forall r, (r < n)%nat -> nth k (nth r (matmul X (matmul B O)) []) 0 = sumn h (fun l => mget (matmul X B) r l * mget O l k)).
       { intros r Hr. change (nth k (nth r (matmul X (matmul B O)) []) 0) with (mget (matmul X (matmul B O)) r k). rewrite E1 by auto.
         rewrite (sumn_ext p _ (fun a => sumn h (fun l => mget X r a * mget B a l * mget O l k))) by (intros a Ha; rewrite <- sumn_scal; apply sumn_ext; intros; ring).
         rewrite sumn_exchange. apply sumn_ext. intros l Hl. rewrite E2 by auto. rewrite <- sumn_scal_r. apply sumn_ext; intros; ring. }
       rewrite !EQ by auto. rewrite <- sumn_minus.
       rewrite (sumn_ext h (fun l => mget (matmul X B) i l * mget O l k - mget (matmul X B) j l * mget O l k) (fun l => u l * mget O l k)) by (intros; unfold u; ring). reflexivity. }
  rewrite (sumn_ext h _ (fun k => sumn h (fun l => sumn h (fun q => u l * u q * (mget O l k * mget O q k))))).
  2: { intros k Hk. rewrite <- sumn_scal_r. apply sumn_ext. intros l Hl. rewrite <- sumn_scal. apply sumn_ext. intros; ring. }
  rewrite sumn_exchange. apply sumn_ext. intros l Hl. rewrite sumn_exchange.
  rewrite (sumn_ext h _ (fun q => if (q =? l)%nat then u l * u q else 0)).
  - rewrite (sumn_delta h l (fun q => u l * u q)) by auto. reflexivity.
  - intros q Hq. rewrite sumn_scal. destruct (HO l q Hl Hq) as [_ HO2]. change sum_to with sumn in HO2. change cell with (mget (A := R)) in HO2. rewrite HO2. unfold delta. rewrite (Nat.eqb_sym l q). destruct (q =? l)%nat; ring.
Qed.
Lemma objective_rotate : forall n p h X B O (a : sargs R), (0 < n)%nat -> (0 < p)%nat -> (0 < h)%nat -> sg_X a = X -> sg_h a = h -> wf n p X -> wf p h B -> orthogonal_matrix h O ->
  (sg_metric a = euclid -> dcov_trim (flatF (matmul B O)) a = dcov_trim (flatF B) a) /\ mdd_trim (flatF (matmul B O)) a = mdd_trim (flatF B) a.
Proof.
  intros n p h X B O a Hn Hp Hh EX Eh WX WB HO. pose proof HO as [WO _].
  assert (WBO : wf p h (matmul B O)) by (apply (rep_matmul p h h B O _ _ Hh (rep_self _ _ _ WB) (rep_self _ _ _ WO))).
  pose proof (rotate_dist n p h X B O Hn Hp Hh WX WB HO) as ED.
  unfold dcov_trim, mdd_trim. rewrite EX, Eh, !(unvec_flatF p h) by auto. cbn [bind]. rewrite !(npmatmul_total n p h) by auto. cbn [bind].
  unfold difference_divergence, distance_matrix_centered. split.
  - intros ->. rewrite ED. reflexivity.
  - rewrite ED. reflexivity.
Qed.
(** the objectives without trimming: minus ten times the sample distance
    covariance, or the martingale difference divergence *)
Lemma objective_values : forall n p h X B y (a : sargs R), (0 < n)%nat -> (0 < p)%nat -> (0 < h)%nat -> sg_X a = X -> sg_y a = y -> sg_h a = h -> sg_trim a = 0 -> sg_center a = "mean"%string ->
  wf n p X -> length y = n -> wf p h B ->
  (sg_metric a = euclid -> dcov_trim (flatF B) a = Ok (- 10 * sqrt (dcov_sq n (matmul X B) (map (fun v => [v]) y)))) /\
  (sg_bias a = false -> mdd_trim (flatF B) a = Ok (- 10 * sqrt (mdd_sq n (matmul X B) y))).
Proof.
  intros n p h X B y a Hn Hp Hh EX Ey Eh Et Ec WX Ly WB. unfold dcov_trim, mdd_trim. rewrite EX, Ey, Eh, Et, Ec, (unvec_flatF p h) by auto. cbn [bind].
  rewrite (npmatmul_total n p h) by auto. cbn [bind]. assert (WT : wf n h (matmul X B)) by (apply (rep_matmul n p h X B _ _ Hp (rep_self _ _ _ WX) (rep_self _ _ _ WB))).
  split.
  - intros ->. rewrite (dmc_euclid n h) by auto. cbn [bind].
    assert (WY : wf n 1 (map (fun v => [v]) y)) by (split; [rewrite map_length; auto|apply Forall_forall; intros r Hr; apply in_map_iff in Hr as [v [<- _]]; reflexivity]).
    rewrite (dmc_euclid n 1) by auto. cbn [bind]. rewrite distance_moment_2 by discriminate. cbn [bind]. f_equal. rnum. rewrite nZ_R. f_equal.
    rewrite <- dcov_sq_sumn. rewrite Rabs_pos_eq by (apply (dcov_sq_nonneg n h 1); auto). reflexivity.
  - intros ->. rewrite (dd_value n h (matmul X B) (A1 y) y) by (auto; left; auto). cbn [bind]. f_equal. rnum. rewrite nZ_R. reflexivity.
Qed.

(** ** compression *)
Lemma fit_compressed : forall (env : sd_env R) st X y metric bias st' m n p V s U, eigh_ok (se_eigh env) -> square_shape (se_isqrt env) -> svd_shapes (se_svd env) -> wf n p X -> (2 <= n < p)%nat ->
  sp_copy (ss_prm st) = true -> sp_compress (ss_prm st) = true -> sp_whiten (ss_prm st) = false ->
  se_svd env (transpose X) = Ok (V, s, U) -> Forall (fun v => v <> 0) (mad (map (fun r => map2 Rmult r s) (transpose U))) -> sd_fit env st X y metric bias <> (st', Ok m).
Proof.
  intros env st X y metric bias st' m n p V s U He HQ HS W Hn Hcp HC HW ES HM E.
  assert (HQ1 : forall N, se_isqrt env (npcov X) = Ok N -> wf p p N) by (intros N EN; apply (HQ p _ _ (proj1 (rep_npcov n p X ltac:(lia) W)) EN)).
  destruct (fit_basis env st st' X y metric bias m n p He HQ1 HS W ltac:(lia) ltac:(lia) Hcp E) as (pd & ys & P & EPr & _ & EV & _).
  assert (EW : sd_whitening (ss_prm st) = ss_prm st) by (unfold sd_whitening; rewrite HW; auto). rewrite EW in EPr.
  unfold sd_prepare in EPr. cbv zeta in EPr. rewrite (wf_ncols n p X W) in EPr by lia. rewrite (wf_length _ _ _ W), HC, HW in EPr.
  destruct (p =? 1)%nat; [discriminate|]. destruct (se_isqrt env (npcov X)) as [N2|]; [|discriminate]. cbn [bind] in EPr. destruct (Nat.ltb_spec n p); [|lia]. cbn [andb] in EPr.
  rewrite ES in EPr. cbn [bind] in EPr.
  change (existsb (fun v => v =?! n0)%num (mad (map (fun r => map2 nmul r s) (transpose U)))) with (existsb (fun v => Reqb v 0) (mad (map (fun r => map2 Rmult r s) (transpose U)))) in EPr.
  assert (EX : existsb (fun v => Reqb v 0) (mad (map (fun r => map2 Rmult r s) (transpose U))) = false).
  { destruct (existsb _ _) eqn:EE; [|auto]. apply existsb_exists in EE as [v [Hv Ev]]. apply Reqb_true in Ev. rewrite Forall_forall in HM. exfalso. apply (HM v Hv Ev). }
  rewrite EX in EPr. cbn [bind] in EPr.
  destruct (if sp_center_data (ss_prm st) then _ else _) as [[[[X1 m1] s1] o1]|]; [|discriminate]. cbn [bind] in EPr.
  destruct (if sp_scale_data (ss_prm st) then _ else _) as [[[[X2 m2] s2] o2]|]; [|discriminate]. cbn [bind] in EPr. apply Ok_inj in EPr. subst pd. discriminate.
Qed.
