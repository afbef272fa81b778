(** Order of the cases: sprm. *)

From Coq Require Import Reals List Arith ZArith Bool Lia Lra Permutation.
Import ListNotations.
From Verif Require Import Num Err Vec VecR OrdR L_Mat L_Lin L_Matmul S_Stats S_Weights L_Stats S_Order L_Order M_Utils M_Preproc M_Robcent M_Msupport M_Rm M_Snipls M_Sprm
  L_Scaling L_Scaling2 L_Snipls L_Snipls2 L_Msupport L_Rm L_Rm2 L_OrderSc L_OrderSn L_OrderRm.
Open Scope R_scope.

Lemma where_from_bound : forall {T} (f : T -> bool) l k j, In j (where_from f k l) -> (j < k + length l)%nat.
Proof.
  intros T f l; induction l as [|x l IH]; intros k j Hj; [destruct Hj|]. cbn [where_from] in Hj. cbn [length].
  destruct (f x); [destruct Hj as [<-|Hj]; [lia|]|]; apply IH in Hj; lia.
Qed.
Lemma relcomp_bound : forall (spc : list R) k, relcomp spc = Ok k -> (k <= length spc)%nat.
Proof.
  intros spc k E. unfold relcomp in E. destruct (where_ _ _) as [|j l] eqn:Ew; [discriminate|]. apply Ok_inj in E. subst k.
  assert (Hj : In j (where_ (fun v => nleb v n0) (vsub spc (brokenstick (length spc))))) by (rewrite Ew; left; auto).
  unfold where_ in Hj. apply where_from_bound in Hj. assert (HL : (length (vsub spc (brokenstick (length spc))) <= length spc)%nat).
  { unfold vsub. generalize (brokenstick (A := R) (length spc)). clear. induction spc as [|x spc IH]; intros [|b0 m]; cbn [map2 length]; try lia. specialize (IH m). lia. }
  lia.
Qed.
Lemma map2_rows_wf : forall n q (f : R -> R -> R) sw (T : list (list R)), wf n q T -> length sw = n -> wf n q (map2 (fun a r => map (fun v => f v a) r) sw T).
Proof.
  intros n q f sw T [HL HF] Hs. split; [rewrite map2_length_eq; congruence|]. clear HL Hs. revert sw. induction T as [|r T IH]; intros [|a sw]; cbn; try constructor.
  - rewrite map_length. inversion HF; auto.
  - apply IH. inversion HF; auto.
Qed.
Lemma snipls_T_wf : forall env inv eta k c s n p (X : list (list R)) y f, wf n p X -> (2 <= n)%nat -> (1 <= p)%nat -> length y = n ->
  snipls_fit env inv eta k c s X y = Ok f -> (exists q, wf n q (sn_T f)) /\ length (sn_fitted f) = n.
Proof.
  intros env inv eta k c s n p X y f HX Hn Hp Hy E.
  destruct (fit_inv env inv eta k c s n p X y f HX Hn Hp Hy E) as (X0 & y0 & B & Rw & T & _ & _ & _ & _ & H). cbv zeta in H.
  destruct H as (Hm & _ & _ & _ & _ & _ & HT & _ & _ & _ & _ & Hf & _). split.
  - rewrite HT. destruct (comps_of eta k X0 y0).
    + destruct Hm as (_ & _ & ->). eexists. apply wf_of_cols.
    + destruct Hm as (PWi & Gi & _ & _ & _ & _ & ->). eexists. apply wf_of_cols.
  - rewrite Hf, map_length, matvec_length. eapply wf_length; eauto.
Qed.

(** the states of the loop on the data and on the reordered data *)
Definition sfit_rel (o : list nat) (m m' : option (snipls_model R)) : Prop :=
  match m, m' with None, None => True | Some f, Some f' => f' = reorder_model o f | _, _ => False end.
Definition ss_rel (n : nat) (o : list nat) (st st' : sp_state (A := R)) : Prop :=
  sfit_rel o (q_fit st) (q_fit st') /\ q_rold st' = q_rold st /\ q_diff st' = q_diff st /\ q_loops st' = q_loops st /\
  q_wye st' = reorder o (q_wye st) /\ q_wte st' = reorder o (q_wte st) /\ q_we st' = reorder o (q_we st) /\ q_sw st' = reorder o (q_sw st) /\
  length (q_wye st) = n /\ length (q_wte st) = n /\ length (q_we st) = n /\ length (q_sw st) = n /\
  exists we0 : list R, length we0 = n /\ q_w0 st = low (A := R) we0 /\ q_w0 st' = low (A := R) (reorder o we0).
Definition body_rel (n : nat) (o : list nat) (r r' : res (sp_state (A := R) * bool)) : Prop :=
  match r, r' with Err e, Err e' => e = e' | Ok (s, b), Ok (s', b') => b' = b /\ ss_rel n o s s' | _, _ => False end.
Lemma tsc_documented : forall P : sp_par R, documented_scale (s_scale P) -> documented_scale (sp_tsc P).
Proof. intros P [E|[E|[E|E]]]; unfold sp_tsc, documented_scale; rewrite E; tauto. Qed.
Lemma q0_low : forall we0 : list R, match low (A := R) we0 with [] => UnboundLocalError | _ => AttributeError end =
  if (length (low (A := R) we0) =? 0)%nat then UnboundLocalError else AttributeError.
Proof. intros. destruct (low we0); reflexivity. Qed.
Lemma sp_body_order : forall env P f cuts n q o ys st st' m, documented_centre (s_centre P) -> documented_scale (s_scale P) -> l1opt_order_free (re_prep (se_rm env)) ->
  case_order n o -> (2 <= n)%nat -> length ys = n -> wf n q (sn_T m) -> length (sn_fitted m) = n -> ss_rel n o st st' ->
  body_rel n o (sp_body env P f cuts n ys st m) (sp_body env P f cuts n (reorder o ys) st' (reorder_model o m)).
Proof.
  intros env P f cuts n q o ys st st' m Hc Hs He Ho Hn Hys HT Hf (R0 & R1 & R2 & R3 & R4 & R5 & R6 & R7 & R8 & R9 & R10 & R11 & _).
  unfold sp_body. cbv zeta. cbn [reorder_model sn_T sn_fitted sn_coef]. rewrite R7.
  assert (LT : length (sn_T m) = n) by (eapply wf_length; eauto).
  rewrite <- (reorder_map2 _ n) by auto. set (T := map2 _ (q_sw st) (sn_T m)). assert (WT : wf n q T) by (apply (map2_rows_wf n q (fun v a => ndiv v a)); auto).
  assert (WTo : wf n q (reorder o T)) by (apply reorder_wf; auto). change (@n0 R Num_R) with 0.
  destruct (sc_fit_transform_ft (re_prep (se_rm env)) (new_scaler (s_centre P) (sp_tsc P) 0) (A2 T) eq_refl) as [F1 _].
  destruct (sc_fit_transform_ft (re_prep (se_rm env)) (new_scaler (s_centre P) (sp_tsc P) 0) (A2 (reorder o T)) eq_refl) as [F2 _].
  rewrite (check_input_id n q) in F1, F2 by auto. cbn [new_scaler sc_center sc_scale] in F1, F2.
  rewrite (ft_reorder _ _ _ n q) in F2 by (auto using tsc_documented; lia). rewrite F1, F2.
  destruct (ft (re_prep (se_rm env)) (s_centre P) (sp_tsc P) T) as [[[fm fv] dt]|e] eqn:Ef; cbn [ft_data reorder_ft]; [|reflexivity].
  assert (Wdt : wf n q dt) by (apply (ft_wf _ _ _ n q T fm fv dt WT ltac:(lia) Ef)). assert (Ldt : length dt = n) by (eapply wf_length; eauto).
  destruct cuts as [[c b] q3]. rewrite (reorder_start_dx n) by auto. rewrite (reorder_vsub n) by auto.
  assert (Lr : length (vsub ys (sn_fitted m)) = n) by (rewrite vsub_length; congruence). rewrite (reorder_std_resid n) by auto. rewrite !reorder_mweights.
  set (wte := mweights f c b q3 (start_dx dt)). set (wye := mweights f _ _ _ (std_resid _)).
  assert (L1 : length wte = n) by (unfold wte, start_dx; rewrite mweights_length, !map_length; auto).
  assert (L2 : length wye = n) by (unfold wye; rewrite mweights_length, std_resid_length; auto).
  rewrite (reorder_vmul n) by auto. set (we0 := vmul wye wte). assert (L0 : length we0 = n) by (unfold we0; rewrite vmul_len; congruence).
  rewrite (reorder_floor n) by auto. rewrite (low_length_reorder n) by auto. rewrite R1, R3.
  destruct (n <=? 2 * length (low (A := R) we0))%nat; (split; [reflexivity|]); unfold ss_rel; cbn [q_fit q_rold q_diff q_loops q_wye q_wte q_we q_sw q_w0 sfit_rel];
    rewrite ?map_length, ?floor_len; repeat split; auto; try (symmetry; apply reorder_map); exists we0; auto.
Qed.
Definition sloop_rel (n : nat) (o : list nat) (r r' : option (res (sp_state (A := R)))) : Prop :=
  match r, r' with
  | None, None => True
  | Some (Err e), Some (Err e') => e = e'
  | Some (Ok s), Some (Ok s') => ss_rel n o s s'
  | _, _ => False
  end.
Lemma colret_reorder : forall c o (m : snipls_model R), sp_colret_of c (reorder_model o m) = sp_colret_of c m.
Proof. reflexivity. Qed.
Lemma sp_loop_order : forall env P f k cuts n p o Xs ys, documented_centre (s_centre P) -> documented_scale (s_scale P) -> l1opt_order_free (re_prep (se_rm env)) ->
  case_order n o -> (2 <= n)%nat -> (1 <= p)%nat -> wf n p Xs -> length ys = n ->
  forall fuel st st', ss_rel n o st st' ->
  fst (sp_loop env fuel P f k cuts (reorder o Xs) (reorder o ys) st') = reorder_calls o (fst (sp_loop env fuel P f k cuts Xs ys st)) /\
  sloop_rel n o (snd (sp_loop env fuel P f k cuts Xs ys st)) (snd (sp_loop env fuel P f k cuts (reorder o Xs) (reorder o ys) st')).
Proof.
  intros env P f k cuts n p o Xs ys Hc Hs He Ho Hn Hp HX Hy fuel. assert (LX : length Xs = n) by (eapply wf_length; eauto).
  induction fuel as [|fuel IH]; intros st st' HR; [split; reflexivity|]. pose proof HR as (R0 & R1 & R2 & R3 & R4 & R5 & R6 & R7 & R8 & R9 & R10 & R11 & R12).
  cbn [sp_loop]. rewrite R2, R3, R7. destruct (nltb (s_tol P) (q_diff st) && (q_loops st <? s_maxit P)%nat); [|split; [reflexivity|exact HR]].
  rewrite (reorder_row_scale n), (reorder_vmul n) by auto. rewrite (reorder_length n) by auto. rewrite LX.
  assert (WX : wf n p (row_scale (q_sw st) Xs)) by (apply (row_scale_wf n p); auto). assert (LY : length (vmul ys (q_sw st)) = n) by (rewrite vmul_len; congruence).
  rewrite (snipls_order_l _ _ _ _ _ _ n p) by (auto; unfold documented_centre, documented_scale; tauto).
  destruct (snipls_fit (re_prep (se_rm env)) (se_inv env) (s_eta P) k CMean SNone (row_scale (q_sw st) Xs) (vmul ys (q_sw st))) as [m|e] eqn:EF; [|split; reflexivity].
  cbn [bind]. rewrite colret_reorder. destruct (sp_colret_of (s_columns P) m) as [cr|e]; [|split; reflexivity]. cbn [bind].
  destruct (snipls_T_wf _ _ _ _ _ _ n p _ _ m WX Hn Hp LY EF) as [[q HT] Lf].
  pose proof (sp_body_order env P f cuts n q o ys st st' m Hc Hs He Ho Hn Hy HT Lf HR) as HB.
  destruct (sp_body env P f cuts n ys st m) as [[s1 k1]|e1], (sp_body env P f cuts n (reorder o ys) st' (reorder_model o m)) as [[s2 k2]|e2]; cbn [body_rel] in HB; try contradiction.
  - destruct HB as [-> HB]. destruct k1; [split; [reflexivity|exact HB]|]. specialize (IH s1 s2 HB).
    destruct (sp_loop env fuel P f k cuts Xs ys s1) as [c1 r1]. destruct (sp_loop env fuel P f k cuts (reorder o Xs) (reorder o ys) s2) as [c2 r2].
    cbn [fst snd] in *. destruct IH as [-> IH]. split; [reflexivity|exact IH].
  - subst e2. split; reflexivity.
Qed.

Lemma sp_finish_order : forall env P f k cuts keep p0 n p o X Xs y ys mX sXf sX my sy st st',
  documented_centre (s_centre P) -> l1opt_order_free (re_prep (se_rm env)) -> case_order n o -> (2 <= n)%nat -> wf n p X -> wf n p Xs -> length y = n -> length ys = n ->
  ss_rel n o st st' ->
  sp_finish env P f k cuts keep p0 (reorder o X) (reorder o Xs) (reorder o y) (reorder o ys) mX sXf sX my sy st' =
  reorder_res o (sp_finish env P f k cuts keep p0 X Xs y ys mX sXf sX my sy st).
Proof.
  intros env P f k cuts keep p0 n p o X Xs y ys mX sXf sX my sy st st' Hc He Ho Hn HX HXs Hy Hys (R0 & R1 & R2 & R3 & R4 & R5 & R6 & R7 & R8 & R9 & R10 & R11 & we0 & W1 & W2 & W3).
  assert (LX : length X = n) by (eapply wf_length; eauto). assert (LXs : length Xs = n) by (eapply wf_length; eauto).
  assert (WO : wf n p (reorder o Xs)) by (apply reorder_wf; auto).
  unfold sp_finish. destruct (q_fit st) as [m|], (q_fit st') as [m'|]; cbn [sfit_rel] in R0; try contradiction.
  2:{ cbn [reorder_res]. rewrite W2, W3, !q0_low, (low_length_reorder n) by auto. reflexivity. }
  subst m'. cbv zeta. cbn [reorder_model sn_coef sn_R sn_W sn_P]. rewrite colret_reorder.
  rewrite (wf_ncols n p Xs), (wf_ncols n p (reorder o Xs)) by (auto; lia).
  rewrite R4, R5, R6, R7, W2, W3. rewrite <- (reorder_map nsqrt). rewrite (reorder_row_scale n) by (rewrite ?map_length; auto).
  set (Xrw := row_scale (map nsqrt (q_sw st)) Xs). assert (WX : wf n p Xrw) by (apply (row_scale_wf n p); auto; rewrite map_length; auto).
  assert (WXo : wf n p (reorder o Xrw)) by (apply reorder_wf; auto). change (@n0 R Num_R) with 0.
  destruct (sc_fit_transform_ft (re_prep (se_rm env)) (new_scaler (s_centre P) SNone 0) (A2 Xrw) eq_refl) as [F1 _].
  destruct (sc_fit_transform_ft (re_prep (se_rm env)) (new_scaler (s_centre P) SNone 0) (A2 (reorder o Xrw)) eq_refl) as [F2 _].
  rewrite (check_input_id n p) in F1, F2 by auto. cbn [new_scaler sc_center sc_scale] in F1, F2.
  rewrite (ft_reorder _ _ SNone n p) in F2 by (auto; try lia; unfold documented_scale; tauto). rewrite F1, F2.
  destruct (ft (re_prep (se_rm env)) (s_centre P) SNone Xrw) as [[[fm fv] fZ]|e]; cbn [ft_data reorder_ft]; [|reflexivity].
  destruct (negb (length sX =? p)%nat); [reflexivity|].
  rewrite !reorder_matvec, reorder_matmul. set (b := sn_coef m). set (bres := map2 _ sX b).
  assert (Ly : length (matvec X bres) = n) by (rewrite matvec_length; auto). rewrite (reorder_vsub n _ y (matvec X bres)) by auto.
  assert (Lr : length (vsub y (matvec X bres)) = n) by (rewrite vsub_length; congruence).
  assert (Lxb : length (matvec X b) = n) by (rewrite matvec_length; auto). rewrite (reorder_vsub n _ y (matvec X b)) by auto.
  assert (Lrb : length (vsub y (matvec X b)) = n) by (rewrite vsub_length; congruence).
  rewrite !(vmean_perm (reorder o (vsub y (matvec X bres))) (vsub y (matvec X bres))), !(np_median_perm (reorder o (vsub y (matvec X bres))) (vsub y (matvec X bres))) by (apply (perm_of n); auto).
  rewrite !(vmean_perm (reorder o (vsub y (matvec X b))) (vsub y (matvec X b))), !(np_median_perm (reorder o (vsub y (matvec X b))) (vsub y (matvec X b))) by (apply (perm_of n); auto).
  assert (PD : Permutation (flat_map (fun q => map (fun v => nsub v q) (reorder o ys)) (reorder o (matvec Xs b))) (flat_map (fun q => map (fun v => nsub v q) ys) (matvec Xs b)))
    by (apply flat_diffs_perm; apply (perm_of n); auto; rewrite matvec_length; auto).
  rewrite !(vmean_perm _ _ PD), !(np_median_perm _ _ PD).
  destruct (sp_colret_of (s_columns P) m) as [cr|e]; [|reflexivity]. cbn [bind]. destruct cuts as [[cx bx] rx]. cbn [reorder_res].
  unfold reorder_sp. cbn [sp_p sp_keep sp_coef sp_intercept sp_coef_scaled sp_intercept_scaled sp_resid sp_fitted sp_W sp_P sp_R sp_T sp_xcw sp_ycw sp_cw sp_xloc sp_yloc sp_xsca sp_ysca sp_colret sp_fun sp_ctx sp_cbx sp_crx sp_tcentre sp_tscale].
  set (icpt := match s_centre P with CMean => vmean (vsub y (matvec X bres)) | _ => _ end).
  rewrite <- reorder_map. rewrite (reorder_vsub n) by (auto; rewrite map_length; auto). rewrite !(reorder_set_low n) by auto. reflexivity.
Qed.
Lemma sp_start_order : forall env P n p o Xs, documented_centre (s_centre P) -> documented_scale (s_scale P) -> l1opt_order_free (re_prep (se_rm env)) ->
  (s_pcapp P = true -> svd_order_free env) -> case_order n o -> (2 <= n)%nat -> wf n p Xs ->
  sp_start env P (reorder o Xs) = match sp_start env P Xs with Ok (U, rc) => Ok (reorder o U, rc) | Err e => Err e end /\
  match sp_start env P Xs with Ok (U, _) => length U = n | _ => True end.
Proof.
  intros env P n p o Xs Hc Hs He Hv Ho Hn HX. assert (LX : length Xs = n) by (eapply wf_length; eauto). unfold sp_start. destruct (s_pcapp P); [|split; auto].
  specialize (Hv eq_refl n p o Xs Ho HX). destruct (se_svd env Xs) as [[U sv]|e]; [|rewrite Hv; split; [reflexivity|exact I]]. destruct Hv as (WU & Lsv & U' & -> & HU). cbn [bind].
  destruct (relcomp _) as [rc|e] eqn:Erc; [|split; [reflexivity|exact I]]. cbn [bind]. apply relcomp_bound in Erc. rewrite !map_length in Erc. rewrite (HU rc Erc).
  set (V := map (firstn rc) U). assert (WV : wf n rc V).
  { destruct WU as [LU FU]. split; [unfold V; rewrite map_length; auto|]. unfold V. apply Forall_map. rewrite Forall_forall in FU |- *. intros r Hr. rewrite firstn_length, (FU r Hr). lia. }
  assert (WVo : wf n rc (reorder o V)) by (apply reorder_wf; auto). change (@n0 R Num_R) with 0.
  destruct (sc_fit_transform_ft (re_prep (se_rm env)) (new_scaler (s_centre P) (s_scale P) 0) (A2 V) eq_refl) as [F1 _].
  destruct (sc_fit_transform_ft (re_prep (se_rm env)) (new_scaler (s_centre P) (s_scale P) 0) (A2 (reorder o V)) eq_refl) as [F2 _].
  rewrite (check_input_id n rc) in F1, F2 by auto. cbn [new_scaler sc_center sc_scale] in F1, F2. rewrite (ft_reorder _ _ _ n rc) in F2 by (auto; lia). rewrite F1, F2.
  destruct (ft (re_prep (se_rm env)) (s_centre P) (s_scale P) V) as [[[fm fv] Z]|e] eqn:Ef; cbn [ft_data reorder_ft]; [|split; [reflexivity|exact I]]. split; [reflexivity|].
  exact (wf_length _ _ _ (ft_wf _ _ _ n rc V fm fv Z WV ltac:(lia) Ef)).
Qed.
Lemma sp_estimate_order : forall env P f k keep p0 n p o X Xs y ys mX sXf sX my sy,
  documented_centre (s_centre P) -> documented_scale (s_scale P) -> l1opt_order_free (re_prep (se_rm env)) -> (s_pcapp P = true -> svd_order_free env) ->
  case_order n o -> (2 <= n)%nat -> (1 <= p)%nat -> wf n p X -> wf n p Xs -> length y = n -> length ys = n ->
  fst (sp_estimate env P f k keep p0 (reorder o X) (reorder o Xs) (reorder o y) (reorder o ys) mX sXf sX my sy) =
    reorder_calls o (fst (sp_estimate env P f k keep p0 X Xs y ys mX sXf sX my sy)) /\
  snd (sp_estimate env P f k keep p0 (reorder o X) (reorder o Xs) (reorder o y) (reorder o ys) mX sXf sX my sy) =
    reorder_res o (snd (sp_estimate env P f k keep p0 X Xs y ys mX sXf sX my sy)).
Proof.
  intros env P f k keep p0 n p o X Xs y ys mX sXf sX my sy Hc Hs He Hv Ho Hn Hp HX HXs Hy Hys.
  unfold sp_estimate. destruct (sp_start_order env P n p o Xs Hc Hs He Hv Ho Hn HXs) as [ES LU]. rewrite ES. destruct (sp_start env P Xs) as [[Us rc]|e]; [|split; reflexivity].
  destruct (sp_start_cuts env P rc) as [[[c b] q]|e]; [|split; reflexivity].
  rewrite (reorder_start_dx n) by auto. rewrite (reorder_start_dy (sp_rm P) n) by auto. rewrite !reorder_mweights.
  set (wx := mweights f c b q (start_dx Us)). set (wy := mweights f _ _ _ (start_dy (sp_rm P) y ys)).
  assert (Lwx : length wx = n) by (unfold wx, start_dx; rewrite mweights_length, !map_length; auto).
  assert (Lwy : length wy = n) by (unfold wy, start_dy; rewrite mweights_length; destruct (r_centre (sp_rm P)), (r_scale (sp_rm P)); rewrite map_length; auto).
  rewrite (reorder_vmul n) by auto. assert (Lw : length (vmul wx wy) = n) by (rewrite vmul_len; congruence). rewrite (reorder_floor n) by auto. rewrite <- reorder_map.
  cbv zeta.
  match goal with |- context [sp_loop env ?fu P f k ?cu Xs ys ?s] => set (st0 := s); set (cuts := cu) end.
  match goal with |- context [sp_loop env ?fu P f k ?cu (reorder o Xs) (reorder o ys) ?s] => set (st0' := s) end.
  assert (HR : ss_rel n o st0 st0').
  { unfold ss_rel, st0, st0'. cbn [q_fit q_rold q_diff q_loops q_wye q_wte q_we q_sw q_w0 sfit_rel]. rewrite ?map_length, ?floor_len. repeat split; auto. exists (vmul wx wy). auto. }
  destruct (sp_loop_order env P f k cuts n p o Xs ys Hc Hs He Ho Hn Hp HXs Hys (S (s_maxit P)) st0 st0' HR) as [L1 L2].
  destruct (sp_loop env (S (s_maxit P)) P f k cuts Xs ys st0) as [c1 q1]. destruct (sp_loop env (S (s_maxit P)) P f k cuts (reorder o Xs) (reorder o ys) st0') as [c2 q2].
  cbn [fst snd] in *. split; [exact L1|]. destruct q1 as [[s1|e1]|], q2 as [[s2|e2]|]; cbn [sloop_rel] in L2; try contradiction; [|subst; reflexivity|reflexivity].
  apply (sp_finish_order env P f k cuts keep p0 n p); auto.
Qed.
Lemma sel_wf : forall n keep (X : list (list R)), length X = n -> wf n (length keep) (map (M_Sprm.sel keep) X).
Proof. intros n keep X HX. split; [rewrite map_length; auto|]. apply Forall_map, Forall_forall. intros r _. unfold M_Sprm.sel. apply map_length. Qed.
Lemma sp_scaled_order : forall env P n p o X y, documented_centre (s_centre P) -> documented_scale (s_scale P) -> l1opt_order_free (re_prep (se_rm env)) ->
  case_order n o -> (2 <= n)%nat -> wf n p X -> length y = n ->
  sp_scaled env P (reorder o X) (reorder o y) = match sp_scaled env P X y with Ok (mX, sX, Xs, (my, sy, ys)) => Ok (mX, sX, reorder o Xs, (my, sy, reorder o ys)) | Err e => Err e end /\
  match sp_scaled env P X y with Ok (mX, sX, Xs, (my, sy, ys)) => wf n p Xs /\ length ys = n | Err _ => True end.
Proof.
  intros env P n p o X y Hc Hs He Ho Hn HX Hy. assert (Hn0 : (0 < n)%nat) by lia. assert (WO : wf n p (reorder o X)) by (apply reorder_wf; auto).
  assert (Loy : length (reorder o y) = n) by (apply (reorder_length n); auto). assert (Wy : wf n 1 (map (fun v => [v]) y)) by (rewrite <- Hy; apply as_column_wf).
  unfold sp_scaled. change (@n0 R Num_R) with 0.
  destruct (sc_fit_transform_ft (re_prep (se_rm env)) (new_scaler (s_centre P) (s_scale P) 0) (A2 X) eq_refl) as [F1 F2].
  destruct (sc_fit_transform_ft (re_prep (se_rm env)) (new_scaler (s_centre P) (s_scale P) 0) (A2 (reorder o X)) eq_refl) as [F3 F4].
  rewrite (check_input_id n p) in F1, F2, F3, F4 by auto. cbn [new_scaler sc_center sc_scale] in F1, F2, F3, F4. cbv zeta in F2, F4.
  rewrite (ft_reorder _ _ _ n p) in F3, F4 by auto.
  destruct (sc_fit_transform (re_prep (se_rm env)) (new_scaler (s_centre P) (s_scale P) 0) (A2 X)) as [st1 r1].
  destruct (sc_fit_transform (re_prep (se_rm env)) (new_scaler (s_centre P) (s_scale P) 0) (A2 (reorder o X))) as [st1' r1']. cbn [fst snd] in F1, F2, F3, F4. subst r1 r1'.
  destruct (ft (re_prep (se_rm env)) (s_centre P) (s_scale P) X) as [[[mX sX] Xs]|e] eqn:EX; cbn [ft_data reorder_ft] in *; [|split; [reflexivity|exact I]].
  destruct F2 as (A1 & A2 & A3 & A4 & A5). destruct F4 as (B1 & B2 & B3 & B4 & B5).
  destruct (sc_fit_transform_ft (re_prep (se_rm env)) st1 (M_Utils.A1 y) A5) as [G1 G2]. destruct (sc_fit_transform_ft (re_prep (se_rm env)) st1' (M_Utils.A1 (reorder o y)) B5) as [G3 G4].
  rewrite check_input_vec in G1, G2, G3, G4 by lia. rewrite <- reorder_map in G3, G4. rewrite A3, A4 in G1, G2. rewrite B3, B4 in G3, G4. cbv zeta in G2, G4.
  rewrite (ft_reorder _ _ _ n 1) in G3, G4 by auto.
  destruct (sc_fit_transform (re_prep (se_rm env)) st1 (M_Utils.A1 y)) as [st2 r2]. destruct (sc_fit_transform (re_prep (se_rm env)) st1' (M_Utils.A1 (reorder o y))) as [st2' r2']. cbn [fst snd] in G1, G2, G3, G4. subst r2 r2'.
  destruct (ft (re_prep (se_rm env)) (s_centre P) (s_scale P) (map (fun v => [v]) y)) as [[[my sy] Ys]|e] eqn:EY; cbn [ft_data reorder_ft] in *; [|split; [reflexivity|exact I]].
  destruct G2 as (D1 & D2 & D3 & D4 & D5). destruct G4 as (E1 & E2 & E3 & E4 & E5). rewrite A1, A2, B1, B2, D1, D2, E1, E2. rewrite reorder_col. split; [reflexivity|].
  split; [apply (ft_wf _ _ _ n p X mX sX Xs HX Hn0 EX)|]. rewrite col_length. exact (wf_length _ _ _ (ft_wf _ _ _ n 1 _ my sy Ys Wy Hn0 EY)).
Qed.
Lemma sp_check_pos : forall P n p f k, sp_check (A := R) P n p = Ok (f, k) -> (1 <= k)%nat.
Proof.
  intros P n p f k E. unfold sp_check in E. destruct (s_ncomp P) as [z|]; [|discriminate]. destruct (_ || _); [discriminate|]. destruct (Z.leb_spec z 0); [discriminate|].
  destruct (negb _); [discriminate|]. destruct (_ || _); [discriminate|]. destruct (rm_check _); [|discriminate]. cbn [bind] in E. apply Ok_inj in E. injection E as _ <-. lia.
Qed.
Lemma sprm_order_l : forall env P df n p o X y, documented_centre (s_centre P) -> documented_scale (s_scale P) -> l1opt_order_free (re_prep (se_rm env)) ->
  (s_pcapp P = true -> svd_order_free env) -> is_matrix n p X -> (2 <= n)%nat -> (1 <= p)%nat -> length y = n -> case_order n o ->
  let r := sprm_run env P df X y in let r' := sprm_run env P df (reorder o X) (reorder o y) in
  fst r' = fst r /\ fst (snd r') = reorder_calls o (fst (snd r)) /\ snd (snd r') = reorder_res o (snd (snd r)).
Proof.
  intros env P df n p o X y Hc Hs He Hv HX Hn Hp Hy Ho. cbv zeta. assert (LX : length X = n) by (eapply wf_length; eauto). assert (Hn0 : (0 < n)%nat) by lia.
  assert (WO : wf n p (reorder o X)) by (apply reorder_wf; auto).
  assert (LoX : length (reorder o X) = n) by (apply (reorder_length n); auto). assert (Loy : length (reorder o y) = n) by (apply (reorder_length n); auto).
  unfold sprm_run. cbv zeta. rewrite LoX, Loy, LX, Hy, Nat.eqb_refl. rewrite (wf_ncols n p X), (wf_ncols n p (reorder o X)) by auto.
  destruct (sp_check P n p) as [[f k]|e] eqn:EC; [|auto]. apply sp_check_pos in EC. destruct (sp_columns P df) as [c1|e]; [|auto]. cbn [negb].
  destruct ((n =? 1)%nat && (2 <=? p)%nat); [auto|].
  rewrite <- (mad_perm n p X (reorder o X)) by (auto; apply (reorder_perm n); auto).
  set (P2 := match s_scale (set_columns P c1) with STau2 => _ | _ => _ end).
  assert (Hc2 : documented_centre (s_centre P2)) by (unfold P2; cbn [set_columns s_scale]; destruct (s_scale P); auto; destruct (existsb _ _); auto).
  assert (Hs2 : documented_scale (s_scale P2)).
  { unfold P2; cbn [set_columns s_scale]. destruct (s_scale P) eqn:E; cbn [set_columns s_scale]; rewrite ?E; auto. destruct (existsb _ _); cbn [set_scale set_columns s_scale]; rewrite ?E; auto. right; left; reflexivity. }
  assert (Hv2 : s_pcapp P2 = s_pcapp P) by (unfold P2; cbn [set_columns s_scale]; destruct (s_scale P); auto; destruct (existsb _ _); auto).
  destruct (sp_scaled_order env P2 n p o X y Hc2 Hs2 He Ho Hn HX Hy) as [ES WS]. rewrite ES.
  destruct (sp_scaled env P2 X y) as [[[[mX sX] Xs] [[my sy] ys]]|e]; [|auto]. destruct WS as [WXs Lys].
  destruct (sp_drop c1 p sX) as [c2|e]; [|auto]. destruct (Nat.ltb_spec (length (vars_to_keep p sX)) k) as [|Hk]; [auto|].
  assert (LXs : length Xs = n) by (eapply wf_length; eauto).
  destruct (zero_scale sX) as [|z zs].
  - cbn [fst snd]. split; [reflexivity|]. apply (sp_estimate_order env _ f k _ p n p); auto. cbn [set_columns s_pcapp]. rewrite Hv2. auto.
  - cbn [fst snd]. split; [reflexivity|]. rewrite <- !reorder_map. apply (sp_estimate_order env _ f k _ p n (length (vars_to_keep p sX))); auto using sel_wf; try lia. cbn [set_columns s_pcapp]. rewrite Hv2. auto.
Qed.
