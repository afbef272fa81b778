(** Order of the cases: sudire.fit *)

From Coq Require Import String Reals List Arith ZArith Bool Lia Lra Permutation FunctionalExtensionality.
Import List. Import ListNotations.
From Verif Require Import Num Err Vec VecR OrdR L_Mat L_Lin L_Matmul S_Stats L_Stats S_Order L_Order M_Utils M_Preproc M_Robcent
  L_Scaling L_Scaling2 L_Preproc L_Snipls L_OrderSc M_Dicomo L_OrderDi M_Ipopt M_SdrUtils M_Sudire S_Sudire L_SdrMat L_SdrKer L_SdrEig L_SdrPow L_SdrMeth L_Sdr L_SdrFit L_SdrFit2 L_SdrFit3
  L_SdrMore S_OrderSd L_OrderSd.
Open Scope num_scope. Open Scope R_scope.

(** ** regression on the scores *)
Lemma const_column_perm : forall c c' : list R, Permutation c c' -> const_column c = const_column c'.
Proof.
  intros c c' HP. apply eq_true_iff_eq. rewrite !const_column_spec. split; intros [v [Hv [_ Hc]]]; exists v; split; auto; split; auto; intros i Hi;
  assert (HI := nth_In _ 0 Hi).
  - apply (Permutation_in _ (Permutation_sym HP)) in HI. apply (In_nth _ _ 0) in HI as [j [Hj <-]]. auto.
  - apply (Permutation_in _ HP) in HI. apply (In_nth _ _ 0) in HI as [j [Hj <-]]. auto.
Qed.
Lemma add_constant_order : forall n h o T, case_order n o -> wf n h T -> (0 < n)%nat -> add_constant (reorder o T) = reorder o (add_constant (A := R) T).
Proof.
  intros n h o T Ho W Hn. unfold add_constant. rewrite (reorder_cols n h o T) by auto.
  replace (existsb const_column (map (reorder o) (cols T))) with (existsb const_column (cols T)).
  - destruct (existsb const_column (cols T)); [reflexivity|]. rewrite reorder_map. reflexivity.
  - pose proof (cols_even n h T W) as HE. induction HE as [|c cs Lc HE IH]; [reflexivity|]. cbn [existsb map]. rewrite IH. f_equal. apply const_column_perm, (reorder_perm n); auto.
Qed.
Lemma matmul_wf_any : forall n p (X P : list (list R)), wf n p X -> wf n (ncols P) (matmul X P).
Proof.
  intros n p X P W. unfold matmul. split; [rewrite map_length; apply (wf_length _ _ _ W)|]. apply Forall_forall. intros r Hr. apply in_map_iff in Hr as [r' [<- _]].
  unfold cols. rewrite !map_length, seq_length. reflexivity.
Qed.
Lemma add_constant_wf : forall n h (T : list (list R)), wf n h T -> exists k, wf n k (add_constant T).
Proof.
  intros n h T W. unfold add_constant. destruct (existsb const_column (cols T)); [exists h; auto|]. exists (S h). split; [rewrite map_length; apply (wf_length _ _ _ W)|].
  apply Forall_forall. intros r Hr. apply in_map_iff in Hr as [r' [<- Hr]]. cbn. rewrite (wf_row _ _ _ _ W Hr). reflexivity.
Qed.

(** ** preparation *)
Definition reorder_prep (o : list nat) (pd : @prepared R) : @prepared R :=
  mk_prep (reorder o (pd_Xs pd)) (pd_N2 pd) (pd_V pd) (pd_p pd) (pd_loc pd) (pd_sca pd) (pd_K pd) (pd_obj pd).
Definition rres {T U} (f : T -> U) (r : res T) : res U := match r with Ok v => Ok (f v) | Err e => Err e end.

Lemma trim_cols_order : forall n p o t (X : list (list R)), case_order n o -> wf n p X -> (0 < n)%nat -> mapM (trim_mean1 t) (cols (reorder o X)) = mapM (trim_mean1 t) (cols X).
Proof.
  intros n p o t X Ho W Hn. rewrite (reorder_cols n p o X), mapM_map by auto. apply mapM_ext_in. intros c Hc. symmetry. apply trim_slice_perm, (reorder_perm n); auto.
  pose proof (cols_even n p X W) as HE. rewrite Forall_forall in HE. auto.
Qed.
Lemma sd_scaled_order : forall (env : sd_env R) s t n p o X, documented_scale s -> case_order n o -> wf n p X -> (2 <= n)%nat ->
  sd_scaled env CMedian s t (reorder o X) = rres (fun '(m, v, Z) => (m, v, reorder o Z)) (sd_scaled env CMedian s t X).
Proof.
  intros env s t n p o X Hs Ho W Hn. assert (WO : wf n p (reorder o X)) by (apply reorder_wf; auto).
  assert (HP : Permutation X (reorder o X)) by (apply (reorder_perm n); auto; eapply wf_length; eauto).
  assert (EF : sc_fit (se_prep env) (new_scaler CMedian s t) (A2 (reorder o X)) = sc_fit (se_prep env) (new_scaler CMedian s t) (A2 X)).
  { unfold sc_fit. rewrite (check_input_rows n p X), (check_input_rows n p (reorder o X)) by auto. cbn [new_scaler sc_center sc_scale sc_trimming location].
    rewrite <- (median_perm n p X (reorder o X)), <- (scale_est_perm (se_prep env) s t n p X (reorder o X)) by (auto; lia). reflexivity. }
  unfold sd_scaled, sc_fit_transform. rewrite EF. destruct (sc_fit _ (new_scaler CMedian s t) (A2 X)) as [st1 [u|e]]; [|reflexivity].
  unfold sc_transform. rewrite (check_input_rows n p X), (check_input_rows n p (reorder o X)) by auto.
  destruct (a_center st1) as [m|]; [|reflexivity]. destruct (a_scale st1) as [v|]; [|reflexivity]. rewrite (reorder_scale_data n p) by (auto; lia).
  destruct (scale_data X m v) as [Z|e]; [|reflexivity]. cbn. destruct (a_col_loc st1); [|reflexivity]. destruct (a_col_sca st1); reflexivity.
Qed.

Section Prepare.
  Variables (env : sd_env R) (prm : sparams R) (n p : nat) (o : list nat) (X : list (list R)).
  Hypothesis HC : sp_center prm = CMean \/ sp_center prm = CMedian.
  Hypothesis HV : sp_compress prm = true \/ sp_whiten prm = true -> economy_svd_order_free (se_svd env).
  Hypothesis HQ : square_shape (se_isqrt env).
  Hypothesis HS : svd_shapes (se_svd env).
  Hypothesis Ho : case_order n o.
  Hypothesis W : wf n p X.
  Hypothesis Hn : (2 <= n)%nat.

  Let Hn0 : (0 < n)%nat. Proof. lia. Qed.
  Let WO : wf n p (reorder o X). Proof. apply reorder_wf; auto. Qed.

  Definition step1 (X0 : list (list R)) : res (list (list R) * nat * option (list (list R))) :=
    if (length X0 <? ncols X0)%nat && sp_compress prm then
      bind (se_svd env (transpose X0)) (fun '(V, sv, U) =>
      let Xc := map (fun r => map2 nmul r sv) (transpose U) in
      if existsb (fun v => v =?! n0) (mad Xc) then Ok (X0, ncols Xc, None) else Ok (Xc, ncols Xc, Some V))
    else Ok (X0, ncols X0, None).
  Lemma step1_order : (0 < p)%nat -> step1 (reorder o X) = rres (fun '(Z, k, V) => (reorder o Z, k, V)) (step1 X) /\
    forall Z k V, step1 X = Ok (Z, k, V) -> (0 < k)%nat /\ exists q, wf n q Z /\ (0 < q)%nat.
  Proof.
    intros Hp. unfold step1. rewrite (wf_length _ _ _ W), (wf_length _ _ _ WO), (wf_ncols n p _ W), (wf_ncols n p _ WO) by auto.
    destruct (n <? p)%nat eqn:EL; cbn [andb]; [|split; [reflexivity|intros Z k V E; injection E as <- <- <-; split; [auto|exists p; auto]]].
    destruct (sp_compress prm) eqn:EC; [|split; [reflexivity|intros Z k V E; injection E as <- <- <-; split; [auto|exists p; auto]]].
    specialize (HV (or_introl eq_refl) n p o X Ho W).
    destruct (se_svd env (transpose X)) as [[[V sv] U]|e] eqn:ES; [|rewrite HV; split; [reflexivity|discriminate]]. destruct HV as [U' [-> EU]]. cbn [bind]. cbv zeta.
    assert (WT : is_matrix p n (transpose X)) by (apply (proj1 (rep_transpose n p X _ Hn0 (rep_self n p X W)))).
    destruct (HS p n _ V sv U WT ES) as [_ [Ls WU]]. apply Nat.ltb_lt in EL. rewrite Nat.min_r in * by lia.
    assert (WUt : wf n n (transpose U)) by (apply (proj1 (rep_transpose n n U _ Hn0 (rep_self n n U WU)))).
    rewrite EU, <- reorder_map. set (Xc := map (fun r => map2 nmul r sv) (transpose U)).
    assert (WC : wf n n Xc).
    { split; [unfold Xc; rewrite map_length; apply (wf_length _ _ _ WUt)|]. apply Forall_forall. intros r Hr. apply in_map_iff in Hr as [r' [<- Hr]]. rewrite map2_length_eq; rewrite (wf_row _ _ _ _ WUt Hr); lia. }
    assert (WCO : wf n n (reorder o Xc)) by (apply reorder_wf; auto).
    rewrite <- (mad_perm n n Xc (reorder o Xc)) by (auto; apply (reorder_perm n); auto; apply (wf_length _ _ _ WC)).
    rewrite (wf_ncols n n _ WC), (wf_ncols n n _ WCO) by auto. destruct (existsb _ (mad Xc)); cbn [rres]; split; try reflexivity; intros Z k V' E; injection E as <- <- <-; eauto.
  Qed.
  Definition step2 (Z : list (list R)) (k : nat) (X0 : list (list R)) : res (list (list R) * list R * list R * bool) :=
    if sp_center_data prm then
      if sd_is_mean (sp_center prm) then
        bind (mapM (trim_mean1 (sp_trim prm)) (cols Z)) (fun m => Ok (map (fun r => vsub r m) Z, m, map (fun i => nsqrt (mget (npcov X0) i i)) (seq 0 (ncols X0)), false))
      else bind (sd_scaled env (sp_center prm) SNone (sp_trim prm) X0) (fun '(m, v, Z) => Ok (Z, m, v, true))
    else Ok (X0, vzeros k, repeat n1 k, false).
  Lemma step2_order : forall Z k q, wf n q Z -> (0 < p)%nat -> (0 < q)%nat ->
    step2 (reorder o Z) k (reorder o X) = rres (fun '(Z, m, s, b) => (reorder o Z, m, s, b)) (step2 Z k X) /\
    forall Z1 m s b, step2 Z k X = Ok (Z1, m, s, b) -> exists q, wf n q Z1 /\ (0 < q)%nat.
  Proof.
    intros Z k q WZ Hp Hq. unfold step2. rewrite (wf_ncols n p _ W), (wf_ncols n p _ WO), (npcov_order n p o X) by auto.
    destruct (sp_center_data prm); [|split; [reflexivity|intros Z1 m s b E; injection E as <- <- <- <-; eauto]]. destruct HC as [-> | ->]; cbn [sd_is_mean].
    - rewrite (trim_cols_order n q o (sp_trim prm) Z) by auto. destruct (mapM _ (cols Z)) as [m|e] eqn:EM; cbn [bind rres]; [|split; [reflexivity|discriminate]].
      rewrite <- reorder_map. split; [reflexivity|]. intros Z1 m' s b E. injection E as <- <- <- <-. exists q. split; auto. apply wf_vsub_rows; auto.
      rewrite (L_SdrFit2.mapM_length _ _ _ EM). unfold cols. rewrite map_length, seq_length. apply (wf_ncols n q); auto.
    - rewrite (sd_scaled_order env SNone (sp_trim prm) n p o X) by (auto; unfold documented_scale; auto). destruct (sd_scaled env CMedian SNone (sp_trim prm) X) as [[[m v] Z']|e] eqn:EZ; cbn [bind rres]; [|split; [reflexivity|discriminate]].
      split; [reflexivity|]. intros Z1 m' s b E. injection E as <- <- <- <-. exists p. split; auto. eapply sd_scaled_wf; [exact W| | |exact EZ]; auto.
  Qed.
  Definition step3 (N2 Z1 : list (list R)) (m1 s1 : list R) (o1 : bool) (X0 : list (list R)) : res (list (list R) * list R * list R * bool) :=
    if sp_scale_data prm then
      match sp_center prm with
      | CMean => bind (npmatmul Z1 N2) (fun Z => Ok (Z, m1, s1, o1))
      | CMedian | CL1median => bind (sd_scaled env (sp_center prm) SMad (sp_trim prm) X0) (fun '(m, v, Z) => Ok (Z, m, v, true))
      | _ => Err MyException
      end
    else Ok (Z1, m1, s1, o1).
  Lemma step3_order : forall N2 Z1 m1 s1 o1 q, wf p p N2 -> wf n q Z1 -> (0 < p)%nat -> (0 < q)%nat ->
    step3 N2 (reorder o Z1) m1 s1 o1 (reorder o X) = rres (fun '(Z, m, s, b) => (reorder o Z, m, s, b)) (step3 N2 Z1 m1 s1 o1 X) /\
    forall Z2 m s b, step3 N2 Z1 m1 s1 o1 X = Ok (Z2, m, s, b) -> exists q, wf n q Z2 /\ (0 < q)%nat.
  Proof.
    intros N2 Z1 m1 s1 o1 q WN WZ Hp Hq. unfold step3. destruct (sp_scale_data prm); [|split; [reflexivity|intros Z2 m s b E; injection E as <- <- <- <-; eauto]].
    destruct HC as [-> | ->].
    - rewrite (npmatmul_order n q) by auto. destruct (npmatmul Z1 N2) as [Z|e] eqn:EZ; cbn [omap bind rres]; split; try reflexivity; try discriminate.
      intros Z2 m s b E. injection E as <- <- <- <-. exists p. split; auto. unfold npmatmul in EZ. destruct (ncols Z1 =? length N2)%nat; [|discriminate]. apply Ok_inj in EZ. subst Z.
      rewrite <- (wf_ncols p p N2 WN Hp). apply (matmul_wf_any n q); auto.
    - rewrite (sd_scaled_order env SMad (sp_trim prm) n p o X) by (auto; unfold documented_scale; auto). destruct (sd_scaled env CMedian SMad (sp_trim prm) X) as [[[m v] Z']|e] eqn:EZ; cbn [bind rres]; [|split; [reflexivity|discriminate]].
      split; [reflexivity|]. intros Z2 m' s b E. injection E as <- <- <- <-. exists p. split; auto. eapply sd_scaled_wf; [exact W| | |exact EZ]; auto.
  Qed.
  Definition step4 (k : nat) (Z2 : list (list R)) : res (list (list R) * option (list (list R))) :=
    if sp_whiten prm then
      bind (se_svd env (transpose Z2)) (fun '(V, sv, _) =>
      let K := map (fun r => firstn k (map2 ndiv r sv)) V in
      bind (npmatmul Z2 K) (fun Z => Ok (map (map (fun v => v *! nsqrt (nnat k))) Z, Some K)))
    else Ok (Z2, None).
  Lemma step4_order : forall k Z2 q, wf n q Z2 -> (0 < q)%nat -> (0 < k)%nat ->
    step4 k (reorder o Z2) = rres (fun '(Z, K) => (reorder o Z, K)) (step4 k Z2) /\ 
    forall Z3 K, step4 k Z2 = Ok (Z3, K) -> exists q, wf n q Z3 /\ (0 < q)%nat.
  Proof.
    intros k Z2 q WZ Hq Hk. unfold step4. destruct (sp_whiten prm) eqn:EW; [|split; [reflexivity|intros Z3 K E; injection E as <- <-; eauto]].
    specialize (HV (or_intror eq_refl) n q o Z2 Ho WZ). destruct (se_svd env (transpose Z2)) as [[[V sv] U]|e] eqn:ES; [|rewrite HV; split; [reflexivity|discriminate]].
    destruct HV as [U' [-> _]]. cbn [bind]. cbv zeta. set (K := map _ V). rewrite (npmatmul_order n q) by auto. destruct (npmatmul Z2 K) as [Z|e] eqn:EZ; cbn [omap bind rres]; [|split; [reflexivity|discriminate]].
    rewrite <- reorder_map. split; [reflexivity|]. intros Z3 K' E. injection E as <- <-. exists (ncols K). unfold npmatmul in EZ. destruct (ncols Z2 =? length K)%nat; [|discriminate]. apply Ok_inj in EZ. subst Z.
    pose proof (matmul_wf_any n q Z2 K WZ) as WM. split; [|
      destruct (HS q n _ V sv U (proj1 (rep_transpose n q Z2 _ Hn0 (rep_self n q Z2 WZ))) ES) as [WV [Lv _]]; unfold K, ncols; destruct V as [|r V]; [pose proof (wf_length _ _ _ WV) as LV; cbn in LV; lia|];
      cbn [map hd]; rewrite firstn_length, map2_length_eq; rewrite (wf_row _ _ _ _ WV (or_introl eq_refl)); lia].
    split; [rewrite map_length; apply (wf_length _ _ _ WM)|]. apply Forall_forall. intros r Hr. apply in_map_iff in Hr as [r' [<- Hr]]. rewrite map_length. apply (wf_row _ _ _ _ WM Hr).
  Qed.
  Lemma prepare_steps : forall X0, sd_prepare env prm X0 =
    if (ncols X0 =? 1)%nat then Err ValueError else
    bind (se_isqrt env (npcov X0)) (fun N2 => bind (step1 X0) (fun '(Z, k, V) => bind (step2 Z k X0) (fun '(Z1, m1, s1, o1) =>
    bind (step3 N2 Z1 m1 s1 o1 X0) (fun '(Z2, m2, s2, o2) => bind (step4 k Z2) (fun '(Z3, K) => Ok (mk_prep Z3 N2 V k m2 s2 K o2)))))).
  Proof. reflexivity. Qed.
  Lemma prepare_order : (0 < p)%nat -> sd_prepare env prm (reorder o X) = rres (reorder_prep o) (sd_prepare env prm X) /\
    forall pd, sd_prepare env prm X = Ok pd -> exists q, wf n q (pd_Xs pd) /\ (0 < q)%nat.
  Proof.
    intros Hp. rewrite !prepare_steps. rewrite (wf_ncols n p _ W), (wf_ncols n p _ WO), (npcov_order n p o X) by auto.
    destruct (p =? 1)%nat; [split; [reflexivity|discriminate]|].
    destruct (se_isqrt env (npcov X)) as [N2|e] eqn:EN; cbn [bind]; [|split; [reflexivity|discriminate]].
    assert (WN : wf p p N2) by (apply (HQ p _ _ (proj1 (rep_npcov n p X Hn0 W)) EN)).
    destruct (step1_order Hp) as [-> H1]. destruct (step1 X) as [[[Z k] V]|e]; cbn [bind rres]; [|split; [reflexivity|discriminate]]. destruct (H1 Z k V eq_refl) as [Hk [q [WZ Hq]]].
    destruct (step2_order Z k q WZ Hp Hq) as [-> H2]. destruct (step2 Z k X) as [[[[Z1 m1] s1] o1]|e]; cbn [bind rres]; [|split; [reflexivity|discriminate]]. destruct (H2 Z1 m1 s1 o1 eq_refl) as [q1 [WZ1 Hq1]].
    destruct (step3_order N2 Z1 m1 s1 o1 q1 WN WZ1 Hp Hq1) as [-> H3]. destruct (step3 N2 Z1 m1 s1 o1 X) as [[[[Z2 m2] s2] o2]|e]; cbn [bind rres]; [|split; [reflexivity|discriminate]].
    destruct (H3 Z2 m2 s2 o2 eq_refl) as [q2 [WZ2 Hq2]]. destruct (step4_order k Z2 q2 WZ2 Hq2 Hk) as [-> H4]. destruct (step4 k Z2) as [[Z3 K]|e]; cbn [bind rres]; [|split; [reflexivity|discriminate]].
    split; [reflexivity|]. intros pd E. injection E as <-. cbn. apply (H4 Z3 K eq_refl).
  Qed.
End Prepare.

(** ** the response *)
Lemma sd_response_order : forall n o (y : arr R), case_order n o -> cases n y -> (0 < n)%nat -> sd_response n (areorder o y) = rres (reorder o) (sd_response n y) /\
  forall ys, sd_response n y = Ok ys -> length ys = n.
Proof.
  intros n o y Ho Hy Hn. split; [|intros ys E; apply (response_inv n y); auto]. unfold sd_response.
  assert (HR : exists rows, match areorder o y with A1 v => map (fun a => [a]) v | A2 Y => Y end = reorder o rows /\ match y with A1 v => map (fun a => [a]) v | A2 Y => Y end = rows /\ length rows = n).
  { destruct y as [v|Y]; cbn in Hy |- *; eexists; (split; [|split; [reflexivity|]]).
    - rewrite reorder_map. reflexivity.
    - rewrite map_length. auto.
    - reflexivity.
    - destruct Hy as [p W]. apply (wf_length _ _ _ W). }
  destruct HR as [rows [-> [-> LR]]]. cbv zeta. rewrite (reorder_length n), LR, Nat.eqb_refl by auto. cbn [negb].
  rewrite <- (forallb_perm _ rows (reorder o rows)) by (apply (reorder_perm n); auto). destruct (forallb _ rows); cbn [negb rres]; [|reflexivity]. rewrite reorder_col. reflexivity.
Qed.

(** ** objective functions and constraints *)
Lemma dcov_trim_order : forall n p o b (a : sargs R), case_order n o -> wf n p (sg_X a) -> length (sg_y a) = n -> (0 < n)%nat -> symmetric_metric (sg_metric a) ->
  dcov_trim b (reorder_args o a) = dcov_trim b a.
Proof.
  intros n p o b a Ho W Hy Hn Hm. unfold dcov_trim. cbn [reorder_args sg_X sg_y sg_h sg_trim sg_center sg_metric sg_bias].
  destruct (unvec (sg_h a) b) as [B|e]; cbn [bind]; [|reflexivity]. rewrite (npmatmul_order n p) by auto.
  destruct (npmatmul (sg_X a) B) as [XB|e] eqn:EX; cbn [omap bind]; [|reflexivity].
  assert (LX : length XB = n). { unfold npmatmul in EX. destruct (_ =? _)%nat; [|discriminate]. apply Ok_inj in EX. subst XB. apply (wf_length n (ncols B)), (matmul_wf_any n p); auto. }
  rewrite (dmc_order _ n) by auto. destruct (distance_matrix_centered (sg_metric a) XB (sg_center a) (sg_trim a) false) as [[D1 k1]|e] eqn:E1; cbn [reorder_dc bind]; [|reflexivity].
  rewrite <- reorder_map, (dmc_order _ n) by (auto; rewrite map_length; auto).
  destruct (distance_matrix_centered (sg_metric a) (map (fun v => [v]) (sg_y a)) (sg_center a) (sg_trim a) false) as [[D2 k2]|e] eqn:E2; cbn [reorder_dc bind]; [|reflexivity].
  pose proof (dmc_wf _ n _ _ _ _ _ _ LX E1) as W1. assert (W2 : wf n n D2) by (eapply dmc_wf; [|exact E2]; rewrite map_length; auto).
  destruct (distance_moment_order n o false D1 D2 k1 (sg_center a) (sg_trim a) false 2 0 Ho W1 W2) as [-> _].
  destruct (distance_moment false D1 D2 k1 (sg_center a) (sg_trim a) false 2 0) as [[[u v] m]|e]; reflexivity.
Qed.
Lemma mdd_trim_order : forall n p o b (a : sargs R), case_order n o -> wf n p (sg_X a) -> length (sg_y a) = n -> (0 < n)%nat -> mdd_trim b (reorder_args o a) = mdd_trim b a.
Proof.
  intros n p o b a Ho W Hy Hn. unfold mdd_trim. cbn [reorder_args sg_X sg_y sg_h sg_trim sg_center sg_metric sg_bias].
  destruct (unvec (sg_h a) b) as [B|e]; cbn [bind]; [|reflexivity]. rewrite (npmatmul_order n p) by auto.
  destruct (npmatmul (sg_X a) B) as [XB|e] eqn:EX; cbn [omap bind]; [|reflexivity].
  assert (LX : length XB = n). { unfold npmatmul in EX. destruct (_ =? _)%nat; [|discriminate]. apply Ok_inj in EX. subst XB. apply (wf_length n (ncols B)), (matmul_wf_any n p); auto. }
  change (M_Utils.A1 (reorder o (sg_y a))) with (areorder o (M_Utils.A1 (sg_y a))). rewrite (difference_divergence_order n) by auto. reflexivity.
Qed.
Lemma constraints_order : forall n p o scale X h, case_order n o -> wf n p X -> (0 < n)%nat -> constraints scale (reorder o X) h = constraints (A := R) scale X h.
Proof.
  intros n p o scale X h Ho W Hn. assert (WO : wf n p (reorder o X)) by (apply reorder_wf; auto). unfold constraints. f_equal. apply map_ext. intros i. apply map_ext. intros j. apply functional_extensionality. intros b.
  unfold const_zscale, const_xscale. rewrite (wf_ncols n p _ W Hn), (wf_ncols n p _ WO Hn), (npcov_order n p o X) by auto. reflexivity.
Qed.
Lemma optimise_order : forall (env : sd_env R) prm X0 X0' start cons args d n p o Xs ys N2 metric bias, case_order n o -> wf n p Xs -> length ys = n -> (0 < n)%nat -> symmetric_metric metric ->
  (forall f, sp_meth prm = MUser f -> objective_order_free f) ->
  snd (sd_optimise env (mk_ss prm X0' (Some start) cons args d) (reorder o Xs) (reorder o ys) N2 metric bias) =
  snd (sd_optimise env (mk_ss prm X0 (Some start) cons args d) Xs ys N2 metric bias).
Proof.
  intros env prm X0 X0' start cons args d n p o Xs ys N2 metric bias Ho W Hy Hn Hm HF. unfold sd_optimise. cbn [ss_prm ss_X0 ss_start ss_cons ss_args ss_dict]. cbv zeta.
  rewrite (constraints_order n p o (sp_scale_data prm) Xs) by auto.
  set (cs := match cons with Some c => c | None => _ end).
  set (a := match args with Some a => a | None => mk_sargs Xs ys _ _ _ _ _ end).
  set (a' := match args with Some a => a | None => mk_sargs (reorder o Xs) _ _ _ _ _ _ end).
  assert (Ea : a' = a \/ (a' = reorder_args o a /\ sg_X a = Xs /\ sg_y a = ys /\ sg_metric a = metric)) by (unfold a, a'; destruct args; auto).
  assert (ED : (fun b => dcov_trim b a') = (fun b => dcov_trim b a)).
  { apply functional_extensionality. intros b. destruct Ea as [-> |[-> [EX [EY EM]]]]; [reflexivity|]. apply (dcov_trim_order n p); try rewrite EX; try rewrite EY; try rewrite EM; auto. }
  rewrite ED. destruct (bind (se_ipopt env d (fun b => dcov_trim b a) cs start) _) as [B|e]; [|reflexivity].
  destruct (sp_meth prm) as [| | | | | | | |f]; try reflexivity; cbn [snd].
  - assert (EM : (fun b => mdd_trim b a') = (fun b => mdd_trim b a)).
    { apply functional_extensionality. intros b. destruct Ea as [-> |[-> [EX [EY EM]]]]; [reflexivity|]. apply (mdd_trim_order n p); try rewrite EX; try rewrite EY; auto. }
    rewrite EM. reflexivity.
  - assert (EM : (fun b => f b a') = (fun b => f b a)).
    { apply functional_extensionality. intros b. destruct Ea as [-> |[-> [EX [EY EM]]]]; [reflexivity|]. apply (HF f eq_refl n p); try rewrite EX; try rewrite EY; auto. }
    rewrite EM. reflexivity.
Qed.

(** ** fit *)
Lemma finish_order : forall (env : sd_env R) prm n p o X pd ys P, ols_order_free (se_ols env) -> case_order n o -> wf n p X -> (0 < n)%nat -> length ys = n ->
  sd_finish env prm (Some (reorder o X)) (reorder_prep o pd) (reorder o ys) P = rres (reorder_sd o) (sd_finish env prm (Some X) pd ys P).
Proof.
  intros env prm n p o X pd ys P HO Ho W Hn Hy. unfold sd_finish. destruct (projector env P) as [pm|e]; cbn [bind]; [|reflexivity].
  rewrite (npmatmul_order n p) by auto. destruct (npmatmul X P) as [T|e] eqn:ET; cbn [omap bind]; [|reflexivity]. cbv zeta.
  assert (WT : wf n (ncols P) T). { unfold npmatmul in ET. destruct (_ =? _)%nat; [|discriminate]. apply Ok_inj in ET. subst T. apply (matmul_wf_any n p); auto. }
  rewrite (add_constant_order n (ncols P) o T) by auto. destruct (add_constant_wf n (ncols P) T WT) as [k Wk]. rewrite (HO n k o (add_constant T) ys Ho Wk Hy).
  destruct (se_ols env (add_constant T) ys) as [b|e]; cbn [bind]; [|reflexivity]. cbn [reorder_prep pd_V pd_p pd_obj pd_K pd_loc pd_sca].
  destruct (match pd_V pd with Some V => npmatmul (map (firstn (pd_p pd)) V) P | None => Ok P end) as [P'|e]; cbn [bind]; [|reflexivity].
  destruct (_ && _ && _)%bool; [reflexivity|]. cbn [rres reorder_sd sm_P sm_T sm_proj sm_K sm_loc sm_sca sm_ols sm_fitted]. rewrite reorder_matvec. reflexivity.
Qed.
Lemma whitening_keeps : forall prm : sparams R, sp_meth (sd_whitening prm) = sp_meth prm /\ sp_center (sd_whitening prm) = sp_center prm /\ sp_slices (sd_whitening prm) = sp_slices prm /\ sp_cont (sd_whitening prm) = sp_cont prm /\
  (sp_compress (sd_whitening prm) = true -> sp_compress prm = true) /\ sp_whiten (sd_whitening prm) = sp_whiten prm.
Proof. intros prm. unfold sd_whitening. destruct (sp_whiten prm) eqn:E; cbn; repeat split; auto. discriminate. Qed.

Lemma sudire_order_l : forall (env : sd_env R) st n p o X y metric bias,
  eigh_ok (se_eigh env) -> square_shape (se_isqrt env) -> svd_shapes (se_svd env) -> ols_order_free (se_ols env) ->
  (sp_compress (ss_prm st) = true \/ sp_whiten (ss_prm st) = true -> economy_svd_order_free (se_svd env)) ->
  sp_copy (ss_prm st) = true -> sp_center (ss_prm st) = CMean \/ sp_center (ss_prm st) = CMedian -> symmetric_metric metric ->
  case_order n o -> is_matrix n p X -> (2 <= n)%nat -> (0 < p)%nat -> cases n y -> (forall ys, sd_response n y = Ok ys -> order_settings st ys) ->
  snd (sd_fit env st (reorder o X) (areorder o y) metric bias) = rres (reorder_sd o) (snd (sd_fit env st X y metric bias)).
Proof.
  intros env st n p o X y metric bias He HQ HS HO HV Hcp HC Hm Ho W Hn Hp Hy Hset. assert (Hn0 : (0 < n)%nat) by lia.
  assert (WO : wf n p (reorder o X)) by (apply reorder_wf; auto). destruct (whitening_keeps (ss_prm st)) as (KM & KC & KS & KT & KP & KW).
  unfold sd_fit. rewrite Hcp. cbv zeta. rewrite (wf_length _ _ _ W), (wf_length _ _ _ WO), (wf_ncols n p _ W), (wf_ncols n p _ WO) by auto.
  destruct (Nat.min n p <? sp_ncomp (ss_prm st))%nat; [reflexivity|]. set (prm := sd_whitening (ss_prm st)) in *.
  destruct (prepare_order env prm n p o X) as [-> HW]; auto; [rewrite KC; auto|intros [HH|HH]; apply HV; [left; auto|right; congruence]|].
  destruct (sd_prepare env prm X) as [pd|e]; cbn [bind rres]; [|reflexivity]. destruct (HW pd eq_refl) as [q [Wq Hq]].
  destruct (sd_response_order n o y Ho Hy Hn0) as [-> HL]. destruct (sd_response n y) as [ys|e]; cbn [bind rres]; [|reflexivity]. specialize (HL ys eq_refl). specialize (Hset ys eq_refl).
  cbn [reorder_prep pd_Xs pd_N2]. fold (reorder_prep o pd).
  assert (HD : forall r, snd (mk_ss prm (Some (reorder o X)) (ss_start st) (ss_cons st) (ss_args st) (ss_dict st), bind r (fun P0 => bind (n2_times (sp_scale_data prm) (pd_N2 pd) P0) (sd_finish env prm (Some (reorder o X)) (reorder_prep o pd) (reorder o ys)))) =
     rres (reorder_sd o) (snd (mk_ss prm (Some X) (ss_start st) (ss_cons st) (ss_args st) (ss_dict st), bind r (fun P0 => bind (n2_times (sp_scale_data prm) (pd_N2 pd) P0) (sd_finish env prm (Some X) pd ys))))).
  { intros r. cbn [snd]. destruct r as [P0|e]; cbn [bind rres]; [|reflexivity]. destruct (n2_times (sp_scale_data prm) (pd_N2 pd) P0) as [P|e]; cbn [bind rres]; [|reflexivity]. apply (finish_order env prm n p); auto. }
  assert (HP : ss_start st <> None -> (forall f, sp_meth prm = MUser f -> objective_order_free f) ->
     snd (let '(st', r) := sd_optimise env (mk_ss prm (Some (reorder o X)) (ss_start st) (ss_cons st) (ss_args st) (ss_dict st)) (reorder o (pd_Xs pd)) (reorder o ys) (pd_N2 pd) metric bias in
       (st', bind r (sd_finish env prm (Some (reorder o X)) (reorder_prep o pd) (reorder o ys)))) =
     rres (reorder_sd o) (snd (let '(st', r) := sd_optimise env (mk_ss prm (Some X) (ss_start st) (ss_cons st) (ss_args st) (ss_dict st)) (pd_Xs pd) ys (pd_N2 pd) metric bias in
       (st', bind r (sd_finish env prm (Some X) pd ys))))).
  { intros Hst HF. destruct (ss_start st) as [start|]; [|congruence].
    pose proof (optimise_order env prm (Some X) (Some (reorder o X)) start (ss_cons st) (ss_args st) (ss_dict st) n q o (pd_Xs pd) ys (pd_N2 pd) metric bias Ho Wq HL Hn0 Hm HF) as EO.
    destruct (sd_optimise env (mk_ss prm (Some (reorder o X)) _ _ _ _) _ _ _ _ _) as [s1 r1]. destruct (sd_optimise env (mk_ss prm (Some X) _ _ _ _) _ _ _ _ _) as [s2 r2]. cbn [snd] in EO |- *. subst r1.
    destruct r2 as [P|e]; cbn [bind rres]; [|reflexivity]. apply (finish_order env prm n p); auto. }
  unfold order_settings in Hset. rewrite <- KM in Hset. unfold sd_direct. cbv zeta. destruct (sp_meth prm) as [| | | | | | | |f] eqn:EM; unfold slices_suffice in Hset; rewrite <- ?KS, <- ?KT in Hset.
  - rewrite (SIR_order (se_eigh env) n q o) by auto. apply HD.
  - rewrite (SAVE_order (se_eigh env) n q o) by auto. apply HD.
  - rewrite (DR_order (se_eigh env) n q o) by auto. apply HD.
  - rewrite (PHD_order (se_eigh env) n q o) by auto. apply HD.
  - rewrite (IHT_order (se_eigh env) n q o) by auto. apply HD.
  - apply HP; [auto|congruence].
  - apply HP; [auto|congruence].
  - apply HP; [auto|congruence].
  - destruct Hset as [H1 H2]. apply HP; [auto|]. intros f' E'. injection E' as <-. auto.
Qed.
