(** Lemmas in the form used by T_Sudire *)

From Coq Require Import String Reals List Arith ZArith Bool Lra Lia.
Import List. Import ListNotations.
From Verif Require Import Num Err Vec VecR S_Stats S_Regress L_Mat L_Lin L_Matmul L_Stats M_Utils M_Preproc M_Robcent L_Scaling M_Dicomo M_Ipopt M_SdrUtils M_Sudire S_Sudire S_SdrDim
  L_Sdr L_SdrMat L_SdrKer L_SdrEig L_SdrPow L_SdrMeth L_SdrFit L_SdrFit2 L_SdrFit3 L_SdrCov L_SdrEst L_SdrMore.
Open Scope R_scope.

Lemma discretize_slices : forall (y : list R) h, (2 <= h)%nat -> y <> [] -> exists s, sorted_version y s /\ discretize y h = Ok (map (slice_number (cut_points s h)) y).
Proof.
  intros y h Hh Hy. exists (sort y). split; [apply sorted_sort|]. rewrite discretize_below by auto. rewrite cuts_points. reflexivity.
Qed.
Lemma discretize_monotone : forall (y : list R) h l, (2 <= h)%nat -> discretize y h = Ok l ->
  length l = length y /\ (forall i, (i < length y)%nat -> (1 <= nth i l 0 <= h)%nat) /\
  (forall i j, (i < length y)%nat -> (j < length y)%nat -> nth i y 0 <= nth j y 0 -> (nth i l 0 <= nth j l 0)%nat).
Proof.
  intros y h l Hh E. assert (Hy : y <> []) by (intros ->; destruct (discretize_empty h) as [e Ee]; congruence).
  rewrite discretize_below in E by auto. apply Ok_inj in E. subst l. split; [apply map_length|]. split.
  - intros i Hi. rewrite (nth_map_lt _ y i 0 0%nat) by auto. pose proof (below_le (cuts y h) (nth i y 0)). rewrite cuts_length in *. lia.
  - intros i j Hi Hj Hle. rewrite (nth_map_lt _ y i 0 0%nat), (nth_map_lt _ y j 0 0%nat) by auto. pose proof (below_mono (cuts y h) _ _ Hle). lia.
Qed.
Lemma discretize_sizes : forall (y : list R) h l, (2 <= h)%nat -> NoDup y -> (h <= length y)%nat -> discretize y h = Ok l ->
  (forall k, (1 <= k < h)%nat -> size_of k l = (length y / h)%nat) /\ size_of h l = (length y - (h - 1) * (length y / h))%nat.
Proof.
  intros y h l Hh Hy Hn E. split; [intros k Hk; apply (discretize_counts y h l k); auto|apply (discretize_counts y h l 0); auto].
Qed.
Lemma discretize_degenerate : forall (y : list R) h, ((0 < length y < h)%nat -> (2 <= h)%nat -> discretize y h = Ok (repeat h (length y))) /\ ((h < 2)%nat -> exists e, discretize y h = Err e).
Proof. intros. split; [intros; apply discretize_few; auto|apply discretize_short]. Qed.

Lemma labels_distinct : forall (l : list R), l <> [] -> slice_labels (length l) l = Ok (distinct l) /\ NoDup (distinct l) /\ (forall v, In v (distinct l) <-> In v l).
Proof. intros l Hl. split; [apply slice_labels_distinct; auto|]. split; [apply distinct_nodup|apply distinct_in]. Qed.
Lemma fractions_used : forall (l : list R) k, l <> [] ->
  ((length (distinct l) <= k)%nat -> sum_of (map (fraction l) (firstn k (distinct l))) = 1) /\ ((k < length (distinct l))%nat -> sum_of (map (fraction l) (firstn k (distinct l))) < 1).
Proof.
  intros l k Hl. assert (ND : NoDup (firstn k (distinct l))).
  { pose proof (distinct_nodup l) as H. rewrite <- (firstn_skipn k (distinct l)) in H. revert H. generalize (firstn k (distinct l)) (skipn k (distinct l)). clear. intros a b.
    induction a as [|x a IH]; intros H; [constructor|]. inversion H; subst. constructor; [intros HI; apply H2, in_or_app; auto|auto]. }
  split; intros Hk.
  - rewrite firstn_all2 in * by auto. apply fractions_all; auto. intros v. apply distinct_in.
  - assert (HV : exists v, In v l /\ ~ In v (firstn k (distinct l))).
    { exists (nth k (distinct l) 0). split; [apply distinct_in, nth_In; auto|]. pose proof (distinct_nodup l) as H. rewrite <- (firstn_skipn k (distinct l)) in H at 1.
      destruct (skipn k (distinct l)) as [|a b] eqn:ES.
      - pose proof (skipn_length k (distinct l)) as L. rewrite ES in L. cbn in L. lia.
      - assert (Ea : nth k (distinct l) 0 = a) by (rewrite <- (firstn_skipn k (distinct l)), ES; rewrite app_nth2; rewrite firstn_length, Nat.min_l by lia; [rewrite Nat.sub_diag; reflexivity|lia]).
        rewrite Ea. apply NoDup_remove_2 in H. intros HI. apply H, in_or_app. auto. }
    destruct HV as [v [V1 V2]]. apply (fractions_some l _ v); auto.
Qed.
Lemma too_few_labels : forall eigh n p X y k d continuous center scale S labels, eigh_ok eigh -> (0 < n)%nat -> (0 < p)%nat -> is_matrix n p X -> length y = n ->
  signsqrt eigh X = Ok S -> response_labels y k continuous = Ok labels -> (length (distinct labels) < k)%nat ->
  SIR eigh X y k d continuous center scale = Err IndexError /\ SAVE eigh X y k d continuous center scale = Err IndexError /\ DR eigh X y k d continuous center scale = Err IndexError.
Proof. intros eigh n p X y k d continuous center scale S labels He Hn Hp W Ly. apply (sliced_few_methods eigh n p X He Hn Hp W y k continuous Ly). Qed.

Section Spec.
  Variables (eigh : list (list R) -> res (list R * list (list R))) (n p : nat) (X : list (list R)) (y : list R).
  Lemma SIR_spec : forall k d continuous center scale B, eigh_ok eigh -> (0 < n)%nat -> (0 < p)%nat -> is_matrix n p X -> length y = n ->
    SIR eigh X y k d continuous center scale = Ok B ->
    exists labels, case_labels y k continuous labels /\ (0 < k <= length (distinct labels))%nat /\ eigen_basis n p (Nat.min d p) X B center scale (between labels (firstn k (distinct labels))).
  Proof. intros k d continuous center scale B He Hn Hp W Ly E. exact (SIR_ok eigh n p X He Hn Hp W y k continuous Ly _ _ _ _ E). Qed.
  Lemma SAVE_spec : forall k d continuous center scale B, eigh_ok eigh -> (0 < n)%nat -> (0 < p)%nat -> is_matrix n p X -> length y = n ->
    SAVE eigh X y k d continuous center scale = Ok B ->
    exists labels, case_labels y k continuous labels /\ (k <= length (distinct labels))%nat /\ eigen_basis n p (Nat.min d p) X B center scale (fun Z => average_variance labels (firstn k (distinct labels)) Z p).
  Proof. intros k d continuous center scale B He Hn Hp W Ly E. exact (SAVE_ok eigh n p X He Hn Hp W y k continuous Ly _ _ _ _ E). Qed.
  Lemma DR_spec : forall k d continuous center scale B, eigh_ok eigh -> (0 < n)%nat -> (0 < p)%nat -> is_matrix n p X -> length y = n ->
    DR eigh X y k d continuous center scale = Ok B ->
    exists labels, case_labels y k continuous labels /\ (0 < k <= length (distinct labels))%nat /\ eigen_basis n p (Nat.min d p) X B center scale (fun Z => directional labels (firstn k (distinct labels)) Z p).
  Proof. intros k d continuous center scale B He Hn Hp W Ly E. exact (DR_ok eigh n p X He Hn Hp W y k continuous Ly _ _ _ _ E). Qed.
  Lemma PHD_spec : forall d center scale B, eigh_ok eigh -> (0 < n)%nat -> (0 < p)%nat -> is_matrix n p X -> length y = n ->
    PHD eigh X y d center scale = Ok B -> eigen_basis n p (Nat.min d p) X B center scale (fun Z => response_weighted Z y).
  Proof. intros d center scale B He Hn Hp W Ly E. exact (PHD_ok eigh n p X He Hn Hp W y Ly _ _ _ _ E). Qed.
  Lemma IHT_spec : forall d center scale B, eigh_ok eigh -> (0 < n)%nat -> (0 < p)%nat -> is_matrix n p X -> length y = n ->
    IHT eigh X y d center scale = Ok B -> eigen_basis n p (Nat.min d p) X B center scale (iterated p y).
  Proof. intros d center scale B He Hn Hp W Ly E. exact (IHT_ok eigh n p X He Hn Hp W y Ly _ _ _ _ E). Qed.
End Spec.
Lemma kernels_nonneg : forall labels used X y p v,
  0 <= quad_form p (matrix_of p (between labels used X)) v /\ 0 <= quad_form p (matrix_of p (average_variance labels used X p)) v /\ 0 <= quad_form p (matrix_of p (iterated p y X)) v.
Proof. intros. split; [apply between_nonneg|]. split; [apply average_variance_nonneg|apply krylov_psd]. Qed.

Section Fits.
  Variables (env : sd_env R) (st : sstate R) (X : list (list R)) (y : arr R) (metric : list R -> list R -> R) (bias : bool) (st' : sstate R) (m : smodel R) (n p : nat).
  Hypothesis He : eigh_ok (se_eigh env).
  Hypothesis HQ : square_shape (se_isqrt env).
  Hypothesis HS : svd_shapes (se_svd env).
  Let HQ1 : wf n p X -> (2 <= n)%nat -> forall N, se_isqrt env (npcov X) = Ok N -> wf p p N.
  Proof. intros W Hn N EN. apply (HQ p _ _ (proj1 (rep_npcov n p X ltac:(lia) W)) EN). Qed.

  Lemma fit_projector : inverse_ok (se_inv env) ->
    is_matrix n p X -> (2 <= n)%nat -> (0 < p)%nat -> sp_copy (ss_prm st) = true -> (0 < sp_ncomp (ss_prm st))%nat -> sd_fit env st X y metric bias = (st', Ok m) ->
    is_matrix p (sp_ncomp (ss_prm st)) (sm_P m) /\ projects_onto p (sm_proj m) (sm_P m) /\ sum_to p (fun i => cell (sm_proj m) i i) = INR (sp_ncomp (ss_prm st)).
  Proof.
    intros HI W Hn Hp Hc Hh E. destruct (fit_basis env st st' X y metric bias m n p He (HQ1 W Hn) HS W Hn Hp Hc E) as (pd & ys & P & _ & _ & EV & WP & _ & _ & _ & _ & EF).
    destruct (finish_inv _ _ _ _ _ _ _ EF) as [X1 [_ [_ [EJ [_ [_ [EP _]]]]]]]. rewrite (EP EV). split; [exact WP|]. split; [apply (projector_ok env p (sp_ncomp (ss_prm st)) P); auto|exact (projector_trace env p (sp_ncomp (ss_prm st)) P _ HI Hp Hh WP EJ)].
  Qed.
  Lemma fit_projector_full : inverse_ok (se_inv env) ->
    is_matrix n p X -> (2 <= n)%nat -> (0 < p)%nat -> sp_copy (ss_prm st) = true -> sp_ncomp (ss_prm st) = p -> sd_fit env st X y metric bias = (st', Ok m) ->
    forall i j, (i < p)%nat -> (j < p)%nat -> cell (sm_proj m) i j = delta i j.
  Proof.
    intros HI W Hn Hp Hc Hh E. destruct (fit_basis env st st' X y metric bias m n p He (HQ1 W Hn) HS W Hn Hp Hc E) as (pd & ys & P & _ & _ & EV & WP & _ & _ & _ & _ & EF).
    destruct (finish_inv _ _ _ _ _ _ _ EF) as [X1 [_ [_ [EJ [_ [_ [EP _]]]]]]]. rewrite Hh in WP. apply (projector_full env p P (sm_proj m) HI Hp WP EJ).
  Qed.
  Lemma fit_training : is_matrix n p X -> (2 <= n)%nat -> (0 < p)%nat -> sp_copy (ss_prm st) = true -> sd_fit env st X y metric bias = (st', Ok m) ->
    sd_transform m X = Ok (sm_T m) /\
    (forall i k, (i < n)%nat -> (k < sp_ncomp (ss_prm st))%nat -> cell (sm_T m) i k = sum_to p (fun a => cell X i a * cell (sm_P m) a k)) /\
    ((forall Z v b, se_ols env Z v = Ok b -> length b = ncols Z) -> sd_predict m X = Ok (sm_fitted m)).
  Proof.
    intros W Hn Hp Hc E. destruct (fit_basis env st st' X y metric bias m n p He (HQ1 W Hn) HS W Hn Hp Hc E) as (pd & ys & P & _ & _ & EV & WP & _ & _ & _ & _ & EF).
    destruct (finish_ok env _ X pd ys P m n p EF EV ltac:(lia) W) as [ET [EO [EFt EPr]]]. destruct (finish_inv _ _ _ _ _ _ _ EF) as [X1 [EX [EM [EJ [_ [_ [EP _]]]]]]]. injection EX as <-.
    split; [auto|]. split.
    - intros i k Hi Hk. rewrite (EP EV). apply (npmatmul_ok n p _ X P _ _ _ ltac:(lia) Hp (rep_self _ _ _ W) (rep_self _ _ _ WP) EM); auto.
    - intros Ho. apply EPr. apply (Ho _ _ _ EO).
  Qed.
End Fits.

Lemma pooled_not_own : exists (D : nat -> nat -> R) B p, (forall b, D p b = 0) /\ (forall i b, 0 <= D i b) /\
  own_average D B 2 < own_average D B 1 /\ own_average D B 2 < own_average D B 3 /\ pooled_average D B 3 < pooled_average D B 2 /\ (3 <= p)%nat.
Proof.
  exists (fun i _ => match i with 1%nat => 10 | 2%nat => 1 | 3%nat => 2 | _ => 0 end), 1%nat, 4%nat.
  split; [auto|]. split; [intros [|[|[|[|i]]]] b; lra|]. unfold own_average, pooled_average, sum_to, sum_of. cbn. repeat split; try lra; lia.
Qed.

Lemma flat_round_trip : forall p h (B : list (list R)), (0 < p)%nat -> (0 < h)%nat -> is_matrix p h B ->
  length (flatF B) = (h * p)%nat /\ (forall i j, (i < p)%nat -> (j < h)%nat -> nth (j * p + i) (flatF B) 0 = cell B i j) /\ unvec h (flatF B) = Ok B.
Proof. intros p h B Hp Hh W. destruct (flatF_spec p h B Hp W) as [L E]. split; [auto|]. split; [exact E|]. apply (unvec_flatF p h); auto. Qed.
Lemma unvec_round_trip : forall h (b : list R), ((h = 0 \/ length b mod h <> 0)%nat -> unvec h b = Err ValueError) /\ (forall B, unvec h b = Ok B -> b <> [] -> flatF B = b).
Proof. intros. split; [apply unvec_bad|]. intros B. apply flatF_unvec. Qed.
Lemma constraints_spec : forall n p h X (B : list (list R)) i j scale, (0 < n)%nat -> (2 <= p)%nat -> (0 < h)%nat -> is_matrix n p X -> is_matrix p h B -> (i < h)%nat -> (j < h)%nat ->
  length (constraints scale X h) = (h * h)%nat /\
  exists c, nth_error (constraints scale X h) (i * h + j) = Some c /\
    c (flatF B) = Ok ((if scale then sum_to p (fun a => cell B a i * cell B a j)
                       else sum_to p (fun a => sum_to p (fun b => cell B a i * cov_of (column a X) (column b X) * cell B b j))) - delta i j).
Proof.
  intros n p h X B i j scale Hn Hp Hh WX WB Hi Hj. destruct (constraints_list scale X h) as [L E]. split; [auto|]. eexists. split; [apply E; auto|].
  destruct scale; [apply (const_zscale_ok n p h); auto; lia|apply (const_xscale_ok n p h); auto].
Qed.

(** the regression of the response on the scores *)
Lemma fit_regression : forall (env : sd_env R) st X y metric bias st' m n p, eigh_ok (se_eigh env) -> square_shape (se_isqrt env) -> svd_shapes (se_svd env) ->
  is_matrix n p X -> (2 <= n)%nat -> (0 < p)%nat -> sp_copy (ss_prm st) = true -> sd_fit env st X (A1 y) metric bias = (st', Ok m) ->
  ~ constant_column n (sp_ncomp (ss_prm st)) (sm_T m) -> se_ols env (map (cons 1) (sm_T m)) y = Ok (sm_ols m).
Proof.
  intros env st X y metric bias st' m n p He HQ HS W Hn Hp Hc E HN.
  assert (HQ1 : forall N, se_isqrt env (npcov X) = Ok N -> wf p p N) by (intros N EN; apply (HQ p _ _ (proj1 (rep_npcov n p X ltac:(lia) W)) EN)).
  destruct (fit_basis env st st' X (A1 y) metric bias m n p He HQ1 HS W Hn Hp Hc E) as (pd & ys & P & _ & EY & EV & WP & _ & _ & _ & _ & EF).
  destruct (response_inv _ _ _ EY) as [Ly [Ey|Ey]]; [|discriminate]. injection Ey as <-.
  destruct (finish_inv _ _ _ _ _ _ _ EF) as [X1 [EX [EM [_ [EO _]]]]]. injection EX as <-.
  assert (WT : wf n (sp_ncomp (ss_prm st)) (sm_T m)) by (apply (npmatmul_ok n p _ X P _ _ _ ltac:(lia) Hp (rep_self _ _ _ W) (rep_self _ _ _ WP) EM)).
  destruct (add_constant_spec n _ (sm_T m) ltac:(lia) WT) as [_ HA]. rewrite (HA HN) in EO. exact EO.
Qed.

(** refits after an optimised fit *)
Lemma whiten_scale : forall prm : sparams R, sp_whiten prm = false -> sd_whitening prm = prm.
Proof. intros prm H. unfold sd_whitening. rewrite H. reflexivity. Qed.
Lemma refits_agree : forall (env : sd_env R) st X y X1 y1 X2 y2 mt bi mt1 bi1 mt2 bi2 st1 m st2 m1 st3 m2 n p n1 p1 n2 p2,
  eigh_ok (se_eigh env) -> square_shape (se_isqrt env) -> svd_shapes (se_svd env) -> is_matrix n p X -> is_matrix n1 p1 X1 -> is_matrix n2 p2 X2 ->
  (2 <= n)%nat -> (0 < p)%nat -> (2 <= n1)%nat -> (0 < p1)%nat -> (2 <= n2)%nat -> (0 < p2)%nat ->
  sp_copy (ss_prm st) = true -> optimised (sp_meth (ss_prm st)) -> sp_scale_data (ss_prm st) = false -> sp_whiten (ss_prm st) = false ->
  sd_fit env st X y mt bi = (st1, Ok m) -> sd_fit env st1 X1 y1 mt1 bi1 = (st2, Ok m1) -> sd_fit env st1 X2 y2 mt2 bi2 = (st3, Ok m2) -> sm_P m1 = sm_P m2 /\ p1 = p2.
Proof.
  intros env st X y X1 y1 X2 y2 mt bi mt1 bi1 mt2 bi2 st1 m st2 m1 st3 m2 n p n1 p1 n2 p2 He HQ HS W W1 W2 Hn Hp Hn1 Hp1 Hn2 Hp2 Hc HM Hsc Hw E E1 E2.
  assert (HQ1 : forall N, se_isqrt env (npcov X) = Ok N -> wf p p N) by (intros N EN; apply (HQ p _ _ (proj1 (rep_npcov n p X ltac:(lia) W)) EN)).
  destruct (fit_basis env st st1 X y mt bi m n p He HQ1 HS W Hn Hp Hc E) as (pd & ys & P & _ & _ & _ & _ & _ & _ & _ & HP & _).
  rewrite (whiten_scale _ Hw) in HP.
  destruct HP as [[P0 [ED _]]|[_ EO]]; [apply (optimised_direct env _ (pd_Xs pd) ys) in HM; congruence|].
  destruct (optimise_caches _ _ _ _ _ _ _ _ _ EO) as [[b Hb] [[c Hc'] Ha]].
  assert (EPm : ss_prm st1 = ss_prm st).
  { clear - EO. unfold sd_optimise in EO. cbv zeta in EO. destruct (match _ with Some b => Ok b | None => _ end) as [start|e]; [|discriminate].
    destruct (bind _ _) as [B|e]; [|discriminate]. destruct (sp_meth _); injection EO as <- _; reflexivity. }
  eapply (refit_cached env st1 X1 y1 mt1 bi1 X2 y2 mt2 bi2 n1 p1 n2 p2 b c); try rewrite EPm; eauto.
Qed.

(** directions and scores *)
Lemma fit_orthonormal : forall (env : sd_env R) st st' X y metric bias m n p, svd_shapes (se_svd env) -> isqrt_ok (se_isqrt env) -> eigh_ok (se_eigh env) ->
  is_matrix n p X -> (2 <= n)%nat -> (0 < p)%nat -> sp_copy (ss_prm st) = true -> sp_whiten (ss_prm st) = false -> sp_center (ss_prm st) = CMean ->
  sd_fit env st X y metric bias = (st', Ok m) -> ~ optimised (sp_meth (ss_prm st)) ->
  (sp_scale_data (ss_prm st) = true -> sigma_orthonormal p (sp_ncomp (ss_prm st)) X (sm_P m) /\ uncorrelated_unit (sp_ncomp (ss_prm st)) (sm_T m)) /\
  (sp_scale_data (ss_prm st) = false -> orthonormal_columns p (sp_ncomp (ss_prm st)) (sm_P m)).
Proof.
  intros env st st' X y metric bias m n p HS HI He W Hn Hp Hc HW HC E HM.
  assert (M : (forall f, sp_meth (ss_prm st) <> MUser f) /\ sp_meth (ss_prm st) <> MDcov /\ sp_meth (ss_prm st) <> MBcov /\ sp_meth (ss_prm st) <> MMdd).
  { destruct (sp_meth (ss_prm st)); cbn in HM; repeat split; try congruence; intros; try congruence; exfalso; auto. }
  destruct M as [M1 [M2 [M3 M4]]]. split; intros HSc.
  - assert (HO : sigma_orthonormal p (sp_ncomp (ss_prm st)) X (sm_P m)) by (eapply (direct_scaled env st st' X y metric bias m n p); eauto).
    split; [exact HO|]. eapply (orth_scores env st st' X y metric bias m n p); eauto.
  - eapply (direct_unscaled env st st' X y metric bias m n p); eauto.
Qed.
Lemma fit_optimised_orthonormal : forall (env : sd_env R) st st' X y metric bias m n p, svd_shapes (se_svd env) -> isqrt_ok (se_isqrt env) -> eigh_ok (se_eigh env) -> feasible (se_ipopt env) ->
  is_matrix n p X -> (2 <= n)%nat -> (0 < p)%nat -> sp_copy (ss_prm st) = true -> sp_whiten (ss_prm st) = false -> sp_center (ss_prm st) = CMean \/ sp_center (ss_prm st) = CMedian ->
  ss_cons st = None -> optimised (sp_meth (ss_prm st)) -> sd_fit env st X y metric bias = (st', Ok m) ->
  sigma_orthonormal p (sp_ncomp (ss_prm st)) X (sm_P m) /\ uncorrelated_unit (sp_ncomp (ss_prm st)) (sm_T m).
Proof.
  intros env st st' X y metric bias m n p HS HI He HF W Hn Hp Hc HW HC HCo HM E.
  assert (HO : sigma_orthonormal p (sp_ncomp (ss_prm st)) X (sm_P m)).
  { eapply (optimised_orth env st st' X y metric bias m n p); eauto. destruct (sp_meth (ss_prm st)) eqn:EM; cbn in HM; try contradiction; eauto.
    destruct (fit_bcov env st X y metric bias EM) as [s2 [e Ee]]. rewrite Ee in E. discriminate. }
  split; [exact HO|]. eapply (orth_scores env st st' X y metric bias m n p); eauto.
Qed.
