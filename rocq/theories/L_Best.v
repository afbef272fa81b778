(** Leading eigenvectors are optimal among all orthonormal systems of their size *)
From Coq Require Import Reals List Arith Bool Lia Lra.
Import List. Import ListNotations.
From Verif Require Import Num Err Vec VecR L_Mat L_Lin L_Matmul L_Stats M_Utils M_Preproc M_SdrUtils S_Stats S_Regress S_Sudire S_Best
  L_SdrMat L_SdrKer L_SdrEig L_SdrPow L_SdrMeth L_SdrFit2 L_SdrCov L_EqMat L_Pca L_Pca2 L_LowRank.
Open Scope R_scope.

Section KyFanSym.
  Variables (p h : nat) (M w : nat -> nat -> R) (mu : nat -> R).
  Definition qf (u : nat -> R) : R := ip p u (ap p M u).
  Hypothesis Hs : forall i j, (i < p)%nat -> (j < p)%nat -> M i j = M j i.
  Hypothesis Hw : orthonormal_fun p h w.
  Hypothesis He : forall a j, (a < h)%nat -> (j < p)%nat -> ap p M (w a) j = mu a * w a j.
  Hypothesis Hm : forall k u, (k < h)%nat -> (forall a, (a < k)%nat -> ip p u (w a) = 0) -> qf u <= mu k * ip p u u.

  Lemma s_adj : forall u v, ip p u (ap p M v) = ip p (ap p M u) v.
  Proof.
    intros u v. rewrite adjoint. apply ip_ext; [|auto]. intros j Hj. unfold tap, ap. apply sumn_ext. intros r Hr. rewrite Hs by auto. reflexivity.
  Qed.
  Lemma s_eig : forall a u, (a < h)%nat -> ip p u (ap p M (w a)) = mu a * ip p u (w a).
  Proof. intros a u Ha. unfold ip. rewrite <- sumn_scal. apply sumn_ext. intros j Hj. rewrite He by auto. ring. Qed.
  Lemma s_mu : forall a, (a < h)%nat -> mu a = qf (w a).
  Proof. intros a Ha. unfold qf. rewrite s_eig, Hw, Nat.eqb_refl by auto. ring. Qed.
  Lemma s_decr : forall a k, (a <= k)%nat -> (k < h)%nat -> mu k <= mu a.
  Proof.
    intros a k Hak Hk. destruct (Nat.eq_dec a k) as [->|Hne]; [lra|]. rewrite (s_mu k Hk). rewrite <- (Rmult_1_r (mu a)).
    assert (E : ip p (w k) (w k) = 1) by (rewrite Hw, Nat.eqb_refl by lia; reflexivity). rewrite <- E. apply Hm; [lia|].
    intros b Hb. rewrite Hw by lia. destruct (Nat.eqb_spec k b); [lia|reflexivity].
  Qed.
  Lemma s_rest : forall u i, (i <= h)%nat -> qf (rest p w u i) = qf u - sumn i (fun a => mu a * (ip p u (w a) * ip p u (w a))).
  Proof.
    intros u i. induction i as [|i IH]; intros Hi; [cbn [rest]; rewrite sumn_0; ring|]. cbn [rest]. rewrite sumn_S. set (r := rest p w u i) in *. set (c := - ip p u (w i)).
    assert (E : qf (fun j => r j + c * w i j) = qf r + 2 * c * ip p r (ap p M (w i)) + c * c * qf (w i)).
    { unfold qf. rewrite (ip_ext p _ (ap p M (fun j => r j + c * w i j)) (fun j => r j + c * w i j) (fun j => ap p M r j + c * ap p M (w i) j)) by (auto; intros; apply ap_comb).
      rewrite ip_comb_l, !ip_comb_r. rewrite (s_adj (w i) r), (ip_sym p (ap p M (w i)) r). ring. }
    rewrite E, IH, s_eig, <- s_mu by lia. unfold r. rewrite (rest_ip p h w u Hw) by lia. destruct (Nat.ltb_spec i i); [lia|]. unfold c. ring.
  Qed.
  Lemma s_bound : forall k u, (k < h)%nat -> qf u <= mu k * ip p u u + sumn k (fun a => (mu a - mu k) * (ip p u (w a) * ip p u (w a))).
  Proof.
    intros k u Hk. assert (Hr : qf (rest p w u k) <= mu k * ip p (rest p w u k) (rest p w u k)).
    { apply Hm; auto. intros a Ha. rewrite (rest_ip p h w u Hw) by lia. destruct (Nat.ltb_spec a k); [reflexivity|lia]. }
    rewrite s_rest, (rest_sq p h w u Hw) in Hr by lia.
    rewrite (sumn_ext k _ (fun a => mu a * (ip p u (w a) * ip p u (w a)) - mu k * (ip p u (w a) * ip p u (w a)))) by (intros; ring).
    rewrite sumn_minus, sumn_scal. lra.
  Qed.
  Theorem ky_fan_sym : forall K q, (K <= h)%nat -> orthonormal_fun p K q -> sumn K (fun l => qf (q l)) <= sumn K (fun l => qf (w l)).
  Proof.
    intros K q HK Hq. destruct K as [|k]; [rewrite !sumn_0; lra|]. rewrite <- (sumn_ext (S k) mu (fun l => qf (w l))) by (intros; apply s_mu; lia).
    apply Rle_trans with (sumn (S k) (fun l => mu k + sumn k (fun a => (mu a - mu k) * (ip p (q l) (w a) * ip p (q l) (w a))))).
    { apply sumn_le. intros l Hl. eapply Rle_trans; [apply (s_bound k (q l)); lia|]. rewrite Hq, Nat.eqb_refl by auto. lra. }
    rewrite sumn_plus, sumn_const, (sumn_exchange (S k) k). rewrite (sumn_ext k _ (fun a => (mu a - mu k) * sumn (S k) (fun l => ip p (w a) (q l) * ip p (w a) (q l)))).
    2:{ intros a Ha. rewrite sumn_scal. f_equal. apply sumn_ext. intros l Hl. rewrite (ip_sym p (q l)). ring. }
    apply Rle_trans with (INR (S k) * mu k + sumn k (fun a => mu a - mu k)).
    { apply Rplus_le_compat_l, sumn_le. intros a Ha. pose proof (bessel_ineq p (S k) q (w a) Hq) as B. rewrite Hw, Nat.eqb_refl in B by lia. pose proof (s_decr a k ltac:(lia) ltac:(lia)). nra. }
    rewrite sumn_minus, sumn_const, S_INR, sumn_S. lra.
  Qed.
End KyFanSym.

Lemma matrix_of_cell : forall p f i j, (i < p)%nat -> (j < p)%nat -> cell (matrix_of p f) i j = f i j.
Proof.
  intros p f i j Hi Hj. unfold cell, matrix_of. rewrite (nth_indep _ [] (map (f 0%nat) (seq 0 p))) by (rewrite map_length, seq_length; exact Hi).
  rewrite (map_nth (fun i => map (f i) (seq 0 p))), seq_nth by exact Hi. rewrite (nth_indep _ 0 (f (0 + i)%nat 0%nat)) by (rewrite map_length, seq_length; exact Hj).
  rewrite map_nth, seq_nth by exact Hj. reflexivity.
Qed.
Lemma quad_qf : forall p f (v : list R), quad_form p (matrix_of p f) v = qf p f (fun j => nth j v 0).
Proof.
  intros p f v. unfold quad_form, qf, ip, ap. change sum_to with sumn. apply sumn_ext. intros i Hi. rewrite <- sumn_scal. apply sumn_ext. intros j Hj. rewrite matrix_of_cell by auto. ring.
Qed.
Lemma qf_ext : forall p f u v, (forall j, (j < p)%nat -> u j = v j) -> qf p f u = qf p f v.
Proof. intros p f u v H. unfold qf. apply ip_ext; auto. intros i Hi. unfold ap. apply sumn_ext. intros j Hj. rewrite H by auto. reflexivity. Qed.

Lemma eigen_fun : forall p K d V, leading_eigenvectors p (matrix_of p K) d V -> exists mu,
  orthonormal_fun p d (fun c j => cell V j c) /\
  (forall c j, (c < d)%nat -> (j < p)%nat -> ap p K (fun j => cell V j c) j = mu c * cell V j c) /\
  (forall k u, (k < d)%nat -> (forall a, (a < k)%nat -> ip p u (fun j => cell V j a) = 0) -> qf p K u <= mu k * ip p u u).
Proof.
  intros p K d V (WV & HVo & HVe & HVm). exists (fun c => quad_form p (matrix_of p K) (column c V)). split; [|split].
  - intros a b Ha Hb. exact (HVo a b Ha Hb).
  - intros c j Hc Hj. pose proof (HVe j c Hj Hc) as E. rewrite <- E. unfold ap. change sum_to with sumn. apply sumn_ext. intros a Ha. rewrite matrix_of_cell by auto. reflexivity.
  - intros k u Hk Ho. set (ul := map u (seq 0 p)). assert (Lu : length ul = p) by (unfold ul; rewrite map_length, seq_length; reflexivity).
    assert (Nu : forall j, (j < p)%nat -> nth j ul 0 = u j) by (intros j Hj; unfold ul; rewrite (nth_indep _ 0 (u 0%nat)) by (rewrite map_length, seq_length; exact Hj); rewrite map_nth, seq_nth by exact Hj; reflexivity).
    pose proof (HVm k ul Hk Lu) as H. rewrite quad_qf, (qf_ext p K _ u) in H by exact Nu. unfold sqlen in H. rewrite (inner_sum p) in H by auto. rewrite (ip_ext p _ _ u u) in H by auto. apply H.
    intros i Hi. assert (WVl : length (column i V) = p) by (destruct WV as [L _]; unfold column; rewrite map_length; exact L). rewrite (inner_sum p) by auto.
    refine (eq_trans _ (Ho i Hi)). apply ip_ext; [exact Nu|]. intros j Hj. rewrite nth_column. reflexivity.
Qed.

Section Frame.
  Variables (n p d : nat) (X S Z V B : list (list R)) (K : nat -> nat -> R) (crit : list R -> R).
  Hypothesis Hn : (2 <= n)%nat.
  Hypothesis HX : is_matrix n p X.
  Hypothesis HS : standardises p S (covariance_matrix p X).
  Hypothesis HZ : prepared_data n p X S Z true true.
  Hypothesis HV : leading_eigenvectors p (matrix_of p K) d V.
  Hypothesis HB : back_transformed p d S V B true.
  Hypothesis HK : forall i j, (i < p)%nat -> (j < p)%nat -> K i j = K j i.
  Let z (r j : nat) : R := cell Z r j.
  Hypothesis HC : forall v t, length t = n -> (forall r, (r < n)%nat -> ap p z v r = nth r t 0 - mean_of t) -> qf p K v = crit t.

  Let mn (a : nat) : R := mean_of (column a X).
  Lemma z_val : forall r j, (r < n)%nat -> (j < p)%nat -> z r j = sumn p (fun a => (cell X r a - mn a) * cell S a j).
  Proof. intros r j Hr Hj. destruct HZ as [_ H]. unfold z. rewrite (H r j Hr Hj). reflexivity. Qed.
  Lemma z_cov : forall i j, (i < p)%nat -> (j < p)%nat -> covf n (fun r => z r i) (fun r => z r j) = delta i j.
  Proof.
    intros i j Hi Hj. destruct HZ as [WZ _]. destruct HS as (WS & Ss & Hst).
    transitivity (cov_of (column i Z) (column j Z)); [symmetry; apply (cov_columns n p Z i j WZ)|].
    rewrite (cov_mix n p p X Z mn (cell S) HX WZ ltac:(lia) z_val i j Hi Hj). rewrite <- (Hst i j Hi Hj). change sum_to with sumn. apply sumn_ext. intros a Ha. apply sumn_ext. intros b Hb.
    rewrite (Ss a i) by auto. unfold covariance_matrix. rewrite matrix_of_cell by auto. reflexivity.
  Qed.
  Lemma proj_cov : forall v v', covf n (ap p z v) (ap p z v') = ip p v v'.
  Proof.
    intros v v'. unfold ap. rewrite covf_comb. unfold ip. apply sumn_ext. intros a Ha.
    rewrite (sumn_ext p _ (fun b => delta a b * (v a * v' b))) by (intros b Hb; rewrite z_cov by auto; ring).
    apply (sumn_delta_l p a (fun b => v a * v' b) Ha).
  Qed.
  Definition cx (u : nat -> R) (r : nat) : R := sumn p (fun a => (cell X r a - mn a) * u a).
  Lemma zap : forall v r, (r < n)%nat -> ap p z v r = cx (ap p (cell S) v) r.
  Proof.
    intros v r Hr. unfold ap, cx. rewrite (sumn_ext p _ (fun j => sumn p (fun a => (cell X r a - mn a) * (cell S a j * v j)))).
    - rewrite sumn_exchange. apply sumn_ext. intros a Ha. apply sumn_scal.
    - intros j Hj. rewrite z_val by auto. rewrite <- sumn_scal_r. apply sumn_ext. intros; ring.
  Qed.
  Lemma cx_ext : forall u v r, (forall a, (a < p)%nat -> u a = v a) -> cx u r = cx v r.
  Proof. intros u v r H. unfold cx. apply sumn_ext. intros a Ha. rewrite H by auto. reflexivity. Qed.
  Lemma centred : forall m U T r c, scores_along n p m X U T -> (r < n)%nat -> (c < m)%nat -> nth r (column c T) 0 - mean_of (column c T) = cx (fun a => cell U a c) r.
  Proof.
    intros m U T r c (WU & WT & HT) Hr Hc. rewrite (mean_column n m T c WT). rewrite nth_column. change (mget T r c) with (cell T r c).
    rewrite (mf_ext n _ (fun r => sumn p (fun a => cell X r a * cell U a c))) by (intros k Hk; apply (HT k c Hk Hc)). rewrite mf_comb. rewrite (HT r c Hr Hc). change sum_to with sumn. unfold cx. rewrite <- sumn_minus. apply sumn_ext. intros a Ha.
    unfold mn. rewrite (mean_column n p X a HX). change (fun r => mget X r a) with (fun r => cell X r a). ring.
  Qed.
  Definition up (u : nat -> R) : nat -> R := ap p (cell (covariance_matrix p X)) (ap p (cell S) u).
  Lemma up_val : forall u a, (a < p)%nat -> ap p (cell S) (up u) a = u a.
  Proof.
    intros u a Ha. destruct HS as (_ & _ & Hst). unfold up, ap.
    rewrite (sumn_ext p _ (fun i => sumn p (fun b => sumn p (fun j => cell S a i * cell (covariance_matrix p X) i b * cell S b j * u j)))).
    2:{ intros i Hi. rewrite <- sumn_scal. apply sumn_ext. intros b Hb. rewrite <- !sumn_scal. apply sumn_ext. intros; ring. }
    rewrite (sumn_ext p _ (fun i => sumn p (fun j => sumn p (fun b => cell S a i * cell (covariance_matrix p X) i b * cell S b j * u j)))) by (intros; apply sumn_exchange).
    rewrite sumn_exchange. rewrite (sumn_ext p _ (fun j => delta a j * u j)).
    - apply (sumn_delta_l p a u Ha).
    - intros j Hj. rewrite <- (Hst a j Ha Hj). change sum_to with sumn. rewrite <- sumn_scal_r. apply sumn_ext. intros i Hi. rewrite <- sumn_scal_r. reflexivity.
  Qed.
  Lemma cov_T : forall m U T (v : nat -> nat -> R), scores_along n p m X U T -> (forall c r, (c < m)%nat -> (r < n)%nat -> ap p z (v c) r = nth r (column c T) 0 - mean_of (column c T)) ->
    forall c c', (c < m)%nat -> (c' < m)%nat -> cov_of (column c T) (column c' T) = ip p (v c) (v c').
  Proof.
    intros m U T v (WU & WT & HT) Hv c c' Hc Hc'. rewrite (cov_columns n m T c c' WT), <- proj_cov.
    rewrite (covf_ext n (ap p z (v c)) (fun r => mget T r c - mean_of (column c T)) (ap p z (v c')) (fun r => mget T r c' - mean_of (column c' T))).
    - rewrite covf_shift by lia. reflexivity.
    - intros r Hr. rewrite Hv by auto. rewrite nth_column. reflexivity.
    - intros r Hr. rewrite Hv by auto. rewrite nth_column. reflexivity.
  Qed.
  Lemma best : forall T, scores_along n p d X B T -> standard_scores d T /\
    forall m U TU, (m <= d)%nat -> scores_along n p m X U TU -> standard_scores m TU -> sum_to m (fun c => crit (column c TU)) <= sum_to m (fun c => crit (column c T)).
  Proof.
    intros T HT. pose proof HV as (WV & HVo & _). destruct HB as [WB HBc]. set (w := fun c j => cell V j c).
    assert (Hw : forall c r, (c < d)%nat -> (r < n)%nat -> ap p z (w c) r = nth r (column c T) 0 - mean_of (column c T)).
    { intros c r Hc Hr. rewrite (centred d B T) by auto. rewrite zap by auto. apply cx_ext. intros a Ha. rewrite (HBc a c Ha Hc). reflexivity. }
    split; [intros c c' Hc Hc'; rewrite (cov_T d B T w HT Hw) by auto; rewrite <- (HVo c c' Hc Hc'); reflexivity|].
    intros m U TU Hm HU Hst. change sum_to with sumn. set (q := fun c => up (fun a => cell U a c)).
    assert (Hq : forall c r, (c < m)%nat -> (r < n)%nat -> ap p z (q c) r = nth r (column c TU) 0 - mean_of (column c TU)).
    { intros c r Hc Hr. rewrite (centred m U TU) by auto. rewrite zap by auto. apply cx_ext. intros a Ha. unfold q. rewrite up_val by auto. reflexivity. }
    assert (LT : forall k A c, is_matrix n k A -> length (column c A) = n) by (intros k A c [L _]; unfold column; rewrite map_length; exact L).
    rewrite (sumn_ext m _ (fun c => qf p K (q c))) by (intros c Hc; symmetry; apply HC; [apply (LT m), HU|intros; apply Hq; auto]).
    rewrite (sumn_ext m (fun c => crit (column c T)) (fun c => qf p K (w c))) by (intros c Hc; symmetry; apply HC; [apply (LT d), HT|intros; apply Hw; auto; lia]).
    destruct (eigen_fun p K d V HV) as (mu & F1 & F2 & F3). apply (ky_fan_sym p d K w mu); auto.
    intros a b Ha Hb. refine (eq_trans (eq_sym (cov_T m U TU q HU Hq a b Ha Hb)) _). exact (Hst a b Ha Hb).
  Qed.
End Frame.

(** ** the two criteria *)
Lemma slice_values_map : forall (T : Type) (g : T -> R) labels (X : list T) a,
  map g (map snd (filter (fun vr => if Req_EM_T (fst vr) a then true else false) (combine labels X))) = slice_values labels (map g X) a.
Proof.
  intros T g labels. unfold slice_values. induction labels as [|l labels IH]; intros X a; [reflexivity|]. destruct X as [|r X]; [reflexivity|]. cbn.
  destruct (Req_EM_T l a); cbn; rewrite IH; reflexivity.
Qed.
Lemma sum_of_shift : forall (l : list R) c, sum_of (map (fun x => x - c) l) = sum_of l - INR (length l) * c.
Proof. induction l as [|x l IH]; intros c; [cbn; ring|]. cbn [map sum_of fold_right]. fold (sum_of (map (fun x => x - c) l)) (sum_of l). rewrite IH. cbn [length]. rewrite S_INR. ring. Qed.
Lemma mean_of_shift : forall (l : list R) c, l <> [] -> mean_of (map (fun x => x - c) l) = mean_of l - c.
Proof. intros l c Hl. unfold mean_of. rewrite sum_of_shift, map_length. field. apply not_0_INR. destruct l; [congruence|discriminate]. Qed.
Lemma map_fst_combine : forall (a b : list R), length a = length b -> map fst (combine a b) = a.
Proof. induction a as [|x a IH]; intros [|z b] E; cbn in *; try lia; [reflexivity|]. rewrite IH by lia. reflexivity. Qed.
Lemma mean_comb : forall p (v : nat -> R) (L : list (list R)), sumn p (fun i => v i * mean_of (column i L)) = mean_of (map (fun row => sumn p (fun i => nth i row 0 * v i)) L).
Proof.
  intros p v L. unfold mean_of. rewrite map_length. unfold column. rewrite (sumn_ext p _ (fun i => v i * sum_of (map (fun r => nth i r 0) L) * / INR (length L))) by (intros; rewrite map_length; unfold Rdiv; ring).
  rewrite sumn_scal_r. unfold Rdiv. f_equal. induction L as [|r L IH]; [cbn; apply sumn_zero; intros; ring|].
  cbn [map sum_of fold_right]. fold (sum_of (map (fun row => sumn p (fun i => nth i row 0 * v i)) L)). rewrite <- IH, <- sumn_plus. apply sumn_ext. intros i Hi. fold (sum_of (map (fun r0 => nth i r0 0) L)). ring.
Qed.

(** the mean of the projected cases of a slice *)
Lemma slice_mean : forall n p labels Z, is_matrix n p Z -> length labels = n ->
  forall v t a, length t = n -> (forall r, (r < n)%nat -> ap p (fun r j => cell Z r j) v r = nth r t 0 - mean_of t) -> In a labels ->
  sumn p (fun i => v i * mean_of (column i (slice labels Z a))) = mean_of (slice_values labels t a) - mean_of t.
Proof.
  intros n p labels Z WZ HL v t a Lt Hv HU.
  assert (Hg : map (fun row => sumn p (fun i => nth i row 0 * v i)) Z = map (fun x => x - mean_of t) t).
  { apply (nth_ext _ _ 0 0); [rewrite !map_length; destruct WZ; congruence|]. intros r Hr. rewrite map_length in Hr. destruct WZ as [LZ _]. rewrite LZ in Hr.
    rewrite (nth_map_lt _ _ _ []) by (rewrite LZ; exact Hr). rewrite (nth_map_lt _ _ _ 0) by (rewrite Lt; exact Hr). rewrite <- (Hv r Hr). reflexivity. }
  rewrite mean_comb. unfold slice. rewrite slice_values_map, Hg, <- slice_values_map.
  apply mean_of_shift. fold (slice_values labels t a). clear - HU HL Lt.
  assert (In a (map fst (combine labels t))) by (rewrite map_fst_combine by lia; exact HU). apply in_map_iff in H as ([l x] & E & Hin). cbn in E. subst l.
  intros E. unfold slice_values in E. apply map_eq_nil in E. assert (In (a, x) []) as []. rewrite <- E. apply filter_In. split; [exact Hin|]. cbn. destruct (Req_EM_T a a); [reflexivity|congruence].
Qed.
Lemma between_crit : forall n p labels used Z, is_matrix n p Z -> length labels = n -> Forall (fun a => In a labels) used ->
  forall v t, length t = n -> (forall r, (r < n)%nat -> ap p (fun r j => cell Z r j) v r = nth r t 0 - mean_of t) -> qf p (between labels used Z) v = between_slices labels used t.
Proof.
  intros n p labels used Z WZ HL HU v t Lt Hv.
  set (vl := map v (seq 0 p)). assert (Nv : forall j, (j < p)%nat -> nth j vl 0 = v j).
  { intros j Hj. unfold vl. rewrite (nth_map_lt _ _ _ 0%nat) by (rewrite seq_length; exact Hj). rewrite seq_nth by exact Hj. reflexivity. }
  rewrite <- (qf_ext p (between labels used Z) (fun j => nth j vl 0) v Nv), <- quad_qf.
  rewrite (between_psd labels used Z p) by (apply (rep_table p p)). unfold between_slices. f_equal. apply map_ext_in. intros a Ha. do 2 f_equal.
  rewrite (sumn_ext p _ (fun i => v i * mean_of (column i (slice labels Z a)))) by (intros i Hi; rewrite Nv by exact Hi; reflexivity).
  apply (slice_mean n p labels Z WZ HL v t a Lt Hv). rewrite Forall_forall in HU. auto.
Qed.

Lemma curvature_crit : forall n p y Z, is_matrix n p Z ->
  forall v t, length t = n -> (forall r, (r < n)%nat -> ap p (fun r j => cell Z r j) v r = nth r t 0 - mean_of t) -> qf p (response_weighted Z y) v = curvature y t.
Proof.
  intros n p y Z [LZ _] v t Lt Hv. unfold qf, ip, curvature, response_weighted. rewrite LZ, Lt. change sum_to with sumn.
  rewrite (sumn_ext n (fun r => _ * (nth r t 0 - mean_of t) ^ 2) (fun r => (nth r y 0 - mean_of y) * (ap p (fun r j => cell Z r j) v r) ^ 2)) by (intros r Hr; rewrite Hv by exact Hr; reflexivity).
  unfold ap. rewrite (sumn_ext p _ (fun i => sumn n (fun r => (nth r y 0 - mean_of y) * (cell Z r i * v i) * sumn p (fun j => cell Z r j * v j)) * / INR n)).
  - rewrite sumn_scal_r. unfold Rdiv. f_equal. rewrite sumn_exchange. apply sumn_ext. intros r Hr.
    rewrite (sumn_ext p _ (fun i => (cell Z r i * v i) * ((nth r y 0 - mean_of y) * sumn p (fun j => cell Z r j * v j)))) by (intros; ring). rewrite sumn_scal_r. ring.
  - intros i Hi. rewrite <- sumn_scal. rewrite (sumn_ext p _ (fun j => sumn n (fun r => (nth r y 0 - mean_of y) * (cell Z r i * v i) * (cell Z r j * v j)) * / INR n)).
    + rewrite sumn_scal_r. f_equal. rewrite sumn_exchange. apply sumn_ext. intros r Hr. rewrite <- sumn_scal. reflexivity.
    + intros j Hj. unfold Rdiv. transitivity (sumn n (fun r => (nth r y 0 - mean_of y) * cell Z r i * cell Z r j) * (v i * v j) * / INR n); [ring|]. f_equal. rewrite <- sumn_scal_r. apply sumn_ext. intros; ring.
Qed.
