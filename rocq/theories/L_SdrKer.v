(** The matrices whose eigenvectors SIR, SAVE, DR, PHD and IHT return. *)

From Coq Require Import Reals List Arith ZArith Bool Lra Lia.
Import ListNotations.
From Verif Require Import Num Err Vec VecR S_Stats L_Mat L_Lin L_Matmul L_Stats M_SdrUtils S_Sudire L_Sdr L_SdrMat.
Open Scope R_scope.

Lemma cov2_cov_of : forall u v : list R, cov2 u v = cov_of u v.
Proof.
  intros u v. unfold cov2, cov_of, centred. rewrite nnat_R. rnum. f_equal. rewrite sum_of_vsum. unfold dot.
  rewrite map2_map_l, map2_map_r. rewrite <- !mean_of_vmean. generalize (mean_of u) (mean_of v). intros a b.
  revert v. induction u as [|x u IH]; intros [|z v]; try reflexivity.
  cbn [map2 combine map fst snd]. rewrite !vsum_cons, IH. reflexivity.
Qed.
Lemma cov_of_sym : forall u v, length u = length v -> cov_of u v = cov_of v u.
Proof.
  intros u v E. unfold cov_of. rewrite E. f_equal. generalize (mean_of u) (mean_of v). intros a b. clear E.
  revert v. induction u as [|x u IH]; intros [|z v]; try reflexivity.
  unfold sum_of in *. cbn [map combine fold_right fst snd]. rewrite IH. ring.
Qed.

(** ** Slices *)
Lemma in_slice_slice : forall (l : list R) X a, in_slice l X a = slice l X a. Proof. reflexivity. Qed.
Lemma slice_rows : forall l X a p, Forall (fun r => length r = p) X -> Forall (fun r => length r = p) (slice l X a).
Proof.
  intros l X a p F. apply Forall_forall. intros r Hr. unfold slice in Hr. apply in_map_iff in Hr as [[v r'] [E Hr]]. cbn in E. subst r'.
  apply filter_In in Hr as [Hr _]. apply in_combine_r in Hr. rewrite Forall_forall in F. auto.
Qed.
Lemma slice_wf : forall l X a n p, wf n p X -> wf (length (slice l X a)) p (slice l X a).
Proof. intros l X a n p [L F]. split; auto. apply slice_rows; auto. Qed.
Lemma slice_nonempty : forall l X a, length l = length X -> In a l -> (0 < length (slice l X a))%nat.
Proof.
  induction l as [|b l IH]; intros [|r X] a E Ha; cbn in E; try lia; [destruct Ha|]. unfold slice. cbn [combine filter fst].
  destruct (Req_EM_T b a) as [Eb|Nb]; [cbn; lia|]. destruct Ha as [Ha|Ha]; [congruence|].
  apply (IH X a); auto.
Qed.
Lemma nth_slice_mean : forall S p i, (0 < length S)%nat -> wf (length S) p S -> (i < p)%nat -> nth i (slice_mean S) 0 = mean_of (column i S).
Proof.
  intros S p i Hl W Hi. unfold slice_mean. rewrite (map_cols_nth _ S) by (rewrite (wf_ncols (length S) p); auto).
  rewrite mean_of_vmean. reflexivity.
Qed.
Lemma slice_mean_length : forall S p, (0 < length S)%nat -> wf (length S) p S -> length (slice_mean (A := R) S) = p.
Proof. intros S p Hl W. unfold slice_mean. rewrite map_length, cols_length. apply (wf_ncols (length S)); auto. Qed.

Lemma rep_slice_cov : forall l X a n p, wf n p X -> length l = n -> In a l -> rep p p (slice_cov p (slice l X a)) (within l X a).
Proof.
  intros l X a n p W El Ha. unfold slice_cov, within.
  destruct (1 <? length (slice l X a))%nat eqn:E; [|apply rep_identity].
  apply Nat.ltb_lt in E. eapply rep_ext; [apply (rep_npcov (length (slice l X a)) p); [lia|apply (slice_wf l X a n); auto]|].
  intros i j Hi Hj. apply cov2_cov_of.
Qed.
Lemma within_sym : forall l X a i j, within l X a i j = within l X a j i.
Proof.
  intros l X a i j. unfold within. destruct (1 <? length (slice l X a))%nat.
  - apply cov_of_sym. unfold column. rewrite !map_length. reflexivity.
  - unfold delta. rewrite Nat.eqb_sym. reflexivity.
Qed.

Section Kernels.
  Variables (labels used : list R) (X : list (list R)) (n p : nat).
  Hypothesis HX : wf n p X.
  Hypothesis Hl : length labels = n.
  Hypothesis Hu : forall a, In a used -> In a labels.

  Let mu (a : R) (i : nat) : R := mean_of (column i (slice labels X a)).

  Lemma mean_rep : forall a i, In a used -> (i < p)%nat -> nth i (slice_mean (in_slice labels X a)) 0 = mu a i.
  Proof.
    intros a i Ha Hi. rewrite in_slice_slice. apply (nth_slice_mean _ p); auto.
    - apply slice_nonempty; [rewrite Hl; symmetry; apply (wf_length _ _ _ HX)|auto].
    - apply (slice_wf labels X a n); auto.
  Qed.
  Lemma mean_len : forall a, In a used -> length (slice_mean (in_slice labels X a)) = p.
  Proof.
    intros a Ha. rewrite in_slice_slice. apply slice_mean_length.
    - apply slice_nonempty; [rewrite Hl; symmetry; apply (wf_length _ _ _ HX)|auto].
    - apply (slice_wf labels X a n); auto.
  Qed.
  Lemma prop_rep : forall a, proportion n labels a = fraction labels a.
  Proof. intros a. rewrite <- Hl. apply proportion_fraction. Qed.

  Lemma rep_sir : (0 < length used)%nat -> rep p p (sir_kernel n X labels used) (between labels used X).
  Proof.
    intros Hk. set (k := length used) in *. unfold sir_kernel.
    set (exy := map (fun l => slice_mean (in_slice labels X l)) used). set (prob := map (proportion n labels) used).
    assert (Lp : length prob = k) by apply map_length.
    assert (RE : rep k p exy (fun b i => mu (nth b used 0) i)).
    { split.
      - split; [apply map_length|]. apply Forall_forall. intros r Hr. apply in_map_iff in Hr as [a [<- Ha]]. apply mean_len; auto.
      - intros b i Hb Hi. unfold mget, exy. rewrite (nth_map_lt _ _ _ 0) by auto. apply mean_rep; auto. apply nth_In; auto. }
    pose proof (rep_diag prob) as RD. rewrite Lp in RD.
    eapply rep_ext; [exact (rep_matmul p k p _ _ _ _ Hk (rep_matmul p k k _ _ _ _ Hk (rep_transpose k p exy _ Hk RE) RD) RE)|].
    intros i j Hi Hj. cbn beta. unfold between. fold (mu).
    rewrite (sumn_ext k _ (fun a => fraction labels (nth a used 0) * mu (nth a used 0) i * mu (nth a used 0) j)).
    - rewrite sum_of_vsum. rewrite (vsum_map_sumn _ used 0). reflexivity.
    - intros a Ha. rewrite (sumn_ext k _ (fun b => if Nat.eqb b a then mu (nth b used 0) i * nth b prob 0 else 0)).
      + rewrite sumn_delta by auto. unfold prob. rewrite (nth_map_lt _ _ _ 0) by auto. rewrite prop_rep. ring.
      + intros b Hb. destruct (b =? a)%nat; ring.
  Qed.

  Lemma rep_save : (0 < p)%nat -> rep p p (save_kernel n p X labels used) (average_variance labels used X p).
  Proof.
    intros Hp. unfold save_kernel.
    assert (Hg : forall a, In a used -> rep p p (mscale (proportion n labels a) (matmul (msub (slice_cov p (in_slice labels X a)) (identity p)) (msub (slice_cov p (in_slice labels X a)) (identity p))))
       (fun i j => fraction labels a * sumn p (fun b => (within labels X a i b - delta i b) * (within labels X a b j - delta b j)))).
    { intros a Ha. rewrite prop_rep. apply rep_mscale.
      pose proof (rep_msub p p _ _ _ _ (rep_slice_cov labels X a n p HX Hl (Hu a Ha)) (rep_identity p)) as RD.
      exact (rep_matmul p p p _ _ _ _ Hp RD RD). }
    eapply rep_ext; [exact (rep_fold p _ _ used _ _ (rep_zero p) Hg)|].
    intros i j Hi Hj. cbn beta. rewrite Rplus_0_l. reflexivity.
  Qed.

  Lemma rep_dr : (0 < p)%nat -> rep p p (dr_kernel n p X labels used) (directional labels used X p).
  Proof.
    intros Hp. unfold dr_kernel.
    assert (RO : forall a, In a used -> rep p p (outer (slice_mean (in_slice labels X a)) (slice_mean (in_slice labels X a))) (fun i j => mu a i * mu a j)).
    { intros a Ha. pose proof (rep_outer (slice_mean (in_slice labels X a)) (slice_mean (in_slice labels X a))) as RO. rewrite mean_len in RO by auto.
      eapply rep_ext; [exact RO|]. intros i j Hi Hj. cbn beta. rewrite !mean_rep by auto. reflexivity. }
    assert (H1 : forall a, In a used -> rep p p (let S := in_slice labels X a in let e := slice_mean S in
                  let V := madd (slice_cov p S) (outer e e) in mscale (proportion n labels a) (matmul V V))
       (fun i j => fraction labels a * sumn p (fun b => second_moment labels X a i b * second_moment labels X a b j))).
    { intros a Ha. cbv zeta. rewrite prop_rep. apply rep_mscale.
      pose proof (rep_madd p p _ _ _ _ (rep_slice_cov labels X a n p HX Hl (Hu a Ha)) (RO a Ha)) as RV.
      exact (rep_matmul p p p _ _ _ _ Hp RV RV). }
    assert (H2 : forall a, In a used -> rep p p (let e := slice_mean (in_slice labels X a) in mscale (proportion n labels a) (outer e e))
       (fun i j => fraction labels a * (mu a i * mu a j))).
    { intros a Ha. cbv zeta. rewrite prop_rep. apply rep_mscale. auto. }
    pose proof (rep_fold p _ _ used _ _ (rep_zero p) H1) as R1. cbv zeta in R1.
    pose proof (rep_fold p _ _ used _ _ (rep_zero p) H2) as R2. cbv zeta in R2.
    assert (R2' := rep_ext p p _ _ (between labels used X) R2). cbn beta in R2'.
    specialize (R2' ltac:(intros i j Hi Hj; rewrite Rplus_0_l; unfold between; apply sum_of_map_ext; intros a Ha; unfold mu; ring)). clear R2.
    set (mat2 := fold_left _ used (zero_mat p)) in R2'.
    assert (Ht : trace mat2 = sumn p (fun b => between labels used X b b)).
    { unfold trace. destruct R2' as [W2 E2]. rewrite (wf_length _ _ _ W2).
      change (vsum (map (fun i => mget mat2 i i) (seq 0 p))) with (sumn p (fun i => mget mat2 i i)). apply sumn_ext. intros b Hb. apply E2; auto. }
    eapply rep_ext.
    - apply rep_msub; [apply rep_madd; [apply rep_madd|]|].
      + apply rep_mscale. exact R1.
      + apply rep_mscale. exact (rep_matmul p p p _ _ _ _ Hp R2' R2').
      + apply rep_mscale. exact R2'.
      + apply rep_mscale. apply rep_identity.
    - intros i j Hi Hj. cbn beta. fold mat2. rewrite Ht. rewrite nnat_R. rnum. unfold directional. change sum_to with sumn.
      replace (INR 2) with 2 by (cbn; lra). lra.
  Qed.
End Kernels.

(** ** Symmetry and positivity *)
Lemma between_sym : forall l u X i j, between l u X i j = between l u X j i.
Proof. intros. unfold between. apply sum_of_map_ext. intros. ring. Qed.
Lemma average_variance_sym : forall l u X p i j, average_variance l u X p i j = average_variance l u X p j i.
Proof.
  intros. unfold average_variance. apply sum_of_map_ext. intros a _. f_equal. change sum_to with sumn. apply sumn_ext. intros b _.
  rewrite (within_sym l X a i b), (within_sym l X a b j). unfold delta. rewrite (Nat.eqb_sym i b), (Nat.eqb_sym b j). ring.
Qed.
Lemma second_moment_sym : forall l X a i j, second_moment l X a i j = second_moment l X a j i.
Proof. intros. unfold second_moment. rewrite within_sym. ring. Qed.
Lemma directional_sym : forall l u X p i j, directional l u X p i j = directional l u X p j i.
Proof.
  intros. unfold directional. change sum_to with sumn. rewrite (between_sym l u X i j). unfold delta. rewrite (Nat.eqb_sym i j).
  f_equal. f_equal. f_equal.
  - f_equal. apply sum_of_map_ext. intros a _. f_equal. change sum_to with sumn. apply sumn_ext. intros b _.
    rewrite (second_moment_sym l X a i b), (second_moment_sym l X a b j). ring.
  - f_equal. apply sumn_ext. intros b _. rewrite (between_sym l u X i b), (between_sym l u X b j). ring.
Qed.

Lemma fraction_nonneg : forall l a, 0 <= fraction l a.
Proof.
  intros l a. unfold fraction. destruct l as [|b l]; [cbn; unfold Rdiv; rewrite Rmult_0_l; lra|].
  apply Rmult_le_pos; [apply pos_INR|]. left. apply Rinv_0_lt_compat. apply lt_0_INR. cbn. lia.
Qed.

Lemma between_psd : forall l u X p M v, rep p p M (between l u X) ->
  quad_form p M v = sum_of (map (fun a => fraction l a * (sumn p (fun i => nth i v 0 * mean_of (column i (slice l X a)))) ^ 2) u).
Proof.
  intros l u X p M v HM. rewrite (quad_form_sumn p M _ v HM).
  transitivity (sumn p (fun i => sumn p (fun j => sum_of (map (fun a => fraction l a * ((nth i v 0 * mean_of (column i (slice l X a))) * (nth j v 0 * mean_of (column j (slice l X a))))) u)))).
  - apply sumn_ext. intros i _. apply sumn_ext. intros j _. unfold between. rewrite <- sum_of_map_scal.
    rewrite Rmult_comm, <- sum_of_map_scal. apply sum_of_map_ext. intros. ring.
  - transitivity (sumn p (fun i => sum_of (map (fun a => sumn p (fun j => fraction l a * ((nth i v 0 * mean_of (column i (slice l X a))) * (nth j v 0 * mean_of (column j (slice l X a)))))) u))).
    + apply sumn_ext. intros i _. apply (sumn_sum_of p (fun j a => _)).
    + rewrite (sumn_sum_of p (fun i a => _)). apply sum_of_map_ext. intros a _.
      rewrite <- Rsqr_pow2. unfold Rsqr. rewrite <- sumn_square, <- sumn_scal. apply sumn_ext. intros i _. apply sumn_scal.
Qed.

(** v' D D v = |D v|^2 for symmetric D *)
Lemma square_psd : forall p (d : nat -> nat -> R) (v : nat -> R), (forall i j, d i j = d j i) ->
  sumn p (fun i => sumn p (fun j => v i * sumn p (fun b => d i b * d b j) * v j)) = sumn p (fun b => (sumn p (fun i => d b i * v i)) ^ 2).
Proof.
  intros p d v Hd.
  transitivity (sumn p (fun i => sumn p (fun j => sumn p (fun b => (d b i * v i) * (d b j * v j))))).
  - apply sumn_ext. intros i _. apply sumn_ext. intros j _. rewrite <- sumn_scal, <- sumn_scal_r. apply sumn_ext. intros b _. rewrite (Hd i b). ring.
  - transitivity (sumn p (fun i => sumn p (fun b => sumn p (fun j => (d b i * v i) * (d b j * v j))))).
    + apply sumn_ext. intros i _. apply sumn_exchange.
    + rewrite sumn_exchange. apply sumn_ext. intros b _. rewrite <- Rsqr_pow2. unfold Rsqr. rewrite <- sumn_square. reflexivity.
Qed.
Lemma average_variance_psd : forall l u X p M v, rep p p M (average_variance l u X p) ->
  quad_form p M v = sum_of (map (fun a => fraction l a * sumn p (fun b => (sumn p (fun i => (within l X a b i - delta b i) * nth i v 0)) ^ 2)) u).
Proof.
  intros l u X p M v HM. rewrite (quad_form_sumn p M _ v HM).
  set (d := fun a i j => within l X a i j - delta i j).
  transitivity (sumn p (fun i => sumn p (fun j => sum_of (map (fun a => fraction l a * (nth i v 0 * sumn p (fun b => d a i b * d a b j) * nth j v 0)) u)))).
  - apply sumn_ext. intros i _. apply sumn_ext. intros j _. unfold average_variance.
    rewrite <- sum_of_map_scal, Rmult_comm, <- sum_of_map_scal. apply sum_of_map_ext. intros a _. change sum_to with sumn. unfold d. ring.
  - transitivity (sumn p (fun i => sum_of (map (fun a => sumn p (fun j => fraction l a * (nth i v 0 * sumn p (fun b => d a i b * d a b j) * nth j v 0))) u))).
    + apply sumn_ext. intros i _. apply (sumn_sum_of p (fun j a => _)).
    + rewrite (sumn_sum_of p (fun i a => _)). apply sum_of_map_ext. intros a _.
      rewrite (sumn_ext p _ (fun i => fraction l a * sumn p (fun j => nth i v 0 * sumn p (fun b => d a i b * d a b j) * nth j v 0))) by (intros; apply sumn_scal).
      rewrite sumn_scal. f_equal. apply (square_psd p (d a) (fun i => nth i v 0)). intros i j. unfold d, delta. rewrite within_sym, Nat.eqb_sym. reflexivity.
Qed.

(** ** PHD *)
Lemma rep_phd : forall n p (X : list (list R)) y, (0 < n)%nat -> wf n p X -> length y = n -> rep p p (phd_kernel X y) (response_weighted X y).
Proof.
  intros n p X y Hn W Hy. unfold phd_kernel. rewrite (wf_length _ _ _ W).
  set (yx := map2 _ X (centred y)).
  assert (Lc : length (centred y) = n) by (unfold centred; rewrite map_length; auto).
  assert (RY : rep n p yx (fun i j => mget X i j * (nth i y 0 - mean_of y))).
  { split.
    - split; [unfold yx; rewrite map2_length, (wf_length _ _ _ W); lia|]. apply Forall_forall. intros r Hr.
      apply (In_nth _ _ []) in Hr as [i [Hi <-]]. unfold yx in *. rewrite map2_length, (wf_length _ _ _ W) in Hi.
      rewrite (nth_map2 _ _ _ _ [] 0) by (rewrite ?(wf_length _ _ _ W); lia). rewrite map_length. apply (wf_nth_row n p); auto. lia.
    - intros i j Hi Hj. unfold mget, yx. rewrite (nth_map2 _ _ _ _ [] 0) by (rewrite ?(wf_length _ _ _ W); lia).
      rewrite (nth_map_lt _ _ _ n0) by (rewrite (wf_nth_row n p); auto). rnum. f_equal.
      unfold centred. rewrite (nth_map_lt _ _ _ 0) by lia. rewrite mean_of_vmean. reflexivity. }
  eapply rep_ext; [apply (rep_map_rows p p _ (fun v => v / nnat n)); exact (rep_matmul p n p _ _ _ _ Hn (rep_transpose n p yx _ Hn RY) (rep_self n p X W))|].
  intros i j Hi Hj. cbn beta. unfold response_weighted. rewrite nnat_R, (wf_length _ _ _ W). f_equal. change sum_to with sumn. apply sumn_ext. intros r Hr.
  change (cell X r i) with (mget X r i). change (cell X r j) with (mget X r j). ring.
Qed.
Lemma response_weighted_sym : forall X y i j, response_weighted X y i j = response_weighted X y j i.
Proof. intros. unfold response_weighted. f_equal. change sum_to with sumn. apply sumn_ext. intros. ring. Qed.
