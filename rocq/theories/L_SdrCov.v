(** Covariances of linear combinations; the scores are uncorrelated *)

From Coq Require Import String Reals List Arith ZArith Bool Lra Lia.
Import List. Import ListNotations.
From Verif Require Import Num Err Vec VecR S_Stats S_Regress L_Mat L_Lin L_Matmul L_Stats M_Utils M_Preproc M_Robcent L_Scaling M_Dicomo M_Ipopt M_SdrUtils M_Sudire S_Sudire
  L_SdrMat L_SdrKer L_SdrEig L_SdrPow L_SdrMeth L_SdrFit L_SdrFit2 L_SdrFit3.
Open Scope R_scope.

Definition mf (n : nat) (x : nat -> R) : R := sumn n x / INR n.
Definition covf (n : nat) (x y : nat -> R) : R := sumn n (fun r => (x r - mf n x) * (y r - mf n y)) / (INR n - 1).

Lemma mf_ext : forall n x x', (forall r, (r < n)%nat -> x r = x' r) -> mf n x = mf n x'.
Proof. intros. unfold mf. f_equal. apply sumn_ext. auto. Qed.
Lemma covf_ext : forall n x x' y y', (forall r, (r < n)%nat -> x r = x' r) -> (forall r, (r < n)%nat -> y r = y' r) -> covf n x y = covf n x' y'.
Proof. intros n x x' y y' Hx Hy. unfold covf. f_equal. apply sumn_ext. intros r Hr. rewrite (mf_ext n x x'), (mf_ext n y y'), Hx, Hy by auto. reflexivity. Qed.
Lemma covf_sym : forall n x y, covf n x y = covf n y x.
Proof. intros. unfold covf. f_equal. apply sumn_ext. intros. ring. Qed.
Lemma mf_shift : forall n x c, (0 < n)%nat -> mf n (fun r => x r - c) = mf n x - c.
Proof. intros n x c Hn. unfold mf. rewrite sumn_minus, sumn_const. field. apply not_0_INR. lia. Qed.
Lemma covf_shift : forall n x y c d, (0 < n)%nat -> covf n (fun r => x r - c) (fun r => y r - d) = covf n x y.
Proof. intros n x y c d Hn. unfold covf. f_equal. apply sumn_ext. intros r Hr. rewrite !mf_shift by auto. ring. Qed.
Lemma mf_comb : forall n p (c : nat -> R) (x : nat -> nat -> R), mf n (fun r => sumn p (fun a => x r a * c a)) = sumn p (fun a => mf n (fun r => x r a) * c a).
Proof.
  intros. unfold mf. rewrite sumn_exchange. unfold Rdiv. rewrite <- sumn_scal_r. apply sumn_ext. intros a Ha. rewrite sumn_scal_r. ring.
Qed.
Lemma covf_comb_l : forall n p (c : nat -> R) (x : nat -> nat -> R) y, covf n (fun r => sumn p (fun a => x r a * c a)) y = sumn p (fun a => c a * covf n (fun r => x r a) y).
Proof.
  intros. unfold covf. rewrite mf_comb.
  rewrite (sumn_ext n _ (fun r => sumn p (fun a => c a * ((x r a - mf n (fun r => x r a)) * (y r - mf n y))))).
  2: { intros r Hr. rewrite <- sumn_minus, <- sumn_scal_r. apply sumn_ext. intros; ring. }
  rewrite sumn_exchange. unfold Rdiv. rewrite <- sumn_scal_r. apply sumn_ext. intros a Ha. rewrite sumn_scal. ring.
Qed.
Lemma covf_comb : forall n p (c d : nat -> R) (x : nat -> nat -> R),
  covf n (fun r => sumn p (fun a => x r a * c a)) (fun r => sumn p (fun a => x r a * d a)) = sumn p (fun a => sumn p (fun b => c a * covf n (fun r => x r a) (fun r => x r b) * d b)).
Proof.
  intros. rewrite covf_comb_l. apply sumn_ext. intros a Ha. rewrite covf_sym, covf_comb_l, <- sumn_scal. apply sumn_ext. intros b Hb. rewrite covf_sym. ring.
Qed.

Lemma mean_column : forall n p X j, wf n p X -> mean_of (column j X) = mf n (fun r => mget X r j).
Proof.
  intros n p X j W. unfold mean_of, mf. assert (L : length (column j X) = n) by (unfold column; rewrite map_length; apply (wf_length _ _ _ W)).
  rewrite L. f_equal. rewrite sum_of_vsum. rewrite vsum_sumn, L. apply sumn_ext. intros r Hr. apply nth_column.
Qed.
Lemma cov_columns : forall n p X i j, wf n p X -> cov_of (column i X) (column j X) = covf n (fun r => mget X r i) (fun r => mget X r j).
Proof.
  intros n p X i j W. unfold cov_of, covf. assert (L : forall j, length (column j X) = n) by (intros; unfold column; rewrite map_length; apply (wf_length _ _ _ W)).
  rewrite L. f_equal. rewrite !(mean_column n p) by auto.
  generalize (mf n (fun r => mget X r i)) (mf n (fun r => mget X r j)). intros a b.
  rewrite sum_of_vsum, vsum_sumn, map_length, combine_length, !L, Nat.min_id. apply sumn_ext. intros r Hr.
  rewrite (nth_map_lt _ _ _ (0, 0)) by (rewrite combine_length, !L; lia). rewrite combine_nth by (rewrite !L; auto). cbn [fst snd]. rewrite !nth_column. reflexivity.
Qed.

(** translating and mixing the columns *)
Lemma cov_mix : forall n p k X Z (mu : nat -> R) (s : nat -> nat -> R), wf n p X -> wf n k Z -> (0 < n)%nat ->
  (forall r j, (r < n)%nat -> (j < k)%nat -> mget Z r j = sumn p (fun a => (mget X r a - mu a) * s a j)) ->
  forall i j, (i < k)%nat -> (j < k)%nat ->
  cov_of (column i Z) (column j Z) = sumn p (fun a => sumn p (fun b => s a i * cov_of (column a X) (column b X) * s b j)).
Proof.
  intros n p k X Z mu s WX WZ Hn HZ i j Hi Hj. rewrite (cov_columns n k) by auto.
  rewrite (covf_ext n _ (fun r => sumn p (fun a => (mget X r a - mu a) * s a i)) _ (fun r => sumn p (fun a => (mget X r a - mu a) * s a j))) by (intros; apply HZ; auto).
  rewrite covf_comb. apply sumn_ext. intros a Ha. apply sumn_ext. intros b Hb. rewrite covf_shift, <- (cov_columns n p) by auto. reflexivity.
Qed.

(** ** the prepared data *)
Lemma prepare_entries : forall (env : sd_env R) prm X n p pd, wf n p X -> (2 <= n)%nat -> (0 < p)%nat -> sd_prepare env prm X = Ok pd ->
  sp_whiten prm = false -> pd_V pd = None -> (sp_center prm = CMean \/ sp_center prm = CMedian) ->
  se_isqrt env (npcov X) = Ok (pd_N2 pd) /\ (2 <= p)%nat /\ exists mu : nat -> R,
    (sp_scale_data prm = false -> forall r j, (r < n)%nat -> (j < p)%nat -> mget (pd_Xs pd) r j = mget X r j - mu j) /\
    (sp_scale_data prm = true -> sp_center prm = CMean -> wf p p (pd_N2 pd) -> forall r j, (r < n)%nat -> (j < p)%nat ->
       mget (pd_Xs pd) r j = sumn p (fun a => (mget X r a - mu a) * mget (pd_N2 pd) a j)) /\
    (sp_scale_data prm = true -> sp_center prm = CMedian -> exists v, (forall r j, (r < n)%nat -> (j < p)%nat -> mget (pd_Xs pd) r j = (mget X r j - mu j) * v j) /\ mu = (fun j => nth j (pd_loc pd) 0)).
Proof.
  intros env prm X n p pd W Hn Hp E HW HV HC. unfold sd_prepare in E. cbv zeta in E. rewrite (wf_ncols n p X W) in E by lia. rewrite (wf_length _ _ _ W) in E.
  destruct (p =? 1)%nat eqn:E1; [discriminate|]. apply Nat.eqb_neq in E1.
  destruct (se_isqrt env (npcov X)) as [N2|] eqn:EN; [|discriminate]. cbn [bind] in E.
  match type of E with bind ?c _ = _ => destruct c as [[[Xc pc] dims]|] eqn:EC; [|discriminate] end. cbn [bind] in E.
  assert (HCX : dims = None -> Xc = X).
  { destruct ((n <? p)%nat && sp_compress prm).
    - destruct (se_svd env (transpose X)) as [[[V sv] U]|]; [|discriminate]. cbn [bind] in EC. cbv zeta in EC.
      destruct (existsb _ _); apply Ok_inj in EC; injection EC as <- <- <-; [auto|discriminate].
    - apply Ok_inj in EC. injection EC as <- <- <-. auto. }
  clear EC.
  match type of E with bind ?c _ = _ => destruct c as [[[[X1 m1] s1] o1]|] eqn:EC; [|discriminate] end. cbn [bind] in E.
  match type of E with bind ?c _ = _ => destruct c as [[[[X2 m2] s2] o2]|] eqn:ES; [|discriminate] end. cbn [bind] in E.
  rewrite HW in E. cbn [bind] in E. apply Ok_inj in E. subst pd. cbn [pd_N2 pd_V pd_Xs pd_loc] in *. specialize (HCX HV). subst Xc dims.
  split; [auto|]. split; [lia|].
  assert (Sc : forall s m v Z, sd_scaled env CMedian s (sp_trim prm) X = Ok (m, v, Z) -> (s = SNone \/ s = SMad) -> length m = p /\ length v = p /\
     forall r j, (r < n)%nat -> (j < p)%nat -> mget Z r j = (mget X r j - nth j m 0) / (if Req_EM_T (nth j v 0) 0 then 1 else nth j v 0)).
  { intros s m v Z EZ Hs. apply sd_scaled_inv in EZ as [EZ [El Es]]. rewrite (check_input_id n p) in * by (auto; lia).
    cbn [location] in El. apply Ok_inj in El. assert (Lm : length m = p) by (rewrite <- El, median_length; apply (wf_ncols n p); auto; lia).
    assert (Lv : length v = p).
    { destruct Hs as [->| ->]; cbn [scale_est] in Es; apply Ok_inj in Es; rewrite <- Es.
      - rewrite repeat_length. apply (wf_ncols n p); auto; lia.
      - unfold mad, mad_with. rewrite map_length, median_length. apply (wf_ncols n p); [|lia]. apply wf_mapmap, wf_map2_rows; auto. rewrite median_length. apply (wf_ncols n p); auto; lia. }
    destruct (scale_data_cells n p X m v W ltac:(lia) ltac:(lia) Lm Lv) as [Z' [EZ' [_ HZ]]]. rewrite EZ in EZ'. apply Ok_inj in EZ'. subst Z'. auto. }
  assert (H1 : exists mu : nat -> R, wf n p X1 /\ forall r j, (r < n)%nat -> (j < p)%nat -> mget X1 r j = mget X r j - mu j).
  { destruct (sp_center_data prm).
    - destruct HC as [HC|HC]; rewrite HC in EC; cbn [sd_is_mean] in EC.
      + destruct (mapM (trim_mean1 (sp_trim prm)) (cols X)) as [mm|] eqn:Em; [|discriminate]. cbn [bind] in EC. apply Ok_inj in EC. injection EC as <- _ _ _.
        assert (Lm : length mm = p) by (apply mapM_length in Em; rewrite Em, cols_length; apply (wf_ncols n); auto; lia).
        exists (fun j => nth j mm 0). split; [apply wf_vsub_rows; auto|]. intros r j Hr Hj. unfold mget. rewrite (nth_map_lt _ _ _ []) by (rewrite (wf_length _ _ _ W); auto).
        rewrite nth_vsub by (rewrite (wf_nth_row n p); auto). reflexivity.
      + destruct (sd_scaled env CMedian SNone (sp_trim prm) X) as [[[a b] Z]|] eqn:EZ; [|discriminate]. cbn [bind] in EC. apply Ok_inj in EC. injection EC as <- _ _ _.
        pose proof (sd_scaled_wf env _ _ _ X _ _ Z n p W Hn Hp EZ) as WZ.
        pose proof EZ as EZ'. apply Sc in EZ as [La [Lb HZ]]; [|auto]. exists (fun j => nth j a 0). split; [exact WZ|]. intros r j Hr Hj. rewrite HZ by auto.
        apply sd_scaled_inv in EZ' as [_ [_ Es]]. cbn [scale_est] in Es. apply Ok_inj in Es. rewrite (check_input_id n p), (wf_ncols n p X W) in Es by (auto; lia). subst b. 
        replace (nth j (repeat (@n1 R Num_R) p) 0) with (@n1 R Num_R); [|symmetry; rewrite (nth_indep _ 0 (@n1 R Num_R)) by (rewrite repeat_length; auto); apply nth_repeat]. rnum. destruct (Req_EM_T 1 0); [lra|field].
    - apply Ok_inj in EC. injection EC as <- _ _ _. exists (fun _ => 0). split; [auto|]. intros. ring. }
  destruct H1 as [mu [W1 H1]].
  destruct (sp_scale_data prm).
  - destruct HC as [HC|HC]; rewrite HC in ES.
    + exists mu. split; [discriminate|]. split; [|congruence]. intros _ _ WN r j Hr Hj. destruct (npmatmul X1 N2) as [Z|] eqn:EZ; [|discriminate]. cbn [bind] in ES. apply Ok_inj in ES. injection ES as <- _ _ _.
      pose proof (npmatmul_ok n p p _ _ _ _ Z ltac:(lia) Hp (rep_self _ _ _ W1) (rep_self _ _ _ WN) EZ) as [_ HZ]. rewrite HZ by auto.
      apply sumn_ext. intros a Ha. rewrite H1 by auto. reflexivity.
    + destruct (sd_scaled env CMedian SMad (sp_trim prm) X) as [[[a b] Z]|] eqn:EZ; [|discriminate]. cbn [bind] in ES. apply Ok_inj in ES. injection ES as <- <- _ _.
      apply Sc in EZ as [La [Lb HZ]]; [|auto]. exists (fun j => nth j a 0). split; [discriminate|]. split; [congruence|]. intros _ _.
      exists (fun j => / (if Req_EM_T (nth j b 0) 0 then 1 else nth j b 0)). split; [|reflexivity]. intros r j Hr Hj. rewrite HZ by auto. reflexivity.
  - exists mu. split; [|split; discriminate]. intros _. apply Ok_inj in ES. injection ES as <- _ _ _. auto.
Qed.

Lemma scores_cov : forall n p h X P T i j, wf n p X -> (0 < n)%nat -> (0 < p)%nat -> wf p h P -> npmatmul X P = Ok T -> (i < h)%nat -> (j < h)%nat ->
  cov_of (column i T) (column j T) = sumn p (fun a => sumn p (fun b => mget P a i * cov_of (column a X) (column b X) * mget P b j)).
Proof.
  intros n p h X P T i j WX Hn Hp WP E Hi Hj.
  pose proof (npmatmul_ok n p h _ _ _ _ T Hn Hp (rep_self _ _ _ WX) (rep_self _ _ _ WP) E) as [WT HT].
  apply (cov_mix n p h X T (fun _ => 0) (fun a j => mget P a j) WX WT Hn); auto. intros r c Hr Hc. rewrite HT by auto. apply sumn_ext. intros. ring.
Qed.

(** (N V)' C (N V) = V' (N C N) V *)
Lemma sandwich : forall p h (N c s V : nat -> nat -> R), (forall i j, (i < p)%nat -> (j < p)%nat -> N i j = N j i) ->
  (forall i j, (i < p)%nat -> (j < p)%nat -> sumn p (fun a => sumn p (fun b => N i a * c a b * N b j)) = s i j) ->
  forall i j, (i < h)%nat -> (j < h)%nat ->
  sumn p (fun a => sumn p (fun b => sumn p (fun k => N a k * V k i) * c a b * sumn p (fun l => N b l * V l j))) = sumn p (fun k => sumn p (fun l => V k i * s k l * V l j)).
Proof.
  intros p h N c s V HN Hs i j Hi Hj.
  transitivity (sumn p (fun a => sumn p (fun b => sumn p (fun k => sumn p (fun l => V k i * (N k a * c a b * N b l) * V l j))))).
  { apply sumn_ext. intros a Ha. apply sumn_ext. intros b Hb. rewrite Rmult_assoc, <- sumn_scal_r. apply sumn_ext. intros k Hk. rewrite <- sumn_scal, <- sumn_scal.
    apply sumn_ext. intros l Hl. rewrite (HN a k) by auto. ring. }
  rewrite (sumn_ext p _ (fun a => sumn p (fun k => sumn p (fun b => sumn p (fun l => V k i * (N k a * c a b * N b l) * V l j))))) by (intros; apply sumn_exchange).
  rewrite sumn_exchange. apply sumn_ext. intros k Hk.
  rewrite (sumn_ext p _ (fun a => sumn p (fun l => sumn p (fun b => V k i * (N k a * c a b * N b l) * V l j)))) by (intros; apply sumn_exchange).
  rewrite sumn_exchange. apply sumn_ext. intros l Hl. rewrite <- (Hs k l) by auto. rewrite <- sumn_scal, <- sumn_scal_r. apply sumn_ext. intros a Ha.
  rewrite <- sumn_scal, <- sumn_scal_r. apply sumn_ext. intros b Hb. ring.
Qed.
Lemma sum_delta2 : forall p (u v : nat -> R), sumn p (fun k => sumn p (fun l => u k * delta k l * v l)) = sumn p (fun k => u k * v k).
Proof.
  intros. apply sumn_ext. intros k Hk. rewrite (sumn_ext p _ (fun l => delta k l * (u k * v l))) by (intros; ring). apply (sumn_delta_l p k (fun l => u k * v l)). auto.
Qed.

Section Orth.
  Variables (env : sd_env R) (st st' : sstate R) (X : list (list R)) (y : arr R) (metric : list R -> list R -> R) (bias : bool) (m : smodel R) (n p : nat).
  Hypothesis HS : svd_shapes (se_svd env).
  Hypothesis HI : isqrt_ok (se_isqrt env).
  Hypothesis He : eigh_ok (se_eigh env).
  Hypothesis W : wf n p X.
  Hypothesis Hn : (2 <= n)%nat.
  Hypothesis Hp : (0 < p)%nat.
  Hypothesis Hc : sp_copy (ss_prm st) = true.
  Hypothesis HW : sp_whiten (ss_prm st) = false.
  Hypothesis HC : sp_center (ss_prm st) = CMean \/ sp_center (ss_prm st) = CMedian.
  Hypothesis E : sd_fit env st X y metric bias = (st', Ok m).
  Let prm := ss_prm st.
  Let h := sp_ncomp prm.

  Lemma no_whitening : sd_whitening prm = prm.
  Proof. unfold sd_whitening, prm. rewrite HW. reflexivity. Qed.

  (** everything that is known about the fit *)
  Lemma fit_all : exists pd ys P, sd_prepare env prm X = Ok pd /\ sd_response n y = Ok ys /\ pd_V pd = None /\ wf n p (pd_Xs pd) /\ wf p p (pd_N2 pd) /\ symmetric p (pd_N2 pd) /\
    (forall i j, (i < p)%nat -> (j < p)%nat -> sumn p (fun a => sumn p (fun b => mget (pd_N2 pd) i a * cov_of (column a X) (column b X) * mget (pd_N2 pd) b j)) = delta i j) /\
    wf p h P /\ sm_P m = P /\ npmatmul X P = Ok (sm_T m) /\
    ((exists P0, sd_direct env prm (pd_Xs pd) ys = Some (Ok P0) /\ n2_times (sp_scale_data prm) (pd_N2 pd) P0 = Ok P) \/
     (sd_direct env prm (pd_Xs pd) ys = None /\
      sd_optimise env (mk_ss prm (Some X) (ss_start st) (ss_cons st) (ss_args st) (ss_dict st)) (pd_Xs pd) ys (pd_N2 pd) metric bias = (st', Ok P))).
  Proof.
    assert (HQ : forall N, se_isqrt env (npcov X) = Ok N -> wf p p N /\ symmetric p N /\
      (forall i j, (i < p)%nat -> (j < p)%nat -> sumn p (fun a => sumn p (fun b => mget N i a * cov_of (column a X) (column b X) * mget N b j)) = delta i j)).
    { intros N EN. destruct (HI p _ _ Hp (proj1 (rep_cov n p X ltac:(lia) W)) ltac:(intros i j Hi Hj; rewrite !cell_mget, !(proj2 (rep_cov n p X ltac:(lia) W)) by auto; apply cov_sym) EN) as [H1 [H2 H3]].
      split; [exact H1|]. split; [exact H2|]. intros i j Hi Hj. rewrite <- (H3 i j Hi Hj). change sum_to with sumn. change cell with (mget (A := R)).
      apply sumn_ext. intros a Ha. apply sumn_ext. intros b Hb. rewrite (proj2 (rep_cov n p X ltac:(lia) W)) by auto. reflexivity. }
    pose proof (fit_basis env st st' X y metric bias m n p He ltac:(intros N EN; apply (HQ N EN)) HS W Hn Hp Hc E) as F. fold prm in F. rewrite no_whitening in F.
    destruct F as [pd [ys [P [EP [EY [EV [WP [Hh [WX [WN [HP EF]]]]]]]]]]].
    assert (EN : se_isqrt env (npcov X) = Ok (pd_N2 pd)).
    { clear - EP. unfold sd_prepare in EP. cbv zeta in EP. destruct (ncols X =? 1)%nat; [discriminate|]. destruct (se_isqrt env (npcov X)) as [N2|]; [|discriminate]. cbn [bind] in EP.
      match type of EP with bind ?c _ = _ => destruct c as [[[Xc pc] dims]|]; [|discriminate] end. cbn [bind] in EP.
      match type of EP with bind ?c _ = _ => destruct c as [[[[X1 m1] s1] o1]|]; [|discriminate] end. cbn [bind] in EP.
      match type of EP with bind ?c _ = _ => destruct c as [[[[X2 m2] s2] o2]|]; [|discriminate] end. cbn [bind] in EP.
      match type of EP with bind ?c _ = _ => destruct c as [[X3 K]|]; [|discriminate] end. cbn [bind] in EP.
      apply Ok_inj in EP. subst pd. reflexivity. }
    destruct (HQ _ EN) as [_ [SN HN]].
    destruct (finish_inv _ _ _ _ _ _ _ EF) as [X' [EX [ET [_ [_ [_ [EPN _]]]]]]]. injection EX as <-.
    exists pd, ys, P. split; [auto|]. split; [auto|]. split; [auto|]. split; [apply WX; auto|]. split; [auto|]. split; [auto|]. split; [auto|]. split; [auto|]. split; [auto|]. split; [auto|].
    exact HP.
  Qed.

  (** scale_data: B orthonormal gives P = N2 B with P'CP = I *)
  Lemma scaled_orth : forall N2 B P, wf p p N2 -> symmetric p N2 ->
    (forall i j, (i < p)%nat -> (j < p)%nat -> sumn p (fun a => sumn p (fun b => mget N2 i a * cov_of (column a X) (column b X) * mget N2 b j)) = delta i j) ->
    wf p h B -> orthonormal_columns p h B -> npmatmul N2 B = Ok P -> sigma_orthonormal p h X P.
  Proof.
    intros N2 B P WN SN HN WB OB EP i j Hi Hj.
    pose proof (npmatmul_ok p p h _ _ _ _ P Hp Hp (rep_self _ _ _ WN) (rep_self _ _ _ WB) EP) as [_ HP]. change sum_to with sumn. change cell with (mget (A := R)).
    rewrite <- (OB i j Hi Hj). change sum_to with sumn. change cell with (mget (A := R)). rewrite <- sum_delta2.
    assert (SN' : forall a b, (a < p)%nat -> (b < p)%nat -> mget (A := R) N2 a b = mget N2 b a) by exact SN.
    rewrite <- (sandwich p h (mget (A := R) N2) (fun a b => cov_of (column a X) (column b X)) delta (mget (A := R) B) SN' HN i j Hi Hj).
    apply sumn_ext. intros a Ha. apply sumn_ext. intros b Hb. rewrite !HP by auto. reflexivity.
  Qed.
  Lemma orth_scores : sigma_orthonormal p h X (sm_P m) -> uncorrelated_unit h (sm_T m).
  Proof.
    intros HO i j Hi Hj. destruct fit_all as [pd [ys [P [_ [_ [_ [_ [_ [_ [_ [WP [EP [ET _]]]]]]]]]]]]]. rewrite (scores_cov n p h X P) by (auto; lia).
    rewrite EP in HO. apply HO; auto.
  Qed.

  (** the methods without optimisation *)
  Lemma direct_scaled : sp_center prm = CMean -> sp_scale_data prm = true -> (forall f, sp_meth prm <> MUser f) -> sp_meth prm <> MDcov -> sp_meth prm <> MBcov -> sp_meth prm <> MMdd ->
    sigma_orthonormal p h X (sm_P m).
  Proof.
    intros HCM HSc M1 M2 M3 M4. destruct fit_all as [pd [ys [P [EPr [EY [EV [WX [WN [SN [HN [WP [EP [ET HP]]]]]]]]]]]]].
    destruct HP as [[P0 [ED EN]]|[ED _]]; [|exfalso; unfold sd_direct in ED; cbv zeta in ED; destruct (sp_meth prm) eqn:EM; try discriminate; try congruence; apply (M1 _ eq_refl)].
    rewrite HSc in EN. cbn [n2_times] in EN. rewrite EP. destruct (response_inv _ _ _ EY) as [Ly _].
    destruct (direct_ok env prm n p _ ys P0 He ltac:(lia) Hp WX Ly ED) as [K [_ [S [Z [V [WS [SS [HSt [_ [HV [WB HB]]]]]]]]]]].
    assert (Hh : Nat.min (sp_ncomp prm) p = h).
    { assert (L : length P0 = p) by (apply (npmatmul_dim p p (pd_N2 pd) P0 P Hp WN EN)).
      assert (WP' : wf p (Nat.min (sp_ncomp prm) p) P) by (apply (npmatmul_ok p p _ _ _ _ _ P Hp Hp (rep_self _ _ _ WN) (rep_self _ _ _ WB) EN)).
      rewrite <- (wf_ncols p _ P WP' Hp). apply (wf_ncols p); auto. }
    rewrite Hh in *.
    destruct (prepare_entries env prm X n p pd W Hn Hp EPr HW EV HC) as [_ [Hp2 [mu [_ [HE _]]]]]. specialize (HE HSc HCM WN).
    assert (CovI : forall i j, (i < p)%nat -> (j < p)%nat -> cov_of (column i (pd_Xs pd)) (column j (pd_Xs pd)) = delta i j).
    { intros i j Hi Hj. rewrite (cov_mix n p p X (pd_Xs pd) mu (mget (pd_N2 pd)) W WX ltac:(lia) HE) by auto. rewrite <- (HN i j) by auto.
      apply sumn_ext. intros a Ha. apply sumn_ext. intros b Hb. f_equal. f_equal. apply (SN a i Ha Hi). }
    assert (PD : positive_definite p (covariance_matrix p (pd_Xs pd))).
    { intros v Lv Hv. unfold covariance_matrix. rewrite quad_matrix_of.
      rewrite (sumn_ext p _ (fun i => sumn p (fun j => nth i v 0 * delta i j * nth j v 0))) by (intros; apply sumn_ext; intros; rewrite CovI by auto; reflexivity).
      rewrite sum_delta2. rewrite (sqlen_sumn p) in Hv by auto. rewrite (sumn_ext p _ (fun a => nth a v 0 ^ 2)) by (intros; ring).
      assert (0 <= sumn p (fun a => nth a v 0 ^ 2)) by (apply sumn_nonneg; intros; rewrite <- Rsqr_pow2; apply Rle_0_sqr). lra. }
    destruct (HSt PD) as [_ [_ HSS]].
    apply (scaled_orth (pd_N2 pd) P0 P); auto.
    intros i j Hi Hj. change sum_to with sumn. rewrite <- sum_delta2.
    destruct HV as [WV [OV _]].
    transitivity (sumn p (fun k => mget V k i * mget V k j)); [|apply (OV i j Hi Hj)]. rewrite <- sum_delta2.
    rewrite <- (sandwich p h (mget S) delta delta (mget V)); auto.
    - apply sumn_ext. intros a Ha. apply sumn_ext. intros b Hb. rewrite !HB by auto. rewrite HSc. reflexivity.
    - intros k l Hk Hl. rewrite <- (HSS k l Hk Hl). change sum_to with sumn. change cell with (mget (A := R)). apply sumn_ext. intros a Ha. apply sumn_ext. intros b Hb.
      f_equal. f_equal. symmetry. transitivity (cov_of (column a (pd_Xs pd)) (column b (pd_Xs pd))); [|apply CovI; auto].
      apply (proj2 (rep_table p p (fun i j => cov_of (column i (pd_Xs pd)) (column j (pd_Xs pd))))); auto.
  Qed.
  Lemma direct_unscaled : sp_scale_data prm = false -> (forall f, sp_meth prm <> MUser f) -> sp_meth prm <> MDcov -> sp_meth prm <> MBcov -> sp_meth prm <> MMdd ->
    orthonormal_columns p h (sm_P m).
  Proof.
    intros HSc M1 M2 M3 M4. destruct fit_all as [pd [ys [P [EPr [EY [EV [WX [WN [SN [HN [WP [EP [ET HP]]]]]]]]]]]]].
    destruct HP as [[P0 [ED EN]]|[ED _]]; [|exfalso; unfold sd_direct in ED; cbv zeta in ED; destruct (sp_meth prm) eqn:EM; try discriminate; try congruence; apply (M1 _ eq_refl)].
    rewrite HSc in EN. cbn [n2_times] in EN. apply Ok_inj in EN. subst P0. rewrite EP. destruct (response_inv _ _ _ EY) as [Ly _].
    destruct (direct_ok env prm n p _ ys P He ltac:(lia) Hp WX Ly ED) as [K [_ [S [Z [V [WS [SS [HSt [_ [HV [WB HB]]]]]]]]]]].
    assert (Hh : Nat.min (sp_ncomp prm) p = h) by (rewrite <- (wf_ncols p _ P WB Hp); apply (wf_ncols p); auto).
    rewrite Hh in *. rewrite HSc in HB. destruct HV as [_ [OV _]]. intros i j Hi Hj. rewrite <- (OV i j Hi Hj). change sum_to with sumn. apply sumn_ext. intros a Ha. rewrite !HB by auto. reflexivity.
  Qed.
  (** the methods with optimisation *)
  Lemma optimised_orth : feasible (se_ipopt env) -> ss_cons st = None -> (sp_meth prm = MDcov \/ sp_meth prm = MMdd \/ exists f, sp_meth prm = MUser f) -> sigma_orthonormal p h X (sm_P m).
  Proof.
    intros HF HCo HM. destruct fit_all as [pd [ys [P [EPr [EY [EV [WX [WN [SN [HN [WP [EP [ET HP]]]]]]]]]]]]].
    destruct HP as [[P0 [ED _]]|[_ EO]]; [exfalso; unfold sd_direct in ED; cbv zeta in ED; destruct HM as [HM|[HM|[f HM]]]; rewrite HM in ED; discriminate|].
    apply optimise_ok in EO as (d & f & x0 & x & B & EI & EB & EN). cbn [ss_prm ss_cons] in *. rewrite HCo in EI. fold h in EI, EB.
    pose proof (HF _ _ _ _ _ EI) as HFx.
    destruct (unvec_wf _ _ _ EB) as [Hh [Lx WB]].
    assert (LB : length B = p).
    { destruct (n2_times_wf _ _ _ _ p h Hp WN WB EN) as [_ LP]. rewrite <- LP. apply (npmatmul_dim n p X P _ ltac:(lia) W ET). }
    rewrite LB in WB. assert (Ex : flatF B = x) by (apply (flatF_unvec h); auto; intros ->; cbn in Lx; lia).
    destruct (constraints_list (sp_scale_data prm) (pd_Xs pd) h) as [_ HCl].
    assert (HE : forall i j, (i < h)%nat -> (j < h)%nat -> (if sp_scale_data prm then const_zscale (flatF B) (pd_Xs pd) h i j else const_xscale (flatF B) (pd_Xs pd) h i j) = Ok 0).
    { intros i j Hi Hj. rewrite Ex. apply (HFx (fun b => if sp_scale_data prm then const_zscale b (pd_Xs pd) h i j else const_xscale b (pd_Xs pd) h i j)).
      apply (nth_error_In _ (i * h + j)). apply HCl; auto. }
    destruct (prepare_entries env prm X n p pd W Hn Hp EPr HW EV HC) as [_ [Hp2 [mu [HU _]]]].
    rewrite EP. destruct (sp_scale_data prm).
    - cbn [n2_times] in EN. apply (scaled_orth (pd_N2 pd) B P); auto. intros i j Hi Hj. specialize (HE i j Hi Hj).
      rewrite (const_zscale_ok n p h) in HE by (auto; lia). apply Ok_inj in HE. change sum_to with sumn. change cell with (mget (A := R)). lra.
    - cbn [n2_times] in EN. apply Ok_inj in EN. subst P. intros i j Hi Hj. specialize (HE i j Hi Hj). specialize (HU eq_refl).
      rewrite (const_xscale_ok n p h) in HE by (auto; lia). apply Ok_inj in HE. change sum_to with sumn. change cell with (mget (A := R)).
      apply Rminus_diag_uniq in HE. rewrite <- HE. apply sumn_ext. intros a Ha. apply sumn_ext. intros b Hb.
      assert (EC : cov_of (column a (pd_Xs pd)) (column b (pd_Xs pd)) = cov_of (column a X) (column b X)).
      { rewrite (cov_columns n p (pd_Xs pd)), (cov_columns n p X) by auto.
        rewrite (covf_ext n _ (fun r => mget X r a - mu a) _ (fun r => mget X r b - mu b)) by (intros; apply HU; auto). apply covf_shift. lia. }
      rewrite EC, EN. reflexivity.
  Qed.
End Orth.
