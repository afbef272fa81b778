(** ppdire with the variance as index: loadings are weights, and the variances add up *)
From Coq Require Import String Reals List Arith ZArith Bool Lia Lra.
Import List. Import ListNotations.
From Verif Require Import Num Err Vec VecR OrdR L_Mat L_Lin L_Matmul L_Deflate L_Stats M_Utils M_Preproc M_Robcent L_Scaling L_Scaling2 M_Dicomo M_Ipopt M_Ppdire M_PpWorld
  S_Stats S_Regress S_Dicomo S_Sudire S_Ppdire S_Ppdire2 S_Decomp S_Pca L_Dicomo L_Snipls2 L_SdrMat L_Pp L_Pp2 L_Pp3 L_Pp4 L_Pp6 L_Pp8 L_Pca L_Pca2 L_Decomp L_Decomp2.
Open Scope R_scope.

Lemma scaled_unique : forall n p X loc sca Z Z', scaled_by n p X loc sca Z -> scaled_by n p X loc sca Z' -> Z = Z'.
Proof.
  intros n p X loc sca Z Z' [W1 H1] [W2 H2]. apply (mat_ext n p); auto. intros i j Hi Hj. destruct (H1 i j Hi Hj) as [A1 B1]. destruct (H2 i j Hi Hj) as [A2 B2].
  change (cell Z i j = cell Z' i j). destruct (Req_EM_T (nth j sca 0) 0) as [E|E]; [rewrite A1, A2 by exact E; reflexivity|rewrite B1, B2 by exact E; reflexivity].
Qed.

Section Pca.
  Variables (n p : nat) (b : bool) (Z : list (list R)).
  Hypothesis Hn : (2 <= n)%nat.
  Hypothesis HZ : is_matrix n p Z.
  Hypothesis H0 : forall j, (j < p)%nat -> sumn n (fun r => cell Z r j) = 0.
  Lemma cov_cells : forall j k, (j < p)%nat -> (k < p)%nat -> sample_cov b n Z j k = bessel b n / INR n * sumn n (fun i => cell Z i j * cell Z i k).
  Proof.
    intros j k Hj Hk. unfold sample_cov. rewrite (covariance_centred n) by (first [rewrite column_len; apply HZ|rewrite (sumn_ext n _ (fun r => cell Z r j)) by (intros; apply column_nth); apply H0; auto|rewrite (sumn_ext n _ (fun r => cell Z r k)) by (intros; apply column_nth); apply H0; auto]).
    unfold ip. rewrite (sumn_ext n _ (fun i => cell Z i j * cell Z i k)) by (intros; rewrite !column_nth; reflexivity).
    assert (0 < INR n) by (apply lt_0_INR; lia). field. lra.
  Qed.
  Lemma total_cells : sum_to p (fun j => sample_cov b n Z j j) = bessel b n / INR n * sum_to n (fun i => sum_to p (fun j => cell Z i j * cell Z i j)).
  Proof.
    rewrite !sum_to_sumn. change (fun i => sum_to p (fun j => cell Z i j * cell Z i j)) with (fun i => sumn p (fun j => cell Z i j * cell Z i j)).
    rewrite (sumn_exchange n p), <- sumn_scal. apply sumn_ext. intros j Hj. apply cov_cells; auto.
  Qed.
  Variables (w : list R) (l : R).
  Hypothesis Hw : length w = p.
  Hypothesis Hu : sqlen w = 1.
  Hypothesis He : eigen_pair p (sample_cov b n Z) w l.
  Let t := map (fun r => inner r w) Z.
  Lemma t_cell : forall i, (i < n)%nat -> nth i t 0 = sumn p (fun k => cell Z i k * nth k w 0).
  Proof. intros i Hi. unfold t. rewrite (scores_nth n p) by auto. reflexivity. Qed.
  Lemma t_col : forall j, (j < p)%nat -> bessel b n / INR n * sumn n (fun i => nth i t 0 * cell Z i j) = l * nth j w 0.
  Proof.
    intros j Hj. rewrite <- (He j Hj). change (sum_to ?a ?b) with (sumn a b). rewrite (sumn_ext n _ (fun i => sumn p (fun k => nth k w 0 * (cell Z i j * cell Z i k)))).
    - rewrite (sumn_exchange n p), <- sumn_scal. apply sumn_ext. intros k Hk. rewrite sumn_scal, cov_cells by auto. ring.
    - intros i Hi. rewrite t_cell by auto. rewrite <- sumn_scal_r. apply sumn_ext. intros; ring.
  Qed.
  Lemma t_sq : bessel b n / INR n * sqlen t = l.
  Proof.
    assert (Lt : length t = n) by (unfold t; rewrite map_length; apply HZ).
    rewrite sqlen_dot, (dot_sumn t t n) by auto.
    rewrite (sumn_ext n _ (fun i => sumn p (fun j => nth j w 0 * (nth i t 0 * cell Z i j)))).
    - rewrite (sumn_exchange n p), <- sumn_scal. rewrite (sumn_ext p _ (fun j => l * (nth j w 0 * nth j w 0))).
      + rewrite sumn_scal, <- (dot_sumn w w p), <- sqlen_dot, Hu by auto. ring.
      + intros j Hj. rewrite sumn_scal. transitivity (nth j w 0 * (bessel b n / INR n * sumn n (fun i => nth i t 0 * cell Z i j))); [ring|]. rewrite t_col by auto. ring.
    - intros i Hi. rewrite (t_cell i Hi) at 2. rewrite <- sumn_scal. apply sumn_ext. intros; ring.
  Qed.
End Pca.

Lemma C178_variance_l : forall (env : pp_env R) prm d X f prm' d' m n p dc s, is_matrix n p X -> (2 <= n)%nat -> direct_fit prm n p -> pp_init prm = Ok prm ->
  pp_optim prm <> OGrid -> exact_optimiser env (pp_optim prm) -> pp_center prm = CMean -> pp_center_data prm = true -> pp_trim prm = 0 ->
  ix_new (pp_idx prm) = Ok (fit_result dc s) -> configured s "arithmetic" "var" "mean" ->
  pp_fit env prm d X f = (prm', d', Ok m) -> (0 < pp_ncomp prm')%nat ->
  (forall i, (i < pp_ncomp prm')%nat -> 0 < nth i (pm_max m) 0) ->
  let h := pp_ncomp prm' in let b := f_bias f in
  exists Z, scaled_by n p X (pm_loc m) (pm_sca m) Z /\ nonzero_cols (pm_T m) h /\ pm_P m = pm_W m /\
    sum_to p (fun j => sample_cov b n Z j j) = sum_to h (fun a => nth a (pm_max m) 0) + bessel b n / INR n * misfit n p h Z (pm_T m) (pm_P m) /\
    (h = p -> sum_to p (fun j => sample_cov b n Z j j) = sum_to h (fun a => nth a (pm_max m) 0)).
Proof.
  intros env prm d X f prm' d' m n p dc s HX Hn Hd Hinit Ho Hopt Hcm Hcd Htr Hix Hcf E Hh Hpos h b.
  destruct (C175_l _ _ _ _ _ _ _ _ _ _ _ _ HX Hn Hd Hinit Ho Hopt Hcm Hcd Htr Hix Hcf E Hh Hpos) as (Z & HS & HP).
  destruct (C148_l _ _ _ _ _ _ _ _ _ _ HX Hn Hd Hinit Htr E Hh) as (_ & _ & Hsc & _).
  pose proof (scaled_centred prm n p X _ _ Z HX ltac:(lia) HS Hcm Hcd Hsc) as HC.
  assert (HZ : is_matrix n p Z) by apply HS. assert (Hn' : 0 < INR n) by (apply lt_0_INR; lia). pose proof (bessel_pos b n Hn) as Hb.
  assert (Hk : 0 < bessel b n / INR n) by (apply Rdiv_lt_0_compat; auto).
  assert (Ht2 : forall i, (i < h)%nat -> bessel b n / INR n * sqlen (column i (pm_T m)) = nth i (pm_max m) 0).
  { intros i Hi. destruct (HP i Hi) as (Lw & Uw & Ew & Et & _). rewrite Et. apply (t_sq n p b Z Hn HZ HC _ _ Lw Uw Ew). }
  assert (Hnz : nonzero_cols (pm_T m) h).
  { intros i Hi Z0. specialize (Ht2 i Hi). specialize (Hpos i Hi). rewrite Z0, Rmult_0_r in Ht2. lra. }
  destruct (decomp_run _ _ _ _ _ _ _ _ _ _ HX Hn Hd Hinit E Hh Hnz) as (Z' & cs & HS' & HZ' & Hl & Hc & HT & HPm & HW).
  rewrite <- (scaled_unique _ _ _ _ _ _ _ HS HS') in *. clear Z' HS'. fold h in Hl.
  assert (Hn0 : (0 < n)%nat) by lia.
  assert (HPW : forall a, (a < length cs)%nat -> g_p (nth a cs pc0) = g_dir (nth a cs pc0)).
  { intros a Ha. destruct (chain_wf n p Hn0 _ Z HZ Hc) as [HF _]. rewrite Forall_forall in HF. destruct (HF (todc (nth a cs pc0)) ltac:(apply in_map, nth_In; exact Ha)) as (L1 & L2 & L3). cbn [todc d_w d_t d_q] in L1, L2, L3.
    assert (Hi : (a < h)%nat) by lia. destruct (HP a Hi) as (Lw & Uw & Ew & Et & _). specialize (Ht2 a Hi). specialize (Hpos a Hi).
    rewrite HW in Ew, Et. rewrite W_col in Ew, Et by auto. rewrite HT, T_col in Et, Ht2 by auto. set (w := g_dir (nth a cs pc0)) in *. set (t := g_t (nth a cs pc0)) in *.
    apply (nth_ext _ _ 0 0); [lia|]. intros j Hj. rewrite L3 in Hj.
    pose proof (t_col n p b Z Hn HZ HC w _ L1 Ew j Hj) as Hj1. rewrite <- Et in Hj1.
    assert (Hq : nth j (g_p (nth a cs pc0)) 0 * dot t t = sumn n (fun i => nth i t 0 * cell Z i j)).
    { pose proof (left_orth n p Z cs Hn0 HZ Hc a j Ha Hj) as HO. change (sum_to ?a ?b) with (sumn a b) in HO.
      rewrite (sumn_ext n _ (fun i => nth i t 0 * cell Z i j - sumn (length cs) (fun c => nth j (g_p (nth c cs pc0)) 0 * (nth i t 0 * nth i (g_t (nth c cs pc0)) 0)))) in HO.
      - rewrite sumn_minus, (sumn_exchange n (length cs)) in HO. rewrite (sumn_ext (length cs) _ (fun c => if (c =? a)%nat then nth j (g_p (nth c cs pc0)) 0 * dot t t else 0)) in HO.
        + rewrite sumn_delta in HO by exact Ha. lra.
        + intros c Hcl. rewrite sumn_scal. destruct (HF (todc (nth c cs pc0)) ltac:(apply in_map, nth_In; exact Hcl)) as (_ & L2c & _). cbn [todc d_t] in L2c.
          rewrite <- (dot_sumn t (g_t (nth c cs pc0)) n) by auto. destruct (Nat.eqb_spec c a) as [->|Hne]; [reflexivity|].
          pose proof (scores_orth n p Hn0 (map todc cs) Z a c HZ Hc) as HOr. rewrite map_length, !nth_todc in HOr. specialize (HOr Ha Hcl ltac:(lia)). cbn [todc d_t] in HOr. fold t in HOr. rewrite HOr. ring.
      - intros i Hi'. rewrite (cell_of_cols _ _ _ pc0) by auto. fold t. unfold product. change (sum_to ?a ?b) with (sumn a b). rewrite Rmult_minus_distr_l. f_equal. rewrite <- sumn_scal. apply sumn_ext. intros c Hcl.
        rewrite !(cell_of_cols _ _ _ pc0) by auto. ring. }
    rewrite sqlen_dot in Ht2. rewrite <- Hq in Hj1. rewrite <- Ht2 in Hj1 at 1.
    apply (Rmult_eq_reg_l (bessel b n / INR n * dot t t)); [|rewrite Ht2; apply Rgt_not_eq; exact Hpos]. lra. }
  assert (HPe : pm_P m = pm_W m).
  { rewrite HPm, HW. f_equal. apply (nth_ext _ _ (g_p pc0) (g_dir pc0)); [rewrite !map_length; reflexivity|]. intros a Ha. rewrite map_length in Ha. rewrite !map_nth. apply HPW. exact Ha. }
  assert (HV : sum_to p (fun j => sample_cov b n Z j j) = sum_to h (fun a => nth a (pm_max m) 0) + bessel b n / INR n * misfit n p h Z (pm_T m) (pm_P m)).
  { rewrite (total_cells n p b Z Hn HZ HC), HT, HPm, <- Hl. rewrite (left_pyth n p Z cs Hn0 HZ Hc), Rmult_plus_distr_l. f_equal.
    repeat change (sum_to ?a ?b) with (sumn a b). rewrite <- sumn_scal. apply sumn_ext. intros a Ha. assert (Hi : (a < h)%nat) by lia. rewrite <- (Ht2 a Hi), HT, <- HPm, HPe. destruct (HP a Hi) as (_ & Uw & _). rewrite Uw. ring. }
  exists Z. split; [exact HS|]. split; [exact Hnz|]. split; [exact HPe|]. split; [exact HV|]. intros Hhp. rewrite HV.
  assert (M0 : misfit n p h Z (pm_T m) (pm_P m) = 0).
  { rewrite HT, HPm, <- Hl. rewrite misfit_fro by auto. unfold fro. apply sumn_zero. intros i Hi. apply sumn_zero. intros j Hj. rewrite (final_zero n p Hn0) by (auto; rewrite map_length; lia). ring. }
  rewrite M0. ring.
Qed.
