(** ppdire with the variance as projection index. *)

From Coq Require Import String Reals List Arith ZArith Bool Lia Lra.
Import List. Import ListNotations.
From Verif Require Import Num Err Vec VecR L_Mat L_Lin S_Stats S_Regress L_Stats M_Utils M_Preproc M_Robcent L_Scaling M_Dicomo S_Dicomo L_Dicomo L_Dicomo2 M_Ipopt M_Ppdire M_PpWorld
  S_Ppdire S_Ppdire2 S_Sudire L_Pp L_Pp8 S_Pca L_Pca.
Open Scope R_scope.

Lemma deflate_matrix : forall n p E t, is_matrix n p E -> length t = n -> is_matrix n p (deflate p E t).
Proof.
  intros n p E t [HL HF] Ht. split.
  - unfold deflate. rewrite map_length, combine_length. lia.
  - apply Forall_forall. intros r Hr. unfold deflate in Hr. apply in_map_iff in Hr as (rt & <- & _). rewrite map_length, seq_length. reflexivity.
Qed.
Lemma column_nth : forall j E r, nth r (column j E) 0 = cell E r j.
Proof.
  intros j E r. unfold column, cell. destruct (Nat.ltb_spec r (length E)) as [H|H].
  - rewrite (nth_indep _ 0 (nth j [] 0)) by (rewrite map_length; auto). rewrite (map_nth (fun r => nth j r 0)). reflexivity.
  - rewrite nth_overflow by (rewrite map_length; auto). rewrite (nth_overflow E) by auto. destruct j; reflexivity.
Qed.
Lemma column_len : forall j (E : list (list R)), length (column j E) = length E.
Proof. intros. apply map_length. Qed.
Lemma inner_sum : forall n u v, length u = n -> length v = n -> inner u v = ip n (fun j => nth j u 0) (fun j => nth j v 0).
Proof. intros n u v Hu Hv. rewrite inner_dot, (dot_sumn u v n) by auto. reflexivity. Qed.
Lemma deflate_cell : forall n p E t r j, is_matrix n p E -> length t = n -> (r < n)%nat -> (j < p)%nat ->
  cell (deflate p E t) r j = cell E r j - nth r t 0 * (inner (column j E) t / sqlen t).
Proof.
  intros n p E t r j [HL HF] Ht Hr Hj. unfold cell, deflate.
  set (F := fun rt : list R * R => map (fun j => nth j (fst rt) 0 - snd rt * (inner (column j E) t / sqlen t)) (seq 0 p)).
  rewrite (nth_indep _ [] (F ([], 0))) by (rewrite map_length, combine_length; lia). rewrite map_nth, combine_nth by lia.
  unfold F. cbn [fst snd]. set (g := fun j => nth j (nth r E []) 0 - nth r t 0 * (inner (column j E) t / sqlen t)).
  rewrite (nth_indep _ 0 (g 0%nat)) by (rewrite map_length, seq_length; lia). rewrite map_nth, seq_nth by auto. reflexivity.
Qed.
Lemma scores_nth : forall n p E u r, is_matrix n p E -> length u = p -> (r < n)%nat -> nth r (map (fun r => inner r u) E) 0 = ap p (cell E) (fun j => nth j u 0) r.
Proof.
  intros n p E u r HE Hu Hr. rewrite (nth_indep _ 0 (inner [] u)) by (rewrite map_length; destruct HE; lia). rewrite (map_nth (fun r => inner r u)).
  rewrite (inner_sum p) by (auto; destruct HE as [HL HF]; rewrite Forall_forall in HF; apply HF, nth_In; lia). reflexivity.
Qed.

(** the deflated data as functions of the indices *)
Section Bridge.
  Variables (n p h : nat) (Z T W : list (list R)).
  Hypothesis HZ : is_matrix n p Z.
  Let E i := deflate_all p Z (first_columns i T).
  Hypothesis HM : forall i, (i < h)%nat -> is_matrix n p (E i).
  Hypothesis HT : forall i, (i < h)%nat -> column i T = map (fun r => inner r (column i W)) (E i).
  Hypothesis HW : forall i, (i < h)%nat -> length (column i W) = p.
  Lemma E_S : forall i, E (S i) = deflate p (E i) (column i T).
  Proof. intros i. unfold E, first_columns, deflate_all. rewrite seq_S, map_app, fold_left_app. reflexivity. Qed.
  Lemma T_len : forall i, (i < h)%nat -> length (column i T) = n.
  Proof. intros i Hi. rewrite HT by auto. rewrite map_length. apply (HM i Hi). Qed.
  Lemma b_T : forall i r, (i < h)%nat -> (r < n)%nat -> cell T r i = ap p (cell (E i)) (fun j => cell W j i) r.
  Proof.
    intros i r Hi Hr. rewrite <- column_nth, HT by auto. rewrite (scores_nth n p) by auto. unfold ap. apply sumn_ext. intros j Hj. rewrite column_nth. reflexivity.
  Qed.
  Lemma b_sq : forall i, (i < h)%nat -> sqlen (column i T) = ip n (fun r => cell T r i) (fun r => cell T r i).
  Proof. intros i Hi. unfold sqlen. rewrite (inner_sum n) by (apply T_len; auto). apply ip_ext; intros; apply column_nth. Qed.
  Lemma b_E : forall i r j, (i < h)%nat -> (r < n)%nat -> (j < p)%nat ->
    cell (E (S i)) r j = cell (E i) r j - cell T r i * (tap n (cell (E i)) (fun r => cell T r i) j / ip n (fun r => cell T r i) (fun r => cell T r i)).
  Proof.
    intros i r j Hi Hr Hj. rewrite E_S, (deflate_cell n) by (auto; apply T_len; auto). rewrite b_sq by auto. rewrite !column_nth. do 3 f_equal.
    rewrite (inner_sum n) by (try (apply T_len; auto); rewrite column_len; apply (HM i Hi)). apply sumn_ext. intros k Hk. rewrite !column_nth. reflexivity.
  Qed.
  Lemma b_W : forall i k, (i < h)%nat -> (k < h)%nat -> inner (column i W) (column k W) = ip p (fun j => cell W j i) (fun j => cell W j k).
  Proof. intros i k Hi Hk. rewrite (inner_sum p) by auto. apply ip_ext; intros; apply column_nth. Qed.
  Lemma b_Tk : forall i k, (i < h)%nat -> (k < h)%nat -> inner (column i T) (column k T) = ip n (fun r => cell T r i) (fun r => cell T r k).
  Proof. intros i k Hi Hk. rewrite (inner_sum n) by (apply T_len; auto). apply ip_ext; intros; apply column_nth. Qed.

  (** centred data stay centred *)
  Hypothesis HC : forall j, (j < p)%nat -> sumn n (fun r => cell Z r j) = 0.
  Lemma centred_scores : forall F u, (forall j, (j < p)%nat -> sumn n (fun r => cell F r j) = 0) -> sumn n (ap p (cell F) u) = 0.
  Proof.
    intros F u HF. unfold ap. rewrite sumn_exchange. apply sumn_zero. intros j Hj. rewrite sumn_scal_r, HF by auto. ring.
  Qed.
  Lemma E_centred : forall i, (i <= h)%nat -> forall j, (j < p)%nat -> sumn n (fun r => cell (E i) r j) = 0.
  Proof.
    induction i as [|i IH]; intros Hi j Hj; [apply HC; auto|].
    rewrite (sumn_ext n _ (fun r => cell (E i) r j - cell T r i * (tap n (cell (E i)) (fun r => cell T r i) j / ip n (fun r => cell T r i) (fun r => cell T r i))))
      by (intros r Hr; apply b_E; auto).
    rewrite sumn_minus, sumn_scal_r, IH by (auto; lia).
    rewrite (sumn_ext n (fun r => cell T r i) (ap p (cell (E i)) (fun j => cell W j i))) by (intros; apply b_T; auto).
    rewrite centred_scores by (intros; apply IH; auto; lia). ring.
  Qed.
End Bridge.

Lemma mean_sumn : forall n l, length l = n -> mean_of l = sumn n (fun r => nth r l 0) / INR n.
Proof. intros n l Hl. unfold mean_of. rewrite sum_of_vsum, vsum_sumn, Hl. reflexivity. Qed.
Lemma mean_map_sumn : forall {B} n (f : B -> R) (l : list B) d, length l = n -> mean_of (map f l) = sumn n (fun r => f (nth r l d)) / INR n.
Proof.
  intros B n f l d Hl. rewrite (mean_sumn n) by (rewrite map_length; auto). f_equal. apply sumn_ext. intros r Hr.
  rewrite (nth_indep _ 0 (f d)) by (rewrite map_length; lia). apply map_nth.
Qed.
Lemma variance_centred : forall n v, length v = n -> sumn n (fun r => nth r v 0) = 0 -> variance_of v = ip n (fun r => nth r v 0) (fun r => nth r v 0) / INR n.
Proof.
  intros n v Hv H0. unfold variance_of. rewrite (mean_sumn n v), H0 by auto. rewrite (mean_map_sumn n _ v 0) by auto. f_equal. apply sumn_ext. intros. unfold Rdiv. ring.
Qed.
Lemma covariance_centred : forall n u v, length u = n -> length v = n -> sumn n (fun r => nth r u 0) = 0 -> sumn n (fun r => nth r v 0) = 0 ->
  covariance_of u v = ip n (fun r => nth r u 0) (fun r => nth r v 0) / INR n.
Proof.
  intros n u v Hu Hv H1 H2. unfold covariance_of, comoment. rewrite (mean_sumn n u), (mean_sumn n v), H1, H2 by auto.
  rewrite (mean_map_sumn n _ (combine u v) (0, 0)) by (rewrite combine_length; lia). f_equal. apply sumn_ext. intros. rewrite combine_nth by lia. cbn [fst snd]. unfold Rdiv. ring.
Qed.

Lemma scaled_centred : forall (prm : pparams R) n p X loc sca Z, is_matrix n p X -> (0 < n)%nat -> scaled_by n p X loc sca Z -> pp_center prm = CMean -> pp_center_data prm = true ->
  (forall j, (j < p)%nat -> scaling_of prm (column j X) (nth j loc 0) (nth j sca 0)) -> forall j, (j < p)%nat -> sumn n (fun r => cell Z r j) = 0.
Proof.
  intros prm n p X loc sca Z HX Hn [HZ Hst] Hc Hd Hsc j Hj. specialize (Hsc j Hj). unfold scaling_of in Hsc. rewrite Hc, Hd in Hsc. destruct Hsc as [[Hm _] _].
  assert (HL : length (column j X) = n) by (rewrite column_len; apply HX).
  rewrite (mean_sumn n) in Hm by auto. assert (Hn' : 0 < INR n) by (apply lt_0_INR; auto).
  assert (HS : sumn n (fun r => cell X r j - nth j loc 0) = 0).
  { rewrite sumn_minus, sumn_const, Hm. rewrite (sumn_ext n (fun r => cell X r j) (fun r => nth r (column j X) 0)) by (intros; symmetry; apply column_nth). field. lra. }
  destruct (Req_EM_T (nth j sca 0) 0) as [Z0|N0].
  - rewrite (sumn_ext n _ (fun r => cell X r j - nth j loc 0)); [exact HS|]. intros r Hr. destruct (Hst r j Hr Hj) as [H _]. auto.
  - rewrite (sumn_ext n _ (fun r => (cell X r j - nth j loc 0) * / nth j sca 0)); [rewrite sumn_scal_r, HS; ring|]. intros r Hr. destruct (Hst r j Hr Hj) as [_ H]. apply H; auto.
Qed.

Lemma unit_norm : forall x : list R, sqlen x = 1 -> map (fun v => v / sqrt (sqlen x)) x = x.
Proof. intros x Hx. rewrite Hx, sqrt_1. rewrite <- (map_id x) at 2. apply map_ext. intros a. field. Qed.
Lemma row0_len : forall n p E, is_matrix n p E -> (0 < n)%nat -> length (nth 0 E []) = p.
Proof. intros n p E [HL HF] Hn. rewrite Forall_forall in HF. apply HF, nth_In. lia. Qed.

Lemma C175_l : forall (env : pp_env R) prm d X f prm' d' m n p dc s, is_matrix n p X -> (2 <= n)%nat -> direct_fit prm n p -> pp_init prm = Ok prm ->
  pp_optim prm <> OGrid -> exact_optimiser env (pp_optim prm) -> pp_center prm = CMean -> pp_center_data prm = true -> pp_trim prm = 0 ->
  ix_new (pp_idx prm) = Ok (fit_result dc s) -> configured s "arithmetic" "var" "mean" ->
  pp_fit env prm d X f = (prm', d', Ok m) -> (0 < pp_ncomp prm')%nat ->
  (forall i, (i < pp_ncomp prm')%nat -> 0 < nth i (pm_max m) 0) ->
  exists Z, scaled_by n p X (pm_loc m) (pm_sca m) Z /\
    forall i, (i < pp_ncomp prm')%nat ->
      let w := column i (pm_W m) in let C := sample_cov (f_bias f) n Z in
      length w = p /\ sqlen w = 1 /\ eigen_pair p C w (nth i (pm_max m) 0) /\
      column i (pm_T m) = map (fun r => inner r w) Z /\
      (forall k, (k < i)%nat -> orthogonal w (column k (pm_W m)) /\ orthogonal (column i (pm_T m)) (column k (pm_T m))) /\
      (forall u, length u = p -> sqlen u = 1 -> (forall k, (k < i)%nat -> orthogonal u (column k (pm_W m))) -> quadratic p C u <= nth i (pm_max m) 0).
Proof.
  intros env prm d X f prm' d' m n p dc s HX Hn Hd Hinit Ho Hopt Hcm Hcd Htr Hix Hcf E Hh Hpos.
  destruct (C147_l _ _ _ _ _ _ _ _ _ _ HX Hn Hd Hinit Ho E Hh) as (most & ys & Z & Hix' & HZ & _ & _ & Hall).
  rewrite Hix in Hix'. apply Ok_inj in Hix'. subst most. exists Z. split; [exact HZ|].
  destruct (C148_l _ _ _ _ _ _ _ _ _ _ HX Hn Hd Hinit Htr E Hh) as (_ & _ & Hsc & _).
  set (h := pp_ncomp prm') in *. set (T := pm_T m) in *. set (W := pm_W m) in *. set (mx := pm_max m) in *.
  pose proof (scaled_centred prm n p X _ _ Z HX ltac:(lia) HZ Hcm Hcd Hsc) as HC. destruct HZ as [HZ _].
  assert (Hn' : 0 < INR n) by (apply lt_0_INR; lia). pose proof (bessel_pos (f_bias f) n Hn) as Hb.
  set (Ef := fun i => deflate_all p Z (first_columns i T)).
  assert (HM : forall i, (i < h)%nat -> is_matrix n p (Ef i)) by (intros i Hi; apply (Hall i Hi)).
  assert (HT : forall i, (i < h)%nat -> column i T = map (fun r => inner r (column i W)) (Ef i)) by (intros i Hi; apply (Hall i Hi)).
  assert (HWL : forall i, (i < h)%nat -> length (column i W) = p).
  { intros i Hi. destruct (Hall i Hi) as (_ & _ & dd & g & x & _ & Hlx & -> & _). rewrite map_length. exact Hlx. }
  assert (HEC : forall i, (i <= h)%nat -> forall j, (j < p)%nat -> sumn n (fun r => cell (Ef i) r j) = 0) by (intros i Hi; apply (E_centred n p h Z T W); auto).
  (* the index of a direction *)
  assert (Hind : forall i u, (i < h)%nat -> length u = p ->
     fit_result dc s (A2 (map (fun r => [inner r u]) (Ef i))) (mk_dkw ys (Some (pp_trim prm)) (Some (f_bias f)) (Some (pp_alpha prm)) None None None None None (Some euclid)) =
     Ok (ip n (ap p (cell (Ef i)) (fun j => nth j u 0)) (ap p (cell (Ef i)) (fun j => nth j u 0)) / INR n * bessel (f_bias f) n)).
  { intros i u Hi Hu. set (v := map (fun r => inner r u) (Ef i)). assert (Hlv : length v = n) by (unfold v; rewrite map_length; apply (HM i Hi)).
    rewrite (fit_var dc s _ v) by first [assumption | right; unfold v; rewrite map_map; reflexivity | right; cbn; rewrite Htr; reflexivity | destruct v; [cbn in Hlv; lia|discriminate]].
    cbn [biascorr k_bias]. rewrite Hlv. f_equal. f_equal.
    assert (Hnv : forall r, (r < n)%nat -> nth r v 0 = ap p (cell (Ef i)) (fun j => nth j u 0) r) by (intros; apply (scores_nth n p); auto).
    rewrite (variance_centred n) by (auto; rewrite (sumn_ext n _ (ap p (cell (Ef i)) (fun j => nth j u 0))) by auto; apply centred_scores; intros; apply HEC; auto; lia).
    f_equal. apply ip_ext; auto. }
  assert (Hfac : forall i, (i < h)%nat -> sqlen (column i W) = 1 /\ nth i mx 0 = ip n (fun r => cell T r i) (fun r => cell T r i) / INR n * bessel (f_bias f) n /\
     forall u, length u = p -> sqlen u = 1 -> ip n (ap p (cell (Ef i)) (fun j => nth j u 0)) (ap p (cell (Ef i)) (fun j => nth j u 0)) <= ip n (fun r => cell T r i) (fun r => cell T r i)).
  { intros i Hi. destruct (Hall i Hi) as (HE & Ht & dd & g & x & Eo & Hlx & Hw & Hg & Hmx & Hbest). fold T W mx in Hmx, Hbest, Hw. fold (Ef i) in *.
    pose proof (Hopt _ _ _ _ Eo) as Hu. rewrite (row0_len n p) in Hu by (auto; lia). pose proof Hu as (_ & Hx1 & _).
    assert (H1 : sqlen (column i W) = 1) by (rewrite Hw, unit_norm; auto).
    assert (H2 : nth i mx 0 = ip n (fun r => cell T r i) (fun r => cell T r i) / INR n * bessel (f_bias f) n).
    { change (fit_result dc s (A2 (map (fun r => [inner r (column i W)]) (Ef i))) (mk_dkw ys (Some (pp_trim prm)) (Some (f_bias f)) (Some (pp_alpha prm)) None None None None None (Some euclid)) = Ok (nth i mx 0)) in Hmx.
      rewrite Hind in Hmx by auto. apply Ok_inj in Hmx. rewrite <- Hmx. f_equal. f_equal.
      apply ip_ext; intros r Hr; rewrite (b_T n p h Z T W) by auto; unfold ap; apply sumn_ext; intros j Hj; rewrite column_nth; reflexivity. }
    split; [exact H1|]. split; [exact H2|]. intros u Hlu Hu1. specialize (Hbest Hu u _ Hlu Hu1 (Hind i u Hi Hlu)). rewrite H2 in Hbest.
    apply (Rmult_le_reg_r (/ INR n * bessel (f_bias f) n)); [apply Rmult_lt_0_compat; [apply Rinv_0_lt_compat; auto|auto]|]. unfold Rdiv in Hbest. nra. }
  (* the abstract deflation *)
  set (EE := fun i => cell (Ef i)). set (WW := fun i j => cell W j i). set (TT := fun i r => cell T r i).
  assert (A1 : forall i r, (i < h)%nat -> (r < n)%nat -> TT i r = ap p (EE i) (WW i) r) by (intros; apply (b_T n p h Z T W); auto).
  assert (A2 : forall i r j, (i < h)%nat -> (r < n)%nat -> (j < p)%nat -> EE (S i) r j = EE i r j - TT i r * (tap n (EE i) (TT i) j / ip n (TT i) (TT i)))
    by (intros; apply (b_E n p h Z T W); auto).
  assert (A3 : forall i, (i < h)%nat -> ip p (WW i) (WW i) = 1).
  { intros i Hi. unfold WW. rewrite <- (b_W p h W) by auto. apply (Hfac i Hi). }
  assert (A4 : forall i, (i < h)%nat -> 0 < ip n (TT i) (TT i)).
  { intros i Hi. specialize (Hpos i Hi). destruct (Hfac i Hi) as (_ & H2 & _). rewrite H2 in Hpos. unfold TT. pose proof (ip_nonneg n (fun r => cell T r i)) as HN.
    destruct HN as [HN|HN]; [exact HN|]. rewrite <- HN in Hpos. unfold Rdiv in Hpos. rewrite !Rmult_0_l in Hpos. lra. }
  assert (A5 : forall i u, (i < h)%nat -> ip p u u = 1 -> ip n (ap p (EE i) u) (ap p (EE i) u) <= ip n (TT i) (TT i)).
  { intros i u Hi Hu. destruct (Hfac i Hi) as (_ & _ & H3). set (ul := map u (seq 0 p)). assert (Hlu : length ul = p) by (unfold ul; rewrite map_length, seq_length; reflexivity).
    assert (Hn0 : forall j, (j < p)%nat -> nth j ul 0 = u j).
    { intros j Hj. unfold ul. rewrite (nth_indep _ 0 (u 0%nat)) by (rewrite map_length, seq_length; auto). rewrite map_nth, seq_nth by auto. reflexivity. }
    specialize (H3 ul Hlu). assert (Hu1 : sqlen ul = 1) by (unfold sqlen; rewrite (inner_sum p) by auto; rewrite <- Hu; apply ip_ext; auto).
    specialize (H3 Hu1). unfold TT. eapply Rle_trans; [|exact H3]. right. apply ip_ext; intros r Hr; unfold ap; apply sumn_ext; intros j Hj; rewrite Hn0 by auto; reflexivity. }
  assert (HCov : forall j k, (j < p)%nat -> (k < p)%nat -> sample_cov (f_bias f) n Z j k = bessel (f_bias f) n * (sumn n (fun r => cell Z r j * cell Z r k) / INR n)).
  { intros j k Hj Hk. unfold sample_cov. f_equal.
    rewrite (covariance_centred n) by (try (rewrite column_len; apply HZ); rewrite (sumn_ext n _ _ (fun r _ => column_nth _ Z r)); apply HC; auto).
    f_equal. apply sumn_ext. intros r Hr. rewrite !column_nth. reflexivity. }
  intros i Hi. cbn zeta. destruct (Hfac i Hi) as (H1 & H2 & _). split; [auto|]. split; [exact H1|].
  assert (HS : forall r, (r < n)%nat -> TT i r = ap p (cell Z) (WW i) r).
  { intros r Hr. pose proof (scores_plain n p h EE WW TT A1 A2 A3 A4 A5 i r Hi Hr) as HS. exact HS. }
  split; [|split; [|split]].
  - intros j Hj. change (sumn p (fun k => sample_cov (f_bias f) n Z j k * nth k (column i W) 0) = nth i mx 0 * nth j (column i W) 0).
    rewrite (sumn_ext p _ (fun k => bessel (f_bias f) n / INR n * sumn n (fun r => cell Z r j * (cell Z r k * WW i k)))).
    2:{ intros k Hk. rewrite HCov, column_nth by auto. unfold Rdiv. unfold WW. rewrite Rmult_assoc, Rmult_assoc, Rmult_assoc. f_equal. rewrite Rmult_comm, Rmult_assoc. f_equal.
        rewrite Rmult_comm, <- sumn_scal_r. apply sumn_ext. intros. ring. }
    rewrite sumn_scal, sumn_exchange. rewrite (sumn_ext n _ (fun r => cell Z r j * TT i r)).
    2:{ intros r Hr. rewrite sumn_scal, HS by auto. reflexivity. }
    pose proof (eigen n p h EE WW TT A1 A2 A3 A4 A5 i j Hi Hj) as HE. unfold tap in HE. change (EE 0%nat) with (cell Z) in HE. rewrite HE, column_nth, H2. unfold WW, TT. field. lra.
  - rewrite HT by auto. apply (nth_ext _ _ 0 0).
    + rewrite !map_length. destruct (HM i Hi) as [-> _]. symmetry. apply HZ.
    + intros r Hr. rewrite map_length in Hr. destruct (HM i Hi) as [HL _]. fold (Ef i) in Hr. rewrite HL in Hr.
      rewrite <- HT, column_nth by auto. rewrite (scores_nth n p) by auto. change (cell T r i) with (TT i r). rewrite HS by auto. unfold ap. apply sumn_ext. intros j Hj. rewrite column_nth. reflexivity.
  - intros k Hk. unfold orthogonal. rewrite (b_W p h W), (b_Tk n p h Z T W) by (auto; lia). split.
    + apply (W_orth n p h EE WW TT A1 A2 A3 A4 A5); auto.
    + apply (T_orth n p h EE WW TT A1 A2 A3 A4 A5); auto.
  - intros u Hlu Hu Hort. rewrite H2.
    pose proof (max_orth n p h EE WW TT A1 A2 A3 A4 A5 i (fun j => nth j u 0) Hi) as HX5. change (EE 0%nat) with (cell Z) in HX5.
    assert (HX6 : ip n (ap p (cell Z) (fun j => nth j u 0)) (ap p (cell Z) (fun j => nth j u 0)) <= ip n (TT i) (TT i)).
    { apply HX5.
      - rewrite <- (inner_sum p) by auto. exact Hu.
      - intros k Hk. specialize (Hort k Hk). unfold orthogonal in Hort. rewrite (inner_sum p) in Hort by (auto; apply HWL; lia). rewrite ip_sym. refine (eq_trans _ Hort). apply ip_ext; [reflexivity|]. intros j Hj. unfold WW. rewrite column_nth. reflexivity. }
    assert (Hq : quadratic p (sample_cov (f_bias f) n Z) u = bessel (f_bias f) n / INR n * ip n (ap p (cell Z) (fun j => nth j u 0)) (ap p (cell Z) (fun j => nth j u 0))).
    { unfold quadratic. change (sumn p (fun j => sumn p (fun k => nth j u 0 * sample_cov (f_bias f) n Z j k * nth k u 0)) = bessel (f_bias f) n / INR n * ip n (ap p (cell Z) (fun j => nth j u 0)) (ap p (cell Z) (fun j => nth j u 0))).
      rewrite adjoint. unfold ip. rewrite <- sumn_scal. apply sumn_ext. intros j Hj. unfold tap. rewrite <- Rmult_assoc, <- sumn_scal, <- sumn_scal_r.
      transitivity (sumn p (fun k => sumn n (fun r => bessel (f_bias f) n / INR n * (cell Z r j * (cell Z r k * nth k u 0)) * nth j u 0))).
      - apply sumn_ext. intros k Hk. rewrite HCov by auto. rewrite sumn_scal_r, sumn_scal. rewrite (sumn_ext n (fun r => cell Z r j * (cell Z r k * nth k u 0)) (fun r => cell Z r j * cell Z r k * nth k u 0)) by (intros; ring).
        rewrite sumn_scal_r. unfold Rdiv. ring.
      - rewrite sumn_exchange. apply sumn_ext. intros r Hr. rewrite sumn_scal_r, sumn_scal, sumn_scal. unfold ap. reflexivity. }
    rewrite Hq. unfold TT in HX6. apply Rle_trans with (bessel (f_bias f) n / INR n * ip n (fun r => cell T r i) (fun r => cell T r i)); [|right; field; lra].
    apply Rmult_le_compat_l; [|exact HX6]. apply Rlt_le. apply Rmult_lt_0_compat; [auto|apply Rinv_0_lt_compat; auto].
Qed.

(** later components have a smaller index *)
Lemma quadratic_eigen : forall p M w l, length w = p -> sqlen w = 1 -> eigen_pair p M w l -> quadratic p M w = l.
Proof.
  intros p M w l Hl H1 He. unfold quadratic. change (sumn p (fun j => sumn p (fun k => nth j w 0 * M j k * nth k w 0)) = l).
  rewrite (sumn_ext p _ (fun j => l * (nth j w 0 * nth j w 0))).
  - rewrite sumn_scal. change (l * ip p (fun j => nth j w 0) (fun j => nth j w 0) = l). rewrite <- (inner_sum p) by auto. unfold sqlen in H1. rewrite H1. ring.
  - intros j Hj. specialize (He j Hj). change (sumn p (fun k => M j k * nth k w 0) = l * nth j w 0) in He.
    transitivity (nth j w 0 * sumn p (fun k => M j k * nth k w 0)); [rewrite <- sumn_scal; apply sumn_ext; intros; ring|rewrite He; ring].
Qed.
Lemma C175_decreasing_l : forall (env : pp_env R) prm d X f prm' d' m n p dc s, is_matrix n p X -> (2 <= n)%nat -> direct_fit prm n p -> pp_init prm = Ok prm ->
  pp_optim prm <> OGrid -> exact_optimiser env (pp_optim prm) -> pp_center prm = CMean -> pp_center_data prm = true -> pp_trim prm = 0 ->
  ix_new (pp_idx prm) = Ok (fit_result dc s) -> configured s "arithmetic" "var" "mean" ->
  pp_fit env prm d X f = (prm', d', Ok m) -> (0 < pp_ncomp prm')%nat ->
  (forall i, (i < pp_ncomp prm')%nat -> 0 < nth i (pm_max m) 0) ->
  forall i k, (i <= k)%nat -> (k < pp_ncomp prm')%nat -> nth k (pm_max m) 0 <= nth i (pm_max m) 0.
Proof.
  intros env prm d X f prm' d' m n p dc s HX Hn Hd Hinit Ho Hopt Hcm Hcd Htr Hix Hcf E Hh Hpos i k Hik Hk.
  destruct (C175_l _ _ _ _ _ _ _ _ _ _ _ _ HX Hn Hd Hinit Ho Hopt Hcm Hcd Htr Hix Hcf E Hh Hpos) as (Z & _ & Hall).
  destruct (Hall k Hk) as (L & U & Eg & _ & Or & _). destruct (Hall i ltac:(lia)) as (_ & _ & _ & _ & _ & Mx).
  rewrite <- (quadratic_eigen p _ _ _ L U Eg). apply Mx; auto. intros j Hj. apply Or. lia.
Qed.
