(** As many components as variables: least squares *)
From Coq Require Import String Reals List Arith ZArith Bool Lia Lra.
Import List. Import ListNotations.
From Verif Require L_Preproc L_Pca2 L_EqMat.
From Verif Require Import Num Err Vec VecR OrdR L_Mat L_Lin L_Matmul L_Deflate L_Stats M_Utils M_Preproc M_Robcent L_Scaling L_Scaling2 M_Dicomo M_Ipopt M_Ppdire M_Snipls
  S_Stats S_Regress S_Sudire S_Ppdire S_Ppdire2 S_Decomp S_Full L_SdrMat L_Pp L_Pp2 L_Pp3 L_Pp4 L_Pp5 L_Pp6 L_Pp8 L_Snipls L_Snipls2 L_Snipls3 L_Pls2 L_Nested2 L_Decomp L_Decomp2.
Open Scope R_scope.

Lemma chain_basis : forall n p l X (b : list R), (0 < n)%nat -> wf n p X -> is_chain p X l -> length l = p -> length b = p ->
  exists z, forall k, (k < p)%nat -> nth k b 0 = sumn p (fun a => nth k (d_w (nth a l dc0)) 0 * z a).
Proof.
  intros n p l X b Hn HX Hc Hl Hb. destruct (chain_wf n p Hn l X HX Hc) as [HF HW].
  destruct (kernel p (fun k a => if (a =? p)%nat then nth k b 0 else nth k (d_w (nth a l dc0)) 0)) as (z & (j1 & Hj1 & Hz1) & HE).
  assert (HE' : forall k, (k < p)%nat -> sumn p (fun a => nth k (d_w (nth a l dc0)) 0 * z a) + nth k b 0 * z p = 0).
  { intros k Hk. specialize (HE k Hk). rewrite sumn_S, Nat.eqb_refl in HE.
    rewrite (sumn_ext p _ (fun a => nth k (d_w (nth a l dc0)) 0 * z a)) in HE by (intros a Ha; destruct (Nat.eqb_spec a p); [lia|reflexivity]). exact HE. }
  destruct (Req_dec (z p) 0) as [Hzp|Hzp].
  - exfalso. assert (HW0 : forall k, (k < p)%nat -> sumn p (fun a => nth k (d_w (nth a l dc0)) 0 * z a) = 0) by (intros k Hk; specialize (HE' k Hk); rewrite Hzp in HE'; lra).
    assert (HB : forall m c, (c < p)%nat -> (p - m <= c)%nat -> z c = 0).
    { induction m as [|m IHm]; intros c Hc' Hmb; [lia|]. destruct (le_lt_dec (p - m) c); [apply IHm; auto|].
      assert (S0 : sumn p (fun k => nth k (d_q (nth c l dc0)) 0 * sumn p (fun a => nth k (d_w (nth a l dc0)) 0 * z a)) = 0) by (apply sumn_zero; intros k Hk; rewrite HW0 by auto; ring).
      rewrite (sumn_ext p _ (fun k => sumn p (fun a => z a * (nth k (d_q (nth c l dc0)) 0 * nth k (d_w (nth a l dc0)) 0)))) in S0 by (intros k Hk; rewrite <- sumn_scal; apply sumn_ext; intros; ring).
      rewrite (sumn_exchange p p) in S0. rewrite (sumn_ext p _ (fun a => if (a =? c)%nat then z a else 0)) in S0.
      - rewrite sumn_delta in S0 by exact Hc'. exact S0.
      - intros a Ha. rewrite sumn_scal. rewrite Forall_forall in HF.
        destruct (HF (nth a l dc0) ltac:(apply nth_In; lia)) as (Hwa & _ & _). destruct (HF (nth c l dc0) ltac:(apply nth_In; lia)) as (_ & _ & Hqb). rewrite <- (dot_sumn (d_q (nth c l dc0)) (d_w (nth a l dc0)) p) by auto.
        destruct (le_lt_dec a c) as [L|L].
        + rewrite (unit_upper n p Hn l X c a) by (auto; lia). rewrite (Nat.eqb_sym a c). destruct (c =? a)%nat; ring.
        + rewrite (IHm a Ha) by lia. destruct (Nat.eqb_spec a c); [lia|ring]. }
    destruct (Nat.eq_dec j1 p) as [->|]; [contradiction|]. apply Hz1. apply (HB p); lia.
  - exists (fun a => - z a / z p). intros k Hk. specialize (HE' k Hk).
    rewrite (sumn_ext p _ (fun a => - / z p * (nth k (d_w (nth a l dc0)) 0 * z a))) by (intros; field; exact Hzp). rewrite sumn_scal.
    replace (sumn p (fun a => nth k (d_w (nth a l dc0)) 0 * z a)) with (- (nth k b 0 * z p)) by lra. field. exact Hzp.
Qed.

Lemma full_span : forall env inv eta k c s n p X y f X0 y0, snipls_run env inv eta k c s n p X y f X0 y0 -> nonzero_scores f -> length (sn_C f) = p -> forall b, length b = p -> in_span (sn_W f) b.
Proof.
  intros env inv eta k c s n p X y f X0 y0 H Hz Hk b Hb. destruct (run_scaled _ _ _ _ _ _ _ _ _ _ _ _ _ H) as [HW0 Hl0]. destruct H as (HX & Hn & Hp & Hy & Hf & HX0 & Hy0).
  pose proof (C_length env inv eta k c s n p X y f X0 y0 HX Hn Hp Hy Hf HX0 Hy0) as HC. rewrite Hk in HC.
  destruct (fit_attrs env inv eta k c s n p X y f X0 y0 HX Hn Hp Hy Hf HX0 Hy0) as (_ & _ & _ & EW & _).
  destruct (chain_l env inv eta k c s n p X y f X0 y0 HX Hn Hp Hy Hf HX0 Hy0 Hz) as (Hch & _).
  set (l := comps_of eta k X0 y0) in *.
  destruct (chain_basis n p (map L_Snipls.todc l) X0 b ltac:(lia) HW0 Hch ltac:(rewrite map_length; lia) Hb) as (z & Hz').
  exists (map z (seq 0 p)). assert (Lz : length (map z (seq 0 p)) = p) by (rewrite map_length, seq_length; reflexivity). split.
  - assert (HWf : wf p p (sn_W f)) by (rewrite EW; rewrite HC at 2; rewrite <- (map_length c_w l); apply wf_of_cols).
    apply (nth_ext _ _ 0 0); [unfold fitted_by; rewrite map_length, (wf_length _ _ _ HWf); exact Hb|]. intros i Hi. rewrite Hb in Hi.
    rewrite fitted_by_matvec, nth_matvec by (rewrite (wf_length _ _ _ HWf); exact Hi).
    rewrite (dot_row_sumn p p) by auto. rewrite (Hz' i Hi). apply sumn_ext. intros a Ha. rewrite L_Snipls2.nth_todc.
    rewrite EW. rewrite mget_of_cols_R by (auto; rewrite map_length; lia). f_equal.
    + rewrite (nth_indep _ _ (c_w sc0)) by (rewrite map_length; lia). rewrite map_nth. reflexivity.
    + rewrite (nth_indep _ 0 (z 0%nat)) by lia. rewrite map_nth, seq_nth by exact Ha. reflexivity.
  - intros r Hr. rewrite Lz. rewrite EW in Hr. unfold of_cols in Hr. apply in_map_iff in Hr as (j & <- & _). rewrite !map_length. exact HC.
Qed.

Lemma C179_scaled_l : forall env inv eta k c s n p X y f X0 y0, snipls_run env inv eta k c s n p X y f X0 y0 -> inverse_ok inv -> nonzero_scores f -> length (sn_C f) = p ->
  forall b, length b = p -> sqlen (vdiff y0 (fitted_by X0 (sn_coef_scaled f))) <= sqlen (vdiff y0 (fitted_by X0 b)).
Proof.
  intros env inv eta k c s n p X y f X0 y0 H Hinv Hz Hk b Hb. destruct (C38_l _ _ _ _ _ _ _ _ _ _ _ _ _ H Hinv) as (_ & _ & HL & _). apply HL. eapply full_span; eauto.
Qed.

Lemma line_nth : forall n p X b0 b i, is_matrix n p X -> length b = p -> (i < n)%nat -> nth i (line b0 b X) 0 = b0 + sumn p (fun j => cell X i j * nth j b 0).
Proof.
  intros n p X b0 b i HX Hb Hi. unfold line. rewrite (nth_indep _ 0 (b0 + inner [] b)) by (rewrite map_length; destruct HX; lia). rewrite (map_nth (fun r => b0 + inner r b)). f_equal.
  rewrite inner_dot. rewrite (dot_sumn _ _ p) by (auto; destruct HX as [HL HF]; rewrite Forall_forall in HF; apply HF, nth_In; lia). reflexivity.
Qed.
Lemma sqlen_vdiff : forall n u v, length u = n -> length v = n -> sqlen (vdiff u v) = sumn n (fun i => (nth i u 0 - nth i v 0) * (nth i u 0 - nth i v 0)).
Proof. intros n u v Hu Hv. rewrite <- (L_Preproc.sqdist_sumn u v n) by auto. reflexivity. Qed.

Lemma C179_snipls_l : forall (env : pp_env R) inv eta k s n p X y f X0 y0, snipls_run (pe_prep env) inv eta k CMean s n p X y f X0 y0 -> plain_scale s -> inverse_ok inv ->
  nonzero_scores f -> length (sn_C f) = p -> (forall j, (j < p)%nat -> nth j (sn_xsca f) 0 <> 0) -> nth 0 (sn_ysca f) 0 <> 0 ->
  forall b0 b, length b = p -> sqlen (sn_resid f) <= sqlen (vdiff y (line b0 b X)).
Proof.
  intros env inv eta k s n p X y f X0 y0 H Hps Hinv Hz Hk Hsx Hsy b0 b Hb.
  rewrite (resid_units env inv eta k s n p X y f X0 y0) by auto.
  set (sy := nth 0 (sn_ysca f) 0) in *. set (b' := map (fun j => nth j (sn_xsca f) 0 * nth j b 0 / sy) (seq 0 p)).
  assert (Lb' : length b' = p) by (unfold b'; rewrite map_length, seq_length; reflexivity).
  pose proof (C179_scaled_l _ _ _ _ _ _ _ _ _ _ _ _ _ H Hinv Hz Hk b' Lb') as HL.
  pose proof (run_scaled _ _ _ _ _ _ _ _ _ _ _ _ _ H) as [HW0 Hl0].
  destruct H as (HX & Hn2 & Hp & Hy & Hf & HX0 & Hy0).
  destruct (fit_attrs (pe_prep env) inv eta k CMean s n p X y f X0 y0 HX Hn2 Hp Hy Hf HX0 Hy0) as (_ & Hlsx & _ & _ & _ & _ & _ & _ & _ & _ & _ & _ & _ & _ & Exc & Eyc).
  assert (HWy : wf n 1 (as_column y)).
  { split; [unfold as_column; rewrite map_length; exact Hy|]. apply Forall_forall. intros r Hr. unfold as_column in Hr. apply in_map_iff in Hr as (v & <- & _). reflexivity. }
  assert (Hls : length (sn_ysca f) = 1%nat).
  { apply (scaled_lengths env CMean s 0 n 1 (as_column y) (sn_yloc f) (sn_ysca f) (as_column y0)) in Eyc; auto. tauto. }
  destruct (centred_cells env s n 1 (as_column y) (sn_yloc f) (sn_ysca f) (as_column y0) HWy Hn2 ltac:(lia) Hls Eyc) as (_ & Hc & Hs0).
  { intros j Hj. replace j with 0%nat by lia. exact Hsy. }
  destruct (centred_cells env s n p X (sn_xloc f) (sn_xsca f) X0 HX Hn2 Hp Hlsx Exc Hsx) as (_ & HcX & Hs0X).
  assert (Hcy : forall i, (i < n)%nat -> nth i y 0 = nth 0 (sn_yloc f) 0 + sy * nth i y0 0).
  { intros i Hi. specialize (Hc i 0%nat Hi ltac:(lia)). unfold mget, as_column in Hc. rewrite !(nth_map_lt _ _ _ 0) in Hc by lia. exact Hc. }
  assert (S0 : sumn n (fun i => nth i y0 0) = 0).
  { refine (eq_trans _ (Hs0 0%nat ltac:(lia))). apply sumn_ext. intros i Hi. unfold mget, as_column. rewrite (nth_map_lt _ _ _ 0) by lia. reflexivity. }
  assert (Nb' : forall j, (j < p)%nat -> nth j b' 0 = nth j (sn_xsca f) 0 * nth j b 0 / sy).
  { intros j Hj. unfold b'. rewrite (nth_map_lt _ _ _ 0%nat) by (rewrite seq_length; exact Hj). rewrite seq_nth by exact Hj. reflexivity. }
  set (e := fun i => nth i y0 0 - sumn p (fun j => mget X0 i j * nth j b' 0)).
  set (A := nth 0 (sn_yloc f) 0 - b0 - sumn p (fun j => nth j (sn_xloc f) 0 * nth j b 0)).
  assert (Ee : sumn n e = 0).
  { unfold e. rewrite sumn_minus, S0, (sumn_exchange n p). rewrite (sumn_zero p); [ring|]. intros j Hj. rewrite sumn_scal_r, Hs0X by exact Hj. ring. }
  assert (Lf : length (line b0 b X) = n) by (unfold line; rewrite map_length; apply HX).
  assert (E1 : sqlen (vdiff y (line b0 b X)) = INR n * (A * A) + sy * sy * sumn n (fun i => e i * e i)).
  { rewrite (sqlen_vdiff n) by auto. rewrite (sumn_ext n _ (fun i => A * A + (2 * A * sy * e i + sy * sy * (e i * e i)))).
    - rewrite !sumn_plus, sumn_const, !sumn_scal, Ee. ring.
    - intros i Hi. rewrite (line_nth n p) by auto.
      assert (EX : nth i y 0 - (b0 + sumn p (fun j => cell X i j * nth j b 0)) = A + sy * e i).
      { rewrite (Hcy i Hi). rewrite (sumn_ext p _ (fun j => nth j (sn_xloc f) 0 * nth j b 0 + sy * (mget X0 i j * nth j b' 0))).
        - rewrite sumn_plus, sumn_scal. unfold A, e. ring.
        - intros j Hj. change (cell X i j) with (mget X i j). rewrite HcX, Nb' by auto. field. exact Hsy. }
      rewrite EX. ring. }
  assert (E2 : sqlen (vdiff y0 (fitted_by X0 b')) = sumn n (fun i => e i * e i)).
  { rewrite (sqlen_vdiff n) by (auto; rewrite fitted_by_matvec, matvec_length; apply (wf_length _ _ _ HW0)). apply sumn_ext. intros i Hi.
    rewrite fitted_by_matvec, nth_matvec by (rewrite (wf_length _ _ _ HW0); exact Hi). rewrite (dot_row_sumn n p) by auto. reflexivity. }
  rewrite E1, <- E2. assert (0 <= INR n) by apply pos_INR. assert (0 <= A * A) by nra. assert (0 <= INR n * (A * A)) by (apply Rmult_le_pos; auto).
  assert (sy * sy * sqlen (vdiff y0 (fitted_by X0 (sn_coef_scaled f))) <= sy * sy * sqlen (vdiff y0 (fitted_by X0 b'))) by (apply Rmult_le_compat_l; [nra|exact HL]). lra.
Qed.

Lemma C179_ppdire_l : forall (env : pp_env R) prm d X f prm' d' m n p v, is_matrix n p X -> (2 <= n)%nat -> direct_fit prm n p -> has_response (f_y f) v -> penrose (pe_pinv env) -> pp_init prm = Ok prm ->
  pp_center_data prm = true -> pp_center prm = CMean -> pp_trim prm = 0 -> pp_regopt prm = "OLS"%string ->
  pp_fit env prm d X f = (prm', d', Ok m) -> (0 < p)%nat -> pp_ncomp prm' = p -> nonzero_cols (pm_T m) p ->
  (forall j, (j < p)%nat -> nth j (pm_sca m) 0 <> 0) -> (forall ym, pm_y m = Some ym -> ym_sca ym <> 0) ->
  exists ym r, pm_y m = Some ym /\ ym_resid ym = A1 r /\ length v = n /\ (forall i, (i < n)%nat -> nth i r 0 = nth i v 0 - nth i (ym_fitted ym) 0) /\
    (forall j, (j < p)%nat -> orthogonal r (column j X)) /\
    forall b0 b, length b = p -> sqlen r <= sqlen (vdiff v (line b0 b X)).
Proof.
  intros env prm d X f prm' d' m n p v HX Hn2 Hd Hv Hpen Hinit Hcd Hc Ht Hols E Hp Hh Hz Hsx Hsy.
  assert (Hh0 : (0 < pp_ncomp prm')%nat) by lia. assert (Hz' : nonzero_cols (pm_T m) (pp_ncomp prm')) by (rewrite Hh; exact Hz).
  destruct (C106_l _ _ _ _ _ _ _ _ _ _ v HX Hn2 Hd Hv Hpen Hcd Hc Ht Hols E Hh0 Hz' Hsx Hsy) as (ym & r & Eym & Er & Hsum & Hort & Hfit).
  destruct (C68_l env prm d X f prm' d' m n p v HX Hd Hv E Hh0) as (ym2 & b2 & a2 & r2 & Eym2 & _ & Hlv & Hlf & Er2 & Hlr & Hfr & _). rewrite Eym in Eym2. injection Eym2 as <-. rewrite Er in Er2. injection Er2 as <-.
  pose proof (C178_exact_l _ _ _ _ _ _ _ _ _ _ HX Hn2 Hd Hinit E Hp Hh Hz) as HEx.
  assert (Sr : sumn n (fun i => nth i r 0) = 0) by (refine (eq_trans _ Hsum); change sum_of with (@vsum R Num_R); rewrite vsum_sumn, Hlr; reflexivity).
  assert (HlT : forall k, length (column k (pm_T m)) = n).
  { intros k. destruct (decomp_run _ _ _ _ _ _ _ _ _ _ HX Hn2 Hd Hinit E Hh0 Hz') as (Z & cs & _ & _ & _ & _ & HT & _). unfold column. rewrite map_length, HT. unfold of_cols. rewrite map_length, seq_length. reflexivity. }
  assert (Or : forall k, (k < p)%nat -> sumn n (fun i => nth i r 0 * cell (pm_T m) i k) = 0).
  { intros k Hk. rewrite <- Hh in Hk. specialize (Hort k Hk). unfold orthogonal in Hort. rewrite inner_dot, (dot_sumn _ _ n) in Hort by auto. refine (eq_trans _ Hort). apply sumn_ext. intros i Hi. rewrite L_Pca2.column_nth. reflexivity. }
  assert (OX : forall j, (j < p)%nat -> sumn n (fun i => nth i r 0 * cell X i j) = 0).
  { intros j Hj. specialize (Hsx j Hj). rewrite (sumn_ext n _ (fun i => nth j (pm_loc m) 0 * nth i r 0 + nth j (pm_sca m) 0 * sumn p (fun a => cell (pm_P m) j a * (nth i r 0 * cell (pm_T m) i a)))).
    - rewrite sumn_plus, !sumn_scal, Sr, (sumn_exchange n p). rewrite (sumn_zero p); [ring|]. intros a Ha. rewrite sumn_scal, Or by exact Ha. ring.
    - intros i Hi. rewrite (HEx i j Hi Hj). destruct (Req_EM_T (nth j (pm_sca m) 0) 0); [contradiction|]. unfold product. change (sum_to ?a ?b) with (sumn a b).
      rewrite (sumn_ext p (fun a => cell (pm_P m) j a * (nth i r 0 * cell (pm_T m) i a)) (fun a => nth i r 0 * (cell (pm_T m) i a * cell (pm_P m) j a))) by (intros; ring). rewrite sumn_scal. ring. }
  exists ym, r. split; [exact Eym|]. split; [exact Er|]. split; [exact Hlv|]. split; [intros i Hi; specialize (Hfr i Hi); lra|]. split.
  { intros j Hj. unfold orthogonal. rewrite inner_dot, (dot_sumn _ _ n) by (auto; rewrite L_Pca2.column_len; apply HX). refine (eq_trans _ (OX j Hj)). apply sumn_ext. intros i Hi. rewrite L_Pca2.column_nth. reflexivity. }
  intros b0 b Hb. assert (Lf : length (line b0 b X) = n) by (unfold line; rewrite map_length; apply HX).
  set (g := fun i => nth i (ym_fitted ym) 0 - nth i (line b0 b X) 0).
  assert (Og : sumn n (fun i => nth i r 0 * g i) = 0).
  { rewrite (sumn_ext n _ (fun i => (mean_of v - b0) * nth i r 0 + ym_sca ym * sumn p (fun k => nth k (ym_C ym) 0 * (nth i r 0 * cell (pm_T m) i k)) - sumn p (fun j => nth j b 0 * (nth i r 0 * cell X i j)))).
    - rewrite sumn_minus, sumn_plus, !sumn_scal, Sr, !(sumn_exchange n p). rewrite (sumn_zero p) by (intros k Hk; rewrite sumn_scal, Or by exact Hk; ring).
      rewrite (sumn_zero p) by (intros k Hk; rewrite sumn_scal, OX by exact Hk; ring). ring.
    - intros i Hi. unfold g. rewrite (Hfit i Hi), (line_nth n p) by auto. rewrite Hh. change (sum_of (map ?a (seq 0 p))) with (sumn p a).
      rewrite (sumn_ext p (fun k => nth k (ym_C ym) 0 * (nth i r 0 * cell (pm_T m) i k)) (fun k => nth i r 0 * (nth k (ym_C ym) 0 * cell (pm_T m) i k))) by (intros; ring). rewrite sumn_scal.
      rewrite (sumn_ext p (fun j => nth j b 0 * (nth i r 0 * cell X i j)) (fun j => nth i r 0 * (cell X i j * nth j b 0))) by (intros; ring). rewrite sumn_scal. ring. }
  rewrite (sqlen_vdiff n) by auto. rewrite (sumn_ext n _ (fun i => nth i r 0 * nth i r 0 + 2 * (nth i r 0 * g i) + g i * g i)).
  - rewrite !sumn_plus, sumn_scal, Og. rewrite sqlen_dot, (dot_sumn r r n) by auto. assert (0 <= sumn n (fun i => g i * g i)) by (apply sumn_nonneg; intros; apply Rle_0_sqr). lra.
  - intros i Hi. specialize (Hfr i Hi). unfold g. replace (nth i v 0) with (nth i (ym_fitted ym) 0 + nth i r 0) by exact Hfr. ring.
Qed.

Lemma C179_same_l : forall (env : pp_env R) prm d X f prm' d' m n p v inv eta k s fs X0 y0, is_matrix n p X -> (2 <= n)%nat -> direct_fit prm n p -> has_response (f_y f) v -> penrose (pe_pinv env) -> pp_init prm = Ok prm ->
  pp_center_data prm = true -> pp_center prm = CMean -> pp_trim prm = 0 -> pp_regopt prm = "OLS"%string ->
  pp_fit env prm d X f = (prm', d', Ok m) -> (0 < p)%nat -> pp_ncomp prm' = p -> nonzero_cols (pm_T m) p ->
  (forall j, (j < p)%nat -> nth j (pm_sca m) 0 <> 0) -> (forall ym, pm_y m = Some ym -> ym_sca ym <> 0) ->
  snipls_run (pe_prep env) inv eta k CMean s n p X v fs X0 y0 -> plain_scale s -> inverse_ok inv ->
  nonzero_scores fs -> length (sn_C fs) = p -> (forall j, (j < p)%nat -> nth j (sn_xsca fs) 0 <> 0) -> nth 0 (sn_ysca fs) 0 <> 0 ->
  exists ym, pm_y m = Some ym /\ sn_fitted fs = ym_fitted ym.
Proof.
  intros env prm d X f prm' d' m n p v inv eta k s fs X0 y0 HX Hn2 Hd Hv Hpen Hinit Hcd Hc Ht Hols E Hp Hh Hz Hsx Hsy H Hps Hinv Hzs Hk Hsxs Hsys.
  destruct (C179_ppdire_l _ _ _ _ _ _ _ _ _ _ v HX Hn2 Hd Hv Hpen Hinit Hcd Hc Ht Hols E Hp Hh Hz Hsx Hsy) as (ym & r & Eym & Er & Hlv & Hr & Hort & Hmin).
  destruct (C68_l env prm d X f prm' d' m n p v HX Hd Hv E ltac:(lia)) as (ym2 & b2 & a2 & r2 & Eym2 & Hb2 & _ & Hlf & Er2 & Hlr & Hfr & Hpx & Hpn & Hsum & _). rewrite Eym in Eym2. injection Eym2 as <-. rewrite Er in Er2. injection Er2 as <-.
  specialize (Hsum Hc Ht).
  destruct (C35_l _ _ _ _ _ _ _ _ _ _ _ _ _ H) as (Hps1 & Hlsf & Hlsr & Hsfr & _ & _).
  destruct (C35_affine_l _ _ _ _ _ _ _ _ _ _ _ _ _ H) as (bs & Hbs & Hpa & _). rewrite (Hpa n X HX ltac:(lia)) in Hps1. apply Ok_inj in Hps1.
  rewrite Hpn, (wf_ncols n p X HX) in Hpx by lia. rewrite Nat.eqb_refl in Hpx. apply Ok_inj in Hpx.
  assert (L1 : sn_fitted fs = line (sn_intercept fs) bs X) by (rewrite <- Hps1; unfold line; apply map_ext; intros; ring).
  assert (L2 : ym_fitted ym = line a2 b2 X) by (rewrite <- Hpx; unfold line; apply map_ext; intros; ring).
  pose proof (C179_snipls_l env inv eta k s n p X v fs X0 y0 H Hps Hinv Hzs Hk Hsxs Hsys a2 b2 Hb2) as HS. rewrite <- L2 in HS.
  exists ym. split; [exact Eym|].
  assert (Sr : sumn n (fun i => nth i r 0) = 0) by (refine (eq_trans _ Hsum); change sum_of with (@vsum R Num_R); rewrite vsum_sumn, Hlr; reflexivity).
  assert (OX : forall j, (j < p)%nat -> sumn n (fun i => nth i r 0 * cell X i j) = 0).
  { intros j Hj. specialize (Hort j Hj). unfold orthogonal in Hort. rewrite inner_dot, (dot_sumn _ _ n) in Hort by (auto; rewrite L_Pca2.column_len; apply HX). refine (eq_trans _ Hort). apply sumn_ext. intros i Hi. rewrite L_Pca2.column_nth. reflexivity. }
  set (g := fun i => nth i (ym_fitted ym) 0 - nth i (sn_fitted fs) 0).
  assert (Og : sumn n (fun i => nth i r 0 * g i) = 0).
  { rewrite (sumn_ext n _ (fun i => (a2 - sn_intercept fs) * nth i r 0 + sumn p (fun j => (nth j b2 0 - nth j bs 0) * (nth i r 0 * cell X i j)))).
    - rewrite sumn_plus, sumn_scal, Sr, (sumn_exchange n p). rewrite (sumn_zero p) by (intros j Hj; rewrite sumn_scal, OX by exact Hj; ring). ring.
    - intros i Hi. unfold g. rewrite L1, L2, !(line_nth n p) by auto.
      rewrite (sumn_ext p (fun j => (nth j b2 0 - nth j bs 0) * (nth i r 0 * cell X i j)) (fun j => nth i r 0 * (cell X i j * nth j b2 0 - cell X i j * nth j bs 0))) by (intros; ring).
      rewrite sumn_scal, sumn_minus. ring. }
  assert (E1 : sqlen (sn_resid fs) = sqlen r + sumn n (fun i => g i * g i)).
  { rewrite !sqlen_dot, (dot_sumn r r n), (dot_sumn (sn_resid fs) (sn_resid fs) n) by auto.
    rewrite (sumn_ext n _ (fun i => nth i r 0 * nth i r 0 + 2 * (nth i r 0 * g i) + g i * g i)).
    - rewrite !sumn_plus, sumn_scal, Og. ring.
    - intros i Hi. specialize (Hfr i Hi). specialize (Hsfr i Hi). assert (Q : nth i (sn_resid fs) 0 = nth i r 0 + g i) by (unfold g; lra). rewrite Q. ring. }
  assert (E2 : sqlen (vdiff v (ym_fitted ym)) = sqlen r).
  { rewrite (sqlen_vdiff n) by auto. rewrite sqlen_dot, (dot_sumn r r n) by auto. apply sumn_ext. intros i Hi. rewrite (Hr i Hi). reflexivity. }
  assert (G0 : sumn n (fun i => g i * g i) = 0).
  { assert (0 <= sumn n (fun i => g i * g i)) by (apply sumn_nonneg; intros; apply Rle_0_sqr). lra. }
  apply (nth_ext _ _ 0 0); [congruence|]. intros i Hi. rewrite Hlsf in Hi.
  assert (Gi : g i * g i = 0) by (apply (L_EqMat.sumn_zero_inv n (fun i => g i * g i)); auto; intros; apply Rle_0_sqr).
  assert (g i = 0) by nra. unfold g in *. lra.
Qed.
