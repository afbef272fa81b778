(** fitted values of snipls in terms of the scores; comparison with ppdire *)

From Coq Require Import String Reals List Arith ZArith Bool Lia Lra.
Import List. Import ListNotations.
From Verif Require Import Num Err Vec VecR L_Mat L_Lin L_Deflate S_Stats S_Regress L_Stats M_Utils M_Preproc M_Robcent L_Scaling M_Dicomo S_Dicomo L_Dicomo L_Dicomo2 M_Ipopt M_Plot M_Snipls L_Snipls L_Snipls2 L_Snipls3
  M_Ppdire M_PpWorld S_Ppdire S_Ppdire2 S_Sudire L_Pp L_Pp2 L_Pp3 L_Pp4 L_Pp5 L_Pp6 L_Pp8 S_Pca L_Pca2 L_Pls.
Open Scope R_scope.

Lemma sn_fitted_scores : forall (env : pp_env R) inv eta k s n p X y f X0 y0, snipls_run (pe_prep env) inv eta k CMean s n p X y f X0 y0 -> inverse_ok inv -> nonzero_scores f ->
  (forall j, (j < p)%nat -> nth j (sn_xsca f) 0 <> 0) ->
  forall i, (i < n)%nat -> nth i (sn_fitted f) 0 = mean_of y + nth 0 (sn_ysca f) 0 * sum_of (map (fun a => nth a (sn_C f) 0 * cell (sn_T f) i a) (seq 0 (length (sn_C f)))).
Proof.
  intros env inv eta k s n p X y f X0 y0 H Hinv Hz Hsx. destruct (C38_l _ _ _ _ _ _ _ _ _ _ _ _ _ H Hinv) as (_ & _ & _ & HR). specialize (HR Hz).
  destruct (C35_l _ _ _ _ _ _ _ _ _ _ _ _ _ H) as (_ & Hlf & Hlr & Hfr & Hsum & _). specialize (Hsum eq_refl).
  pose proof (run_scaled _ _ _ _ _ _ _ _ _ _ _ _ _ H) as [HW0 Hl0].
  destruct H as (HX & Hn2 & Hp & Hy & Hf & HX0 & Hy0). assert (Hn : (0 < n)%nat) by lia.
  destruct (fit_attrs (pe_prep env) inv eta k CMean s n p X y f X0 y0 HX Hn2 Hp Hy Hf HX0 Hy0) as (_ & Hls & _ & _ & _ & _ & Ecoef & _ & Efit & _ & _ & _ & _ & _ & Esc & _).
  pose proof (coef_len (pe_prep env) inv eta k CMean s n p X y f X0 y0 HX Hn2 Hp Hy Hf HX0 Hy0) as HB.
  destruct (centred_cells env s n p X (sn_xloc f) (sn_xsca f) X0 HX Hn2 Hp Hls Esc Hsx) as (_ & HXc & HXs0).
  set (B := sn_coef_scaled f) in *. set (sy := nth 0 (sn_ysca f) 0) in *. set (b := sn_coef f) in *. set (m := sn_xloc f) in *. set (sx := sn_xsca f) in *.
  assert (Hlb : length b = p) by (rewrite Ecoef, map2_length; lia).
  assert (Hb : forall j, (j < p)%nat -> nth j b 0 = (sy / nth j sx 0) * nth j B 0) by (intros j Hj; rewrite Ecoef, (nth_map2 _ _ _ _ 0 0 0) by lia; reflexivity).
  set (TC := fun i => sumn p (fun j => mget X0 i j * nth j B 0)).
  assert (HTC : forall i, (i < n)%nat -> TC i = sum_of (map (fun a => nth a (sn_C f) 0 * cell (sn_T f) i a) (seq 0 (length (sn_C f))))).
  { intros i Hi. apply (f_equal (fun l => nth i l 0)) in HR. unfold partial_residual, vdiff in HR.
    rewrite (nth_map_lt _ _ _ 0%nat) in HR by (rewrite seq_length; lia). rewrite seq_nth in HR by lia. cbn [plus] in HR.
    rewrite (nth_map_lt _ _ _ (0, 0)) in HR by (rewrite combine_length; unfold fitted_by; rewrite map_length, (wf_length _ _ _ HW0); lia).
    rewrite combine_nth in HR by (unfold fitted_by; rewrite map_length, (wf_length _ _ _ HW0); lia). cbn [fst snd] in HR.
    assert (HF : nth i (fitted_by X0 B) 0 = TC i).
    { unfold fitted_by. rewrite (nth_map_lt _ _ _ []) by (rewrite (wf_length _ _ _ HW0); auto). rewrite inner_dot. apply (dot_row_sumn n p); auto. }
    lra. }
  assert (HTC0 : sumn n TC = 0).
  { unfold TC. rewrite sumn_exchange. rewrite (sumn_ext p _ (fun _ => 0)).
    - rewrite sumn_const. ring.
    - intros j Hj. rewrite (sumn_ext n _ (fun i => nth j B 0 * mget X0 i j)) by (intros; ring). rewrite sumn_scal, HXs0 by auto. ring. }
  assert (Hfit : exists K, forall i, (i < n)%nat -> nth i (sn_fitted f) 0 = K + sy * TC i).
  { exists (sumn p (fun j => nth j m 0 * nth j b 0) + sn_intercept f). intros i Hi. rewrite Efit.
    rewrite (nth_map_lt _ _ _ 0) by (rewrite matvec_length, (wf_length _ _ _ HX); auto). rewrite nth_matvec by (rewrite (wf_length _ _ _ HX); auto).
    rewrite (dot_row_sumn n p) by auto. unfold TC. rewrite <- sumn_scal.
    rewrite Rplus_assoc, (Rplus_comm (sn_intercept f)), <- Rplus_assoc. f_equal. rewrite <- sumn_plus. apply sumn_ext. intros j Hj.
    rewrite (HXc i j) by auto. rewrite Hb by auto. specialize (Hsx j Hj). field. auto. }
  destruct Hfit as (K & Hfit).
  assert (HK : K = mean_of y).
  { assert (Hs0 : sumn n (fun i => nth i (sn_resid f) 0) = 0) by (transitivity (sum_of (sn_resid f)); [change sum_of with (@vsum R Num_R); rewrite vsum_sumn, Hlr; reflexivity|exact Hsum]).
    assert (Hsy : sumn n (fun i => nth i y 0) = sum_of y) by (change sum_of with (@vsum R Num_R); rewrite vsum_sumn, Hy; reflexivity).
    rewrite (sumn_ext n _ (fun i => nth i y 0 - (K + sy * TC i))) in Hs0 by (intros i Hi; rewrite <- Hfit by auto; specialize (Hfr i Hi); lra).
    rewrite sumn_minus, sumn_plus, sumn_scal, HTC0, sumn_const, Hsy in Hs0. assert (INR n <> 0) by (apply not_0_INR; lia).
    unfold mean_of. rewrite Hy. apply (Rmult_eq_reg_l (INR n)); [|auto]. field_simplify; [|auto]. lra. }
  intros i Hi. rewrite Hfit, HK, HTC by auto. reflexivity.
Qed.

Lemma tmatvec_columns : forall n p (E : list (list R)) y, wf n p E -> (0 < n)%nat -> tmatvec E y = map (fun j => inner (column j E) y) (seq 0 p).
Proof.
  intros n p E y HE Hn. unfold tmatvec, cols. rewrite (wf_ncols n p E HE Hn), map_map. apply map_ext. intros j. rewrite inner_dot. reflexivity.
Qed.

Lemma C176_weights_l : forall (env : pp_env R) prm d X f prm' d' m n p dc s v, is_matrix n p X -> (2 <= n)%nat -> direct_fit prm n p -> pp_init prm = Ok prm ->
  pp_optim prm <> OGrid -> exact_optimiser env (pp_optim prm) -> pp_center prm = CMean -> pp_center_data prm = true -> pp_trim prm = 0 ->
  ix_new (pp_idx prm) = Ok (fit_result dc s) -> configured s "arithmetic" "cov" "mean" -> has_response (f_y f) v ->
  pp_fit env prm d X f = (prm', d', Ok m) -> (0 < pp_ncomp prm')%nat ->
  (forall i, (i < pp_ncomp prm')%nat -> 0 < nth i (pm_max m) 0) ->
  exists Z ym, S_Ppdire2.scaled_by n p X (pm_loc m) (pm_sca m) Z /\ pm_y m = Some ym /\
    let ys := map (fun a => (a - ym_loc ym) / (if Req_EM_T (ym_sca ym) 0 then 1 else ym_sca ym)) v in
    forall i, (i < pp_ncomp prm')%nat ->
      let E := deflate_all p Z (first_columns i (pm_T m)) in
      let c := map (fun j => inner (column j E) ys) (seq 0 p) in
      0 < sqlen c /\ column i (pm_W m) = map (fun a => a / sqrt (sqlen c)) c /\
      inner (column i (pm_T m)) ys = sqrt (sqlen c) /\
      nth i (pm_max m) 0 = bessel (f_bias f) n * (sqrt (sqlen c) / INR n).
Proof.
  intros env prm d X f prm' d' m n p dc s v HX Hn2 Hd Hinit Ho Hopt Hcm Hcd Htr Hix Hcf Hv E Hh Hpos.
  destruct (C148_l _ _ _ _ _ _ _ _ _ _ HX Hn2 Hd Hinit Htr E Hh) as (_ & _ & _ & Hsy). destruct (Hsy v Hv) as (ym & Eym & Hsc).
  destruct (fit_asked _ _ _ _ _ _ _ _ _ _ HX Hd Ho E Hh) as (Hn & Hp & _ & _ & s0 & _ & _ & _ & yi & _ & _ & _ & _ & _ & _ & _ & Ey & _).
  destruct (has_response_some _ _ _ _ _ _ _ Ey Hv) as (y & my & ->). destruct (response_values _ _ _ _ _ _ _ _ Ey Hv) as [_ Hlv]. clear Ey.
  destruct (C147_l _ _ _ _ _ _ _ _ _ _ HX Hn2 Hd Hinit Ho E Hh) as (most & ysk & Z & Hix' & HZ & _ & HY & Hall).
  rewrite Hix in Hix'. apply Ok_inj in Hix'. subst most. destruct (HY v Hv) as (ym' & Eym' & Eys). rewrite Eym in Eym'. injection Eym' as <-.
  exists Z, ym. split; [exact HZ|]. split; [exact Eym|]. cbv zeta. set (ys := map (fun a => (a - ym_loc ym) / (if Req_EM_T (ym_sca ym) 0 then 1 else ym_sca ym)) v). intros i Hi.
  assert (Hly : length ys = n) by (unfold ys; rewrite map_length; exact Hlv).
  assert (Hy0 : sum_of ys = 0) by (unfold scaling_of in Hsc; rewrite Hcd, Hcm in Hsc; destruct Hsc as [[Hsc _] _]; unfold ys; rewrite Hsc; apply sum_standardised; lia).
  assert (Eys' : ysk = Some (as_col ys)) by (rewrite Eys; unfold as_col, ys; rewrite map_map; reflexivity).
  destruct (Hall i Hi) as (HE & HTi & dd & g & x & Eo & Hlx & Hw & Hg & Hmx & Hbest). set (Ei := deflate_all p Z (first_columns i (pm_T m))) in *.
  set (kw := mk_dkw ysk (Some (pp_trim prm)) (Some (f_bias f)) (Some (pp_alpha prm)) None None None None None (Some euclid)) in *.
  assert (Hkt : no_trimming kw) by (right; cbn; rewrite Htr; reflexivity).
  assert (Hind : forall u, length u = p -> fit_result dc s (A2 (map (fun r => [inner r u]) Ei)) kw = Ok (dot (tmatvec Ei ys) u / INR n * bessel (f_bias f) n)).
  { intros u Hu. rewrite <- (index_col n p) by exact HE. rewrite (index_value dc s kw n p ys Hn Hn2 Hp Hcf Hkt Eys' Hly Hy0) by auto. reflexivity. }
  rewrite <- (tmatvec_columns n p) by auto. set (c := tmatvec Ei ys) in *. assert (Hlc : length c = p) by (apply (tmatvec_length n p); auto).
  pose proof (Hopt _ _ _ _ Eo) as Hu. rewrite (row0_len n p) in Hu by auto. specialize (Hbest Hu). destruct Hu as (_ & Hx1 & _).
  assert (Ewx : column i (pm_W m) = x) by (rewrite Hw; apply unit_norm; exact Hx1). rewrite Ewx in *.
  assert (Hn' : 0 < INR n) by (apply lt_0_INR; auto). pose proof (bessel_pos (f_bias f) n Hn2) as Hb.
  assert (Hq : 0 < / INR n * bessel (f_bias f) n) by (apply Rmult_lt_0_compat; [apply Rinv_0_lt_compat; auto|auto]).
  change (fit_result dc s (A2 (map (fun r => [inner r x]) Ei)) kw = Ok (nth i (pm_max m) 0)) in Hmx. rewrite Hind in Hmx by auto. apply Ok_inj in Hmx. specialize (Hpos i Hi).
  destruct (best_unit p c x Hlc Hlx Hx1) as (B1 & B2 & B3).
  - rewrite <- Hmx in Hpos. apply (Rmult_lt_reg_r (/ INR n * bessel (f_bias f) n)); [auto|]. unfold Rdiv in Hpos. lra.
  - intros u Hlu Hu1. specialize (Hbest u _ Hlu Hu1 (Hind u Hlu)). rewrite <- Hmx in Hbest. apply (Rmult_le_reg_r (/ INR n * bessel (f_bias f) n)); [auto|]. unfold Rdiv in Hbest. lra.
  - assert (Hnorm : sqrt (sqlen c) = vnorm c) by (rewrite sqlen_dot, <- norm_sq; apply sqrt_square; apply norm_nonneg). rewrite Hnorm.
    split; [rewrite sqlen_dot, <- norm_sq; nra|]. split; [exact B2|]. split; [|rewrite <- Hmx, B3; field; lra].
    rewrite HTi. rewrite inner_dot. change (map (fun r => inner r x) Ei) with (fitted_by Ei x). rewrite fitted_by_matvec, dot_comm, <- (L_Lin.adjoint n p) by auto. exact B3.
Qed.

Lemma C176_fitted_l : forall (env : pp_env R) prm d X f prm' d' m n p dc s inv v fs, is_matrix n p X -> (2 <= n)%nat -> direct_fit prm n p -> pp_init prm = Ok prm ->
  pp_optim prm <> OGrid -> exact_optimiser env (pp_optim prm) -> pp_center prm = CMean -> pp_center_data prm = true -> pp_trim prm = 0 ->
  ix_new (pp_idx prm) = Ok (fit_result dc s) -> configured s "arithmetic" "cov" "mean" -> has_response (f_y f) v ->
  pp_fit env prm d X f = (prm', d', Ok m) -> (0 < pp_ncomp prm')%nat ->
  (forall i, (i < pp_ncomp prm')%nat -> 0 < nth i (pm_max m) 0) ->
  snipls_fit (pe_prep env) inv 0 (pp_ncomp prm') CMean (if pp_scale_data prm then SStd else SNone) X v = Ok fs ->
  penrose (pe_pinv env) -> inverse_ok inv -> pp_regopt prm = "OLS"%string ->
  (forall j, (j < p)%nat -> nth j (pm_sca m) 0 <> 0) -> (forall ym, pm_y m = Some ym -> ym_sca ym <> 0) ->
  exists ym, pm_y m = Some ym /\ sn_fitted fs = ym_fitted ym.
Proof.
  intros env prm d X f prm' d' m n p dc s inv v fs HX Hn2 Hd Hinit Ho Hopt Hcm Hcd Htr Hix Hcf Hv E Hh Hpos Es Hpen Hinv Hols Hsx Hsy.
  destruct (C176_l _ _ _ _ _ _ _ _ _ _ _ _ _ _ _ HX Hn2 Hd Hinit Ho Hopt Hcm Hcd Htr Hix Hcf Hv E Hh Hpos Es) as (_ & ET & HlC & _ & HC). destruct (HC Hols) as (ym & Eym & EC).
  (* scores are not zero *)
  destruct (fit_asked _ _ _ _ _ _ _ _ _ _ HX Hd Ho E Hh) as (Hn & Hp & Ep & most & s' & mX & sX & Xs & yi & cs & Rt & ym0 & Hix' & Hsn & Esc & HXs & Ey & Hl & Hg & Hm & Hoc & Em & Hym).
  rewrite Hix in Hix'. apply Ok_inj in Hix'. subst most.
  destruct (with_h_fields prm (f_h f)) as (W1 & W2 & W3 & W4 & W5 & W6 & W7 & W8 & W9 & W10 & W11). rewrite <- Ep in W1, W2, W3, W4, W5, W6, W7, W8, W9, W10, W11.
  destruct (has_response_some _ _ _ _ _ _ _ Ey Hv) as (y & my & ->). destruct (response_values _ _ _ _ _ _ _ _ Ey Hv) as [_ Hlv].
  destruct (response_scaled_by env prm' s' n (f_y f) y my v) as (HyS & Hly & myv & syv & Zv & EZv & Esy); try assumption; [congruence|congruence|].
  assert (Hs' : s' = if pp_scale_data prm then SStd else SNone).
  { unfold scale_name in Hsn. rewrite W11, W4, Hcm in Hsn. destruct (pp_scale_data prm); apply Ok_inj in Hsn; auto. }
  unfold st_scale in Esc. rewrite W3, Hcd, W4, Hcm, W5, Htr in Esc. pose proof (pp_scaled_by _ _ _ _ _ _ _ Esc) as SX. rewrite W4, Hcm in HyS. rewrite <- Hs' in Es.
  assert (Hrun : snipls_run (pe_prep env) inv 0 (pp_ncomp prm') CMean s' n p X v fs Xs (yi_s y)) by exact (conj HX (conj Hn2 (conj Hp (conj Hlv (conj Es (conj SX HyS)))))). 
  destruct (fit_attrs (pe_prep env) inv 0 (pp_ncomp prm') CMean s' n p X v fs Xs (yi_s y) HX Hn2 Hp Hlv Es SX HyS) as (_ & _ & _ & _ & _ & _ & _ & _ & _ & _ & _ & _ & _ & _ & EscX & EscY).
  rewrite W4, Hcm in EZv. rewrite EscY in EZv. injection EZv as _ Esv _.
  change (pp_scaled env CMean s' 0 X = Ok (sn_xloc fs, sn_xsca fs, Xs)) in EscX. rewrite Esc in EscX. injection EscX as _ EsX.
  destruct (C176_weights_l _ _ _ _ _ _ _ _ _ _ _ _ _ HX Hn2 Hd Hinit Ho Hopt Hcm Hcd Htr Hix Hcf Hv E Hh Hpos) as (Z & ym1 & _ & Eym1 & HW). cbv zeta in HW.
  assert (Hz : nonzero_cols (pm_T m) (pp_ncomp prm')).
  { intros i Hi Hz. destruct (HW i Hi) as (Hc1 & _ & Hc2 & _). rewrite sqlen_dot in Hz. apply dot_self_zero in Hz. rewrite inner_dot, dot_zero_l in Hc2 by exact Hz.
    apply sqrt_lt_R0 in Hc1. lra. }
  destruct (C106_l _ _ _ _ _ _ _ _ _ _ v HX Hn2 Hd Hv Hpen Hcd Hcm Htr Hols E Hh Hz Hsx Hsy) as (ym2 & r & Eym2 & _ & _ & _ & Hf2). rewrite Eym in Eym2. injection Eym2 as <-.
  exists ym. split; [exact Eym|].
  assert (Hsca : nth 0 (sn_ysca fs) 0 = ym_sca ym).
  { rewrite Esv, Esy. destruct Hym as (ic & b0 & yfit & r' & B & Bs & C & Hym). rewrite Em, Hym in Eym. cbn [pm_y] in Eym. injection Eym as <-. reflexivity. }
  assert (Hnz : nonzero_scores fs) by (intros a Ha; rewrite ET; apply Hz; lia).
  assert (Hsx' : forall j, (j < p)%nat -> nth j (sn_xsca fs) 0 <> 0) by (intros j Hj; rewrite <- EsX; rewrite Em in Hsx; apply Hsx; exact Hj).
  destruct (C35_l _ _ _ _ _ _ _ _ _ _ _ _ _ Hrun) as (_ & Hlf & _).
  destruct (C68_l env prm d X f prm' d' m n p v HX Hd Hv E Hh) as (ym3 & b3 & a3 & r3 & Eym3 & _ & _ & Hlf3 & _). rewrite Eym in Eym3. injection Eym3 as <-.
  apply (nth_ext _ _ 0 0); [congruence|]. intros i Hi. rewrite Hlf in Hi.
  rewrite (sn_fitted_scores env _ _ _ _ _ _ _ _ _ _ _ Hrun Hinv Hnz Hsx' i Hi), Hf2 by auto. rewrite Hsca, HlC, ET, EC. reflexivity.
Qed.
