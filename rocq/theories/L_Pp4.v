(** ppdire.fit without whitening and compression: transform, predict, residuals. *)

From Coq Require Import String Reals List Arith ZArith Bool Lia Lra Permutation.
Import List. Import ListNotations.
From Verif Require Import Num Err Vec VecR OrdR L_Mat L_Lin L_Matmul L_Deflate M_Utils M_Preproc M_Robcent L_Stats L_Scaling L_Scaling2 M_Dicomo M_Ipopt M_Ppdire
  S_Stats S_Regress L_Snipls L_Snipls2 L_Rm2 S_Ppdire L_Pp L_Pp2 L_Pp3.
Open Scope R_scope.

Lemma with_h_fields : forall (prm : pparams R) h, pp_whiten (with_h prm h) = pp_whiten prm /\ pp_compress (with_h prm h) = pp_compress prm /\
  pp_center_data (with_h prm h) = pp_center_data prm /\ pp_center (with_h prm h) = pp_center prm /\ pp_trim (with_h prm h) = pp_trim prm /\
  pp_regopt (with_h prm h) = pp_regopt prm /\ pp_optim (with_h prm h) = pp_optim prm /\ pp_square (with_h prm h) = pp_square prm /\ pp_idx (with_h prm h) = pp_idx prm /\
  pp_alpha (with_h prm h) = pp_alpha prm /\ pp_scale_data (with_h prm h) = pp_scale_data prm.
Proof. intros prm [h|]; repeat split. Qed.

Lemma plain_run : forall (env : pp_env R) prm d X f prm' d' m n p, is_matrix n p X -> direct_fit prm n p -> pp_fit env prm d X f = (prm', d', Ok m) -> (0 < pp_ncomp prm')%nat ->
  (0 < n)%nat /\ (0 < p)%nat /\ prm' = with_h prm (f_h f) /\
  exists most s mX sX Xs yi cs yc Rt ym,
    ix_new (pp_idx prm) = Ok most /\ scale_name prm' = Ok s /\ st_scale env prm' s p X = Ok (mX, sX, Xs) /\ wf n p Xs /\
    st_y env prm' s n (f_y f) = Ok yi /\ st_check prm' (st_opts prm' d) p = Ok tt /\ length cs = pp_ncomp prm' /\
    gchain prm' most (st_kw prm' f yi) (is_some (oy yi)) None n p Xs cs /\ mchain env prm' most (st_kw prm' f yi) (st_opts prm' d) p Xs cs /\
    rotations env p cs = Ok Rt /\
    m = mk_pm p (of_cols p (map g_dir cs)) (of_cols p (map g_p cs)) Rt (of_cols n (map g_t cs)) (map g_crit cs) (map g_max cs) mX sX (negb (pp_center_data prm)) ym /\
    match yi with
    | None => ym = None
    | Some (y, my) => length yc = pp_ncomp prm' /\
        (forall i, (i < pp_ncomp prm')%nat -> yfact env prm' p sX y cs yc i (nth i cs pc0) (nth i yc q0)) /\
        exists ic b0 yfit r,
          let B := of_cols p (map (fun q => snd (fst q)) yc) in
          finish_y prm' s false X Xs y (col (pp_ncomp prm' - 1) B) = Ok (ic, b0, yfit, r) /\
          ym = Some (mk_ym B (of_cols p (map snd yc)) ic b0 yfit r (map (fun q => fst (fst q)) yc) my (yi_sca y))
    end.
Proof.
  intros env prm d X f prm' d' m n p HX [Hw Hc] E Hh. apply run in E; [|exact (wf_rect n p X HX)]. pose proof (wf_length n p X HX) as Hn. rewrite Hn in E.
  destruct E as (most & s & X1 & q & dims & mX & sX & Xs0 & Xs & K & yi & cs & yc & Rt & Ep & Ei & Hm & Es & Ec & Esc & Ew & Ey & Ek & Hl & Hg & Hmc & HR & _ & Hy & He).
  assert (Hn0 : (0 < n)%nat) by lia. rewrite (wf_ncols n p X HX Hn0) in Hm. destruct (with_h_fields prm (f_h f)) as (W1 & W2 & W3 & W4 & W5 & W6 & W7 & W8 & W9 & W10 & W11).
  assert (Ep' : prm' = with_h prm (f_h f)) by (rewrite Ep; unfold with_whitening; rewrite W1, Hw; reflexivity).
  split; [exact Hn0|]. split; [lia|]. split; [exact Ep'|]. clear Ep.
  assert (Hs : st_compress env prm' X = Ok (X, p, None)).
  { unfold st_compress. rewrite Hn, (wf_ncols n p X HX Hn0), Ep', W2. destruct Hc as [->|Hc]; [rewrite andb_false_r; reflexivity|].
    destruct (Nat.ltb_spec n p); [lia|reflexivity]. }
  rewrite Hs in Ec. inversion Ec; subst X1 q dims; clear Ec.
  unfold st_whiten in Ew. rewrite Ep', W1, Hw in Ew. inversion Ew; subst Xs0 K; clear Ew.
  specialize (HR Hh). destruct He as (_ & mX' & sX' & Xs' & E1 & ym & E2 & Hym). inversion E1; subst mX' sX' Xs'; clear E1. cbn [back is_some] in E2, Hym.
  assert (Hgw : map g_w cs = map g_dir cs).
  { clear -Hg. revert Xs Hg. induction cs as [|c l IH]; intros E Hg; auto. destruct Hg as ((_ & _ & _ & _ & _ & _ & H & _) & Hg). cbn. f_equal; eauto. }
  rewrite Hgw, Hn in E2. replace (pp_center_data prm') with (pp_center_data prm) in E2 by (rewrite Ep', W3; reflexivity).
  exists most, s, mX, sX, Xs, yi, cs, yc, Rt, ym. rewrite <- W9, <- Ep'. repeat (split; [first [assumption | apply (gchain_wf _ _ _ _ _ _ _ _ _ Hg); lia]|]).
  destruct yi as [[y my]|]; cbn [oy] in Hy; [|exact Hym]. destruct Hy as [Hy1 Hy2]. split; [exact Hy1|]. split; [exact Hy2|].
  destruct Hym as (ic & b0 & yfit & r & H1 & H2). exists ic, b0, yfit, r. cbn zeta in *. split; [|exact H2].
  destruct yc; [cbn in Hy1; lia|exact H1].
Qed.

(** ** transform *)
Lemma map_const_repeat : forall {S T} (z : T) (l : list S), map (fun _ => z) l = repeat z (length l).
Proof. intros S T z l. induction l; cbn; congruence. Qed.
Lemma scale_data_id : forall n p X, wf n p X -> (1 <= n)%nat -> (1 <= p)%nat -> scale_data X (vzeros p) (repeat 1 p) = Ok X.
Proof.
  intros n p X HX Hn Hp. destruct (scale_data_cells n p X (vzeros p) (repeat 1 p) HX Hn Hp) as (Xs & -> & Hw & Hc).
  - unfold vzeros. apply repeat_length.
  - apply repeat_length.
  - f_equal. apply (mat_ext n p); auto. intros i j Hi Hj. rewrite Hc by auto. unfold vzeros. rewrite !repeat_nth by auto. rnum.
    destruct (Req_EM_T 1 0); [lra|]. unfold Rdiv. rewrite Rinv_1. ring.
Qed.

Lemma C67_l : forall (env : pp_env R) prm d X f prm' d' m n p, is_matrix n p X -> (2 <= n)%nat -> direct_fit prm n p -> penrose (pe_pinv env) ->
  pp_fit env prm d X f = (prm', d', Ok m) -> (0 < pp_ncomp prm')%nat -> nonzero_cols (pm_T m) (pp_ncomp prm') ->
  (pp_center_data prm = true \/ p = 1%nat -> pp_transform m X = Ok (T2 (pm_T m))) /\
  (pp_center_data prm = false -> (2 <= p)%nat -> pp_transform m X = Ok (T3 (repeat (pm_T m) n))).
Proof.
  intros env prm d X f prm' d' m n p HX Hn2 Hd Hp E Hh Hz. destruct (plain_run _ _ _ _ _ _ _ _ _ _ HX Hd E Hh) as
    (Hn & Hp0 & Ep & most & s & mX & sX & Xs & yi & cs & yc & Rt & ym & _ & _ & Esc & HXs & _ & _ & Hl & Hg & _ & HR & -> & _).
  destruct (with_h_fields prm (f_h f)) as (W1 & W2 & W3 & W4 & W5 & W6 & W7 & W8 & W9 & W10 & W11).
  cbn [pm_T] in Hz. rewrite <- Hl in *. destruct (rot_transform env _ _ _ _ n p Xs cs Rt Hp Hn Hp0 Hh Hg Hz HR) as [HRw HT].
  assert (Hsd : scale_data X mX sX = Ok Xs).
  { unfold st_scale in Esc. destruct (pp_center_data prm'); [apply pp_scaled_inv in Esc as [Esc _]; rewrite (check_input_id n p) in Esc by auto; exact Esc|].
    inversion Esc; subst. apply (scale_data_id n); auto. }
  unfold pp_transform. cbn [pm_p pm_loc pm_sca pm_2d pm_R pm_T]. rewrite (wf_ncols n p X HX Hn), Nat.eqb_refl. cbn [negb]. rewrite Hsd. cbn [bind]. rewrite HT. split.
  - intros H. destruct H as [->| ->]; cbn [negb andb]; [reflexivity|]. rewrite andb_false_r. reflexivity.
  - intros -> Hp2. destruct (Nat.eqb_spec p 1); [lia|]. cbn [negb andb]. f_equal. f_equal. rewrite map_const_repeat, (wf_length n p X HX). reflexivity.
Qed.

(** new data: as many copies as rows *)
Lemma C67_new_l : forall (env : pp_env R) prm d X f prm' d' m n p, is_matrix n p X -> direct_fit prm n p ->
  pp_fit env prm d X f = (prm', d', Ok m) -> (0 < pp_ncomp prm')%nat -> pp_center_data prm = false -> (2 <= p)%nat ->
  forall k Xn, is_matrix k p Xn -> (1 <= k)%nat -> pp_transform m Xn = Ok (T3 (repeat (matmul Xn (pm_R m)) k)).
Proof.
  intros env prm d X f prm' d' m n p HX Hd E Hh Hcd Hp2 k Xn HXn Hk. destruct (plain_run _ _ _ _ _ _ _ _ _ _ HX Hd E Hh) as
    (Hn & Hp0 & Ep & most & s & mX & sX & Xs & yi & cs & yc & Rt & ym & _ & _ & Esc & HXs & _ & _ & Hl & Hg & _ & HR & -> & _).
  destruct (with_h_fields prm (f_h f)) as (W1 & W2 & W3 & W4 & W5 & W6 & W7 & W8 & W9 & W10 & W11).
  unfold st_scale in Esc. rewrite Ep, W3, Hcd in Esc. inversion Esc; subst.
  unfold pp_transform. cbn [pm_p pm_loc pm_sca pm_2d pm_R pm_T]. rewrite (wf_ncols k p Xn HXn Hk), Nat.eqb_refl. cbn [negb]. rewrite (scale_data_id k p) by auto. cbn [bind].
  rewrite Hcd. cbn [negb andb]. destruct (Nat.eqb_spec p 1); [lia|]. cbn [negb]. f_equal. f_equal. rewrite map_const_repeat, (wf_length k p Xn HXn). reflexivity.
Qed.

(** ** predict *)
Lemma response_values : forall env prm s n y yi my v, st_y env prm s n y = Ok (Some (yi, my)) -> has_response y v -> yi_0 yi = v /\ length v = n.
Proof.
  intros env prm s n y yi my v E (a & Hy & Ha).
  assert (Hr : exists k, bind (response env prm s n k a) (fun yi => Ok (Some yi)) = Ok (Some (yi, my))).
  { destruct Hy as [-> | ->]; cbn [st_y] in E; unfold st_y in E; eexists; exact E. }
  destruct Hr as (k & Hr). destruct (response env prm s n k a) as [[yi' my']|] eqn:Er; cbn [bind] in Hr; [|discriminate]. inversion Hr; subst.
  unfold response in Er.
  assert (Hrows : match a with A1 v => map (fun a => [a]) v | A2 Y => Y end = map (fun x => [x]) v) by (destruct Ha as [-> | ->]; reflexivity).
  rewrite Hrows in Er. cbn zeta in Er. destruct (negb (_ =? n)%nat) eqn:En; [discriminate|]. apply negb_false_iff, Nat.eqb_eq in En. rewrite map_length in En.
  destruct (negb _); [discriminate|].
  assert (Hc0 : col 0 (map (fun x : R => [x]) v) = v) by (unfold col; rewrite map_map; apply map_id).
  destruct (pp_center_data prm).
  - destruct (pp_scaled _ _ _ _ _) as [[[m w] Z]|]; cbn [bind] in Er; [|discriminate]. inversion Er; subst. cbn [yi_0]. auto.
  - inversion Er; subst. cbn [yi_0]. auto.
Qed.
Lemma has_response_some : forall env prm s n y yi v, st_y env prm s n y = Ok yi -> has_response y v -> exists y0 my, yi = Some (y0, my).
Proof.
  intros env prm s n y yi v E (a & [-> | ->] & _); unfold st_y in E; destruct (response _ _ _ _ _ _) as [[y0 my]|]; cbn [bind] in E; try discriminate; inversion E; eauto.
Qed.

Lemma trim_mean_zero : forall l : list R, l <> [] -> trim_mean1 0 l = Ok (vmean l).
Proof.
  intros l Hl. rewrite trim_mean1_R. assert (Ht : tcut 0 (length l) = 0%nat).
  { unfold tcut. rewrite Rmult_0_l. destruct (base_Int_part 0) as [Ha Hb]. assert (H : IZR (Int_part 0) < 1) by lra. assert (H0 : -1 < IZR (Int_part 0)) by lra. apply lt_IZR in H. change (-1) with (IZR (-1)) in H0. apply lt_IZR in H0. replace (Int_part 0) with 0%Z by lia. reflexivity. }
  rewrite Ht. cbn [Nat.mul Nat.add]. destruct (Nat.ltb_spec (length l) 0); [lia|]. rewrite Nat.sub_0_r. cbn [skipn]. f_equal.
  rewrite firstn_all2 by (rewrite (Permutation_length (sort_perm l)); lia).
  unfold vmean. rewrite (Permutation_length (sort_perm l)). f_equal. change vsum with sum_of. symmetry. 
  generalize (sort_perm l). generalize (sort l). clear. intros s H. unfold sum_of. induction H; cbn; lra.
Qed.

Lemma C68_l : forall (env : pp_env R) prm d X f prm' d' m n p v, is_matrix n p X -> direct_fit prm n p -> has_response (f_y f) v ->
  pp_fit env prm d X f = (prm', d', Ok m) -> (0 < pp_ncomp prm')%nat ->
  exists ym b a r, pm_y m = Some ym /\ length b = p /\ length v = n /\ length (ym_fitted ym) = n /\ ym_resid ym = A1 r /\ length r = n /\
    (forall i, (i < n)%nat -> nth i (ym_fitted ym) 0 + nth i r 0 = nth i v 0) /\
    pp_predict m X = Ok (ym_fitted ym) /\
    (forall Xn, pp_predict m Xn = if (ncols Xn =? p)%nat then Ok (map (fun x => inner x b + a) Xn) else Err ValueError) /\
    (pp_center prm = CMean -> pp_trim prm = 0 -> sum_of r = 0) /\
    (pp_center prm <> CMean -> is_median r 0).
Proof.
  intros env prm d X f prm' d' m n p v HX Hd Hv E Hh. destruct (plain_run _ _ _ _ _ _ _ _ _ _ HX Hd E Hh) as
    (Hn & Hp0 & Ep & most & s & mX & sX & Xs & yi & cs & yc & Rt & ym & _ & _ & Esc & HXs & Ey & _ & Hl & Hg & _ & HR & -> & Hym).
  destruct (with_h_fields prm (f_h f)) as (W1 & W2 & W3 & W4 & W5 & W6 & W7 & W8 & W9 & W10 & W11).
  destruct (has_response_some _ _ _ _ _ _ _ Ey Hv) as (y & my & ->). destruct (response_values _ _ _ _ _ _ _ _ Ey Hv) as [Hy0 Hlv].
  destruct Hym as (Hyc & _ & ic & b0 & yfit & r & Ef & ->). cbn zeta in Ef.
  set (B := of_cols p (map (fun q => snd (fst q)) yc)) in *. set (bi := col (pp_ncomp prm' - 1) B) in *.
  assert (HB : wf p (pp_ncomp prm') B) by (unfold B; rewrite <- Hyc, <- (map_length (fun q : R * list R * list R => snd (fst q)) yc); apply wf_of_cols).
  assert (Hbi : length bi = p) by (unfold bi, col; rewrite map_length; apply (wf_length _ _ _ HB)).
  unfold finish_y in Ef. rewrite Ep, W4, W5 in Ef. rewrite Hy0 in Ef. cbn zeta in Ef.
  assert (Hf : length (matvec X bi) = n) by (rewrite matvec_length; apply (wf_length _ _ _ HX)).
  assert (Hs : vsub v (matvec X bi) <> []).
  { intros H0. apply (f_equal (@length R)) in H0. rewrite vsub_length in H0 by lia. cbn in H0. lia. }
  assert (Hic : exists a, ic = IOne a /\ (if is_mean (pp_center prm) then trim_mean1 (pp_trim prm) (vsub v (matvec X bi)) = Ok a else a = vmedian (vsub v (matvec X bi)))
    /\ yfit = map (fun x => x + a) (matvec X bi) /\ r = A1 (vsub v yfit)).
  { destruct (is_mean (pp_center prm)).
    - destruct (trim_mean1 (pp_trim prm) (vsub v (matvec X bi))) as [a|]; cbn [bind] in Ef; [|discriminate]. injection Ef as E1 E2 E3 E4. exists a. subst ic. split; [reflexivity|]. split; [reflexivity|]. rewrite <- E4, <- E3. split; reflexivity.
    - cbn [bind] in Ef. injection Ef as E1 E2 E3 E4. eexists. split; [symmetry; exact E1|]. split; [reflexivity|]. rewrite <- E4, <- E3. split; reflexivity. }
  destruct Hic as (a & -> & Ha & -> & ->). clear Ef.
  assert (Hres : vsub v (map (fun x => x + a) (matvec X bi)) = map (fun r => r - a) (vsub v (matvec X bi))) by (apply resid_map; lia).
  assert (Hpred : forall Xn, pp_predict (mk_pm p (of_cols p (map g_dir cs)) (of_cols p (map g_p cs)) Rt (of_cols n (map g_t cs)) (map g_crit cs) (map g_max cs) mX sX (negb (pp_center_data prm))
        (Some (mk_ym B (of_cols p (map snd yc)) (IOne a) b0 (map (fun x => x + a) (matvec X bi)) (A1 (vsub v (map (fun x => x + a) (matvec X bi)))) (map (fun q => fst (fst q)) yc) my (yi_sca y)))) Xn
      = if (ncols Xn =? p)%nat then Ok (map (fun x => inner x bi + a) Xn) else Err ValueError).
  { intros Xn. unfold pp_predict. cbn [pm_y pm_p ym_coef ym_intercept]. destruct (ncols Xn =? p)%nat; cbn [negb]; [|reflexivity].
    rewrite (wf_ncols p (pp_ncomp prm') B HB Hp0). destruct (Nat.eqb_spec (pp_ncomp prm') 0); [lia|]. f_equal. fold bi. unfold matvec. rewrite map_map.
    apply map_ext. intros x. rewrite inner_dot. reflexivity. }
  eexists _, bi, a, _. cbn [pm_y]. split; [reflexivity|]. cbn [ym_fitted ym_resid]. split; [exact Hbi|]. split; [exact Hlv|].
  split; [rewrite map_length; exact Hf|]. split; [reflexivity|]. split; [rewrite vsub_length; rewrite ?map_length; lia|]. split; [|split; [|split; [|split]]].
  - intros i Hi. rewrite nth_vsub by (rewrite ?map_length; lia). ring.
  - rewrite Hpred, (wf_ncols n p X HX Hn), Nat.eqb_refl. f_equal. unfold matvec. rewrite map_map. apply map_ext. intros x. rewrite inner_dot. reflexivity.
  - exact Hpred.
  - intros Hc Ht. rewrite Hc in Ha. cbn [is_mean] in Ha. rewrite Ht, trim_mean_zero in Ha by auto. apply Ok_inj in Ha. subst a. rewrite Hres. apply centred_mean; auto.
  - intros Hc. destruct (pp_center prm) eqn:Ec; try congruence; cbn [is_mean] in Ha; rewrite Hres, Ha; apply centred_median; auto.
Qed.
Lemma C68_no_y_l : forall (env : pp_env R) prm d X f prm' d' m Xn, f_y f = YNone -> pp_fit env prm d X f = (prm', d', Ok m) -> pp_predict m Xn = Err AttributeError.
Proof.
  intros env prm d X f prm' d' m Xn Hy E. apply fit_inv in E as (most & s & X1 & p & dims & mX & sX & Xs0 & Xs & K & yi & cs & yc & Rt & _ & _ & _ & _ & _ & _ & _ & Ey & _ & _ & (_ & mX' & sX' & Xs' & _ & ym & -> & Hym)).
  unfold st_y in Ey. rewrite Hy in Ey. inversion Ey; subst. subst ym. reflexivity.
Qed.
