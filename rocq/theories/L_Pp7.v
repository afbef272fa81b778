(** ppdire.fit on compressed data (more columns than rows). *)

From Coq Require Import String Reals List Arith ZArith Bool Lia Lra.
Import List. Import ListNotations.
From Verif Require Import Num Err Vec VecR L_Mat L_Lin L_Matmul L_Deflate M_Utils M_Preproc M_Robcent L_Stats L_Scaling L_Scaling2 M_Dicomo M_Ipopt M_Ppdire
  S_Stats S_Regress L_Snipls L_Snipls2 L_Rm2 S_Ppdire L_Pp L_Pp2 L_Pp3 L_Pp4 L_Pp6.
Open Scope R_scope.

Lemma mapM_all : forall (f : list R -> res R) g l, (forall x, In x l -> f x = Ok (g x)) -> mapM f l = Ok (map g l).
Proof. intros f g l. induction l as [|a l IH]; intros H; [reflexivity|]. cbn. rewrite H by (left; auto). cbn [bind]. rewrite IH by (intros; apply H; right; auto). reflexivity. Qed.

Lemma vmean_minus : forall (v : list R) c, v <> [] -> vmean (map (fun a => a - c) v) = vmean v - c.
Proof.
  intros v c Hv. replace (map (fun a => a - c) v) with (map (fun x => 1 * x + (- c)) v) by (apply map_ext; intros; ring).
  rewrite vmean_affine by auto. ring.
Qed.

(** a successful fit has really compressed the data *)
Lemma compressed : forall (env : pp_env R) prm d X f prm' d' m n p, is_matrix n p X -> (2 <= n)%nat -> (n < p)%nat -> pp_whiten prm = false -> pp_compress prm = true ->
  economy_shapes (pe_svd env) -> pp_fit env prm d X f = (prm', d', Ok m) -> (0 < pp_ncomp prm')%nat ->
  prm' = with_h prm (f_h f) /\
  exists s V Xs' mX' sX' yi cs yc Rt mX sX Xs ym, scale_name prm' = Ok s /\ is_matrix p n V /\ st_y env prm' s n (f_y f) = Ok yi /\
    m = mk_pm p (back n (Some V) (of_cols n (map g_w cs))) (back n (Some V) (of_cols n (map g_p cs))) (back n (Some V) Rt) (of_cols n (map g_t cs))
          (map g_crit cs) (map g_max cs) mX' sX' (negb (pp_center_data prm')) ym /\
    st_scale env prm' s n X = Ok (mX', sX', Xs') /\
    match yi with
    | None => ym = None
    | Some (y, my) => length yc = pp_ncomp prm' /\ (forall i, (i < pp_ncomp prm')%nat -> yfact env prm' n sX y cs yc i (nth i cs pc0) (nth i yc q0)) /\
        exists ic b0 yfit r,
          let B := back n (Some V) (of_cols n (map (fun q => snd (fst q)) yc)) in
          finish_y prm' s true X Xs' y (col (pp_ncomp prm' - 1) B) = Ok (ic, b0, yfit, r) /\
          ym = Some (mk_ym B (back n (Some V) (of_cols n (map snd yc))) ic b0 yfit r (map (fun q => fst (fst q)) yc) my (yi_sca y))
    end /\
    length cs = pp_ncomp prm' /\ wf n n Xs /\ gchain prm' (match ix_new (pp_idx prm) with Ok most => most | Err e => fun _ _ => Err e end) (st_kw prm' f yi) (is_some (oy yi)) None n n Xs cs /\ st_scale env prm' s n (match pe_svd env (transpose X) with Ok (_, sv, U) => map (fun r => map2 Rmult r sv) (transpose U) | Err _ => [] end) = Ok (mX, sX, Xs).
Proof.
  intros env prm d X f prm' d' m n p HX Hn Hnp Hw Hc Hsvd E Hh. apply run in E; [|exact (wf_rect n p X HX)]. pose proof (wf_length n p X HX) as Hnl. rewrite Hnl in E.
  destruct E as (most & s & X1 & q & dims & mX & sX & Xs0 & Xs & K & yi & cs & yc & Rt & Ep & Ei & Hm & Es & Ec & Esc & Ew & Ey & Ek & Hl & Hg & Hmc & HR & _ & Hy & He).
  destruct (with_h_fields prm (f_h f)) as (W1 & W2 & W3 & W4 & W5 & W6 & W7 & W8 & W9 & W10 & W11).
  assert (Ep' : prm' = with_h prm (f_h f)) by (rewrite Ep; unfold with_whitening; rewrite W1, Hw; reflexivity).
  split; [exact Ep'|]. clear Ep.
  unfold st_compress in Ec. rewrite Hnl, (wf_ncols n p X HX) in Ec by lia. rewrite Ep', W2, Hc in Ec.
  destruct (Nat.ltb_spec n p); [|lia]. cbn [andb] in Ec. destruct (pe_svd env (transpose X)) as [[[V sv] U]|] eqn:Es0; cbn [bind] in Ec; [|discriminate].
  assert (HXt : wf p n (transpose X)) by (apply wf_cols; [exact HX|lia]).
  destruct (Hsvd _ _ _ V sv U HXt Es0) as (HV & Hsv & HU). rewrite Nat.min_r in HV, Hsv, HU by lia.
  assert (HUt : wf n n (transpose U)) by (apply wf_cols; [exact HU|lia]).
  assert (HXc : wf n n (map (fun r => map2 nmul r sv) (transpose U))).
  { destruct HUt as [H1 H2]. split; [rewrite map_length; exact H1|]. apply Forall_forall. intros r Hr. apply in_map_iff in Hr as (u & <- & Hu). rewrite Forall_forall in H2. rewrite map2_length, (H2 u Hu), Hsv. lia. }
  rewrite (wf_ncols n n _ HXc) in Ec by lia.
  unfold st_whiten in Ew. rewrite Ep', W1, Hw in Ew. apply Ok_inj, pair_equal_spec in Ew as [-> <-].
  assert (HXs : wf n q Xs) by (apply (gchain_wf _ _ _ _ _ _ _ _ _ Hg); lia).
  destruct (existsb _ _).
  { exfalso. apply Ok_inj in Ec. apply pair_equal_spec in Ec as [Ec <-]. apply pair_equal_spec in Ec as [<- <-].
    assert (Hbad : wf n p Xs).
    { unfold st_scale in Esc. destruct (pp_center_data prm').
      - apply pp_scaled_inv in Esc as (Esc & _). rewrite (check_input_id n p) in Esc by (auto; lia).
        apply (scale_data_wf n p X Xs mX sX); auto; lia.
      - inversion Esc; subst. exact HX. }
    assert (ncols Xs = n) by (apply (wf_ncols n n); auto; lia). assert (ncols Xs = p) by (apply (wf_ncols n p); auto; lia). lia. }
  apply Ok_inj in Ec. apply pair_equal_spec in Ec as [Ec <-]. apply pair_equal_spec in Ec as [<- <-].
  destruct He as (_ & mX' & sX' & Xs' & E1 & ym & E2 & Hym). rewrite Hnl, (wf_ncols n p X HX) in E2 by lia.
  exists s, V, Xs', mX', sX', yi, cs, yc, Rt, mX, sX, Xs, ym. split; [exact Es|]. split; [exact HV|]. split; [exact Ey|]. split; [exact E2|]. split; [exact E1|].
  split; [|split; [exact Hl|split; [exact HXs|]]].
  - destruct yi as [[y my]|]; [|exact Hym]. cbn [oy] in Hy. destruct Hy as [Hy1 Hy2]. split; [exact Hy1|]. split; [exact Hy2|].
    destruct Hym as (ic & b0 & yfit & r & Hf & Hym). cbn zeta in Hf. exists ic, b0, yfit, r. cbn zeta.
    assert (Hyc : yc <> []) by (intros ->; cbn in Hy1; lia). destruct yc as [|c0 yc]; [congruence|]. split; [exact Hf|exact Hym].
  - split; [|exact Esc]. replace (pp_idx prm) with (pp_idx prm') by (rewrite Ep'; exact W9). rewrite Ei. exact Hg.
Qed.

Lemma C107_l : forall (env : pp_env R) prm d X f prm' d' m n p v, is_matrix n p X -> (2 <= n)%nat -> (n < p)%nat -> pp_whiten prm = false -> pp_compress prm = true ->
  pp_center prm = CMean -> pp_trim prm = 0 -> economy_shapes (pe_svd env) -> has_response (f_y f) v -> pp_fit env prm d X f = (prm', d', Ok m) -> (0 < pp_ncomp prm')%nat ->
  exists ym, pm_y m = Some ym /\ is_matrix p (pp_ncomp prm') (ym_coef ym) /\
    ym_fitted ym = repeat (mean_of v) n /\ ym_resid ym = A2 (map (fun a => repeat (a - mean_of v) n) v) /\
    pp_predict m X = Ok (repeat (mean_of v) n) /\
    (forall k Xn, is_matrix k p Xn -> (2 <= k)%nat -> k <> n -> pp_predict m Xn = Err ValueError).
Proof.
  intros env prm d X f prm' d' m n p v HX Hn Hnp Hw Hc Hcm Ht Hsvd Hv E Hh.
  destruct (compressed _ _ _ _ _ _ _ _ _ _ HX Hn Hnp Hw Hc Hsvd E Hh) as (Ep & s & V & Xs' & mX' & sX' & yi & cs & yc & Rt & mX & sX & Xs & ym & Es & HV & Ey & -> & Esc & Hym & _).
  destruct (with_h_fields prm (f_h f)) as (W1 & W2 & W3 & W4 & W5 & W6 & W7 & W8 & W9 & W10 & W11).
  destruct (has_response_some _ _ _ _ _ _ _ Ey Hv) as (y & my & ->). destruct (response_values _ _ _ _ _ _ _ _ Ey Hv) as [Hy0 Hlv].
  destruct Hym as (Hyc & _ & ic & b0 & yfit & r & Ef & ->). cbn zeta in Ef.
  set (B := back n (Some V) (of_cols n (map (fun q => snd (fst q)) yc))) in *. set (bi := col (pp_ncomp prm' - 1) B) in *.
  assert (HB : wf p (pp_ncomp prm') B).
  { unfold B, back. rewrite <- Hyc, <- (map_length (fun q : R * list R * list R => snd (fst q)) yc). apply (wf_matmul p n); [|apply wf_of_cols|lia].
    destruct HV as [H1 H2]. split; [rewrite map_length; exact H1|]. apply Forall_forall. intros z Hz. apply in_map_iff in Hz as (u & <- & Hu). rewrite Forall_forall in H2. rewrite firstn_length, (H2 u Hu). lia. }
  unfold finish_y in Ef. rewrite Ep, W4, W5, Hcm, Ht, Hy0 in Ef. cbn [is_mean] in Ef. cbn zeta in Ef.
  set (fx := matvec X bi) in *. assert (Hfx : length fx = n) by (unfold fx; rewrite matvec_length; apply (wf_length _ _ _ HX)).
  assert (Hvn : v <> []) by (intros ->; cbn in Hlv; lia).
  assert (Hcols : cols (col_minus_row v fx) = map (fun b => map (fun a => a - b) v) fx).
  { assert (Hcm' : wf n n (col_minus_row v fx)).
    { split; [unfold col_minus_row; rewrite map_length; exact Hlv|]. apply Forall_forall. intros z Hz. unfold col_minus_row in Hz. apply in_map_iff in Hz as (u & <- & _). rewrite map_length. exact Hfx. }
    unfold cols. rewrite (wf_ncols n n _ Hcm') by lia. apply (list_ext _ _ []); [rewrite !map_length, seq_length; auto|]. rewrite map_length, seq_length. intros j Hj.
    rewrite (nth_map_lt _ _ _ 0%nat) by (rewrite seq_length; auto). rewrite seq_nth by auto. rewrite (nth_map_lt _ _ _ 0) by lia. cbn [Nat.add].
    unfold col, col_minus_row. rewrite map_map. apply map_ext. intros a. rewrite (nth_map_lt _ _ _ 0) by lia. reflexivity. }
  rewrite Hcols in Ef.
  rewrite (mapM_all _ (fun l => vmean l)) in Ef.
  2:{ intros l Hl. apply in_map_iff in Hl as (b & <- & _). apply trim_mean_zero. destruct v; [congruence|discriminate]. }
  cbn [bind] in Ef. injection Ef as E1 E2 E3 E4. rewrite E3 in E4. rewrite map_map in E1, E3.
  assert (Hint : map (fun b => vmean (map (fun a => a - b) v)) fx = map (fun b => mean_of v - b) fx).
  { apply map_ext. intros b. rewrite vmean_minus by auto. rewrite mean_of_vmean. reflexivity. }
  assert (Hyf : vadd fx (map (fun b => mean_of v - b) fx) = repeat (mean_of v) n).
  { apply (list_ext _ _ 0); [unfold vadd; rewrite map2_length, map_length, repeat_length; lia|]. unfold vadd. rewrite map2_length, map_length. intros i Hi.
    rewrite (nth_map2 _ _ _ _ 0 0) by (rewrite ?map_length; lia). rewrite (nth_map_lt _ _ _ 0) by lia. rewrite repeat_nth by lia. rnum. ring. }
  match type of E1 with IMany ?t = _ => replace t with (map (fun b => mean_of v - b) fx) in E1, E3 by (symmetry; exact Hint) end. rewrite Hyf in E3. subst yfit.
  eexists. cbn [pm_y]. split; [reflexivity|]. cbn [ym_coef ym_fitted ym_resid]. split; [exact HB|]. split; [reflexivity|]. split.
  { rewrite <- E4. f_equal. unfold col_minus_row. apply map_ext. intros a. clear. induction n as [|k IH]; [reflexivity|]. cbn [repeat map]. f_equal. exact IH. }
  unfold pp_predict. cbn [pm_y pm_p ym_coef ym_intercept]. rewrite (wf_ncols p (pp_ncomp prm') B HB) by lia.
  destruct (Nat.eqb_spec (pp_ncomp prm') 0); [lia|]. fold bi. rewrite <- E1. split.
  - rewrite (wf_ncols n p X HX) by lia. rewrite Nat.eqb_refl. cbn [negb]. fold fx. rewrite map_length, Nat.eqb_refl. rewrite Hyf. reflexivity.
  - intros k Xn HXn Hk Hkn. rewrite (wf_ncols k p Xn HXn) by lia. rewrite Nat.eqb_refl. cbn [negb]. rewrite map_length, matvec_length, (wf_length _ _ _ HXn), Hfx.
    destruct (Nat.eqb_spec n k); [lia|]. destruct (Nat.eqb_spec n 1); [lia|]. destruct (Nat.eqb_spec k 1); [lia|reflexivity].
Qed.
