(** ppdire.fit: least squares residuals; weights; reported index values. *)

From Coq Require Import String Reals List Arith ZArith Bool Lia Lra Permutation.
Import List. Import ListNotations.
From Verif Require Import Num Err Vec VecR OrdR L_Mat L_Lin L_Matmul L_Deflate M_Utils M_Preproc M_Robcent L_Stats L_Scaling L_Scaling2 M_Dicomo M_Ipopt M_Ppdire
  S_Stats S_Regress L_Snipls L_Snipls2 L_Rm2 S_Ppdire L_Grid L_Grid2 L_Pp L_Pp2 L_Pp3 L_Pp4.
Open Scope R_scope.

(** ** C106 *)
Lemma centred_cells : forall env s n p X mX sX Xs, wf n p X -> (2 <= n)%nat -> (1 <= p)%nat -> length sX = p ->
  pp_scaled env CMean s 0 X = Ok (mX, sX, Xs) -> (forall j, (j < p)%nat -> nth j sX 0 <> 0) ->
  wf n p Xs /\ (forall i j, (i < n)%nat -> (j < p)%nat -> mget X i j = nth j mX 0 + nth j sX 0 * mget Xs i j) /\
  (forall j, (j < p)%nat -> sumn n (fun i => mget Xs i j) = 0).
Proof.
  intros env s n p X mX sX Xs HX Hn Hp Hls E Hz. apply pp_scaled_inv in E as (Es & El & _). rewrite (check_input_id n p) in Es, El by auto.
  assert (Hlm : length mX = p).
  { cbn [location] in El. unfold mean in El. rnum. unfold Reqb in El. destruct (Req_EM_T 0 0); [|lra]. rewrite manynan_R in El. apply Ok_inj in El. subst mX.
    rewrite map_length, cols_length. apply (wf_ncols n p); auto; lia. }
  destruct (scale_data_cells n p X mX sX HX ltac:(lia) Hp Hlm Hls) as (Xs' & Es' & Hw & Hc). rewrite Es in Es'. apply Ok_inj in Es'. subst Xs'.
  assert (Hcell : forall i j, (i < n)%nat -> (j < p)%nat -> mget X i j = nth j mX 0 + nth j sX 0 * mget Xs i j).
  { intros i j Hi Hj. rewrite Hc by auto. specialize (Hz j Hj). destruct (Req_EM_T (nth j sX 0) 0); [lra|]. change (mget (A := R) X i j) with (mget X i j). field. auto. }
  split; [exact Hw|]. split; [exact Hcell|]. intros j Hj.
  pose proof (location_col _ CMean 0 n p X mX j HX ltac:(lia) (or_introl eq_refl) El Hj) as Hm. cbn [col_loc] in Hm. destruct (Req_EM_T 0 0); [|lra]. apply Ok_inj in Hm.
  assert (Hsum : sumn n (fun i => mget X i j) = INR n * nth j mX 0).
  { rewrite <- Hm. unfold vmean. rewrite col_length, (wf_length n p X HX), nnat_R. rnum. rewrite vsum_sumn, col_length, (wf_length n p X HX).
    field_simplify; [|apply not_0_INR; lia]. apply sumn_ext. intros i Hi. exact (eq_sym (nth_col (A:=R) X i j)). }
  specialize (Hz j Hj). apply (Rmult_eq_reg_l (nth j sX 0)); auto. rewrite <- sumn_scal, Rmult_0_r.
  rewrite (sumn_ext n _ (fun i => mget X i j - nth j mX 0)) by (intros i Hi; rewrite (Hcell i j) by auto; ring).
  rewrite sumn_minus, sumn_const, Hsum. ring.
Qed.

Lemma C106_l : forall (env : pp_env R) prm d X f prm' d' m n p v, is_matrix n p X -> (2 <= n)%nat -> direct_fit prm n p -> has_response (f_y f) v -> penrose (pe_pinv env) ->
  pp_center_data prm = true -> pp_center prm = CMean -> pp_trim prm = 0 -> pp_regopt prm = "OLS"%string ->
  pp_fit env prm d X f = (prm', d', Ok m) -> (0 < pp_ncomp prm')%nat -> nonzero_cols (pm_T m) (pp_ncomp prm') ->
  (forall j, (j < p)%nat -> nth j (pm_sca m) 0 <> 0) -> (forall ym, pm_y m = Some ym -> ym_sca ym <> 0) ->
  exists ym r, pm_y m = Some ym /\ ym_resid ym = A1 r /\ sum_of r = 0 /\ (forall k, (k < pp_ncomp prm')%nat -> orthogonal r (column k (pm_T m))) /\
    forall i, (i < n)%nat -> nth i (ym_fitted ym) 0 = mean_of v + ym_sca ym * sum_of (map (fun k => nth k (ym_C ym) 0 * cell (pm_T m) i k) (seq 0 (pp_ncomp prm'))).
Proof.
  intros env prm d X f prm' d' m n p v HX Hn2 Hd Hv Hpen Hcd Hc Ht Hols E Hh Hz Hsx Hsy.
  destruct (C68_l env prm d X f prm' d' m n p v HX Hd Hv E Hh) as (ym & b & a & r & Eym & Hb & Hlv & Hlf & Er & Hlr & Hfr & Hpred & Hpn & Hsum & _).
  specialize (Hsum Hc Ht). exists ym, r. split; [exact Eym|]. split; [exact Er|]. split; [exact Hsum|].
  destruct (plain_run _ _ _ _ _ _ _ _ _ _ HX Hd E Hh) as
    (Hn & Hp0 & Ep & most & s & mX & sX & Xs & yi & cs & yc & Rt & ym0 & _ & _ & Esc & HXs & Ey & _ & Hl & Hg & _ & HR & Em & Hym).
  destruct (with_h_fields prm (f_h f)) as (W1 & W2 & W3 & W4 & W5 & W6 & W7 & W8 & W9 & W10 & W11).
  destruct (has_response_some _ _ _ _ _ _ _ Ey Hv) as (y & my & ->). destruct (response_values _ _ _ _ _ _ _ _ Ey Hv) as [Hy0 _].
  destruct Hym as (Hyc & Hyf & ic & b0 & yfit & r' & Ef & Eym0). rewrite Em in Eym, Hsx, Hsy, Hz |- *. cbn [pm_y pm_sca pm_T] in Eym, Hsx, Hsy, Hz |- *.
  specialize (Hsy ym Eym). rewrite Eym in Eym0. injection Eym0 as Eym0.
  assert (HmT : pm_y m = Some ym) by (rewrite Em; cbn [pm_y]; rewrite Eym; reflexivity).
  set (h := pp_ncomp prm') in *.
  pose proof (Hyf (h - 1)%nat ltac:(lia)) as (Hls & _ & Ri & ERi & Ebs & EB).
  assert (Hall : forall T (l : list T), length l = h -> firstn (S (h - 1)) l = l) by (intros T l Hl0; replace (S (h - 1)) with h by lia; rewrite <- Hl0; apply firstn_all).
  rewrite (Hall _ cs Hl) in ERi. rewrite HR in ERi. apply Ok_inj in ERi. subst Ri. rewrite (Hall _ yc Hyc) in Ebs.
  set (C := map (fun q : R * list R * list R => fst (fst q)) yc) in *. set (bs := snd (nth (h - 1) yc q0)) in *. set (bv := snd (fst (nth (h - 1) yc q0))) in *.
  (* scaled data *)
  unfold st_scale in Esc. rewrite Ep, W3, Hcd, W4, Hc, W5, Ht in Esc.
  destruct (centred_cells env s n p X mX sX Xs HX Hn2 ltac:(lia) Hls Esc Hsx) as (_ & HXc & HXs0).
  (* scaled response *)
  assert (Hys : exists sy, sy = yi_sca y /\ my = mean_of v /\ length (yi_s y) = n /\ (sy <> 0 -> (forall i, (i < n)%nat -> nth i v 0 = my + sy * nth i (yi_s y) 0) /\ sumn n (fun i => nth i (yi_s y) 0) = 0)).
  { exists (yi_sca y). split; [reflexivity|]. destruct Hv as (a0 & Hy & Ha0).
    assert (Hr : exists k, response env prm' s n k a0 = Ok (y, my)).
    { destruct Hy as [Hy|Hy]; unfold st_y in Ey; rewrite Hy in Ey; destruct (response _ _ _ _ _ a0) as [yy|] eqn:Err; cbn [bind] in Ey; try discriminate; inversion Ey; subst; eauto. }
    destruct Hr as (k & Hr). unfold response in Hr.
    assert (Hrows : match a0 with A1 v => map (fun a => [a]) v | A2 Y => Y end = map (fun x => [x]) v) by (destruct Ha0 as [-> | ->]; reflexivity).
    rewrite Hrows in Hr. cbn zeta in Hr. do 2 match type of Hr with (if ?b then _ else _) = _ => destruct b; [discriminate|] end.
    rewrite Ep, W3, Hcd, W4, Hc, W5, Ht in Hr.
    assert (Hcw : wf n 1 (map (fun x : R => [x]) v)) by (rewrite <- Hlv; exact (as_column_wf v)).
    destruct (pp_scaled env CMean s 0 (map (fun x => [x]) v)) as [[[mv sv] Z]|] eqn:Esv; cbn [bind] in Hr; [|discriminate].
    injection Hr as Hy1 Hy2. rewrite <- Hy1. cbn [yi_sca yi_s].
    pose proof (pp_scaled_inv _ _ _ _ _ _ _ _ Esv) as (Es1 & El1 & _). rewrite (check_input_id n 1) in Es1, El1 by auto.
    assert (HZ : wf n 1 Z) by (apply (scale_data_wf n 1 _ _ mv sv Hcw Hn Es1)).
    assert (Hmv : mv = [vmean v]).
    { cbn [location] in El1. unfold mean in El1. rnum. unfold Reqb in El1. destruct (Req_EM_T 0 0); [|lra]. rewrite manynan_R in El1. apply Ok_inj in El1. rewrite <- El1.
      unfold cols. rewrite (wf_ncols n 1 _ Hcw Hn). cbn [seq map]. f_equal. f_equal. exact (col_as_column v). }
    split; [rewrite <- Hy2, Hmv; cbn [nth]; rewrite mean_of_vmean; reflexivity|].
    split; [rewrite col_length; apply (wf_length _ _ _ HZ)|]. intros Hsv.
    destruct sv as [|s0 sv]; [cbn in Hsv; rnum; lra|]. cbn [nth] in Hsv. rewrite Hmv in Es1. unfold scale_data in Es1. rewrite (wf_ncols n 1 _ Hcw Hn) in Es1. cbn [Nat.eqb handle_zeros map] in Es1.
    apply Ok_inj in Es1. rnum. unfold Reqb in Es1. destruct (Req_EM_T s0 0); [contradiction|].
    assert (HZc : forall i, (i < n)%nat -> nth i (col 0 Z) 0 = (nth i v 0 - vmean v) / s0).
    { intros i Hi. rewrite <- Es1. unfold col. rewrite !map_map. cbn [map nth]. exact (nth_map_lt (fun x => (x - vmean v) / s0) v i 0 0 ltac:(lia)). }
    assert (Hcol : forall i, (i < n)%nat -> nth i v 0 = my + nth 0 (s0 :: sv) 0 * nth i (col 0 Z) 0).
    { intros i Hi. rewrite HZc by auto. rewrite <- Hy2, Hmv. cbn [nth]. field. auto. }
    split; [exact Hcol|].
    rewrite (sumn_ext n _ (fun i => / s0 * (nth i v 0 - vmean v))) by (intros i Hi; rewrite HZc by auto; unfold Rdiv; ring).
    rewrite sumn_scal, sumn_minus, sumn_const. rewrite <- Hlv, <- vsum_sumn. unfold vmean. rnum. rewrite nnat_R. field. split; auto. apply not_0_INR. lia. }
  destruct Hys as (sy & Esy & Emy & Hlys & Hys).
  assert (Esy' : ym_sca ym = sy) by (rewrite Eym0, Esy; reflexivity). rewrite Esy' in Hsy |- *. destruct (Hys Hsy) as [Hyv Hys0]. clear Hys.
  (* scores times C *)
  rewrite <- Hl in Hz. destruct (rot_transform env _ _ _ _ n p Xs cs Rt Hpen Hn Hp0 ltac:(lia) Hg Hz HR) as [HRw HT].
  assert (HC : length C = length cs) by (unfold C; rewrite map_length; lia).
  assert (Hlbs : length bs = p) by (rewrite Ebs, matvec_length; apply (wf_length _ _ _ HRw)).
  assert (HTC : matvec Xs bs = matvec (of_cols n (map g_t cs)) C).
  { rewrite Ebs, <- HT. symmetry. apply (matvec_matmul n p (length cs)); auto. }
  set (TC := fun i => nth i (matvec (of_cols n (map g_t cs)) C) 0).
  assert (HTCs : forall i, (i < n)%nat -> TC i = sumn p (fun j => mget Xs i j * nth j bs 0)).
  { intros i Hi. unfold TC. rewrite <- HTC, nth_matvec by (rewrite (wf_length _ _ _ HXs); auto). rewrite (dot_row_sumn n p) by auto. reflexivity. }
  assert (HTCk : forall i, (i < n)%nat -> TC i = sum_of (map (fun k => nth k C 0 * cell (of_cols n (map g_t cs)) i k) (seq 0 h))).
  { intros i Hi. unfold TC. rewrite sum_of_seq. assert (HTw : wf n (length cs) (of_cols n (map g_t cs))) by (rewrite <- (map_length g_t cs); apply wf_of_cols).
    rewrite nth_matvec by (rewrite (wf_length _ _ _ HTw); auto). rewrite (dot_row_sumn n (length cs)) by auto. rewrite <- Hl. apply sumn_ext. intros k Hk. apply Rmult_comm. }
  assert (HTC0 : sumn n TC = 0).
  { rewrite (sumn_ext n TC (fun i => sumn p (fun j => mget Xs i j * nth j bs 0))) by auto. rewrite sumn_exchange. apply sumn_zero. intros j Hj.
    rewrite sumn_scal_r, HXs0 by auto. ring. }
  (* fitted values *)
  assert (Hfit : exists K0, forall i, (i < n)%nat -> nth i (ym_fitted ym) 0 = K0 + sy * TC i).
  { destruct (C68_l env prm d X f prm' d' m n p v HX Hd Hv E Hh) as (ym2 & _ & _ & _ & _). 
    unfold finish_y in Ef. cbn zeta in Ef. fold h in Ef.
    assert (Hbi : col (h - 1) (of_cols p (map (fun q : R * list R * list R => snd (fst q)) yc)) = bv).
    { rewrite col_of_cols; [|rewrite map_length; lia|].
      - change (@nil R) with ((fun q : R * list R * list R => snd (fst q)) q0). rewrite map_nth. reflexivity.
      - change (@nil R) with ((fun q : R * list R * list R => snd (fst q)) q0). rewrite map_nth. fold bv. rewrite EB, map2_length. lia. }
    rewrite Hbi in Ef.
    assert (Hyfit : exists a0, yfit = map (fun x => x + a0) (matvec X bv)).
    { destruct (is_mean _); [destruct (trim_mean1 _ _) as [a0|]; cbn [bind] in Ef; [|discriminate]|cbn [bind] in Ef]; injection Ef as _ _ Ef _; eexists; symmetry; exact Ef. }
    destruct Hyfit as (a0 & Hyfit). exists (sumn p (fun j => nth j mX 0 * (sy / nth j sX 0) * nth j bs 0) + a0). intros i Hi.
    assert (Eyf : ym_fitted ym = yfit) by (rewrite Eym0; reflexivity). rewrite Eyf, Hyfit.
    rewrite (nth_map_lt _ _ _ 0) by (rewrite matvec_length, (wf_length _ _ _ HX); auto). rewrite nth_matvec by (rewrite (wf_length _ _ _ HX); auto).
    rewrite (dot_row_sumn n p) by (auto; rewrite EB, map2_length; lia). rewrite HTCs by auto. rewrite <- sumn_scal.
    rewrite Rplus_assoc, (Rplus_comm a0), <- Rplus_assoc. f_equal. rewrite <- sumn_plus. apply sumn_ext. intros j Hj.
    assert (Ebv : nth j bv 0 = (sy / nth j sX 0) * nth j bs 0).
    { rewrite EB. rewrite (nth_map2 _ _ _ _ 0 0 0) by lia. rewrite Esy. reflexivity. }
    change (@n0 R Num_R) with 0. rewrite Ebv, (HXc i j) by auto. specialize (Hsx j Hj). field. auto. }
  destruct Hfit as (K0 & Hfit).
  assert (HK : K0 = my).
  { assert (Hs0 : sumn n (fun i => nth i r 0) = 0) by (transitivity (sum_of r); [change sum_of with (@vsum R Num_R); rewrite vsum_sumn, Hlr; reflexivity|exact Hsum]).
    assert (Hk : exists c, c = my - K0) by eauto. destruct Hk as (c & Hk).
    rewrite (sumn_ext n _ (fun i => c + (sy * nth i (yi_s y) 0 - sy * TC i))) in Hs0.
    - rewrite sumn_plus, sumn_minus, !sumn_scal, Hys0, HTC0, sumn_const in Hs0. assert (INR n <> 0) by (apply not_0_INR; lia). nra.
    - intros i Hi. specialize (Hfr i Hi). rewrite Hfit, Hyv in Hfr by auto. lra. }
  subst K0. split.
  - intros k Hk. rewrite T_col by (try lia; eapply gchain_nth_len; eauto; lia). unfold orthogonal. rewrite inner_dot.
    destruct (gchain_nth_len _ _ _ _ _ _ _ _ _ k Hg ltac:(lia)) as (Lt & _ & _). rewrite (dot_sumn _ _ n) by auto.
    set (tk := g_t (nth k cs pc0)) in *.
    assert (Er2 : forall i, (i < n)%nat -> nth i r 0 = sy * (nth i (yi_s y) 0 - TC i)).
    { intros i Hi. specialize (Hfr i Hi). rewrite Hfit, Hyv in Hfr by auto. lra. }
    rewrite (sumn_ext n _ (fun i => sy * (nth i (yi_s y) 0 * nth i tk 0) - sy * (TC i * nth i tk 0))) by (intros i Hi; rewrite Er2 by auto; ring).
    rewrite sumn_minus, !sumn_scal. rewrite <- (dot_sumn (yi_s y) tk n) by auto.
    assert (Hdt : sumn n (fun i => TC i * nth i tk 0) = nth k C 0 * dot tk tk).
    { rewrite (sumn_ext n _ (fun i => sumn h (fun a => nth a C 0 * (nth i (g_t (nth a cs pc0)) 0 * nth i tk 0)))).
      - rewrite sumn_exchange. rewrite (sumn_ext h _ (fun a => if Nat.eqb a k then nth k C 0 * dot tk tk else 0)).
        + rewrite (sumn_delta h k (fun _ => nth k C 0 * dot tk tk)) by auto. reflexivity.
        + intros a0 Ha0. rewrite sumn_scal. destruct (gchain_nth_len _ _ _ _ _ _ _ _ _ a0 Hg ltac:(lia)) as (La & _ & _).
          rewrite <- (dot_sumn _ _ n) by auto. destruct (Nat.eqb_spec a0 k) as [->|Hne]; [reflexivity|].
          pose proof (scores_orth n p Hn (map todc cs) Xs a0 k HXs (run_chain _ _ _ _ _ _ _ _ _ Hg Hz)) as Ho. rewrite map_length, !nth_todc in Ho. cbn [todc d_t] in Ho.
          fold tk in Ho. rewrite Ho by (auto; lia). ring.
      - intros i Hi. rewrite HTCk by auto. rewrite sum_of_seq, <- sumn_scal_r. apply sumn_ext. intros a0 Ha0.
        change (cell (of_cols n (map g_t cs)) i a0) with (mget (of_cols n (map g_t cs)) i a0). rewrite mget_of_cols_R by (auto; rewrite map_length; lia).
        change (@nil R) with (g_t pc0). rewrite map_nth. ring. }
    rewrite Hdt. destruct (Hyf k Hk) as (_ & Hck & _). unfold inner_coef in Hck. rewrite Ep, W6, Hols in Hck. cbn [String.eqb Ascii.eqb Bool.eqb] in Hck. fold tk in Hck.
    apply Ok_inj in Hck. rewrite nsqr_vnorm in Hck.
    assert (ECk : nth k C 0 = dot tk (yi_s y) / dot tk tk).
    { unfold C. change 0 with ((fun q : R * list R * list R => fst (fst q)) q0). rewrite map_nth. symmetry. exact Hck. }
    rewrite ECk, (dot_comm tk). specialize (Hz k ltac:(lia)). rewrite T_col, sqlen_dot in Hz by (try lia; auto). fold tk in Hz. field. exact Hz.
  - intros i Hi. rewrite Hfit by auto. rewrite HTCk by auto. rewrite <- Emy. do 2 f_equal. rewrite Eym0. reflexivity.
Qed.
