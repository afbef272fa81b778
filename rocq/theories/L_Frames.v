(** Responses given as one-column data frames. *)

From Coq Require Import String Reals List Arith ZArith Bool Lia Lra Permutation.
Import List. Import ListNotations.
From Verif Require Import Num Err Vec VecR OrdR L_Mat L_Lin L_Matmul L_Deflate M_Utils M_Preproc M_Robcent L_Stats L_Scaling L_Scaling2 M_Dicomo M_Ipopt M_Ppdire M_Sudire M_Frames
  S_Stats S_Regress L_Snipls L_Snipls2 L_Rm2 S_Ppdire L_Pp L_Pp2 L_Pp3 L_Pp4.
Open Scope R_scope.

Lemma rows_col0 : forall v : list R, col 0 (map (fun x => [x]) v) = v.
Proof. intros v. unfold col. rewrite map_map. apply map_id. Qed.
Lemma rows_wf : forall v : list R, wf (length v) 1 (map (fun x => [x]) v).
Proof. intros v. split; [apply map_length|]. apply Forall_forall. intros r Hr. apply in_map_iff in Hr as (x & <- & _). reflexivity. Qed.
Lemma rows_transpose : forall v : list R, (0 < length v)%nat -> length (transpose (map (fun x => [x]) v)) = 1%nat.
Proof. intros v Hv. unfold transpose, cols. rewrite map_length, seq_length. apply (wf_ncols (length v) 1 _ (rows_wf v)). exact Hv. Qed.

Lemma sudire_frame : forall (env : sd_env R) st X v metric bias n p, is_matrix n p X -> (2 <= n)%nat -> length v = n ->
  (exists e, snd (sd_fit_frame env st X (map (fun x => [x]) v) metric bias) = Err e) /\
  (forall m, snd (sd_fit env st X (A2 (map (fun x => [x]) v)) metric bias) = Ok m -> snd (sd_fit_frame env st X (map (fun x => [x]) v) metric bias) = Err MyException).
Proof.
  intros env st X v metric bias n p HX Hn Hv. pose proof (wf_length n p X HX) as LX.
  assert (ER : forall y, sd_response (length X) (frame_response (length X) (map (fun x : R => [x]) v)) = y -> y = Err MyException).
  { intros y <-. unfold frame_response. rewrite map_length, Hv, LX, Nat.eqb_refl. cbn [convert_y_input_pandas]. unfold sd_response. rewrite rows_transpose by lia.
    destruct (Nat.eqb_spec 1 n); [lia|]. reflexivity. }
  unfold sd_fit_frame, sd_fit. set (prm := sd_whitening (ss_prm st)). destruct (_ <? _)%nat; [split; [eexists; reflexivity|discriminate]|]. cbv zeta.
  set (r := sd_prepare env prm X). destruct r as [pd|e]; [|split; [eexists; reflexivity|discriminate]]. cbn [bind].
  assert (ER' := ER _ eq_refl). set (q := sd_response (length X) (frame_response _ _)) in *. rewrite ER'. cbn [bind snd]. split; [eauto|reflexivity].
Qed.

Lemma vmean_shift : forall a (l : list R), l <> [] -> vmean (map (fun b => a - b) l) = a - vmean l.
Proof.
  intros a l Hl. unfold vmean. rewrite map_length. change vsum with sum_of.
  assert (E : sum_of (map (fun b => a - b) l) = INR (length l) * a - sum_of l).
  { clear Hl. induction l as [|x l IH]; [cbn; ring|]. cbn [map length]. rewrite S_INR. unfold sum_of in *. cbn [fold_right]. rewrite IH. ring. }
  rewrite E, nnat_R. rnum. field. apply not_0_INR. destruct l; [congruence|discriminate].
Qed.
Lemma mapM_Ok : forall {B C} (g : B -> res C) (h : B -> C) l, (forall x, In x l -> g x = Ok (h x)) -> mapM g l = Ok (map h l).
Proof. intros B C g h l H. induction l as [|a l IH]; [reflexivity|]. cbn [mapM map]. rewrite (H a) by (left; reflexivity). cbn [bind]. rewrite IH by (intros; apply H; right; auto). reflexivity. Qed.
Lemma nth_map_indep' : forall {B C} (g : B -> C) l j d d', (j < length l)%nat -> nth j (map g l) d = g (nth j l d').
Proof. intros B C g l j d d' Hj. rewrite (nth_indep _ d (g d')) by (rewrite map_length; auto). apply map_nth. Qed.
Lemma cols_table : forall (y f : list R), f <> [] -> cols (map (fun b => map (fun a => a - b) y) f) = map (fun a => map (fun b => a - b) f) y.
Proof.
  intros y f Hf. assert (W : wf (length f) (length y) (map (fun b => map (fun a => a - b) y) f)).
  { split; [apply map_length|]. apply Forall_forall. intros r Hr. apply in_map_iff in Hr as (b & <- & _). apply map_length. }
  unfold cols. rewrite (wf_ncols _ _ _ W) by (destruct f; [congruence|cbn; lia]).
  apply (nth_ext _ _ [] []); [rewrite !map_length, seq_length; reflexivity|]. intros j Hj. rewrite map_length, seq_length in Hj.
  erewrite nth_map_indep' with (d' := 0%nat); [|rewrite seq_length; exact Hj]. rewrite seq_nth by auto. cbn [Nat.add].
  erewrite nth_map_indep' with (d' := 0); [|exact Hj]. unfold col. rewrite map_map. apply map_ext. intros b.
  change n0 with 0. erewrite nth_map_indep' with (d' := 0); [reflexivity|exact Hj].
Qed.

Lemma ppdire_frame : forall (env : pp_env R) prm d X v (kwy : bool) f prm' d' m n p, is_matrix n p X -> (2 <= n)%nat -> length v = n -> direct_fit prm n p ->
  pp_center_data prm = true -> pp_center prm = CMean -> pp_trim prm = 0 -> pp_regopt prm <> "quantile"%string ->
  pp_fit env prm d X (with_response f (if kwy then YKw (A2 (map (fun x => [x]) v)) else YPos (A2 (map (fun x => [x]) v)))) = (prm', d', Ok m) -> (0 < pp_ncomp prm')%nat ->
  exists m' b a, pp_fit_frame env prm d X (map (fun x => [x]) v) kwy f = (prm', d', Ok m') /\ length b = p /\
    (forall Xn, ncols Xn = p -> pp_predict m Xn = Ok (map (fun x => inner x b + a) Xn)) /\
    (forall Xn, ncols Xn = p -> (2 <= length Xn)%nat -> length Xn <> n -> pp_predict m' Xn = Err ValueError) /\
    pp_predict m' X = Ok (map2 (fun x y => y + inner x b - sum_of (map (fun r => inner r b) X) / INR n) X v).
Proof.
  intros env prm d X v kwy f prm' d' m n p HX Hn2 Lv Hd Hcd Hce Htr Hq E Hh. set (f' := with_response f _) in *.
  assert (Hv : has_response (f_y f') v).
  { unfold f', with_response. cbn [f_y]. exists (A2 (map (fun x => [x]) v)). destruct kwy; auto. }
  destruct (plain_run _ _ _ _ _ _ _ _ _ _ HX Hd E Hh) as
    (Hn & Hp0 & Ep & most & s & mX & sX & Xs & yi & cs & yc & Rt & ym & _ & _ & Esc & HXs & Ey & _ & Hl & Hg & _ & HR & Em & Hym).
  destruct (with_h_fields prm (f_h f')) as (W1 & W2 & W3 & W4 & W5 & W6 & W7 & W8 & W9 & W10 & W11).
  destruct (has_response_some _ _ _ _ _ _ _ Ey Hv) as (y & my & ->). destruct (response_values _ _ _ _ _ _ _ _ Ey Hv) as [Hy0 Hlv].
  destruct Hym as (Hyc & _ & ic & b0 & yfit & r & Ef & Eym). cbn zeta in Ef.
  set (B := of_cols p (map (fun q => snd (fst q)) yc)) in *. set (bi := col (pp_ncomp prm' - 1) B) in *.
  assert (HB : wf p (pp_ncomp prm') B) by (unfold B; rewrite <- Hyc, <- (map_length (fun q : R * list R * list R => snd (fst q)) yc); apply wf_of_cols).
  assert (Hbi : length bi = p) by (unfold bi, col; rewrite map_length; apply (wf_length _ _ _ HB)).
  assert (NB : ncols B = pp_ncomp prm') by (apply (wf_ncols p); auto).
  assert (Hf : length (matvec X bi) = n) by (rewrite matvec_length; apply (wf_length _ _ _ HX)).
  assert (Ec : compressed env prm' X = false).
  { unfold compressed. rewrite (wf_ncols n p X HX Hn), (wf_length n p X HX), Ep, W2. destruct Hd as [_ [-> | Hpn]]; [rewrite andb_false_r; reflexivity|].
    destruct (Nat.ltb_spec n p); [lia|reflexivity]. }
  assert (Hfn : matvec X bi <> []) by (intros H0; rewrite H0 in Hf; cbn in Hf; lia).
  set (c := vmean (matvec X bi)).
  assert (EF : finish_frame prm' false v (matvec X bi) = Ok (IMany (map (fun a => a - c) v), concat (map (fun b => map (fun a => b + a) (map (fun a => a - c) v)) (matvec X bi)),
     A2 (map (vsub v) (map (fun b => map (fun a => b + a) (map (fun a => a - c) v)) (matvec X bi))))).
  { unfold finish_frame. rewrite Ep, W4, W5, Hce, Htr. cbn [is_mean]. cbv zeta. rnum. rewrite cols_table by auto.
    rewrite (mapM_Ok (trim_mean1 0) vmean).
    2:{ intros x Hx. apply in_map_iff in Hx as (a & <- & _). apply trim_mean_zero. destruct (matvec X bi); [congruence|discriminate]. }
    cbn [bind]. rewrite map_map. rewrite (map_ext _ (fun a => a - c)) by (intros a; apply vmean_shift; auto). reflexivity. }
  unfold pp_fit_frame. fold f'. rewrite E. subst m ym. cbn [bind pm_y ym_coef ym_coef_scaled ym_intercept_scaled ym_C ym_loc ym_sca]. rewrite NB.
  destruct (Nat.eqb_spec (pp_ncomp prm') 0); [lia|]. fold bi. rewrite Ec, rows_col0, EF.
  replace (pp_center_data prm') with true by (rewrite Ep, W3; auto). replace (pp_regopt prm') with (pp_regopt prm) by (rewrite Ep, W6; auto).
  destruct (String.eqb_spec (pp_regopt prm) "quantile"); [congruence|]. cbn [negb orb bind].
  destruct (C68_l env prm d X f' prm' d' _ n p v HX Hd Hv E Hh) as (ym' & b' & a' & r' & Hy' & Lb' & _ & _ & _ & _ & _ & _ & Hpred' & _).
  unfold finish_y in Ef. rewrite Ep, W4, W5, Hce, Htr, Hy0 in Ef. cbn zeta in Ef. cbn [is_mean] in Ef.
  destruct (trim_mean1 0 (vsub v (matvec X bi))) as [a|] eqn:Ea; cbn [bind] in Ef; [|discriminate]. injection Ef as E1 E2 E3 E4. subst ic.
  eexists _, bi, a. split; [reflexivity|]. split; [exact Hbi|]. split; [|split].
  - intros Xn Hx. unfold pp_predict. cbn [pm_y pm_p ym_coef ym_intercept]. rewrite Hx, Nat.eqb_refl. cbn [negb]. rewrite NB. destruct (Nat.eqb_spec (pp_ncomp prm') 0); [lia|]. f_equal. fold bi.
    unfold matvec. rewrite map_map. apply map_ext. intros x. rewrite inner_dot. reflexivity.
  - intros Xn Hx Hk Hkn. unfold pp_predict. cbn [pm_y pm_p ym_coef ym_intercept]. rewrite Hx, Nat.eqb_refl. cbn [negb]. rewrite NB. destruct (Nat.eqb_spec (pp_ncomp prm') 0); [lia|]. fold bi. cbv zeta.
    rewrite map_length, matvec_length, Lv. destruct (Nat.eqb_spec n (length Xn)); [congruence|]. destruct (Nat.eqb_spec n 1); [lia|]. destruct (Nat.eqb_spec (length Xn) 1); [lia|reflexivity].
  - unfold pp_predict. cbn [pm_y pm_p ym_coef ym_intercept]. rewrite (wf_ncols n p X HX Hn), Nat.eqb_refl. cbn [negb]. rewrite NB. destruct (Nat.eqb_spec (pp_ncomp prm') 0); [lia|]. fold bi. cbv zeta.
    rewrite map_length, Hf, Lv, Nat.eqb_refl. f_equal.
    assert (Hc : sum_of (map (fun r0 => inner r0 bi) X) / INR n = c).
    { unfold c, vmean. rewrite Hf, nnat_R. rnum. change vsum with sum_of. f_equal. f_equal. unfold matvec. apply map_ext. intros x. apply inner_dot. }
    rewrite Hc. generalize c. intros c0. clear -Lv HX Hn. pose proof (wf_length _ _ _ HX) as LX. unfold matvec, vadd.
    assert (forall X v, length X = length v -> map2 nadd (map (fun r => dot r bi) X) (map (fun a => a - c0) v) = map2 (fun x y => y + inner x bi - c0) X v).
    { clear. induction X as [|x X IH]; intros [|a v] H; try discriminate H; [reflexivity|]. cbn [map map2]. f_equal; [|apply IH; injection H; auto]. rewrite inner_dot. rnum. ring. }
    apply H. lia.
Qed.
