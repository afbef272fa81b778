(** Coinciding cases in sprm (C202). *)
From Coq Require Import Reals List Arith ZArith Bool Lia Lra.
Import ListNotations.
From Verif Require Import Num Err Vec VecR OrdR L_Mat S_Utils S_Stats S_Weights M_Utils M_Preproc M_Robcent M_Msupport M_Rm M_Snipls M_Sprm S_Rm S_Sprm L_Scaling L_Scaling2 L_Snipls L_Missing L_Rm L_Rm2 L_Msupport L_Sprm S_MissReg L_MissReg S_Exact L_Exact S_Coincide L_Coincide.
Open Scope R_scope.

Lemma T_rows : forall env inv eta k c s (X : list (list XR)) y m i, snipls_fit env inv eta k c s X y = Ok m -> (1 <= k)%nat -> (i < length X)%nat ->
  exists v r, nth_error (sn_T m) i = Some (v :: r).
Proof.
  intros env inv eta k c s X y m i E Hk Hi. unfold snipls_fit in E. destruct (_ && _); [discriminate|]. destruct (negb _); [discriminate|].
  apply bind_Ok in E as ([[mX sX] X0] & _ & E). apply bind_Ok in E as ([[my sy] Y0] & _ & E). apply bind_Ok in E as ([[B R0] T] & ET & E).
  destruct (negb _); [discriminate|]. apply Ok_inj in E. subst m. cbn [sn_T].
  assert (HT : exists cs, T = of_cols (length X) cs /\ cs <> []).
  { destruct (snipls_loop _ _ _ _ _ _ _ _) as [|c0 cs] in ET |- *.
    - apply Ok_inj in ET. injection ET as _ _ <-. exists (repeat (vzeros (length X)) k). split; [reflexivity|]. destruct k; [lia|discriminate].
    - apply bind_Ok in ET as (P1 & _ & ET). apply bind_Ok in ET as (P2 & _ & ET). apply Ok_inj in ET. injection ET as _ _ <-. eexists. split; [reflexivity|discriminate]. }
  destruct HT as ([|c0 cs] & -> & Hc); [congruence|]. unfold of_cols.
  do 2 eexists. erewrite map_nth_error; [cbn [map]; reflexivity|]. rewrite (nth_error_nth' _ 0%nat) by (rewrite seq_length; exact Hi). rewrite seq_nth by exact Hi. reflexivity.
Qed.
Lemma scale_nan : forall (X : list (list XR)) m s Z i r, scale_data X m s = Ok Z -> (1 <= ncols X)%nat -> nth_error X i = Some (NaN :: r) -> exists r', nth_error Z i = Some (NaN :: r').
Proof.
  intros X m s Z i r E Hc Hi. unfold scale_data in E. destruct (Nat.eqb_spec (ncols X) 1) as [H1|H1].
  - destruct m as [|m0 m]; [discriminate|]. destruct (handle_zeros s) as [|s0 s']; [discriminate|]. apply Ok_inj in E. subst Z. eexists. rewrite (map_nth_error _ _ _ Hi). reflexivity.
  - cbv zeta in E. apply bind_Ok in E as (Y & EY & E).
    assert (G : forall (f : XR -> XR -> XR) (X0 Y0 : list (list XR)) v r, (forall b, f NaN b = NaN) -> (if (length v =? ncols X)%nat then Ok (rows_op f X0 v) else match v with [v0] => Ok (map (map (fun x => f x v0)) X0) | _ => Err ValueError end) = Ok Y0 ->
      nth_error X0 i = Some (NaN :: r) -> exists r', nth_error Y0 i = Some (NaN :: r')).
    { intros f X0 Y0 v r0 Hf E0 H0. destruct (Nat.eqb_spec (length v) (ncols X)) as [Hv|Hv].
      - apply Ok_inj in E0. subst Y0. unfold rows_op. rewrite (map_nth_error _ _ _ H0). destruct v as [|v0 v]; [cbn in Hv; lia|]. cbn [map2]. rewrite Hf. eauto.
      - destruct v as [|v0 [|]]; try discriminate. apply Ok_inj in E0. subst Y0. rewrite (map_nth_error _ _ _ H0). cbn [map]. rewrite Hf. eauto. }
    destruct (G nsub X Y m r ltac:(intros []; reflexivity) EY Hi) as (r1 & H1'). exact (G ndiv Y Z _ r1 ltac:(intros []; reflexivity) E H1').
Qed.
Lemma dx_all_missing : forall (Z : list (list XR)) i r, nth_error Z i = Some (NaN :: r) -> start_dx Z = nans (length Z).
Proof.
  intros Z i r H. unfold start_dx.
  assert (E : np_median (map (fun r => nsqrt (vsum (map nsqr r))) Z) = NaN).
  { apply np_median_NaN. apply in_map_iff. exists (NaN :: r). split; [|apply nth_error_In in H; exact H]. reflexivity. }
  rewrite E. clear. induction Z as [|z Z IH]; [reflexivity|]. cbn [map length nans repeat]. unfold nans in IH. rewrite IH. f_equal. xnum. destruct (XRsqrt _); reflexivity.
Qed.
Lemma mul_nans_r : forall n (w : list XR), length w = n -> vmul w (nans n) = nans n.
Proof. unfold vmul, nans. induction n as [|n IH]; intros [|a w] H; try discriminate; [reflexivity|]. cbn [repeat map2]. rewrite IH by (cbn in H; lia). f_equal. destruct a; reflexivity. Qed.
Lemma std_resid_len : forall r : list XR, length (std_resid r) = length r.
Proof. intros r. unfold std_resid. apply map_length. Qed.

(** one pass with a missing weight leaves missing weights only *)
Lemma pass_missing : forall (env : sp_env XR) P f k cuts Xs ys st m st' brk i, (1 <= k)%nat -> (2 <= length Xs)%nat -> length ys = length Xs -> length (q_sw st) = length Xs ->
  snipls_fit (re_prep (se_rm env)) (se_inv env) (s_eta P) k CMean SNone (row_scale (q_sw st) Xs) (vmul ys (q_sw st)) = Ok m ->
  nth_error (q_sw st) i = Some NaN -> sp_body env P f cuts (length Xs) ys st m = Ok (st', brk) ->
  q_we st' = nans (length Xs) /\ q_w0 st' = [] /\ q_sw st' = nans (length Xs) /\ brk = false.
Proof.
  intros env P f k cuts Xs ys st m st' brk i Hk Hn Hy Hsw Em Hi E.
  pose proof (snipls_fit_rows _ _ _ _ _ _ _ _ _ Em) as [LT LF]. assert (LR : length (row_scale (q_sw st) Xs) = length Xs) by (unfold row_scale; rewrite map2_length; lia). rewrite LR in LT, LF.
  assert (Hi' : (i < length Xs)%nat) by (rewrite <- Hsw; apply nth_error_Some; congruence).
  pose proof E as EB. apply body_inv in E as (T & dt & _ & ET & Ed & Ewy & Ewt & E0 & E1 & E2 & E3).
  assert (LTT : length T = length Xs) by (rewrite ET, map2_length; lia).
  destruct (T_rows _ _ _ _ _ _ _ _ _ i Em Hk ltac:(lia)) as (v & r & HT). destruct (T_rows _ _ _ _ _ _ _ _ _ 0%nat Em Hk ltac:(lia)) as (v' & r' & HT0).
  assert (Hrow : exists r1, nth_error T i = Some (NaN :: r1)).
  { rewrite ET. assert (G : forall (u : list XR) (M : list (list XR)) j, nth_error u j = Some NaN -> nth_error M j = Some (v :: r) -> exists r1, nth_error (map2 (fun a r => map (fun v => ndiv v a) r) u M) j = Some (NaN :: r1)).
    { induction u as [|a u IH]; intros [|q M] [|j] H1 H2; try discriminate; cbn in *; [|apply IH; auto]. injection H1 as ->. injection H2 as ->. cbn [map]. eexists. f_equal. f_equal. destruct v; reflexivity. }
    apply (G _ _ _ Hi HT). }
  destruct Hrow as (r1 & Hrow).
  assert (HC : (1 <= ncols T)%nat).
  { rewrite ET. destruct (q_sw st) as [|a u]; [cbn in Hsw; lia|]. destruct (sn_T m) as [|q M]; [discriminate|]. cbn in HT0. injection HT0 as ->. cbn. lia. }
  destruct (sc_fit_transform _ _ (A2 T)) as [s1 rz] eqn:Ef. cbn [snd] in Ed. subst rz. pose proof (fit_transform_rows _ _ _ _ _ Ef) as LD. apply ft_inv in Ef as (mm & ss & _ & _ & _ & _ & Esd & _).
  assert (HCI : check_input (A2 T) = T) by (unfold check_input; destruct (Nat.eqb_spec (length T) 1); [lia|reflexivity]). rewrite HCI in Esd, LD.
  destruct (scale_nan _ _ _ _ _ _ Esd HC Hrow) as (r2 & Hdt).
  rewrite (dx_all_missing _ _ _ Hdt), weights_nans in Ewt. rewrite LD, LTT in Ewt.
  assert (Lwy : length (q_wye st') = length Xs) by (rewrite Ewy, mweights_length, std_resid_len; unfold vsub; rewrite map2_length; lia).
  rewrite Ewt, (mul_nans_r _ _ Lwy) in E0, E1. rewrite low_nans in E0. assert (EW : q_we st' = nans (length Xs)) by (rewrite E1; unfold floor_w; rewrite low_nans, set_none; reflexivity).
  assert (Hb : brk = false).
  { unfold sp_body in EB. rewrite <- ET in EB. destruct (snd (sc_fit_transform _ _ (A2 T))) as [dt'|]; [|discriminate]. destruct cuts as [[c0 b0] q0].
    match type of EB with (if ?c then _ else _) = _ => destruct c eqn:EC end; apply Ok_inj in EB; injection EB as <- <-; [|reflexivity]. exfalso. cbn [q_w0] in E0. rewrite E0 in EC. apply Nat.leb_le in EC. cbn in EC. lia. }
  split; [exact EW|]. split; [exact E0|]. split; [|exact Hb]. destruct (E2 Hb) as [_ ->]. rewrite EW. apply sqrt_nans.
Qed.
Lemma loop_missing : forall (env : sp_env XR) P f k cuts Xs ys, (1 <= k)%nat -> (2 <= length Xs)%nat -> length ys = length Xs ->
  forall fuel st calls st' i, length (q_sw st) = length Xs -> nth_error (q_sw st) i = Some NaN -> (q_fit st = None \/ (q_we st = nans (length Xs) /\ q_w0 st = [])) ->
  sp_loop env fuel P f k cuts Xs ys st = (calls, Some (Ok st')) -> q_fit st' = None \/ (q_we st' = nans (length Xs) /\ q_w0 st' = []).
Proof.
  intros env P f k cuts Xs ys Hk Hn Hy. induction fuel as [|fuel IH]; intros st calls st' i Hsw Hi HI E; [discriminate|]. rewrite sp_loop_S in E.
  destruct (_ && _); [|injection E as _ <-; exact HI]. destruct (pass env P f k cuts Xs ys st) as [[s1 brk]|] eqn:EP; [|discriminate].
  unfold pass in EP. apply bind_Ok in EP as (m & Em & EP). apply bind_Ok in EP as (cr & _ & EP).
  destruct (pass_missing env P f k cuts Xs ys st m s1 brk i Hk Hn Hy Hsw Em Hi EP) as (A1 & A2 & A3 & ->).
  destruct (sp_loop env fuel P f k cuts Xs ys s1) as [cs rr] eqn:EL. injection E as _ ->. apply (IH s1 cs st' i); auto.
  - rewrite A3. apply repeat_length. - rewrite A3. assert (Hi' : (i < length Xs)%nat) by (rewrite <- Hsw; apply nth_error_Some; congruence). unfold nans. rewrite nth_error_repeat; auto.
Qed.
Lemma fit_keep_all : forall {A} `{Num A} (X : list (list A)) p, Forall (fun r => length r = p) X -> map (M_Sprm.sel (seq 0 p)) X = X.
Proof.
  intros A HN X p HF. rewrite <- (map_id X) at 2. apply map_ext_in. intros r Hr. rewrite Forall_forall in HF. specialize (HF r Hr). subst p. unfold M_Sprm.sel.
  clear. induction r as [|a r IH]; [reflexivity|]. cbn [length seq map nth]. f_equal. rewrite <- seq_shift, map_map. exact IH.
Qed.
Lemma coincide_sprm : forall (env : sp_env XR) P df p X y P' calls m X0 Xr, sprm_run env P df X y = (P', (calls, Ok m)) -> (2 <= length X)%nat -> s_pcapp P' = false ->
  xscaled (re_prep (se_rm env)) (s_centre P') (s_scale P') X X0 -> Forall (fun r => length r = p) X0 -> ncols X = p -> kept_vars (sp_keep m) X0 = finite_mat Xr ->
  (length Xr < 2 * length (zero_rows Xr))%nat -> length (sp_cw m) = length X /\ all_missing (sp_cw m).
Proof.
  intros env P df p X y P' calls m X0 Xr E Hn Hpc [sx EX] HF Hp HK Hz.  change (kept_vars (sp_keep m) X0) with (map (M_Sprm.sel (sp_keep m)) X0) in HK.
  apply run_inv in E as (f & k & c1 & c2 & mX & sX & Xs & my & sy & ys & X' & Xs' & sX' & Ech & _ & Hl & _ & Esc & _ & EP' & _ & Halt & Ees).
  assert (Hk : (1 <= k)%nat).
  { unfold sp_check in Ech. destruct (s_ncomp P) as [z|]; [|discriminate]. destruct (_ || _); [discriminate|]. destruct (Z.leb_spec z 0); [discriminate|]. destruct (negb _); [discriminate|]. destruct (_ || _); [discriminate|]. apply bind_Ok in Ech as (g & _ & Ech). apply Ok_inj in Ech. injection Ech as _ <-. lia. }
  assert (HX0 : Xs = X0 /\ length ys = length X).
  { unfold sp_scaled in Esc. assert (EQ : s_centre (tau_fix (set_columns P c1) X) = s_centre P' /\ s_scale (tau_fix (set_columns P c1) X) = s_scale P') by (rewrite EP'; split; reflexivity). destruct EQ as [Q1 Q2]. rewrite Q1, Q2 in Esc. change (@n0 XR _) with (Fin 0) in Esc. rewrite EX in Esc.
    destruct (sc_fit_transform _ sx (A1 y)) as [s2 [Ys|]] eqn:EY; [|discriminate]. destruct (a_col_loc sx), (a_col_sca sx), (a_col_loc s2), (a_col_sca s2); try discriminate. apply Ok_inj in Esc. injection Esc as _ _ <- _ _ <-. split; [reflexivity|].
    pose proof (fit_transform_rows _ _ _ _ _ EY) as L. unfold col. rewrite map_length, L. destruct y as [|v1 [|v2 y']]; cbn in Hl; try lia. cbn in *. rewrite map_length. lia. }
  destruct HX0 as [-> Lys].
  apply estimate_inv in Ees as (Us & rc & c & b & q & st & Est & _ & Elo & Efi).
  unfold sp_start in Est. rewrite Hpc in Est. apply Ok_inj in Est. injection Est as <- _.
  apply finish_inv in Efi as (fit & Hfit & _ & Efi). cbv zeta in Efi. destruct Efi as (_ & Ek & _ & _ & _ & _ & _ & _ & _ & _ & _ & Ecw & _). rewrite Ek in HK.
  assert (EXs : Xs' = finite_mat Xr).
  { destruct Halt as [(Hz0 & _ & -> & _)|(_ & -> & _)]; [|exact HK]. rewrite <- HK. unfold vars_to_keep. rewrite Hz0. cbn [existsb negb].
    rewrite Hp. symmetry. replace (filter (fun _ : nat => true) (seq 0 p)) with (seq 0 p); [apply fit_keep_all; exact HF|]. generalize (seq 0 p). induction l as [|a l IH]; [reflexivity|]. cbn. f_equal. exact IH. }
  subst Xs'.
  assert (LX0 : length X0 = length X). { pose proof (fit_transform_rows _ _ _ _ _ EX) as L. rewrite L. unfold check_input. destruct (Nat.eqb_spec (length X) 1); [lia|reflexivity]. }
  assert (LXr : length (finite_mat Xr) = length X) by (rewrite <- HK, map_length; exact LX0).
  assert (LXr' : length Xr = length X) by (unfold finite_mat in LXr; rewrite map_length in LXr; exact LXr).
  assert (Hi : exists i, (i < length Xr)%nat /\ zero_row (nth i Xr []) = true).
  { assert (HI : exists r, In r (zero_rows Xr)) by (destruct (zero_rows Xr) as [|r l]; [cbn in Hz; lia|exists r; left; auto]). destruct HI as [r Hr]. apply filter_In in Hr as [Hr1 Hr2]. apply (In_nth _ _ []) in Hr1 as (i & Hi & Ei). exists i. rewrite Ei. auto. }
  destruct Hi as (i & Hi & Hzi). pose proof (dx_missing Xr i Hz Hi Hzi) as HD.
  unfold sp_start_state in Elo. set (wx := mweights f c b q (start_dx _)) in Elo. set (wy := mweights f _ _ _ (start_dy _ _ _)) in Elo.
  assert (Lw : length wx = length wy /\ length wx = length X).
  { unfold wx, wy. rewrite !mweights_length. unfold start_dx, start_dy. rewrite !map_length. destruct (r_centre (sp_rm P')), (r_scale (sp_rm P')); rewrite ?map_length; lia. }
  destruct Lw as [Lw Lw'].
  assert (HS : nth_error (map nsqrt (floor_w (vmul wx wy))) i = Some NaN).
  { rewrite (map_nth_error _ _ _ (floor_nan _ _ (mul_nan _ _ _ Lw (weight_nan f _ _ _ _ _ HD)))). reflexivity. }
  match type of Elo with sp_loop _ ?fu _ _ _ ?cu _ _ ?s0 = _ => pose proof (loop_missing env P' f k cu (finite_mat Xr) ys Hk ltac:(lia) ltac:(lia) fu s0 calls st i) as G end.
  cbn [q_sw q_fit] in G. assert (LS : length (map (@nsqrt XR _) (floor_w (vmul wx wy))) = length (finite_mat Xr)).
  { rewrite map_length. unfold floor_w. rewrite set_idx_length. unfold vmul. rewrite map2_length. lia. }
  specialize (G LS HS (or_introl eq_refl) Elo). destruct G as [G|[G1 G2]]; [congruence|].
  rewrite Ecw, G1, G2, set_none. split; [unfold nans; rewrite repeat_length; exact LXr|]. unfold all_missing, nans. apply Forall_forall. intros v Hv. apply repeat_spec in Hv. auto.
Qed.
