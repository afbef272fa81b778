(** Lemmas for C206, the fit of ppdire. *)
From Coq Require Import String Reals List Arith ZArith Bool Lia Lra.
Import List. Import ListNotations.
From Verif Require Import Num Err Vec VecR L_Mat L_Lin L_Matmul L_Deflate M_Utils M_Preproc M_Robcent L_Stats L_Scaling L_Scaling2 M_Dicomo M_Ipopt M_Ppdire M_PpWorld
  S_Stats S_Regress L_Snipls L_Snipls2 L_Rm2 S_Ppdire S_Ppdire2 L_Ipopt L_Pp L_Pp2 L_Pp3 L_Pp4 L_Pp6 L_Pp8 L_Grid L_Grid2 S_GridStop L_GridStop.
Open Scope R_scope.

Lemma chain_grid : forall env prm most kw two K n p d l E, (0 < n)%nat -> gchain prm most kw two K n p E l -> mchain env prm most kw d p E l ->
  forall i, (i < length l)%nat ->
  let Ei := deflate_all p E (map g_t (firstn i l)) in
  gfact prm most kw two K n p Ei (nth i l pc0) /\ max_fact env prm most kw d p Ei (nth i l pc0).
Proof.
  intros env prm most kw two K n p d l. induction l as [|c l IH]; intros E Hn Hg Hm i Hi; [cbn in Hi; lia|]. destruct Hg as [Hg1 Hg2], Hm as [Hm1 Hm2].
  destruct i as [|i]; [cbn; auto|]. cbn [nth firstn map deflate_all fold_left]. unfold deflate_all. cbn [fold_left]. rewrite <- (g_E_deflate _ _ _ _ _ _ _ _ _ Hn Hg1).
  apply IH; auto. cbn in Hi. lia.
Qed.

Lemma C206_fit_l : forall (env : pp_env R) prm d X f prm' d' m n p ndir maxiter, is_matrix n p X -> (2 <= n)%nat -> direct_fit prm n p -> pp_init prm = Ok prm ->
  pp_optim prm = OGrid -> pe_trig env = trigR -> opt_int "ndir" (grid_options d) = Ok ndir -> good_ndir (Z.to_nat ndir) -> opt_int "maxiter" (grid_options d) = Ok maxiter ->
  pp_fit env prm d X f = (prm', d', Ok m) -> (0 < pp_ncomp prm')%nat ->
  exists most ys Z, ix_new (pp_idx prm) = Ok most /\ scaled_by n p X (pm_loc m) (pm_sca m) Z /\
    (f_y f = YNone -> ys = None) /\
    (forall v, has_response (f_y f) v -> exists ym, pm_y m = Some ym /\
       ys = Some (A2 (map (fun a => [(a - ym_loc ym) / (if Req_EM_T (ym_sca ym) 0 then 1 else ym_sca ym)]) v))) /\
    forall i, (i < pp_ncomp prm')%nat ->
      let E := deflate_all p Z (first_columns i (pm_T m)) in
      let kw := mk_dkw ys (Some (pp_trim prm)) (Some (f_bias f)) (Some (pp_alpha prm)) None None None None None (Some euclid) in
      let g am := mk_gargs (Z.to_nat ndir) (-1, 1) am (pp_square prm) (stops trigR (-1, 1)) kw in
      is_matrix n p E /\ column i (pm_T m) = projections E (column i (pm_W m)) /\
      ((forall w o, length w = p -> sqlen w = 1 -> objective_at most (g AmTuple) E w o -> -999 <= o /\ o <> 0) ->
       grid_stopping most (g AmTuple) (g AmArray) E p maxiter (column i (pm_W m)) (nth i (pm_max m) 0)).
Proof.
  intros env prm d X f prm' d' m n p ndir maxiter HX Hn2 Hd Hinit Ho Htr Hnd Hgd Hmi E Hh. destruct (plain_run _ _ _ _ _ _ _ _ _ _ HX Hd E Hh) as
    (Hn & Hp0 & Ep & most & s & mX & sX & Xs & yi & cs & yc & Rt & ym & Hix & Hsn & Esc & HXs & Ey & Eck & Hl & Hg & Hmc & HR & -> & Hym).
  destruct (with_h_fields prm (f_h f)) as (W1 & W2 & W3 & W4 & W5 & W6 & W7 & W8 & W9 & W10 & W11). rewrite <- Ep in *.
  pose proof (init_centre _ Hinit) as Hcc. rewrite <- W4 in Hcc.
  exists most, (k_y (st_kw prm' f yi)), Xs. split; [exact Hix|]. cbn [pm_loc pm_sca pm_T pm_W pm_max pm_y].
  split.
  { split; [exact HXs|]. intros i j Hi Hj.
    assert (Hlm : length mX = p /\ length sX = p /\ scale_data X mX sX = Ok Xs).
    { unfold st_scale in Esc. destruct (pp_center_data prm').
      - exact (scaled_lengths _ _ _ _ n p X _ _ _ HX Hn2 Hcc (scale_name_plain _ _ Hsn) Esc).
      - injection Esc as <- <- <-. split; [apply repeat_length|]. split; [apply repeat_length|]. apply (scale_data_id n); auto. }
    destruct Hlm as (Hlm & Hls & Hsd). destruct (scale_data_cells n p X mX sX HX Hn Hp0 Hlm Hls) as (Xs' & Es' & Hw & Hc). rewrite Hsd in Es'. apply Ok_inj in Es'. subst Xs'.
    specialize (Hc i j Hi Hj). change (cell Xs i j) with (mget Xs i j). change (cell X i j) with (mget X i j). rewrite Hc. unfold standardised.
    split; intros Hz; destruct (Req_EM_T (nth j sX 0) 0); try contradiction; [unfold Rdiv; rewrite Rinv_1; ring|reflexivity]. }
  split.
  { intros Hy. unfold st_y in Ey. rewrite Hy in Ey. inversion Ey; subst. reflexivity. }
  split.
  { intros v Hv. destruct (has_response_some _ _ _ _ _ _ _ Ey Hv) as (y & my & ->). destruct Hym as (_ & _ & ic & b0 & yfit & r & _ & ->).
    eexists. split; [reflexivity|]. cbn [ym_loc ym_sca st_kw index_kw k_y]. unfold st_kw, index_kw. cbn [k_y]. f_equal. unfold as_col. f_equal.
    destruct (response_values _ _ _ _ _ _ _ _ Ey Hv) as [_ Hlv]. rewrite (response_scaled _ _ _ _ _ _ _ _ Ey Hv) by lia. rewrite map_map. reflexivity. }
  intros i Hi. assert (Ekw : mk_dkw (k_y (st_kw prm' f yi)) (Some (pp_trim prm)) (Some (f_bias f)) (Some (pp_alpha prm)) None None None None None (Some euclid) = st_kw prm' f yi).
  { unfold st_kw, index_kw. cbn [k_y]. rewrite W5, W10. reflexivity. }
  cbn zeta. rewrite Ekw. set (kw := st_kw prm' f yi) in *. rewrite <- Hl in *.
  rewrite (T_first n cs i) by (try lia; intros k Hk; exact (proj1 (gchain_nth_len _ _ _ _ _ _ _ _ _ k Hg Hk))).
  destruct (chain_grid _ _ _ _ _ _ _ _ _ _ _ Hn Hg Hmc i Hi) as (Hgf & Hmf). cbn zeta in Hgf, Hmf.
  set (E' := deflate_all p Xs (map g_t (firstn i cs))) in *. pose proof Hgf as (HE' & Hdl & Ht & _).
  destruct (gchain_nth_len _ _ _ _ _ _ _ _ _ i Hg Hi) as (Lt & Ld & _). rewrite W_col by auto.
  split; [exact HE'|]. split.
  { rewrite (T_col n) by auto. rewrite Ht, projections_eq. reflexivity. }
  intros Hb. assert (Ho' : pp_optim prm' = OGrid) by (rewrite W7; exact Ho). unfold max_fact in Hmf. rewrite Ho' in Hmf. destruct Hmf as (nd & mi & En & Emi & Eg).
  unfold st_check, st_opts in Eck. unfold st_opts in En, Emi. rewrite Ho' in Eck, En, Emi.
  rewrite Hnd in En. apply Ok_inj in En. subst nd. rewrite Hmi in Emi. apply Ok_inj in Emi. subst mi.
  assert (Hp3 : (3 <= p)%nat).
  { rewrite Hnd in Eck. cbn [bind] in Eck. destruct (ndir <? 0)%Z; [discriminate|]. rewrite Hmi in Eck. cbn [bind] in Eck. destruct (Nat.leb_spec p 2); [discriminate|lia]. }
  pose proof (plane_grid_args env prm' kw (Z.to_nat ndir) Htr) as HG.
  assert (EG : forall am, plane_args env prm' kw (Z.to_nat ndir) am = mk_gargs (Z.to_nat ndir) (-1, 1) am (pp_square prm) (stops trigR (-1, 1)) kw).
  { intros am. destruct HG as (H1 & _ & H2). unfold plane_args in *. cbn [ga_range] in H1. rewrite H1, Htr. f_equal. congruence. }
  rewrite !EG in *. rewrite Htr in Eg.
  replace (nth i (map g_max cs) 0) with (g_max (nth i cs pc0)) by (symmetry; exact (map_nth g_max cs pc0 i)).
  exact (grid_stop_l most _ _ n p E' HG HE' Hn Hb maxiter _ _ Hp3 Hgd Eg).
Qed.
