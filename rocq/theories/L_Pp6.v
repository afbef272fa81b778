(** ppdire.fit: weights, reported index values, and the configurations that never fit. *)

From Coq Require Import String Reals List Arith ZArith Bool Lia Lra Permutation.
Import List. Import ListNotations.
From Verif Require Import Num Err Vec VecR OrdR L_Mat L_Lin L_Matmul L_Deflate M_Utils M_Preproc M_Robcent L_Stats L_Scaling L_Scaling2 M_Dicomo M_Ipopt M_Ppdire
  S_Stats S_Regress L_Snipls L_Snipls2 L_Rm2 S_Ppdire L_Grid L_Grid2 L_Pp L_Pp2 L_Pp3 L_Pp4.
Open Scope R_scope.

Lemma ww_optim : forall prm : pparams R, pp_optim (with_whitening prm) = pp_optim prm.
Proof. intros prm. unfold with_whitening. destruct (pp_whiten prm); reflexivity. Qed.

(** ** C69: the grid with two columns or less *)
Lemma C69_l : forall (env : pp_env R) prm d X f prm' d' m n p, is_matrix n p X -> (0 < n)%nat -> (p <= 2)%nat -> pp_optim prm = OGrid ->
  (pp_whiten prm = true \/ pp_compress prm = false \/ (p <= n)%nat) -> pp_fit env prm d X f <> (prm', d', Ok m).
Proof.
  intros env prm d X f prm' d' m n p HX Hn Hp Ho Hc E.
  apply fit_inv in E as (most & s & X1 & q & dims & mX & sX & Xs0 & Xs & K & yi & cs & yc & Rt & Ep & Ei & Hm & Es & Ec & Esc & Ew & Ey & Ek & _).
  destruct (with_h_fields prm (f_h f)) as (W1 & W2 & W3 & W4 & W5 & W6 & W7 & W8 & W9 & W10 & W11).
  assert (Ho' : pp_optim prm' = OGrid) by (rewrite Ep, ww_optim, W7; exact Ho).
  assert (Eq : st_compress env prm' X = Ok (X, p, None)).
  { unfold st_compress. rewrite (wf_length n p X HX), (wf_ncols n p X HX Hn). rewrite Ep. unfold with_whitening. rewrite W1.
    destruct (pp_whiten prm) eqn:Eww; cbn [pp_compress]; [rewrite andb_false_r; reflexivity|]. rewrite W2.
    destruct Hc as [Hc|[->|Hc]]; [discriminate|rewrite andb_false_r; reflexivity|]. destruct (Nat.ltb_spec n p); [lia|reflexivity]. }
  rewrite Eq in Ec. inversion Ec; subst X1 q dims. unfold st_check in Ek. rewrite Ho' in Ek.
  destruct (opt_int "ndir" _) as [z|]; cbn [bind] in Ek; [|discriminate]. destruct (z <? 0)%Z; [discriminate|].
  destruct (opt_int "maxiter" _) as [w|]; cbn [bind] in Ek; [|discriminate]. destruct (Nat.leb_spec p 2); [discriminate|lia].
Qed.

(** the error itself *)
Lemma C69_error_l : forall (env : pp_env R) prm d X f n p most ndir maxiter, is_matrix n p X -> (0 < n)%nat -> (p <= 2)%nat -> pp_optim prm = OGrid ->
  pp_whiten prm = false -> (pp_compress prm = false \/ (p <= n)%nat) -> pp_center_data prm = false -> pp_scale_data prm = false -> f_y f = YNone ->
  ix_dicomo (pp_idx prm) = false -> ix_new (pp_idx prm) = Ok most ->
  (match f_h f with Some h => h | None => pp_ncomp prm end <= Nat.min n p)%nat ->
  opt_int "ndir" (grid_options d) = Ok ndir -> (0 <= ndir)%Z -> opt_int "maxiter" (grid_options d) = Ok maxiter ->
  snd (pp_fit env prm d X f) = Err UnboundLocalError.
Proof.
  intros env prm d X f n p most ndir maxiter HX Hn Hp Ho Hw Hc Hcd Hsd Hy Hdi Hix Hh Hnd Hnd0 Hmi.
  destruct (with_h_fields prm (f_h f)) as (W1 & W2 & W3 & W4 & W5 & W6 & W7 & W8 & W9 & W10 & W11).
  unfold pp_fit. rewrite W9, Hdi. cbn [andb]. rewrite Hix. rewrite (wf_length n p X HX), (wf_ncols n p X HX Hn).
  replace (pp_ncomp (with_h prm (f_h f))) with (match f_h f with Some h => h | None => pp_ncomp prm end) by (destruct (f_h f); reflexivity).
  destruct (Nat.ltb_spec (Nat.min n p) (match f_h f with Some h => h | None => pp_ncomp prm end)); [lia|].
  assert (Eww : with_whitening (with_h prm (f_h f)) = with_h prm (f_h f)) by (unfold with_whitening; rewrite W1, Hw; reflexivity). rewrite Eww.
  unfold scale_name. rewrite W11, Hsd. rewrite W2.
  replace ((n <? p)%nat && pp_compress prm) with false by (destruct Hc as [->|Hc]; [rewrite andb_false_r; reflexivity|destruct (Nat.ltb_spec n p); [lia|reflexivity]]).
  rewrite W3, Hcd, W1, Hw, Hy, W7, Ho, Hnd. cbn [bind]. destruct (Z.ltb_spec ndir 0); [lia|]. rewrite Hmi. cbn [bind].
  destruct (Nat.leb_spec p 2); [reflexivity|lia].
Qed.

(** ** C70: whitening *)
Lemma first_component : forall prm most kw two K n p E l, gchain prm most kw two K n p E l -> (0 < length l)%nat -> gfact prm most kw two K n p E (hd pc0 l).
Proof. intros prm most kw two K n p E [|c l] Hc Hl; [cbn in Hl; lia|]. apply Hc. Qed.

Lemma concat_rows_length : forall (k : nat) (M : list (list R)), Forall (fun r => length r = k) M -> length (concat M) = (length M * k)%nat.
Proof. intros k M HF. induction HF as [|r M Hr HF IH]; [reflexivity|]. cbn. rewrite app_length, IH. lia. Qed.

(** the loop's stored weight columns: what [component] computes with a whitening matrix *)
Lemma whitened_weights : forall prm most kw two K n p E wi o c, component prm most kw two (Some K) n p E (wi, o) = Ok c ->
  length (concat (map2 (fun r a => map (fun x => x * a) r) K (map (fun v => v / sqrt (vsum (map nsqr wi))) wi))) = p /\ ncols E = length wi /\ ncols E = p.
Proof.
  intros prm most kw two K n p E wi o c Ec. unfold component in Ec. destruct (npdot E wi) as [t|] eqn:Et; cbn [bind] in Ec; [|discriminate].
  unfold npdot in Et. destruct (Nat.eqb_spec (ncols E) (length wi)) as [El|]; [|discriminate].
  destruct (match o with Some o => Ok o | None => most (as_col t) kw end); cbn [bind] in Ec; [|discriminate].
  destruct (negb _) eqn:Ek; [discriminate|]. apply negb_false_iff, andb_prop in Ek as [Ek E3]. apply andb_prop in Ek as [E1 _].
  apply Nat.eqb_eq in E1, E3. rewrite map_length, tmatvec_len in E3. split; [exact E1|]. split; auto.
Qed.

Lemma C70_l : forall (env : pp_env R) prm d X f prm' d' m n p, is_matrix n p X -> (2 <= p)%nat -> pp_whiten prm = true -> economy_shapes (pe_svd env) ->
  pp_fit env prm d X f = (prm', d', Ok m) -> pp_ncomp prm' = 0%nat.
Proof.
  intros env prm d X f prm' d' m n p HX Hp Hw Hsvd E. destruct (Nat.eq_dec (pp_ncomp prm') 0) as [|Hne]; [assumption|exfalso].
  apply fit_inv in E as (most & s & X1 & q & dims & mX & sX & Xs0 & Xs & K & yi & cs & yc & Rt & Ep & Ei & Hm & Es & Ec & Esc & Ew & Ey & Ek & El & _).
  destruct (with_h_fields prm (f_h f)) as (W1 & W2 & W3 & W4 & W5 & W6 & W7 & W8 & W9 & W10 & W11).
  rewrite (wf_length n p X HX) in *. assert (Hn : (0 < n)%nat) by lia. rewrite (wf_ncols n p X HX Hn) in *.
  assert (Ew1 : pp_whiten prm' = true) by (rewrite Ep; unfold with_whitening; rewrite W1, Hw; reflexivity).
  assert (Ec1 : pp_compress prm' = false) by (rewrite Ep; unfold with_whitening; rewrite W1, Hw; reflexivity).
  unfold st_compress in Ec. rewrite Ec1, andb_false_r, (wf_ncols n p X HX Hn) in Ec. inversion Ec; subst X1 q dims. clear Ec.
  assert (HXr : rect Xs0).
  { unfold st_scale in Esc. destruct (pp_center_data prm'); [eapply pp_scaled_rect; eauto; exact (wf_rect n p X HX)|inversion Esc; subst; exact (wf_rect n p _ HX)]. }
  unfold st_whiten in Ew. rewrite Ew1 in Ew. destruct (pe_svd env (transpose Xs0)) as [[[V sv] U]|] eqn:Es0; cbn [bind] in Ew; [|discriminate].
  apply Ok_inj, pair_equal_spec in Ew as [E1 E2]. subst K.
  destruct (pp_ncomp prm') as [|k] eqn:Eh; [congruence|]. cbn [pp_loop] in El.
  destruct (direction env prm' most (st_kw prm' f yi) (st_opts prm' d) p Xs) as [d1 rw]. destruct rw as [[w o]|e]; cbn [bind] in El; [|discriminate].
  destruct (component (A := R) _ _ _ _ _ _ _ _ _) as [c|e] eqn:Ecp; cbn [bind] in El; [|discriminate]. clear El.
  apply whitened_weights in Ecp as (H1 & H2 & H3). set (K := map (fun r => firstn p (map2 ndiv r sv)) V) in *.
  destruct Xs0 as [|x0 X0]; [rewrite <- E1 in H3; cbn in H3; lia|].
  assert (Hwt : wf (ncols (x0 :: X0)) (length (x0 :: X0)) (transpose (x0 :: X0))) by (apply wf_cols; [exact HXr|cbn; lia]).
  destruct (Hsvd _ _ _ V sv U Hwt Es0) as (HV & Hsv & _). set (a := ncols (x0 :: X0)) in *. set (b := length (x0 :: X0)) in *.
  assert (HK : wf a (Nat.min p (Nat.min a b)) K).
  { destruct HV as [HV1 HV2]. split; [unfold K; rewrite map_length; exact HV1|]. apply Forall_forall. intros r Hr. unfold K in Hr. apply in_map_iff in Hr as (v & <- & Hv).
    rewrite Forall_forall in HV2. rewrite firstn_length, map2_length, (HV2 v Hv), Hsv. lia. }
  assert (HnE : ncols Xs = Nat.min p (Nat.min a b)).
  { rewrite <- E1. unfold matmul. unfold ncols at 1. cbn [map hd]. rewrite !map_length. unfold cols. rewrite map_length, seq_length.
    destruct (Nat.eq_dec a 0) as [Ha|Ha].
    - destruct HK as [HK1 HK2]. rewrite Ha in HK1. apply length_zero_iff_nil in HK1. rewrite HK1. replace (Nat.min p (Nat.min a b)) with 0%nat by lia. reflexivity.
    - apply (wf_ncols a). exact HK. lia. }
  rewrite (concat_rows_length p) in H1.
  - rewrite map2_length, map_length, (wf_length _ _ _ HK) in H1. assert (Nat.min a (length w) = 1)%nat by nia. lia.
  - assert (Ep' : Nat.min p (Nat.min a b) = p) by lia. rewrite Ep' in HK. destruct HK as [_ HK]. clear -HK. revert HK. generalize (map (fun v => v / sqrt (vsum (map nsqr w))) w). revert K.
    intros K; induction K as [|r K IH]; intros l HK; [constructor|]. destruct l as [|x l]; [constructor|]. inversion HK; subst. cbn [map2]. constructor; [apply map_length|apply IH; auto].
Qed.

(** ** C109: the weight vectors have unit norm *)
Lemma chain_facts : forall env prm most kw two K n p d l E, gchain prm most kw two K n p E l -> mchain env prm most kw d p E l -> forall i, (i < length l)%nat ->
  exists Ei, gfact prm most kw two K n p Ei (nth i l pc0) /\ max_fact env prm most kw d p Ei (nth i l pc0).
Proof.
  intros env prm most kw two K n p d l. induction l as [|c l IH]; intros E Hg Hm i Hi; [cbn in Hi; lia|]. destruct Hg as [Hg1 Hg2], Hm as [Hm1 Hm2].
  destruct i as [|i]; [exists E; auto|]. cbn [nth]. apply (IH (g_E c)); auto. cbn in Hi. lia.
Qed.
Lemma dot_zero_matvec : forall n p (E : list (list R)) w, wf n p E -> dot w w = 0 -> length w = p -> dot (matvec E w) (matvec E w) = 0.
Proof.
  intros n p E w HE Hw Hl. assert (Hz : forall j, (j < p)%nat -> nth j w 0 = 0).
  { intros j Hj. rewrite (dot_sumn w w p) in Hw by auto. assert (H2 : forall i, (i < p)%nat -> 0 <= nth i w 0 * nth i w 0) by (intros; apply Rle_0_sqr).
    assert (H1 : nth j w 0 * nth j w 0 <= sumn p (fun i => nth i w 0 * nth i w 0)).
    { rewrite <- (sumn_delta p j (fun i => nth i w 0 * nth i w 0)) by auto. apply sumn_le. intros i Hi. destruct (Nat.eqb i j); auto. lra. }
    rewrite Hw in H1. specialize (H2 j Hj). nra. }
  rewrite (dot_sumn _ _ n) by (rewrite matvec_length; apply (wf_length _ _ _ HE)). apply sumn_zero. intros i Hi.
  assert (E0 : nth i (matvec E w) 0 = 0).
  { rewrite nth_matvec by (rewrite (wf_length _ _ _ HE); auto). rewrite (dot_row_sumn n p) by auto. apply sumn_zero. intros j Hj. change (@n0 R Num_R) with 0. rewrite Hz by auto. ring. }
  rewrite E0. ring.
Qed.
Lemma normalised_unit : forall x : list R, let w := map (fun v => v / sqrt (vsum (map nsqr x))) x in dot w w = 0 \/ dot w w = 1.
Proof.
  intros x w. set (N := vsum (map nsqr x)) in *.
  assert (HN : N = dot x x) by (unfold N, dot; rewrite map2_same; reflexivity).
  assert (Hw : w = vscale (/ sqrt N) x) by (unfold w, vscale; apply map_ext; intros v; rnum; unfold Rdiv; ring).
  rewrite Hw, dot_vscale_l, dot_comm, dot_vscale_l, <- HN.
  assert (HNp : 0 <= N) by (unfold N; apply vsum_map_nonneg; intros; unfold nsqr; rnum; apply Rle_0_sqr).
  destruct (Req_dec N 0) as [->|Hne]; [left; ring|]. right.
  assert (Hs : sqrt N * sqrt N = N) by (apply sqrt_sqrt; auto). assert (sqrt N <> 0) by (intros H0; rewrite H0 in Hs; lra).
  rewrite <- Hs at 3. field. auto.
Qed.

Lemma W_col : forall p (cs : list (pcomp R)) i, (i < length cs)%nat -> length (g_dir (nth i cs pc0)) = p -> column i (of_cols p (map g_dir cs)) = g_dir (nth i cs pc0).
Proof.
  intros p cs i Hi Hl. rewrite <- (map_nth g_dir cs pc0 i). apply (col_of_cols p (map g_dir cs) i); [rewrite map_length; auto|].
  change (@nil R) with (g_dir pc0). rewrite map_nth. exact Hl.
Qed.

Lemma plane_grid_args : forall (env : pp_env R) prm kw ndir, pe_trig env = trigR -> grid_args (plane_args env prm kw ndir AmTuple) (plane_args env prm kw ndir AmArray).
Proof.
  intros env prm kw ndir Ht. unfold grid_args, plane_args, opt_range. cbn [ga_range ga_alphamat ga_ndir ga_square ga_kw]. rnum. rewrite Ht. split; [f_equal; lra|].
  split; [reflexivity|]. replace (-1) with (- (1)) by lra. reflexivity.
Qed.

Lemma C109_l : forall (env : pp_env R) prm d X f prm' d' m n p, is_matrix n p X -> direct_fit prm n p -> pe_trig env = trigR ->
  pp_fit env prm d X f = (prm', d', Ok m) -> (0 < pp_ncomp prm')%nat ->
  (pp_optim prm = OGrid -> exists ndir, opt_int "ndir" (grid_options d) = Ok ndir /\ good_ndir (Z.to_nat ndir)) ->
  is_matrix p (pp_ncomp prm') (pm_W m) /\
  forall i, (i < pp_ncomp prm')%nat -> sqlen (column i (pm_T m)) <> 0 -> sqlen (column i (pm_W m)) = 1.
Proof.
  intros env prm d X f prm' d' m n p HX Hd Htr E Hh Hg0. destruct (plain_run _ _ _ _ _ _ _ _ _ _ HX Hd E Hh) as
    (Hn & Hp0 & Ep & most & s & mX & sX & Xs & yi & cs & yc & Rt & ym & _ & _ & Esc & HXs & _ & Eck & Hl & Hg & Hmc & HR & -> & _).
  destruct (with_h_fields prm (f_h f)) as (W1 & W2 & W3 & W4 & W5 & W6 & W7 & W8 & W9 & W10 & W11).
  cbn [pm_T pm_W]. rewrite <- Hl in *. split; [rewrite <- (map_length g_dir cs); apply wf_of_cols|]. intros i Hi Hz.
  destruct (gchain_nth_len _ _ _ _ _ _ _ _ _ i Hg Hi) as (Lt & Ld & _). rewrite T_col in Hz by auto. rewrite W_col by auto. rewrite sqlen_dot in *.
  destruct (chain_facts _ _ _ _ _ _ _ _ _ _ _ Hg Hmc i Hi) as (Ei & (HEi & _ & Et & _) & Hmf). unfold max_fact in Hmf.
  assert (Hcase : pp_optim prm' = OGrid \/ exists x, g_dir (nth i cs pc0) = map (fun v => v / sqrt (vsum (map nsqr x))) x).
  { destruct (pp_optim prm'); auto; right; destruct Hmf as (_ & x & _ & Hx); eauto. }
  destruct Hcase as [Ho|(x & Hx)].
  - rewrite Ho in Hmf. destruct Hmf as (nd & mi & En & Emi & Eg). assert (Ho' : pp_optim prm = OGrid) by (rewrite <- W7, <- Ep; exact Ho).
    destruct (Hg0 Ho') as (nd' & En' & Hgd). unfold st_opts in En. rewrite Ho in En. rewrite En in En'. inversion En'; subst nd'.
    assert (Hp3 : (3 <= p)%nat).
    { unfold st_check, st_opts in Eck. rewrite Ho in Eck. rewrite En in Eck. cbn [bind] in Eck. destruct (nd <? 0)%Z; [discriminate|].
      unfold st_opts in Emi. rewrite Ho in Emi. rewrite Emi in Eck. cbn [bind] in Eck. destruct (Nat.leb_spec p 2); [discriminate|lia]. }
    rewrite Htr in Eg.
    destruct (grid_search_inv most _ _ n p Ei (plane_grid_args env prm' _ (Z.to_nat nd) Htr) HEi Hn mi _ _ Hp3 Hgd Eg) as (_ & _ & H1 & _). exact H1.
  - pose proof (normalised_unit x) as Hu. cbn zeta in Hu. rewrite <- Hx in Hu. destruct Hu as [Hu|Hu]; [|exact Hu]. exfalso. apply Hz. rewrite Et. apply (dot_zero_matvec n p); auto.
Qed.

(** ** C110: the reported index values *)
Lemma response_scaled : forall (env : pp_env R) prm s n y yi my v, st_y env prm s n y = Ok (Some (yi, my)) -> has_response y v -> (0 < length v)%nat ->
  yi_s yi = map (fun a => (a - my) / (if Req_EM_T (yi_sca yi) 0 then 1 else yi_sca yi)) v.
Proof.
  intros env prm s n y yi my v E (a & Hy & Ha) Hlv.
  assert (Hr : exists k, bind (response env prm s n k a) (fun yi => Ok (Some yi)) = Ok (Some (yi, my))).
  { destruct Hy as [-> | ->]; cbn [st_y] in E; unfold st_y in E; eexists; exact E. }
  destruct Hr as (k & Hr). destruct (response env prm s n k a) as [[yi' my']|] eqn:Er; cbn [bind] in Hr; [|discriminate]. inversion Hr; subst.
  unfold response in Er.
  assert (Hrows : match a with A1 v => map (fun a => [a]) v | A2 Y => Y end = map (fun x => [x]) v) by (destruct Ha as [-> | ->]; reflexivity).
  rewrite Hrows in Er. do 2 match type of Er with (if ?b then _ else _) = _ => destruct b; [discriminate|] end.
  assert (Hc0 : col 0 (map (fun x : R => [x]) v) = v) by (unfold col; rewrite map_map; cbn [nth]; apply map_id).
  destruct (pp_center_data prm).
  - destruct (pp_scaled env (pp_center prm) s (pp_trim prm) (map (fun x => [x]) v)) as [[[m sc] Z]|] eqn:Es; cbn [bind] in Er; [|discriminate]. apply Ok_inj, pair_equal_spec in Er as [<- <-].
    cbn [yi_s yi_sca]. apply pp_scaled_inv in Es as (Es & _).
    destruct v as [|x0 v]; [cbn in Hlv; lia|].
    { assert (Hci : check_input (A2 (map (fun x => [x]) (x0 :: v))) = map (fun x => [x]) (x0 :: v)) by (destruct v; reflexivity).
      rewrite Hci in Es. unfold scale_data in Es. cbn [map ncols hd length Nat.eqb] in Es. destruct m as [|m0 m]; [discriminate|].
      destruct sc as [|s0 sc]; [discriminate|]. cbn [handle_zeros map] in Es. inversion Es. cbn [nth]. unfold col. cbn [map]. f_equal.
      * cbn [nth]. rnum. unfold Reqb. destruct (Req_EM_T s0 0); reflexivity.
      * rewrite !map_map. apply map_ext. intros x. cbn [map nth]. rnum. unfold Reqb. destruct (Req_EM_T s0 0); reflexivity. }
  - inversion Er. cbn [yi_s yi_sca]. rewrite Hc0. rnum. destruct (Req_EM_T 1 0); [lra|]. rewrite <- (map_id v) at 1. apply map_ext. intros x. field.
Qed.

Lemma C110_l : forall (env : pp_env R) prm d X f prm' d' m n p, is_matrix n p X -> direct_fit prm n p ->
  pp_fit env prm d X f = (prm', d', Ok m) -> (0 < pp_ncomp prm')%nat ->
  exists most ys, ix_new (pp_idx prm) = Ok most /\
    (f_y f = YNone -> ys = None) /\
    (forall v, has_response (f_y f) v -> exists ym, pm_y m = Some ym /\
       ys = Some (A2 (map (fun a => [(a - ym_loc ym) / (if Req_EM_T (ym_sca ym) 0 then 1 else ym_sca ym)]) v))) /\
    forall i, (i < pp_ncomp prm')%nat ->
      let kw := mk_dkw ys (Some (pp_trim prm)) (Some (f_bias f)) (Some (pp_alpha prm)) None None None None None (Some euclid) in
      let score := A2 (map (fun a => [a]) (column i (pm_T m))) in
      (pp_optim prm <> OGrid -> most score kw = Ok (nth i (pm_max m) 0)) /\
      (f_y f <> YNone -> exists u, most score kw = Ok u /\ nth i (pm_crit m) 0 = if pp_square prm then u * u else u) /\
      (pp_optim prm = OGrid -> pe_trig env = trigR -> (exists ndir, opt_int "ndir" (grid_options d) = Ok ndir /\ good_ndir (Z.to_nat ndir)) ->
         (exists u, most score kw = Ok u /\ nth i (pm_max m) 0 = if pp_square prm then u * u else u) \/ nth i (pm_max m) 0 = -1000).
Proof.
  intros env prm d X f prm' d' m n p HX Hd E Hh. destruct (plain_run _ _ _ _ _ _ _ _ _ _ HX Hd E Hh) as
    (Hn & Hp0 & Ep & most & s & mX & sX & Xs & yi & cs & yc & Rt & ym & Hix & _ & Esc & HXs & Ey & Eck & Hl & Hg & Hmc & HR & -> & Hym).
  destruct (with_h_fields prm (f_h f)) as (W1 & W2 & W3 & W4 & W5 & W6 & W7 & W8 & W9 & W10 & W11).
  exists most, (k_y (st_kw prm' f yi)). split; [exact Hix|].
  split.
  { intros Hy. unfold st_y in Ey. rewrite Hy in Ey. inversion Ey; subst. reflexivity. }
  split.
  { intros v Hv. destruct (has_response_some _ _ _ _ _ _ _ Ey Hv) as (y & my & ->). destruct Hym as (_ & _ & ic & b0 & yfit & r & _ & ->).
    eexists. split; [reflexivity|]. cbn [ym_loc ym_sca st_kw index_kw k_y]. unfold st_kw, index_kw. cbn [k_y]. f_equal. unfold as_col. f_equal.
    destruct (response_values _ _ _ _ _ _ _ _ Ey Hv) as [_ Hlv]. rewrite (response_scaled _ _ _ _ _ _ _ _ Ey Hv) by lia. rewrite map_map. reflexivity. }
  intros i Hi. cbn zeta. assert (Ekw : mk_dkw (k_y (st_kw prm' f yi)) (Some (pp_trim prm)) (Some (f_bias f)) (Some (pp_alpha prm)) None None None None None (Some euclid) = st_kw prm' f yi).
  { unfold st_kw, index_kw. cbn [k_y]. rewrite Ep, W5, W10. reflexivity. }
  rewrite Ekw. rewrite <- Hl in *. cbn [pm_T pm_max pm_crit].
  destruct (gchain_nth_len _ _ _ _ _ _ _ _ _ i Hg Hi) as (Lt & Ld & _). rewrite T_col by auto.
  destruct (chain_facts _ _ _ _ _ _ _ _ _ _ _ Hg Hmc i Hi) as (Ei & (HEi & _ & Et & _ & _ & _ & Hgw & Hcr) & Hmf). unfold max_fact in Hmf.
  replace (nth i (map g_max cs) 0) with (g_max (nth i cs pc0)) by (symmetry; exact (map_nth g_max cs pc0 i)).
  replace (nth i (map g_crit cs) 0) with (g_crit (nth i cs pc0)) by (symmetry; exact (map_nth g_crit cs pc0 i)).
  split; [|split].
  - intros Ho. rewrite <- W7, <- Ep in Ho. destruct (pp_optim prm'); [congruence| | |]; apply Hmf.
  - intros Hy. assert (Hs : is_some (oy yi) = true).
    { unfold st_y in Ey. destruct (f_y f) as [|a|a]; [congruence| |]; destruct (response _ _ _ _ _ a) as [[yy my]|]; cbn [bind] in Ey; try discriminate; inversion Ey; reflexivity. }
    destruct (Hcr Hs) as (tw & u & Etw & Eu & Ec). rewrite (Hgw eq_refl) in Etw. unfold npdot in Etw. destruct (_ =? _)%nat; [|discriminate]. apply Ok_inj in Etw.
    rewrite <- Etw, <- Et in Eu. exists u. split; [exact Eu|]. rewrite Ec, Ep, W8. reflexivity.
  - intros Ho Htr (nd' & En' & Hgd). assert (Ho' : pp_optim prm' = OGrid) by (rewrite Ep, W7; exact Ho). rewrite Ho' in Hmf.
    destruct Hmf as (nd & mi & En & Emi & Eg). unfold st_opts in En, Emi, Eck. rewrite Ho' in En, Emi, Eck. rewrite En in En'. inversion En'; subst nd'.
    assert (Hp3 : (3 <= p)%nat).
    { unfold st_check in Eck. rewrite Ho' in Eck. rewrite En in Eck. cbn [bind] in Eck. destruct (nd <? 0)%Z; [discriminate|].
      rewrite Emi in Eck. cbn [bind] in Eck. destruct (Nat.leb_spec p 2); [discriminate|lia]. }
    rewrite Htr in Eg.
    destruct (grid_search_inv most _ _ n p Ei (plane_grid_args env prm' _ (Z.to_nat nd) Htr) HEi Hn mi _ _ Hp3 Hgd Eg) as (_ & _ & _ & z1 & w1 & o1 & _ & _ & [Hov|(_ & Hov & _)] & _); [left|right; exact Hov].
    destruct Hov as (u & Eu & Hu). cbn [plane_args ga_kw ga_square] in Eu, Hu. rewrite <- Et in Eu. exists u. split; [exact Eu|]. rewrite Hu, Ep, W8. reflexivity.
Qed.
