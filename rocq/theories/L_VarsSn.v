(** Order and direction of the variables: scaling and snipls. *)

From Coq Require Import Reals List Arith ZArith Bool Lia Lra Permutation Sorted.
Import ListNotations.
From Verif Require Import Num Err Vec VecR OrdR L_Mat L_Lin L_Matmul S_Stats L_Stats S_Vars S_Regress M_Utils M_Preproc M_Robcent M_Plot M_Snipls
  L_Msupport L_Scaling L_Scaling2 L_Snipls L_Snipls2 L_OrderSc L_OrderSn L_Vars.
Open Scope R_scope.

(** success of fit_transform for the column-wise options *)
Lemma ft_plain : forall env c s n p X, wf n p X -> (2 <= n)%nat -> (1 <= p)%nat -> column_centre c -> column_scale s ->
  exists m v Z, ft env c s X = Ok (m, v, Z) /\ length m = p /\ length v = p /\ wf n p Z /\
    (forall j, (j < p)%nat -> col_loc c 0 (col j X) = Ok (nth j m 0) /\ col_sca s 0 (col j X) = Ok (nth j v 0)) /\
    (forall i j, (i < n)%nat -> (j < p)%nat -> mget Z i j = (mget X i j - nth j m 0) / (if Req_EM_T (nth j v 0) 0 then 1 else nth j v 0)).
Proof.
  intros env c s n p X HX Hn Hp Hc Hs.
  assert (Hc' : plain_centre c) by (destruct Hc as [|[|]]; unfold plain_centre; auto).
  assert (Hs' : plain_scale s) by (destruct Hs as [|[|]]; unfold plain_scale; auto).
  destruct (fit_succeeds env c s 0 n p X) as [st0 E0]; auto; [lra| |].
  { intros g [Hg1 _]. rewrite Rmult_0_l in Hg1. assert (g = 0)%nat; [|lia]. destruct g; auto. rewrite S_INR in Hg1. pose proof (pos_INR g). lra. }
  destruct (fit_cols env _ _ 0 n p X st0 HX Hn Hc' Hs' E0) as (m & v & Ec & Es & Hm & Hv & HC).
  apply fit_ok_inv in E0 as (m' & v' & El & Ev & Et & Eb & ->). cbn in Ec, Es, El, Ev, Et, Eb. injection Ec as ->. injection Es as ->.
  destruct (scale_data_cells n p X m v HX ltac:(lia) Hp Hm Hv) as (Z & EZ & WZ & HZ).
  rewrite (check_input_id n p) in El, Ev by auto.
  exists m, v, Z. unfold ft. rewrite Eb, El. cbn [bind]. rewrite Ev. cbn [bind]. rewrite EZ. cbn [bind]. repeat split; auto; try apply WZ; apply HC; auto.
Qed.
Lemma col_loc_sign : forall c v e m, v <> [] -> column_centre c -> col_loc c 0 v = Ok m -> col_loc c 0 (vscale e v) = Ok (e * m).
Proof.
  intros c v e m Hv Hc E. destruct Hc as [Hc|[Hc|Hc]].
  1,2: unfold vscale; rewrite <- (Rplus_0_r (e * m)); rewrite <- (col_loc_affine c 0 v m e 0) by (auto; lra); f_equal; apply map_ext; intros x; rnum; ring.
  subst c. cbn in *. apply Ok_inj in E. subst m. f_equal. ring.
Qed.
Lemma col_sca_sign : forall s v e q, v <> [] -> column_scale s -> Rabs e = 1 -> col_sca s 0 v = Ok q -> col_sca s 0 (vscale e v) = Ok q.
Proof.
  intros s v e q Hv Hs He E. destruct Hs as [Hs|[Hs|Hs]].
  1,2: rewrite <- (Rmult_1_l q), <- He; unfold vscale; rewrite <- (col_sca_affine s 0 v q e 0) by (auto; lra); f_equal; apply map_ext; intros x; rnum; ring.
  subst s. exact E.
Qed.

Section Relabel.
  Variables (p : nat) (q : list (nat * R)).
  Hypothesis Hq : relabelling p q.
  Hypothesis Hp : (0 < p)%nat.
  Notation sg := (sg q). Notation ep := (ep q).
  Lemma ft_relabel : forall env c s n X, wf n p X -> (2 <= n)%nat -> column_centre c -> column_scale s ->
    exists m v Z, ft env c s X = Ok (m, v, Z) /\ ft env c s (relabel q X) = Ok (relabel_row q m, relabel_pos q v, relabel q Z) /\ length m = p /\ length v = p /\ wf n p Z.
  Proof.
    intros env c s n X W Hn Hc Hs. assert (W' : wf n p (relabel q X)) by (apply (relabel_wf p q Hq); exact W).
    destruct (ft_plain env c s n p X W Hn Hp Hc Hs) as (m & v & Z & E & Lm & Lv & WZ & HC & HZ).
    destruct (ft_plain env c s n p (relabel q X) W' Hn Hp Hc Hs) as (m' & v' & Z' & E' & Lm' & Lv' & WZ' & HC' & HZ').
    assert (NE : forall j, col j X <> []). { intros j H. apply (f_equal (@length R)) in H. rewrite col_length, (wf_length n p X W) in H. cbn in H. lia. }
    assert (PM : forall k, (k < p)%nat -> nth k m' 0 = ep k * nth (sg k) m 0).
    { intros k Hk. destruct (HC' k Hk) as [H1 _]. destruct (HC (sg k) (sg_lt p q Hq k Hk)) as [H2 _]. rewrite (col_relabel p q Hq) in H1 by auto.
      rewrite (col_loc_sign c _ _ (nth (sg k) m 0)) in H1 by auto. apply Ok_inj in H1. symmetry. exact H1. }
    assert (PV : forall k, (k < p)%nat -> nth k v' 0 = nth (sg k) v 0).
    { intros k Hk. destruct (HC' k Hk) as [_ H1]. destruct (HC (sg k) (sg_lt p q Hq k Hk)) as [_ H2]. rewrite (col_relabel p q Hq) in H1 by auto.
      rewrite (col_sca_sign s _ _ (nth (sg k) v 0)) in H1 by (auto; apply (ep_abs p q Hq)). apply Ok_inj in H1. symmetry. exact H1. }
    exists m, v, Z. split; [exact E|]. split; [|auto]. rewrite E'. f_equal. f_equal; [f_equal|].
    - apply (row_ext p); [exact Lm'|apply (rr_length p q Hq)|]. intros k Hk. rewrite (rr_nth p q Hq) by auto. auto.
    - apply (row_ext p); [exact Lv'|apply (rp_length p q Hq)|]. intros k Hk. rewrite (rp_nth p q Hq) by auto. auto.
    - apply (mat_ext n p); [exact WZ'|apply (relabel_wf p q Hq); exact WZ|]. intros i k Hi Hk. rewrite (mget_relabel p q Hq n Z i k WZ Hi Hk). rewrite HZ', PM, PV by auto.
      rewrite HZ by (auto; apply (sg_lt p q Hq); exact Hk). rewrite (mget_relabel p q Hq n X i k W Hi Hk). unfold Rdiv. ring.
  Qed.

  (** one component *)
  Definition relabel_comp (c : scomp R) : scomp R :=
    mk_scomp (relabel_row q (c_w c)) (c_t c) (relabel_row q (c_q c)) (relabel_row q (c_p c)) (c_c c) (c_xev c) (c_yev c) (relabel_set q (c_good c)) (relabel q (c_X c)) (c_y c).
  Lemma where_lt : forall (f : R -> bool) v j, length v = p -> In j (where_ f v) -> (j < p)%nat.
  Proof. intros f v j Hv HI. apply (where_in f v j 0) in HI as [H _]. lia. Qed.
  Lemma rs_empty : relabel_set q [] = [].
  Proof. unfold relabel_set. induction (seq 0 (length q)); cbn; auto. Qed.
  Lemma relabel_step : forall nan eta ssx ssy n X y old, wf n p X -> (0 < n)%nat -> length y = n -> (forall j, In j old -> (j < p)%nat) ->
    snipls_step nan eta ssx ssy (relabel q X) y (relabel_set q old) = option_map relabel_comp (snipls_step nan eta ssx ssy X y old) /\
    forall c, snipls_step nan eta ssx ssy X y old = Some c -> forall j, In j (c_good c) -> (j < p)%nat.
  Proof.
    intros nan eta ssx ssy n X y old W Hn Hy Ho. unfold snipls_step. cbv zeta. rewrite !xty_R. rewrite (tmatvec_rr p q Hq n) by auto.
    set (wh0 := tmatvec X y). assert (L0 : length wh0 = p) by (apply (tmatvec_length n); auto).
    rewrite (vnorm_rr p q Hq) by auto. set (nw := vnorm wh0).
    rewrite (map_odd p q Hq (fun v => (v /! nw)%num) wh0) by (auto; intros; rnum; unfold Rdiv; ring).
    set (wh := map (fun v => (v /! nw)%num) wh0). assert (L1 : length wh = p) by (unfold wh; rewrite map_length; auto).
    rewrite (max_abs_rr p q Hq) by auto. set (mx := vmaxl (map nabs wh)).
    rewrite (map_even p q Hq (fun v => (nabs v -! eta *! mx)%num) wh) by (auto; intros; rnum; rewrite Rabs_Ropp; reflexivity).
    rewrite (map_rp p q Hq) by auto. set (g := map (fun v => (nabs v -! eta *! mx)%num) wh). assert (Lg : length g = p) by (unfold g; rewrite map_length; auto).
    rewrite (rs_where p q Hq) by auto. rewrite <- (rs_union p q Hq). set (good := union1d old (where_ (fun v => (n0 <?! v)%num) g)).
    assert (Hg : forall j, In j good -> (j < p)%nat) by (intros j Hj; apply union1d_in in Hj as [Hj|Hj]; [auto|eapply where_lt; eauto]).
    assert (Ew : map2 nmul (relabel_pos q g) (map nsign (relabel_row q wh)) = relabel_row q (map2 nmul g (map nsign wh))).
    { apply (row_ext p); [rewrite map2_length, map_length, (rp_length p q Hq), (rr_length p q Hq); lia|apply (rr_length p q Hq)|]. intros k Hk. pose proof (sg_lt p q Hq k Hk) as Hs.
      rewrite (rr_nth p q Hq) by auto. rewrite !(nth_map2 _ _ _ _ 0 0 0) by (rewrite ?map_length, ?(rp_length p q Hq), ?(rr_length p q Hq); lia). rewrite (rp_nth p q Hq) by auto.
      rewrite !(nth_map_lt _ _ _ 0) by (rewrite ?(rr_length p q Hq); lia). rewrite (rr_nth p q Hq) by auto. rewrite !nsign_sign_of. rnum. unfold sign_of.
      destruct (ep_cases p q Hq k) as [->| ->]; [rewrite !Rmult_1_l; reflexivity|].
      destruct (Rlt_dec 0 (-1 * nth (sg k) wh 0)), (Rlt_dec 0 (nth (sg k) wh 0)); try lra; destruct (Rlt_dec (-1 * nth (sg k) wh 0) 0); destruct (Rlt_dec (nth (sg k) wh 0) 0); lra. }
    rewrite Ew. clear Ew. set (wh1 := map2 nmul g (map nsign wh)). assert (L2 : length wh1 = p) by (unfold wh1; rewrite map2_length, map_length; lia).
    clearbody good. destruct good as [|g0 gs].
    - rewrite rs_empty. split; [reflexivity|discriminate].
    - destruct (relabel_set q (g0 :: gs)) as [|r0 rs] eqn:ER; [apply (rs_nil p q Hq) in ER; [discriminate|auto]|]. rewrite <- ER. split.
      2:{ intros c E. injection E as <-. exact Hg. }
      cbn [option_map]. f_equal. rewrite (keep_rr p q Hq) by auto. set (w := keep (g0 :: gs) wh1). assert (Lw : length w = p) by (unfold w; rewrite keep_length; auto).
      rewrite !xw_R. rewrite (matvec_rr p q Hq n) by auto. set (t := matvec X w). assert (Lt : length t = n) by (unfold t; rewrite matvec_length; apply (wf_length n p); auto).
      rewrite (tmatvec_rr p q Hq n) by auto. set (nt2 := nsqr (vnorm t)). set (u := tmatvec X t). assert (Lu : length u = p) by (apply (tmatvec_length n); auto).
      rewrite (map_odd p q Hq (fun v => (v /! nt2)%num) u) by (auto; intros; rnum; unfold Rdiv; ring). set (qq := map (fun v => (v /! nt2)%num) u).
      assert (Lq : length qq = p) by (unfold qq; rewrite map_length; auto).
      rewrite (keep_rr p q Hq) by auto. rewrite (vnorm_rr p q Hq) by (rewrite keep_length; auto). rewrite (msub_outer_rr p q Hq n) by auto. reflexivity.
  Qed.
  Lemma relabel_loop : forall nan eta ssx ssy n, (0 < n)%nat -> forall k X y old, wf n p X -> length y = n -> (forall j, In j old -> (j < p)%nat) ->
    snipls_loop nan eta ssx ssy k (relabel q X) y (relabel_set q old) = map relabel_comp (snipls_loop nan eta ssx ssy k X y old).
  Proof.
    intros nan eta ssx ssy n Hn. induction k as [|k IH]; intros X y old W Hy Ho; [reflexivity|]. cbn [snipls_loop].
    destruct (relabel_step nan eta ssx ssy n X y old W Hn Hy Ho) as [E HG]. rewrite E. destruct (snipls_step nan eta ssx ssy X y old) as [c|] eqn:ES; [|reflexivity].
    cbn [option_map map]. f_equal. unfold relabel_comp at 1 2 3. cbn [c_X c_y c_good].
    destruct (step_out_wf nan eta ssx ssy n p X y old c W Hn Hp Hy ES) as (A1 & A2 & _). apply IH; auto. intros j Hj. eapply HG; eauto.
  Qed.
  Lemma loop_lengths : forall nan eta ssx ssy n, (0 < n)%nat -> forall k (X : list (list R)) y old, wf n p X -> length y = n ->
    Forall (fun t => length t = p) (map c_w (snipls_loop nan eta ssx ssy k X y old)) /\ Forall (fun t => length t = p) (map c_p (snipls_loop nan eta ssx ssy k X y old)).
  Proof.
    intros nan eta ssx ssy n Hn. induction k as [|k IH]; intros X y old W Hy; [split; constructor|]. cbn [snipls_loop].
    destruct (snipls_step nan eta ssx ssy X y old) as [c|] eqn:E; [|split; constructor]. pose proof (step_spec nan eta ssx ssy n p X y old c W Hn Hp Hy E) as F.
    destruct (step_lengths eta ssx ssy n p X y old c W Hn Hy F) as (L1 & L2 & L3 & L4 & L5 & L6). cbn [map]. destruct (IH (c_X c) (c_y c) (c_good c)) as [I1 I2]; auto.
  Qed.

  (** matrices with a row for each variable *)
  Lemma of_cols_rr : forall cs, of_cols p (map (relabel_row q) cs) = relabel_rows q (of_cols p cs).
  Proof.
    intros cs. apply (nth_ext _ _ [] []); [unfold of_cols, relabel_rows; rewrite !map_length, seq_length, (q_length p q Hq); reflexivity|].
    unfold of_cols at 1. rewrite map_length, seq_length. intros k Hk. unfold of_cols at 1. rewrite (nth_map_lt _ _ _ 0%nat) by (rewrite seq_length; auto). rewrite seq_nth by auto. cbn [Nat.add].
    unfold relabel_rows. rewrite (nth_map_lt _ _ _ (0%nat, 1)) by (rewrite (q_length p q Hq); auto). change (fst (nth k q (0%nat, 1))) with (sg k). change (snd (nth k q (0%nat, 1))) with (ep k).
    unfold of_cols. rewrite (nth_map_lt _ _ _ 0%nat) by (rewrite seq_length; apply (sg_lt p q Hq); auto). rewrite seq_nth by (apply (sg_lt p q Hq); auto). cbn [Nat.add].
    rewrite !map_map. apply map_ext. intros c. apply (rr_nth p q Hq). auto.
  Qed.
  Lemma matvec_rows : forall (W : list (list R)) (u : list R), length W = p -> matvec (relabel_rows q W) u = relabel_row q (matvec W u).
  Proof.
    intros W u LW. unfold matvec at 1, relabel_rows, relabel_row. rewrite map_map. apply map_ext_in. intros je Hje. rewrite nth_matvec by (rewrite LW; apply (q_in p q Hq); auto). apply (dot_vscale_l (snd je)).
  Qed.
  Lemma matmul_rows : forall (W M : list (list R)), length W = p -> matmul (relabel_rows q W) M = relabel_rows q (matmul W M).
  Proof.
    intros W M LW. unfold matmul at 1, relabel_rows. rewrite map_map. apply map_ext_in. intros je Hje. unfold matmul. rewrite (nth_map_lt _ _ _ []) by (rewrite LW; apply (q_in p q Hq); auto).
    rewrite map_map. apply map_ext. intros c. apply (dot_vscale_l (snd je)).
  Qed.
  Lemma gram_rr : forall us ws, Forall (fun t => length t = p) us -> Forall (fun t => length t = p) ws ->
    matmul (transpose (of_cols p (map (relabel_row q) us))) (of_cols p (map (relabel_row q) ws)) = matmul (transpose (of_cols p us)) (of_cols p ws).
  Proof.
    intros us ws Hu Hw. assert (FR : forall l, Forall (fun t => length t = p) (map (relabel_row q) l)) by (intros l; apply Forall_forall; intros v Hv; apply in_map_iff in Hv as [v0 [<- _]]; apply (rr_length p q Hq)).
    unfold transpose, matmul. rewrite !cols_of_cols by auto. rewrite map_map. apply map_ext_in. intros u Iu. rewrite map_map. apply map_ext_in. intros w Iw. rewrite Forall_forall in Hu, Hw. apply (dot_rr p q Hq); auto.
  Qed.
  Lemma tw_rr : forall ws s0, Forall (fun t => length t = p) ws -> length s0 = p ->
    matvec (transpose (of_cols p (map (relabel_row q) ws))) (relabel_row q s0) = matvec (transpose (of_cols p ws)) s0.
  Proof.
    intros ws s0 Hw Hs. assert (FR : Forall (fun t => length t = p) (map (relabel_row q) ws)) by (apply Forall_forall; intros v Hv; apply in_map_iff in Hv as [v0 [<- _]]; apply (rr_length p q Hq)).
    unfold transpose, matvec. rewrite !cols_of_cols by auto. rewrite map_map. apply map_ext_in. intros w Iw. rewrite Forall_forall in Hw. apply (dot_rr p q Hq); auto.
  Qed.
  Lemma nth_col_R : forall (X : list (list R)) i j, nth i (col j X) 0 = mget X i j.
  Proof. exact (@nth_col R Num_R). Qed.
  Lemma row_gram : forall n (X : list (list R)) (w : list R), wf n p X -> (0 < n)%nat -> length w = p -> map (fun c => dot w c) (cols (matmul (transpose X) X)) = tmatvec X (matvec X w).
  Proof.
    intros n X w W Hn Lw. pose proof (wf_length n p X W) as LX. 
    assert (WT : wf p n (transpose X)) by (apply wf_cols; auto).
    assert (WS : wf p p (matmul (transpose X) X)) by (apply (wf_matmul p n p); auto).
    assert (NC : ncols (matmul (transpose X) X) = p) by (apply (wf_ncols p p); auto).
    apply (row_ext p); [rewrite map_length, cols_length; exact NC|apply (tmatvec_length n); auto|]. intros j Hj.
    rewrite (nth_map_lt _ _ _ []) by (rewrite cols_length, NC; exact Hj). rewrite nth_cols by (rewrite NC; exact Hj). rewrite (nth_tmatvec n p) by auto.
    rewrite (dot_sumn _ _ p) by (auto; rewrite col_length; apply (wf_length p p); auto).
    rewrite (dot_sumn _ _ n) by (rewrite ?col_length, ?matvec_length; auto).
    transitivity (sumn p (fun i => sumn n (fun r => nth i w 0 * (mget X r i * mget X r j)))).
    - apply sumn_ext. intros i Hi. rewrite nth_col_R. rewrite sumn_scal. f_equal. unfold matmul.
      unfold mget at 1. rewrite (nth_map_lt _ _ _ []) by (unfold transpose; rewrite cols_length, (wf_ncols n p); auto). rewrite (nth_map_lt _ _ _ []) by (rewrite cols_length, (wf_ncols n p); auto).
      unfold transpose. rewrite !nth_cols by (rewrite (wf_ncols n p); auto). rewrite (dot_sumn _ _ n) by (rewrite col_length; auto). apply sumn_ext. intros r Hr. rewrite !nth_col_R. reflexivity.
    - rewrite sumn_exchange. apply sumn_ext. intros r Hr. rewrite nth_matvec by lia. rewrite (dot_sumn _ _ p) by (auto; apply (wf_row n p X); auto; apply nth_In; lia).
      rewrite nth_col_R. rewrite <- sumn_scal. apply sumn_ext. intros i Hi. unfold mget. change (@n0 R Num_R) with 0. ring.
  Qed.
  Lemma wsw_rr : forall n (X : list (list R)) ws, wf n p X -> (0 < n)%nat -> Forall (fun t => length t = p) ws ->
    matmul (matmul (transpose (of_cols p (map (relabel_row q) ws))) (matmul (transpose (relabel q X)) (relabel q X))) (of_cols p (map (relabel_row q) ws)) =
    matmul (matmul (transpose (of_cols p ws)) (matmul (transpose X) X)) (of_cols p ws).
  Proof.
    intros n X ws W Hn Hw. assert (FR : Forall (fun t => length t = p) (map (relabel_row q) ws)) by (apply Forall_forall; intros v Hv; apply in_map_iff in Hv as [v0 [<- _]]; apply (rr_length p q Hq)).
    assert (W' : wf n p (relabel q X)) by (apply (relabel_wf p q Hq); auto). rewrite Forall_forall in Hw.
    unfold matmul at 1 2 4 5. unfold transpose at 1 3. rewrite !cols_of_cols by (auto; apply Forall_forall; auto). rewrite !map_map. apply map_ext_in. intros u Iu.
    rewrite (row_gram n (relabel q X)) by (auto; apply (rr_length p q Hq)). rewrite (row_gram n X) by auto. rewrite (matvec_rr p q Hq n) by auto. rewrite (tmatvec_rr p q Hq n) by auto.
    rewrite map_map. apply map_ext_in. intros w Iw. apply (dot_rr p q Hq); auto. apply (tmatvec_length n); auto.
  Qed.
  Lemma ss_rr : forall n X, wf n p X -> vsum (map nansum (map (map nsqr) (relabel q X))) = vsum (map nansum (map (map nsqr) X)).
  Proof.
    intros n X [_ HF]. unfold relabel. rewrite !map_map. f_equal. apply map_ext_in. intros r Hr. rewrite Forall_forall in HF. rewrite !nansum_R.
    rewrite (map_even p q Hq (nsqr (A := R))) by (auto; intros; unfold nsqr; rnum; ring). apply vsum_perm, Permutation_map, (rp_perm p q Hq). auto.
  Qed.
  Lemma bres_rr : forall (s0 : R) sX B, length sX = p -> length B = p ->
    map2 (fun sx b => ((s0 /! sx) *! b)%num) (relabel_pos q sX) (relabel_row q B) = relabel_row q (map2 (fun sx b => ((s0 /! sx) *! b)%num) sX B).
  Proof.
    intros s0 sX B LX LB. apply (row_ext p); [rewrite map2_length, (rp_length p q Hq), (rr_length p q Hq); lia|apply (rr_length p q Hq)|]. intros k Hk. pose proof (sg_lt p q Hq k Hk).
    rewrite (rr_nth p q Hq) by auto. rewrite !(nth_map2 _ _ _ _ 0 0 0) by (rewrite ?(rp_length p q Hq), ?(rr_length p q Hq); lia). rewrite (rp_nth p q Hq), (rr_nth p q Hq) by auto. rnum. ring.
  Qed.
  Lemma zeros_rr : relabel_row q (vzeros p) = vzeros p.
  Proof.
    apply (row_ext p); [apply (rr_length p q Hq)|apply repeat_length|]. intros k Hk. rewrite (rr_nth p q Hq) by auto. rewrite !nth_zeros. ring.
  Qed.
  Lemma last_map : forall {T U} (f : T -> U) l d d', l <> [] -> last (map f l) d' = f (last l d).
  Proof.
    intros T U f l d d'. induction l as [|a l IH]; intros H; [congruence|]. destruct l as [|b l]; [reflexivity|]. change (last (map f (b :: l)) d' = f (last (b :: l) d)). apply IH. discriminate.
  Qed.

  Lemma snipls_vars_l : forall env inv eta k c s n X y, column_centre c -> column_scale s -> is_matrix n p X -> (2 <= n)%nat -> length y = n ->
    snipls_fit env inv eta k c s (relabel q X) y = match snipls_fit env inv eta k c s X y with Ok f => Ok (relabel_model q f) | Err e => Err e end.
  Proof.
    intros env inv eta k c s n X y Hc Hs W Hn Hy. assert (W' : wf n p (relabel q X)) by (apply (relabel_wf p q Hq); auto).
    unfold snipls_fit. rewrite (wf_length n p X W), (wf_length n p _ W'), (wf_ncols n p X), (wf_ncols n p (relabel q X)) by (auto; lia). rewrite Hy, Nat.eqb_refl. cbn [negb].
    destruct ((n =? 1)%nat && (2 <=? p)%nat); [reflexivity|].
    rewrite (scaled_ft env c s n p X), (scaled_ft env c s n p (relabel q X)) by auto.
    destruct (ft_relabel env c s n X W Hn Hc Hs) as (mX & sX & X0 & EX & EX' & LmX & LsX & WX0). rewrite EX, EX'. cbn [bind].
    destruct (scaled env c s (map (fun v => [v]) y)) as [[[my sy] Y0]|e] eqn:EY; [|reflexivity]. cbn [bind].
    assert (Wy : wf n 1 (map (fun v => [v]) y)) by (rewrite <- Hy; apply as_column_wf).
    assert (WY0 : wf n 1 Y0) by (apply (scaled_wf env c s n 1 (map (fun v => [v]) y)); auto; eapply scaled_inv; eauto).
    set (y0 := col 0 Y0). assert (Ly0 : length y0 = n) by (unfold y0; rewrite col_length; eapply wf_length; eauto).
    rewrite !manynan_R, !vanynan_R. cbn [orb]. rewrite !xty_R. rewrite (tmatvec_rr p q Hq n) by (auto; lia). rewrite (ss_rr n X0) by auto.
    pose proof (relabel_loop false eta (vsum (map nansum (map (map nsqr) X0))) (nansum (map nsqr y0)) n ltac:(lia) k X0 y0 [] WX0 Ly0 ltac:(intros j [])) as EL. rewrite rs_empty in EL. rewrite EL. clear EL.
    pose proof (loop_lengths false eta (vsum (map nansum (map (map nsqr) X0))) (nansum (map nsqr y0)) n ltac:(lia) k X0 y0 [] WX0 Ly0) as [FW FP].
    set (comps := snipls_loop _ _ _ _ _ _ _ _) in *. clearbody comps.
    assert (E1 : map c_w (map relabel_comp comps) = map (relabel_row q) (map c_w comps)) by (rewrite !map_map; reflexivity).
    assert (E2 : map c_p (map relabel_comp comps) = map (relabel_row q) (map c_p comps)) by (rewrite !map_map; reflexivity).
    rewrite E1, E2. rewrite (gram_rr (map c_p comps) (map c_w comps)) by auto. rewrite (wsw_rr n X0) by (auto; lia).
    set (s0 := tmatvec X0 y0). assert (L0 : length s0 = p) by (apply (tmatvec_length n); auto; lia). rewrite tw_rr by auto.
    rewrite !of_cols_rr. set (Wm := of_cols p (map c_w comps)) in *. assert (LW : length Wm = p) by (unfold Wm, of_cols; rewrite map_length, seq_length; reflexivity).
    match goal with |- bind ?a _ = match bind ?b _ with _ => _ end =>
      assert (EAB : a = match b with Ok (x1, x2, t) => Ok (relabel_row q x1, relabel_rows q x2, t) | Err e => Err e end /\ forall x1 x2 t, b = Ok (x1, x2, t) -> length x1 = p) end.
    { destruct comps as [|c0 cs]; cbn [map].
      - rewrite zeros_rr. change [vzeros p] with ([vzeros p] : list (list R)). split; [|intros x1 x2 t E; apply Ok_inj in E; injection E as <- _ _; apply repeat_length].
        rewrite <- (of_cols_rr [vzeros p]). cbn [map]. rewrite zeros_rr. reflexivity.
      - cbn [map] in *. rewrite !map_map. cbn [relabel_comp c_t]. destruct (inv (matmul (transpose _) Wm)) as [PWi|]; [|split; [reflexivity|discriminate]]. cbn [bind].
        destruct (inv _) as [Gi|]; [|split; [reflexivity|discriminate]]. cbn [bind]. rewrite matvec_rows, matmul_rows by auto. split; [reflexivity|].
        intros x1 x2 t E. apply Ok_inj in E. injection E as <- _ _. rewrite matvec_length. exact LW. }
    destruct EAB as [EAB LB]. rewrite EAB. match goal with |- bind (match ?b with _ => _ end) _ = _ => destruct b as [[[B Rm] T]|e]; [|reflexivity] end.
    specialize (LB _ _ _ eq_refl). cbn [bind]. rewrite (rp_length p q Hq), LsX, Nat.eqb_refl. cbn [negb].
    rewrite bres_rr by auto. set (Bres := map2 _ sX B). assert (LBr : length Bres = p) by (unfold Bres; rewrite map2_length; lia).
    rewrite !xw_R. rewrite (matvec_rr p q Hq n) by auto.
    unfold relabel_model. cbn [sn_eta sn_ncomp sn_p sn_W sn_P sn_C sn_T sn_coef sn_coef_scaled sn_intercept sn_xev sn_yev sn_fitted sn_resid sn_R sn_retained sn_colret sn_xloc sn_yloc sn_xsca sn_ysca].
    rewrite !map_map. cbn [relabel_comp c_c c_xev c_yev c_good]. f_equal. f_equal.
    destruct comps as [|c0 cs]; [reflexivity|]. cbn [option_map map]. f_equal.
    change (relabel_set q (c_good c0) :: map (fun x => relabel_set q (c_good x)) cs) with (map (fun x => relabel_set q (c_good x)) (c0 :: cs)). 
    rewrite <- (map_map c_good (relabel_set q)). apply (last_map (relabel_set q) (map c_good (c0 :: cs)) [] []). discriminate.
  Qed.
End Relabel.
