(** A grid fit of ppdire always completes. *)

From Coq Require Import String Reals List Arith ZArith Bool Lia Lra.
Import List. Import ListNotations.
From Verif Require Import Num Err Vec VecR L_Mat L_Lin L_Matmul L_Deflate M_Utils M_Preproc M_Robcent L_Stats L_Scaling L_Scaling2 M_Dicomo M_Ipopt M_Ppdire S_OrderPp
  S_Stats S_Regress L_Snipls L_Snipls2 S_Ppdire L_Pp L_Pp2 L_Grid L_Grid2 L_Grid3 L_OrderSc L_Pp4.
Open Scope R_scope.

Section Tot.
  Variables (most : arr R -> dkw R -> res R) (g g2 : gargs R) (n p : nat) (Z : list (list R)).
  Hypothesis HG : grid_args g g2.
  Hypothesis HZ : wf n p Z.
  Hypothesis Hn : (0 < n)%nat.
  Hypothesis Hd : (0 < ga_ndir g)%nat.
  Hypothesis H1 : forall v, length v = n -> exists u, most (A1 v) (ga_kw g) = Ok u.
  Hypothesis H2 : forall v, length v = n -> exists u, most (as_col v) (ga_kw g) = Ok u.

  Lemma val_fun : forall h X a b v w, val most h X a b v -> val most h X a b w -> v = w.
  Proof. intros h X a b v w. apply ival_unique. Qed.

  Lemma plane1_total : forall u v, length u = n -> length v = n -> exists w0 w1 m, gridplane trigR most (stack2 u v) g = Ok (w0, w1, m).
  Proof.
    intros u v Hu Hv. destruct HG as (Hr & Ha & _).
    destruct (first_best_exists (ga_ndir g) (fun k => (1 * cos (angle1 (ga_ndir g) k), 1 * sin (angle1 (ga_ndir g) k))) (val most g (stack2 u v))) as (a & b & m & H); auto.
    - intros k Hk. unfold val, sample_value. rewrite combine2_stack2 by lia. destruct (H1 (blend (1 * cos (angle1 (ga_ndir g) k)) (1 * sin (angle1 (ga_ndir g) k)) u v)) as [x Ex]; [rewrite blend_length; lia|].
      eexists. exists x. cbn [fst snd]. split; [exact Ex|reflexivity].
    - apply val_fun.
    - exists a, b, m. apply (gridplane_spec most n (stack2 u v) g (-1) 1); auto; [apply stack2_matrix; auto|lra|lra].
  Qed.
  Lemma plane2_total : forall u v q, length u = n -> length v = n -> exists w0 w1 m, gridplane_2 trigR most (stack2 u v) q g2 = Ok (w0, w1, m).
  Proof.
    intros u v q Hu Hv. destruct (g2_kw g g2 HG) as (Hkw & Hsq & Hnd). destruct HG as (_ & _ & E2).
    destruct (first_best_exists (ga_ndir g2) (fun k => (1 * cos (angle2 (ga_ndir g2) k) / norm2 q 1 (angle2 (ga_ndir g2) k), 1 * sin (angle2 (ga_ndir g2) k) / norm2 q 1 (angle2 (ga_ndir g2) k))) (val most g2 (stack2 u v))) as (a & b & m & H).
    - rewrite Hnd. auto.
    - intros k Hk. unfold val, sample_value. rewrite combine2_stack2 by lia. rewrite Hkw. cbn [fst snd].
      match goal with |- exists v0 u0, most (A1 ?w) _ = _ /\ _ => destruct (H1 w) as [x Ex]; [rewrite blend_length; lia|] end. eexists. exists x. split; [exact Ex|reflexivity].
    - apply val_fun.
    - exists a, b, m. apply (gridplane_2_spec most n (stack2 u v) q g2 (-1) 1); [apply stack2_matrix; auto|rewrite E2; auto|rewrite E2; auto|lra|lra|rewrite E2; auto|exact H].
  Qed.

  Lemma sweep1_total : forall js zopt afin, Forall (fun j => (j < p)%nat) js -> length zopt = n ->
    exists z a, sweep1 trigR most g Z js zopt afin = Ok (z, a) /\ length z = n /\ length a = length afin.
  Proof.
    induction js as [|j js IH]; intros zopt afin HF Hl; [exists zopt, afin; auto|]. pose proof (Forall_inv HF) as Hj; pose proof (Forall_inv_tail HF) as HF'. cbn beta in Hj. cbn [sweep1].
    rewrite (getcol_ok n p) by auto. cbn [bind]. destruct (plane1_total zopt (col j Z)) as (w0 & w1 & m & ->); auto; [apply (len_col n p Z HZ)|]. cbn [bind].
    match goal with |- exists z a, sweep1 _ _ _ _ _ ?zz ?aa = _ /\ _ => destruct (IH zz aa HF') as (z & a & E & L1 & L2) end.
    - rewrite blend_length; [auto|]. rewrite (len_col n p Z HZ). auto.
    - exists z, a. split; [exact E|]. split; auto. rewrite L2, upd_length, mapi_length. reflexivity.
  Qed.
  Lemma sweep2_total : forall js zopt afin, Forall (fun j => (j < p)%nat) js -> length zopt = n ->
    exists z a, sweep2 trigR most g2 Z js zopt afin = Ok (z, a) /\ length z = n /\ length a = length afin.
  Proof.
    induction js as [|j js IH]; intros zopt afin HF Hl; [exists zopt, afin; auto|]. pose proof (Forall_inv HF) as Hj; pose proof (Forall_inv_tail HF) as HF'. cbn beta in Hj. cbn [sweep2].
    rewrite (getcol_ok n p) by auto. cbn [bind]. destruct (plane2_total zopt (col j Z) (nth j afin n0)) as (w0 & w1 & m & ->); auto; [apply (len_col n p Z HZ)|]. cbn [bind].
    match goal with |- exists z a, sweep2 _ _ _ _ _ ?zz ?aa = _ /\ _ => destruct (IH zz aa HF') as (z & a & E & L1 & L2) end.
    - rewrite blend_length; [auto|]. rewrite (len_col n p Z HZ). auto.
    - exists z, a. split; [exact E|]. split; auto. rewrite L2, upd_length, map_length. reflexivity.
  Qed.
  Lemma npdot_total : forall a, length a = p -> npdot Z a = Ok (matvec Z a).
  Proof. intros a Ha. unfold npdot. rewrite (wf_ncols n p) by auto. rewrite Ha, Nat.eqb_refl. reflexivity. Qed.
  Lemma objective_total : forall h a, ga_kw h = ga_kw g -> length a = p -> exists o, objective most h Z a = Ok o.
  Proof.
    intros h a Hh Ha. unfold objective. rewrite npdot_total by auto. cbn [bind]. rewrite Hh. destruct (H2 (matvec Z a)) as [u ->]; [apply (len_proj n p Z HZ)|].
    cbn [bind]. eexists; reflexivity.
  Qed.
  Lemma refine_total : forall fuel zopt afin o1 o2, length zopt = n -> length afin = p ->
    exists z a o, refine trigR most fuel g2 Z zopt afin o1 o2 = Ok (z, a, o) /\ length a = p.
  Proof.
    induction fuel as [|fuel IH]; intros zopt afin o1 o2 Hz Ha; cbn [refine]; [exists zopt, afin, o2; auto|].
    match goal with |- context [if ?b then _ else _] => destruct b end; [|exists zopt, afin, o2; auto].
    destruct (sweep2_total (seq 0 (length afin)) zopt afin) as (z & a & -> & L1 & L2); auto.
    { apply Forall_forall. intros j Hj. apply in_seq in Hj. lia. }
    cbn [bind]. destruct (objective_total g2 a) as [o ->]; [apply (g2_kw g g2 HG)|lia|]. cbn [bind]. apply IH; lia.
  Qed.
  Lemma grid_total : forall maxiter, (3 <= p)%nat -> (0 < maxiter)%Z -> exists w o, grid_search trigR most g g2 maxiter Z p = Ok (w, o) /\ length w = p.
  Proof.
    intros maxiter Hp Hm. unfold grid_search.
    assert (HM : exists l, mapM (fun k => bind (getcol Z k) (fun c => most (as_col c) (ga_kw g))) (seq 0 p) = Ok l).
    { assert (HA : forall js, Forall (fun j => (j < p)%nat) js -> exists l, mapM (fun k => bind (getcol Z k) (fun c => most (as_col c) (ga_kw g))) js = Ok l).
      { induction js as [|j js IH]; intros HF; [exists []; reflexivity|]. pose proof (Forall_inv HF) as Hj; pose proof (Forall_inv_tail HF) as HF'. cbn beta in Hj. destruct (IH HF') as [l El]. cbn [mapM].
        rewrite (getcol_ok n p) by auto. cbn [bind]. destruct (H2 (col j Z)) as [u ->]; [apply (len_col n p Z HZ)|]. cbn [bind]. rewrite El. eexists; reflexivity. }
      apply HA. apply Forall_forall. intros j Hj. apply in_seq in Hj. lia. }
    destruct HM as [l ->]. cbn [bind]. unfold first_sweep. rewrite (cols2 n p Z HZ) by lia.
    destruct (plane1_total (col 0 Z) (col 1 Z)) as (w0 & w1 & m & ->); try apply (len_col n p Z HZ). cbn [bind].
    destruct (sweep1_total (seq 2 (p - 2)) (project (stack2 (col 0 Z) (col 1 Z)) (w0, w1)) (w0 :: w1 :: vzeros (p - 2))) as (z & a & -> & L1 & L2).
    - apply Forall_forall. intros j Hj. apply in_seq in Hj. lia.
    - unfold project. rewrite matvec_length. unfold stack2. rewrite map2_length, !(len_col n p Z HZ). lia.
    - cbn [bind]. cbn [length] in L2. unfold vzeros in L2. rewrite repeat_length in L2.
      destruct (objective_total g a) as [o ->]; [reflexivity|lia|]. cbn [bind].
      destruct (maxiter =? 0)%Z eqn:E0; [apply Z.eqb_eq in E0; lia|]. destruct (maxiter <? 0)%Z eqn:E1; [apply Z.ltb_lt in E1; lia|].
      destruct (refine_total (S (Z.to_nat maxiter)) z a o (nopp (nnat 1000))) as (z' & a' & o' & -> & L3); [auto|lia|]. cbn [bind]. exists a', o'. auto.
  Qed.
End Tot.

(** ** scaling, coefficients *)
Lemma pp_scaled_total : forall (env : pp_env R) c s t n p X, wf n p X -> (2 <= n)%nat -> (1 <= p)%nat -> plain_centre c -> plain_scale s -> 0 <= t < 1 / 2 ->
  exists m v Z, pp_scaled env c s t X = Ok (m, v, Z) /\ length m = p /\ length v = p /\ wf n p Z.
Proof.
  intros env c s t n p X W Hn Hp Hc Hs Ht. destruct (fit_succeeds (pe_prep env) c s t n p X) as [st E]; auto; [lra| |].
  { intros g [Hg _]. apply INR_le. rewrite mult_INR. cbn [INR]. assert (0 < INR n) by (apply lt_0_INR; lia). nra. }
  destruct (fit_cols (pe_prep env) c s t n p X st W Hn Hc Hs E) as (m & v & Em & Ev & Lm & Lv & _).
  destruct (scale_data_cells n p X m v W ltac:(lia) Hp Lm Lv) as (Z & EZ & WZ & _).
  pose proof E as E'. apply fit_ok_inv in E' as (m' & v' & _ & _ & _ & _ & Est). unfold pp_scaled, sc_fit_transform. rewrite E. unfold sc_transform. rewrite Em, Ev.
  rewrite (check_input_id n p) by auto. rewrite EZ. subst st. cbn in Em, Ev |- *. injection Em as ->. injection Ev as ->. exists m, v, Z. auto.
Qed.
Lemma trim_mean_total : forall t (l : list R), 0 <= t < 1 / 2 -> exists m, trim_mean1 t l = Ok m.
Proof.
  intros t l Ht. rewrite trim_mean1_R. destruct (Nat.ltb_spec (length l) (2 * tcut t (length l))) as [H|H]; [|eexists; reflexivity]. exfalso.
  destruct (tcut_iff t (length l) (tcut t (length l))) as [A _]; [lra|]. destruct (A eq_refl) as [B _].
  apply lt_INR in H. rewrite mult_INR in H. cbn [INR] in H. pose proof (pos_INR (length l)). nra.
Qed.

Section Fit.
  Variables (env : pp_env R) (prm : pparams R) (most : arr R -> dkw R -> res R) (n p : nat) (ndir maxiter : Z).
  Hypothesis HT : pe_trig env = trigR.
  Hypothesis HO : pp_optim prm = OGrid.
  Hypothesis Hn : (0 < n)%nat.
  Hypothesis Hp : (3 <= p)%nat.
  Hypothesis Hd : (0 < ndir)%Z.
  Hypothesis Hm : (0 < maxiter)%Z.
  Hypothesis HP : forall k M, is_matrix k k M -> exists N, pe_pinv env M = Ok N /\ is_matrix k k N.

  Section Kw.
    Variable kw : dkw R.
    Hypothesis H1 : forall v, length v = n -> exists u, most (A1 v) kw = Ok u.
    Hypothesis H2 : forall v, length v = n -> exists u, most (as_col v) kw = Ok u.

    Lemma direction_total : forall d E, wf n p E -> opt_int "ndir" d = Ok ndir -> opt_int "maxiter" d = Ok maxiter ->
      exists w o, direction env prm most kw d p E = (d, Ok (w, Some o)) /\ length w = p.
    Proof.
      intros d E W E1 E2. unfold direction. rewrite HO, E1, E2, HT. cbn [bind].
      destruct (grid_total most (plane_args env prm kw (Z.to_nat ndir) AmTuple) (plane_args env prm kw (Z.to_nat ndir) AmArray) n p E) with (maxiter := maxiter) as (w & o & Eg & Lw); auto.
      - unfold plane_args. rewrite HT. unfold opt_range. rnum. replace (-(1)) with (-1) by ring. repeat split; reflexivity.
      - cbn. lia.
      - exists w, o. rewrite Eg. cbn [bind]. auto.
    Qed.
    Lemma component_total : forall two E w o, wf n p E -> length w = p -> exists c, component prm most kw two None n p E (w, Some o) = Ok c /\
      length (g_w c) = p /\ length (g_p c) = p /\ length (g_t c) = n /\ wf n p (g_E c).
    Proof.
      intros two E w o W Lw. unfold component. replace (bind (npdot E w)) with (@bind (list R) (pcomp R) (Ok (matvec E w))) by (rewrite (npdot_total n p E W Hn) by auto; reflexivity). cbn [bind]. cbv zeta.
      assert (Lt : length (matvec E w) = n) by (apply (len_proj n p E W)).
      assert (Lp : length (tmatvec E (matvec E w)) = p) by (unfold tmatvec, cols; rewrite !map_length, seq_length; apply (wf_ncols n p); auto).
      rewrite Lw, Lt, map_length, Lp, !Nat.eqb_refl. cbn [andb negb].
      assert (HC : exists cr, (if two then bind (npdot E w) (fun tw => bind (most (as_col tw) kw) (fun v => Ok (maybe_sq (pp_square prm) v))) else Ok n0) = Ok cr).
      { destruct two; [|eexists; reflexivity]. rewrite (npdot_total n p E W Hn) by auto. cbn [bind]. destruct (H2 (matvec E w) Lt) as [u ->]. cbn [bind]. eexists; reflexivity. }
      destruct HC as [cr ->]. cbn [bind]. eexists. split; [reflexivity|]. cbn [g_w g_p g_t g_E]. rewrite map_length. repeat (split; [assumption|]).
      apply wf_msub; auto. split; [unfold outer; rewrite map_length; auto|]. apply Forall_forall. intros r Hr. unfold outer in Hr. apply in_map_iff in Hr as (x & <- & _). rewrite ?vscale_length, ?map_length. auto.
    Qed.
    Lemma rotations_total : forall cs, Forall (fun c : pcomp R => length (g_w c) = p /\ length (g_p c) = p) cs -> exists Rt, rotations env p cs = Ok Rt.
    Proof.
      intros cs HF. unfold rotations. destruct (HP (length cs) (matmul (transpose (of_cols p (map g_p cs))) (of_cols p (map g_w cs)))) as (N & -> & _); [|cbn [bind]; eexists; reflexivity].
      pose proof (wf_of_cols p (map g_p cs)) as W1. pose proof (wf_of_cols p (map g_w cs)) as W2. rewrite map_length in W1, W2.
      apply (wf_matmul (length cs) p (length cs)); auto; [|lia]. split; [unfold transpose, cols; rewrite map_length, seq_length; apply (wf_ncols p); auto; lia|].
      apply Forall_forall. intros r Hr. unfold transpose, cols in Hr. apply in_map_iff in Hr as (j & <- & _). rewrite col_length. apply (wf_length p (length cs)); auto.
    Qed.
    Lemma loop_total : forall k yi sX d E cs yc Rt, (forall y, yi = Some y -> forall t, length t = n -> exists b, inner_coef env prm (yi_kw y) (yi_s y) (yi_0 y) t = Ok b) -> wf n p E -> length sX = p ->
      Forall (fun c : pcomp R => length (g_w c) = p /\ length (g_p c) = p) cs -> opt_int "ndir" d = Ok ndir -> opt_int "maxiter" d = Ok maxiter ->
      exists r, pp_loop env k prm most kw yi None n p sX d E cs yc Rt = (d, Ok r).
    Proof.
      induction k as [|k IH]; intros yi sX d E cs yc Rt HR W Ls HF E1 E2; cbn [pp_loop]; [eexists; reflexivity|].
      destruct (direction_total d E W E1 E2) as (w & o & -> & Lw). cbn [bind].
      destruct (component_total (match yi with Some _ => true | None => false end) E w o W Lw) as (c & -> & L1 & L2 & L3 & WE). cbn [bind]. cbv zeta.
      assert (HF' : Forall (fun c : pcomp R => length (g_w c) = p /\ length (g_p c) = p) (cs ++ [c])) by (apply Forall_app; split; auto).
      destruct (rotations_total (cs ++ [c]) HF') as [Rt' ->]. cbn [bind].
      destruct yi as [y|].
      - destruct (HR y eq_refl (g_t c) L3) as [bb ->]. cbn [bind]. rewrite Ls, Nat.eqb_refl. cbn [negb bind].
        apply IH; auto.
      - cbn [bind]. apply IH; auto.
    Qed.
  End Kw.
End Fit.

Lemma fit_total_l : forall (env : pp_env R) prm d n p X f most ndir maxiter,
  ix_new (pp_idx prm) = Ok most -> (ix_dicomo (pp_idx prm) = false \/ ix_mode (pp_idx prm) <> None) ->
  (forall kw v, k_trim kw = Some (pp_trim prm) -> length v = n -> (exists u, most (A1 v) kw = Ok u) /\ (exists u, most (A2 (map (fun a => [a]) v)) kw = Ok u)) ->
  pe_trig env = trigR -> (forall k M, is_matrix k k M -> exists N, pe_pinv env M = Ok N /\ is_matrix k k N) ->
  pp_optim prm = OGrid -> opt_int "ndir" (grid_options d) = Ok ndir -> (0 < ndir)%Z -> opt_int "maxiter" (grid_options d) = Ok maxiter -> (0 < maxiter)%Z ->
  pp_center prm = CMean \/ pp_center prm = CMedian -> 0 <= pp_trim prm < 1 / 2 -> direct_fit prm n p ->
  is_matrix n p X -> (2 <= n)%nat -> (3 <= p)%nat -> (pp_ncomp (with_h prm (f_h f)) <= Nat.min n p)%nat ->
  (f_y f = YNone \/ regression_answers env prm n (f_y f) /\ exists v, length v = n /\ has_response (f_y f) v) ->
  exists m, pp_fit env prm d X f = (with_h prm (f_h f), grid_options d, Ok m).
Proof.
  intros env prm d n p X f most ndir maxiter Em Hdi HI HT HP HO E1 Hd E2 Hm Hc Ht [Hw Hco] W Hn Hp Hh HY.
  unfold pp_fit. cbn zeta. set (prm1 := with_h prm (f_h f)) in *.
  assert (Q : pp_idx prm1 = pp_idx prm /\ pp_trim prm1 = pp_trim prm /\ pp_optim prm1 = pp_optim prm /\ pp_regopt prm1 = pp_regopt prm /\ pp_center prm1 = pp_center prm /\
    pp_whiten prm1 = pp_whiten prm /\ pp_compress prm1 = pp_compress prm) by (unfold prm1, with_h; destruct (f_h f); repeat split; reflexivity).
  destruct Q as (Q1 & Q2 & Q3 & Q4 & Q5 & Q6 & Q7).
  assert (EW : with_whitening prm1 = prm1) by (unfold with_whitening; rewrite Q6, Hw; reflexivity). rewrite EW.
  assert (ED : ix_dicomo (pp_idx prm1) && match ix_mode (pp_idx prm1) with None => true | _ => false end = false).
  { rewrite Q1. destruct Hdi as [-> |H]; [reflexivity|]. destruct (ix_mode (pp_idx prm)); [apply andb_false_r|congruence]. }
  rewrite ED, Q1, Em. rewrite (wf_length n p X W), (wf_ncols n p X) by (auto; lia).
  destruct (Nat.ltb_spec (Nat.min n p) (pp_ncomp prm1)); [lia|].
  assert (Hs : exists s, scale_name prm1 = Ok s /\ plain_scale s).
  { unfold scale_name. rewrite Q5. destruct (pp_scale_data prm1); [destruct Hc as [-> | ->]|]; eexists; (split; [reflexivity|]); unfold plain_scale; auto. }
  destruct Hs as (s & -> & Hs). rewrite Q7.
  assert (EC : ((n <? p)%nat && pp_compress prm) = false). { destruct Hco as [-> |H']; [apply andb_false_r|]. destruct (Nat.ltb_spec n p); [lia|reflexivity]. }
  rewrite EC. rewrite Q6, Hw.
  assert (Hpc : plain_centre (pp_center prm1)) by (rewrite Q5; destruct Hc as [-> | ->]; unfold plain_centre; auto).
  assert (HS : exists mX sX Xs, (if pp_center_data prm1 then pp_scaled env (pp_center prm1) s (pp_trim prm1) X else Ok (vzeros p, repeat n1 p, X)) = Ok (mX, sX, Xs) /\ length sX = p /\ wf n p Xs).
  { destruct (pp_center_data prm1).
    - destruct (pp_scaled_total env (pp_center prm1) s (pp_trim prm1) n p X) as (m & v & Z & -> & _ & Lv & WZ); auto; try lia; [rewrite Q2; auto|]. exists m, v, Z. auto.
    - exists (vzeros p), (repeat n1 p), X. rewrite repeat_length. auto. }
  destruct HS as (mX & sX & Xs & -> & LsX & WXs).
  assert (HYi : exists yi, (match (match f_y f with YNone => None | YPos y => Some (false, y) | YKw y => Some (true, y) end) with
      | None => Ok None | Some (kwy, y) => bind (response env prm1 s n kwy y) (fun yi => Ok (Some yi)) end) = Ok yi /\
      forall y my, yi = Some (y, my) -> forall t, length t = n -> exists b, inner_coef env prm1 (yi_kw y) (yi_s y) (yi_0 y) t = Ok b).
  { destruct HY as [-> |(HR & v & Lv & a & Ha & Hav)]; [exists None; split; [reflexivity|discriminate]|].
    assert (HRs : forall k, exists yi my, response env prm1 s n k a = Ok (yi, my) /\ yi_kw yi = k /\ length (yi_s yi) = n /\ length (yi_0 yi) = n).
    { intros k. unfold response. cbv zeta. set (rows := match a with A1 v0 => map (fun a0 => [a0]) v0 | A2 Y => Y end).
      assert (Er : rows = map (fun x => [x]) v) by (unfold rows; destruct Hav as [-> | ->]; reflexivity).
      assert (WR : wf n 1 rows). { rewrite Er. split; [rewrite map_length; auto|]. apply Forall_forall. intros r Hr. apply in_map_iff in Hr as (x & <- & _). reflexivity. }
      rewrite (wf_length n 1 rows WR), Nat.eqb_refl. cbn [negb].
      assert (Ef : forallb (fun r : list R => (length r =? 1)%nat) rows = true) by (apply forallb_forall; intros r Hr; apply Nat.eqb_eq; apply (wf_row n 1 rows); auto).
      rewrite Ef. cbn [negb]. destruct (pp_center_data prm1); [|eexists _, _; split; [reflexivity|]; cbn [yi_kw yi_s yi_0]; rewrite col_length; repeat split; apply (wf_length n 1 rows WR)].
      destruct (pp_scaled_total env (pp_center prm1) s (pp_trim prm1) n 1 rows) as (m & w & Z & -> & _ & _ & WZ); auto; try lia; [rewrite Q2; auto|]. cbn [bind].
      eexists _, _; split; [reflexivity|]; cbn [yi_kw yi_s yi_0]; rewrite !col_length; repeat split; [apply (wf_length n 1 Z WZ)|apply (wf_length n 1 rows WR)]. }
    assert (HIC : forall yi, (pp_regopt prm = "OLS"%string \/ yi_kw yi = true) -> length (yi_s yi) = n -> length (yi_0 yi) = n -> forall t, length t = n -> exists b, inner_coef env prm1 (yi_kw yi) (yi_s yi) (yi_0 yi) t = Ok b).
    { intros yi Hk L1 L2 t Lt. unfold inner_coef. rewrite Q4. destruct HR as [->|(_ & [[E HA]|[E HA]])]; [eexists; reflexivity| |]; (destruct Hk as [Hk|Hk]; [rewrite E in Hk; discriminate|]); rewrite E, Hk; cbn [String.eqb Ascii.eqb Bool.eqb].
      - destruct (HA t (yi_s yi) Lt L1) as [bb ->]. cbn [bind]. eexists; reflexivity.
      - destruct (HA (yi_0 yi) t L2 Lt) as [bb ->]. cbn [bind]. eexists; reflexivity. }
    assert (HO' : forall a0, f_y f = YPos a0 -> pp_regopt prm = "OLS"%string) by (intros a0 E; destruct HR as [HR|[[a1 HR] _]]; [exact HR|congruence]).
    destruct (f_y f) as [|a0|a0]; destruct Ha as [Ha|Ha]; try discriminate Ha; injection Ha as ->.
    - destruct (HRs false) as (yi & my & -> & K1 & K2 & K3). cbn [bind]. eexists. split; [reflexivity|]. intros y my' E. injection E as <- <-. apply HIC; auto. left. apply (HO' a eq_refl).
    - destruct (HRs true) as (yi & my & -> & K1 & K2 & K3). cbn [bind]. eexists. split; [reflexivity|]. intros y my' E. injection E as <- <-. apply HIC; auto. }
  destruct HYi as (yi & EY & HR). rewrite EY. rewrite Q3, HO, E1. cbn [bind]. destruct (Z.ltb_spec ndir 0); [lia|]. rewrite E2. cbn [bind].
  destruct (Nat.leb_spec p 2); [lia|].
  destruct (loop_total env prm1 most n p ndir maxiter HT ltac:(congruence) ltac:(lia) Hp Hd Hm HP
     (index_kw prm1 (f_bias f) (match yi with Some (y, _) => Some (yi_s y) | None => None end))) with (k := pp_ncomp prm1)
     (yi := match yi with Some (y, _) => Some y | None => None end) (sX := sX) (d := grid_options d) (E := Xs) (cs := @nil (pcomp R)) (yc := @nil (R * list R * list R)) (Rt := of_cols (A := R) p [])
     as [[[cs yc] Rt] EL]; auto.
  - intros v Lv. apply (HI (index_kw prm1 (f_bias f) (match yi with Some (y, _) => Some (yi_s y) | None => None end)) v); auto. cbn. rewrite Q2. reflexivity.
  - intros v Lv. apply (HI (index_kw prm1 (f_bias f) (match yi with Some (y, _) => Some (yi_s y) | None => None end)) v); auto. cbn. rewrite Q2. reflexivity.
  - intros y E. destruct yi as [[y0 my]|]; [injection E as <-; apply (HR y0 my eq_refl)|discriminate].
  - rewrite EL. cbn [bind]. destruct yi as [[y my]|]; [|eexists; reflexivity].
    assert (HE : exists q, finish_y prm1 s false X Xs y (match yc with [] => vzeros p | _ :: _ => col (pp_ncomp prm1 - 1) (of_cols p (map (fun q => snd (fst q)) yc)) end) = Ok q).
    { unfold finish_y. cbv zeta. destruct (is_mean (pp_center prm1)); [|cbn [bind]; eexists; reflexivity].
      match goal with |- context [trim_mean1 ?t ?l] => destruct (trim_mean_total t l) as [z ->]; [rewrite Q2; auto|] end. cbn [bind]. eexists; reflexivity. }
    destruct HE as [[[[ic b0] yf] r] ->]. cbn [bind]. eexists; reflexivity.
Qed.
