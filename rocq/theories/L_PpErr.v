(** Invalid options of the grid: the exception a fit ends with. *)

From Coq Require Import String Reals List Arith ZArith Bool Lia Lra.
Import List. Import ListNotations.
From Verif Require Import Num Err Vec VecR L_Mat L_Lin L_Matmul L_Deflate M_Utils M_Preproc M_Robcent L_Stats L_Scaling L_Scaling2 M_Dicomo M_Ipopt M_Ppdire S_OrderPp
  S_Stats S_Regress L_Snipls L_Snipls2 S_Ppdire L_Pp L_Pp2 L_Grid L_Grid2 L_Grid3 L_OrderSc L_Pp4 L_PpTot.
Open Scope R_scope.

(** the exception of the first direction is that of the fit *)
Lemma fit_direction_err : forall (env : pp_env R) prm d n p X f most ndir maxiter e,
  ix_new (pp_idx prm) = Ok most -> (ix_dicomo (pp_idx prm) = false \/ ix_mode (pp_idx prm) <> None) ->
  (forall kw v, k_trim kw = Some (pp_trim prm) -> length v = n -> (exists u, most (A1 v) kw = Ok u) /\ (exists u, most (A2 (map (fun a => [a]) v)) kw = Ok u)) ->
  pp_optim prm = OGrid -> opt_int "ndir" (grid_options d) = Ok ndir -> (0 <= ndir)%Z -> opt_int "maxiter" (grid_options d) = Ok maxiter ->
  (forall prm1 kw E, pp_optim prm1 = OGrid -> wf n p E -> (forall v, length v = n -> exists u, most (A1 v) kw = Ok u) -> (forall v, length v = n -> exists u, most (as_col v) kw = Ok u) ->
     direction env prm1 most kw (grid_options d) p E = (grid_options d, Err e)) ->
  pp_center prm = CMean \/ pp_center prm = CMedian -> 0 <= pp_trim prm < 1 / 2 -> direct_fit prm n p ->
  is_matrix n p X -> (2 <= n)%nat -> (3 <= p)%nat -> (pp_ncomp (with_h prm (f_h f)) <= Nat.min n p)%nat -> (1 <= pp_ncomp (with_h prm (f_h f)))%nat ->
  (f_y f = YNone \/ regression_answers env prm n (f_y f) /\ exists v, length v = n /\ has_response (f_y f) v) ->
  pp_fit env prm d X f = (with_h prm (f_h f), grid_options d, Err e).
Proof.
  intros env prm d n p X f most ndir maxiter e Em Hdi HI HO E1 Hd E2 HD Hc Ht [Hw Hco] W Hn Hp Hh H1 HY.
  unfold pp_fit. cbn zeta. set (prm1 := with_h prm (f_h f)) in *.
  assert (Q : pp_idx prm1 = pp_idx prm /\ pp_trim prm1 = pp_trim prm /\ pp_optim prm1 = pp_optim prm /\ pp_regopt prm1 = pp_regopt prm /\ pp_center prm1 = pp_center prm /\
    pp_whiten prm1 = pp_whiten prm /\ pp_compress prm1 = pp_compress prm) by (unfold prm1, with_h; destruct (f_h f); repeat split; reflexivity).
  destruct Q as (Q1 & Q2 & Q3 & Q4 & Q5 & Q6 & Q7).
  assert (EW : with_whitening prm1 = prm1) by (unfold with_whitening; rewrite Q6, Hw; reflexivity). rewrite EW.
  assert (ED : ix_dicomo (pp_idx prm1) && match ix_mode (pp_idx prm1) with None => true | _ => false end = false).
  { rewrite Q1. destruct Hdi as [-> |H]; [reflexivity|]. destruct (ix_mode (pp_idx prm)); [apply andb_false_r|congruence]. }
  rewrite ED, Q1, Em. rewrite (wf_length n p X W), (wf_ncols n p X) by (auto; lia).
  destruct (Nat.ltb_spec (Nat.min n p) (pp_ncomp prm1)); [lia|].
  assert (Hs : exists s, scale_name prm1 = Ok s /\ plain_scale s).
  { unfold scale_name. rewrite Q5. destruct (pp_scale_data prm1); [destruct Hc as [-> | ->]|]; eexists; (split; [reflexivity|]); unfold plain_scale; auto. }
  destruct Hs as (s & -> & Hs). rewrite Q7.
  assert (EC : ((n <? p)%nat && pp_compress prm) = false). { destruct Hco as [-> |H']; [apply andb_false_r|]. destruct (Nat.ltb_spec n p); [lia|reflexivity]. }
  rewrite EC. rewrite Q6, Hw.
  assert (Hpc : plain_centre (pp_center prm1)) by (rewrite Q5; destruct Hc as [-> | ->]; unfold plain_centre; auto).
  assert (HS : exists mX sX Xs, (if pp_center_data prm1 then pp_scaled env (pp_center prm1) s (pp_trim prm1) X else Ok (vzeros p, repeat n1 p, X)) = Ok (mX, sX, Xs) /\ length sX = p /\ wf n p Xs).
  { destruct (pp_center_data prm1).
    - destruct (pp_scaled_total env (pp_center prm1) s (pp_trim prm1) n p X) as (m & v & Z & -> & _ & Lv & WZ); auto; try lia; [rewrite Q2; auto|]. exists m, v, Z. auto.
    - exists (vzeros p), (repeat n1 p), X. rewrite repeat_length. auto. }
  destruct HS as (mX & sX & Xs & -> & LsX & WXs).
  assert (HYi : exists yi, (match (match f_y f with YNone => None | YPos y => Some (false, y) | YKw y => Some (true, y) end) with
      | None => Ok None | Some (kwy, y) => bind (response env prm1 s n kwy y) (fun yi => Ok (Some yi)) end) = Ok yi /\
      forall y my, yi = Some (y, my) -> forall t, length t = n -> exists b, inner_coef env prm1 (yi_kw y) (yi_s y) (yi_0 y) t = Ok b).
  { destruct HY as [-> |(HR & v & Lv & a & Ha & Hav)]; [exists None; split; [reflexivity|discriminate]|].
    assert (HRs : forall k, exists yi my, response env prm1 s n k a = Ok (yi, my) /\ yi_kw yi = k /\ length (yi_s yi) = n /\ length (yi_0 yi) = n).
    { intros k. unfold response. cbv zeta. set (rows := match a with A1 v0 => map (fun a0 => [a0]) v0 | A2 Y => Y end).
      assert (Er : rows = map (fun x => [x]) v) by (unfold rows; destruct Hav as [-> | ->]; reflexivity).
      assert (WR : wf n 1 rows). { rewrite Er. split; [rewrite map_length; auto|]. apply Forall_forall. intros r Hr. apply in_map_iff in Hr as (x & <- & _). reflexivity. }
      rewrite (wf_length n 1 rows WR), Nat.eqb_refl. cbn [negb].
      assert (Ef : forallb (fun r : list R => (length r =? 1)%nat) rows = true) by (apply forallb_forall; intros r Hr; apply Nat.eqb_eq; apply (wf_row n 1 rows); auto).
      rewrite Ef. cbn [negb]. destruct (pp_center_data prm1); [|eexists _, _; split; [reflexivity|]; cbn [yi_kw yi_s yi_0]; rewrite col_length; repeat split; apply (wf_length n 1 rows WR)].
      destruct (pp_scaled_total env (pp_center prm1) s (pp_trim prm1) n 1 rows) as (m & w & Z & -> & _ & _ & WZ); auto; try lia; [rewrite Q2; auto|]. cbn [bind].
      eexists _, _; split; [reflexivity|]; cbn [yi_kw yi_s yi_0]; rewrite !col_length; repeat split; [apply (wf_length n 1 Z WZ)|apply (wf_length n 1 rows WR)]. }
    assert (HIC : forall yi, (pp_regopt prm = "OLS"%string \/ yi_kw yi = true) -> length (yi_s yi) = n -> length (yi_0 yi) = n -> forall t, length t = n -> exists b, inner_coef env prm1 (yi_kw yi) (yi_s yi) (yi_0 yi) t = Ok b).
    { intros yi Hk L1 L2 t Lt. unfold inner_coef. rewrite Q4. destruct HR as [->|(_ & [[E HA]|[E HA]])]; [eexists; reflexivity| |]; (destruct Hk as [Hk|Hk]; [rewrite E in Hk; discriminate|]); rewrite E, Hk; cbn [String.eqb Ascii.eqb Bool.eqb].
      - destruct (HA t (yi_s yi) Lt L1) as [bb ->]. cbn [bind]. eexists; reflexivity.
      - destruct (HA (yi_0 yi) t L2 Lt) as [bb ->]. cbn [bind]. eexists; reflexivity. }
    assert (HO' : forall a0, f_y f = YPos a0 -> pp_regopt prm = "OLS"%string) by (intros a0 E; destruct HR as [HR|[[a1 HR] _]]; [exact HR|congruence]).
    destruct (f_y f) as [|a0|a0]; destruct Ha as [Ha|Ha]; try discriminate Ha; injection Ha as ->.
    - destruct (HRs false) as (yi & my & -> & K1 & K2 & K3). cbn [bind]. eexists. split; [reflexivity|]. intros y my' E. injection E as <- <-. apply HIC; auto. left. apply (HO' a eq_refl).
    - destruct (HRs true) as (yi & my & -> & K1 & K2 & K3). cbn [bind]. eexists. split; [reflexivity|]. intros y my' E. injection E as <- <-. apply HIC; auto. }
  destruct HYi as (yi & EY & HR). rewrite EY. rewrite Q3, HO, E1. cbn [bind]. destruct (Z.ltb_spec ndir 0); [lia|]. rewrite E2. cbn [bind].
  destruct (Nat.leb_spec p 2); [lia|].
  destruct (pp_ncomp prm1) as [|k] eqn:Ek; [lia|]. cbn [pp_loop].
  match goal with |- context [direction env prm1 most ?kw ?dd p Xs] => set (kw0 := kw) in *; rewrite (HD prm1 kw0 Xs) end; auto.
  - congruence.
  - intros v Lv. apply (HI kw0 v); auto. cbn. rewrite Q2. reflexivity.
  - intros v Lv. apply (HI kw0 v); auto. cbn. rewrite Q2. reflexivity.
Qed.

Section Dir.
  Variables (env : pp_env R) (prm : pparams R) (most : arr R -> dkw R -> res R) (n p : nat) (ndir maxiter : Z) (kw : dkw R) (d : dict) (E : list (list R)).
  Hypothesis HT : pe_trig env = trigR.
  Hypothesis HO : pp_optim prm = OGrid.
  Hypothesis Hn : (0 < n)%nat.
  Hypothesis Hp : (3 <= p)%nat.
  Hypothesis W : wf n p E.
  Hypothesis E1 : opt_int "ndir" d = Ok ndir.
  Hypothesis E2 : opt_int "maxiter" d = Ok maxiter.
  Hypothesis H1 : forall v, length v = n -> exists u, most (A1 v) kw = Ok u.
  Hypothesis H2 : forall v, length v = n -> exists u, most (as_col v) kw = Ok u.

  Let g := plane_args env prm kw (Z.to_nat ndir) AmTuple.
  Let g2 := plane_args env prm kw (Z.to_nat ndir) AmArray.
  Lemma columns_answer : exists l, mapM (fun k => bind (getcol E k) (fun c => most (as_col c) (ga_kw g))) (seq 0 p) = Ok l.
  Proof.
    assert (HA : forall js, Forall (fun j => (j < p)%nat) js -> exists l, mapM (fun k => bind (getcol E k) (fun c => most (as_col c) (ga_kw g))) js = Ok l).
    { induction js as [|j js IH]; intros HF; [exists []; reflexivity|]. pose proof (Forall_inv HF) as Hj; pose proof (Forall_inv_tail HF) as HF'. cbn beta in Hj. destruct (IH HF') as [l El]. cbn [mapM].
      rewrite (getcol_ok n p) by auto. cbn [bind]. destruct (H2 (col j E)) as [u Eu]; [apply (len_col n p E W)|]. change (ga_kw g) with kw. rewrite Eu. cbn [bind]. change (ga_kw g) with kw in El. rewrite El. eexists; reflexivity. }
    apply HA. apply Forall_forall. intros j Hj. apply in_seq in Hj. lia.
  Qed.
  Lemma direction_no_directions : ndir = 0%Z -> direction env prm most kw d p E = (d, Err ValueError).
  Proof.
    intros H0. unfold direction. rewrite HO, E1, E2. cbn [bind]. unfold grid_search. fold g g2. destruct columns_answer as [l ->]. cbn [bind].
    unfold first_sweep. rewrite (cols2 n p E W) by lia.
    assert (EG : gridplane (pe_trig env) most (stack2 (col 0 E) (col 1 E)) g = Err ValueError).
    { unfold gridplane, g, plane_args. cbn [ga_alphamat ga_range ga_ndir]. rewrite H0. destruct (stops (pe_trig env) opt_range) as [[[a b] c] e]. cbn [Z.to_nat].
      destruct (negb (two_columns _)); reflexivity. }
    rewrite EG. reflexivity.
  Qed.
  Lemma direction_no_iterations : (0 < ndir)%Z -> (maxiter <= 0)%Z -> direction env prm most kw d p E = (d, Err (if (maxiter =? 0)%Z then OverflowError else ValueError)).
  Proof.
    intros Hd Hm. unfold direction. rewrite HO, E1, E2. cbn [bind]. unfold grid_search. fold g g2. destruct columns_answer as [l ->]. cbn [bind].
    unfold first_sweep. rewrite (cols2 n p E W) by lia. rewrite HT.
    assert (HG : grid_args g g2). { unfold g, g2, plane_args. rewrite HT. unfold opt_range. rnum. replace (-(1)) with (-1) by ring. repeat split; reflexivity. }
    assert (Hnd : (0 < ga_ndir g)%nat) by (cbn; lia).
    destruct (plane1_total most g g2 n HG Hn Hnd H1 (col 0 E) (col 1 E)) as (w0 & w1 & m & ->); try apply (len_col n p E W). cbn [bind].
    destruct (sweep1_total most g g2 n p E HG W Hn Hnd H1 (seq 2 (p - 2)) (project (stack2 (col 0 E) (col 1 E)) (w0, w1)) (w0 :: w1 :: vzeros (p - 2))) as (z & a & -> & L1 & L2).
    - apply Forall_forall. intros j Hj. apply in_seq in Hj. lia.
    - unfold project. rewrite matvec_length. unfold stack2. rewrite map2_length, !(len_col n p E W). lia.
    - cbn [bind]. cbn [length] in L2. unfold vzeros in L2. rewrite repeat_length in L2.
      destruct (objective_total most g n p E W Hn H2 g a) as [o ->]; [reflexivity|lia|]. cbn [bind].
      destruct (maxiter =? 0)%Z eqn:Em; [reflexivity|]. destruct (Z.ltb_spec maxiter 0); [reflexivity|]. apply Z.eqb_neq in Em. lia.
  Qed.
End Dir.
