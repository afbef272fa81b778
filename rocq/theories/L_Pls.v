(** ppdire with the covariance as projection index: the weights, and the
    comparison with snipls without sparsity. *)

From Coq Require Import String Reals List Arith ZArith Bool Lia Lra.
Import List. Import ListNotations.
From Verif Require Import Num Err Vec VecR L_Mat L_Lin L_Deflate S_Stats S_Regress L_Stats M_Utils M_Preproc M_Robcent L_Scaling M_Dicomo S_Dicomo L_Dicomo L_Dicomo2 M_Ipopt M_Plot M_Snipls L_Snipls L_Snipls2 L_Pp3
  M_Ppdire M_PpWorld S_Ppdire S_Ppdire2 S_Sudire L_Pp L_Pp2 L_Pp4 L_Pp6 L_Pp8 S_Pca L_Pca2.
Open Scope R_scope.

Lemma covariance_y0 : forall n u v, length u = n -> length v = n -> (0 < n)%nat -> sum_of v = 0 -> covariance_of u v = dot u v / INR n.
Proof.
  intros n u v Hu Hv Hn H0. assert (Hn' : 0 < INR n) by (apply lt_0_INR; auto). unfold covariance_of, comoment.
  assert (Hm : mean_of v = 0) by (unfold mean_of; rewrite H0; unfold Rdiv; ring). rewrite Hm. set (a := mean_of u).
  rewrite (mean_map_sumn n _ (combine u v) (0, 0)) by (rewrite combine_length; lia). f_equal. rewrite (dot_sumn u v n) by auto.
  assert (Hs : sumn n (fun r => nth r v 0) = 0) by (rewrite sum_of_vsum, vsum_sumn, Hv in H0; exact H0).
  transitivity (sumn n (fun r => nth r u 0 * nth r v 0 - a * nth r v 0)).
  - apply sumn_ext. intros r Hr. rewrite combine_nth by lia. cbn [fst snd]. ring.
  - rewrite sumn_minus, sumn_scal, Hs. ring.
Qed.

(** the unit vector with the largest inner product with [v] *)
Lemma best_unit : forall p v x, length v = p -> length x = p -> sqlen x = 1 -> 0 < dot v x -> (forall u, length u = p -> sqlen u = 1 -> dot v u <= dot v x) ->
  0 < vnorm v /\ x = map (fun a => a / vnorm v) v /\ dot v x = vnorm v.
Proof.
  intros p v x Hv Hx H1 Hpos Hbest.
  assert (Hvv : 0 <= dot v v) by apply dot_self_nonneg. assert (Hnn : 0 <= vnorm v) by apply norm_nonneg.
  assert (Hsq : vnorm v * vnorm v = dot v v) by apply norm_sq.
  assert (HN : 0 < vnorm v).
  { destruct Hnn as [|E0]; auto. exfalso. rewrite <- E0 in Hsq. assert (Hz : Forall (fun a => a = 0) v) by (apply dot_self_zero; lra). rewrite (dot_zero_l v x Hz) in Hpos. lra. }
  set (w := map (fun a => a / vnorm v) v). assert (Hw : length w = p) by (unfold w; rewrite map_length; auto).
  assert (Ew : w = vscale (/ vnorm v) v) by (unfold w, vscale; apply map_ext; intros; rnum; unfold Rdiv; ring).
  assert (Hdw : forall u, length u = p -> dot w u = / vnorm v * dot v u).
  { intros u Hu. rewrite Ew. apply dot_vscale_l. }
  assert (Hvw : dot v w = vnorm v) by (rewrite dot_comm, Hdw, <- Hsq by auto; field; lra).
  assert (Hww : sqlen w = 1) by (rewrite sqlen_dot, Hdw, Hvw by auto; field; lra).
  pose proof (Hbest w Hw Hww) as Hb. rewrite Hvw in Hb.
  assert (Hxx : dot x x = 1) by (rewrite <- sqlen_dot; exact H1).
  assert (HE : x = w).
  { assert (HZ : sumn p (fun j => (nth j x 0 - nth j w 0) * (nth j x 0 - nth j w 0)) <= 0).
    { rewrite (sumn_ext p _ (fun j => nth j x 0 * nth j x 0 - 2 * (nth j w 0 * nth j x 0) + nth j w 0 * nth j w 0)) by (intros; ring).
      rewrite sumn_plus, sumn_minus, sumn_scal, <- !(dot_sumn _ _ p) by auto. rewrite Hxx, Hdw by auto. rewrite <- (sqlen_dot w), Hww.
      assert (1 <= / vnorm v * dot v x); [|lra]. apply (Rmult_le_reg_l (vnorm v)); [auto|]. rewrite <- Rmult_assoc, Rinv_r by lra. lra. }
    apply (nth_ext _ _ 0 0); [congruence|]. intros j Hj. rewrite Hx in Hj.
    assert (Hj0 : (nth j x 0 - nth j w 0) * (nth j x 0 - nth j w 0) <= 0).
    { eapply Rle_trans; [|exact HZ]. rewrite <- (sumn_delta p j (fun j => (nth j x 0 - nth j w 0) * (nth j x 0 - nth j w 0)) Hj). apply sumn_le. intros i Hi. destruct (i =? j)%nat; [apply Rle_refl|apply Rle_0_sqr]. }
    nra. }
  split; [exact HN|]. split; [exact HE|]. rewrite HE. exact Hvw.
Qed.

Section Chain.
  Variables (env : pp_env R) (prm : pparams R) (dc : dcor_env R) (s : dstate R) (kw : dkw R) (n p : nat) (ys : list R) (d : dict).
  Hypothesis Hn : (0 < n)%nat.
  Hypothesis Hn2 : (2 <= n)%nat.
  Hypothesis Hp : (0 < p)%nat.
  Hypothesis Ho : pp_optim prm <> OGrid.
  Hypothesis Hopt : exact_optimiser env (pp_optim prm).
  Hypothesis Hcf : configured s "arithmetic" "cov" "mean".
  Hypothesis Hkt : no_trimming kw.
  Hypothesis Hky : k_y kw = Some (as_col ys).
  Hypothesis Hys : length ys = n.
  Hypothesis Hy0 : sum_of ys = 0.
  Let b := bessel (biascorr kw) n.

  Lemma index_value : forall E u, wf n p E -> length u = p -> fit_result dc s (as_col (matvec E u)) kw = Ok (dot (tmatvec E ys) u / INR n * b).
  Proof.
    intros E u HE Hu. assert (Hl : length (matvec E u) = n) by (rewrite matvec_length; apply (wf_length _ _ _ HE)).
    rewrite (fit_cov dc s _ (matvec E u) (as_col ys) ys) by first [assumption | right; reflexivity | congruence | destruct (matvec E u); [cbn in Hl; lia|discriminate]].
    rewrite Hl. f_equal. unfold b. f_equal. rewrite (covariance_y0 n) by auto. f_equal. rewrite (L_Lin.adjoint n p) by auto. apply dot_comm.
  Qed.
  Lemma weight_of : forall E c, wf n p E -> gfact prm (fit_result dc s) kw true None n p E c -> max_fact env prm (fit_result dc s) kw d p E c ->
    asked env prm (fit_result dc s) kw p E (g_dir c) -> 0 < g_max c ->
    let v := tmatvec E ys in 0 < vnorm v /\ g_dir c = map (fun a => a / vnorm v) v /\ g_max c = b * vnorm v / INR n.
  Proof.
    intros E c HE (_ & Hld & Ht & _) Hmf (dd & x & Eo & Hlx & Hdir) Hpos. cbn zeta.
    assert (Hn' : 0 < INR n) by (apply lt_0_INR; auto). pose proof (bessel_pos (biascorr kw) n Hn2) as Hb. fold b in Hb.
    pose proof (Hopt _ _ _ _ Eo) as Hu. rewrite (row0_len n p E HE Hn) in Hu. destruct Hu as (_ & Hx1 & v0 & Hv0 & Hmin).
    assert (Edx : g_dir c = x).
    { rewrite Hdir, normalised_sqlen. apply unit_norm. exact Hx1. }
    assert (Hobj : forall u, length u = p -> pp_objective (fit_result dc s) kw E u = Ok (- (dot (tmatvec E ys) u / INR n * b))).
    { intros u Hlu. unfold pp_objective, npdot. rewrite (wf_ncols n p E HE Hn), Hlu, Nat.eqb_refl. cbn [bind]. rewrite index_value by auto. reflexivity. }
    assert (Hm : g_max c = dot (tmatvec E ys) x / INR n * b).
    { assert (HM : fit_result dc s (as_col (g_t c)) kw = Ok (g_max c)) by (unfold max_fact in Hmf; destruct (pp_optim prm); [congruence| | |]; apply Hmf).
      rewrite Ht, Edx, index_value in HM by auto. apply Ok_inj in HM. congruence. }
    assert (Hdp : 0 < dot (tmatvec E ys) x).
    { rewrite Hm in Hpos. apply (Rmult_lt_reg_r (/ INR n * b)); [apply Rmult_lt_0_compat; [apply Rinv_0_lt_compat; auto|auto]|]. unfold Rdiv in Hpos. lra. }
    destruct (best_unit p (tmatvec E ys) x) as (B1 & B2 & B3); auto; [apply (tmatvec_length n p); auto| |].
    - intros u Hlu Hu1. rewrite Hobj in Hv0 by auto. apply Ok_inj in Hv0. specialize (Hmin u _ Hlu Hu1 (Hobj u Hlu)). rewrite <- Hv0 in Hmin.
      apply (Rmult_le_reg_r (/ INR n * b)); [apply Rmult_lt_0_compat; [apply Rinv_0_lt_compat; auto|auto]|]. unfold Rdiv in Hmin. lra.
    - split; [exact B1|]. split; [rewrite Edx; exact B2|]. rewrite Hm, B3. field. lra.
  Qed.

  Lemma soft0 : forall good (v : list R), (forall j, (j < length v)%nat -> nth j v 0 <> 0 -> In j good) -> keep good (soft 0 v) = map (fun a => a / vnorm v) v.
  Proof.
    intros good v Hg. assert (Es : soft 0 v = map (fun a => a / vnorm v) v).
    { unfold soft. apply map_ext. intros a. f_equal. unfold sign_of, Rabs. destruct (Rlt_dec 0 a), (Rlt_dec a 0), (Rcase_abs a); try lra. }
    rewrite Es. apply (nth_ext _ _ 0 0); [apply keep_length|]. intros j Hj. rewrite keep_length, map_length in Hj.
    assert (Hnj : nth j (map (fun a => a / vnorm v) v) 0 = nth j v 0 / vnorm v).
    { rewrite (nth_indep _ 0 (0 / vnorm v)) by (rewrite map_length; auto). exact (map_nth (fun a => a / vnorm v) v 0 j). }
    destruct (Req_dec (nth j v 0) 0) as [Z|NZ].
    - rewrite Hnj, Z. destruct (in_dec Nat.eq_dec j good) as [Hi|Hi]; [|rewrite keep_out by auto; unfold Rdiv; ring].
      rewrite keep_in by (auto; rewrite map_length; auto). rewrite Hnj, Z. reflexivity.
    - apply keep_in; [rewrite map_length; auto|auto].
  Qed.
  Lemma keep_all : forall good (v : list R), (forall j, (j < length v)%nat -> In j good) -> keep good v = v.
  Proof. intros good v Hg. apply (nth_ext _ _ 0 0); [apply keep_length|]. intros j Hj. rewrite keep_length in Hj. apply keep_in; auto. Qed.
  Lemma step_some : forall nan ssx ssy E y old, wf n p E -> length y = n -> 0 < vnorm (tmatvec E y) -> exists c, snipls_step nan 0 ssx ssy E y old = Some c.
  Proof.
    intros nan ssx ssy E y old HE Hy Hpos. set (cov := tmatvec E y) in *. assert (Hlc : length cov = p) by (apply (tmatvec_length n p); auto).
    assert (Hne : cov <> []) by (destruct cov; [cbn in Hlc; lia|discriminate]). destruct (step_core 0 cov Hne) as [_ E2].
    unfold snipls_step. cbv zeta. rewrite !xty_R. fold cov. rnum.
    destruct (union1d old _) as [|g0 gs] eqn:Eg; [exfalso|eexists; reflexivity].
    assert (Hex : exists j, (j < length cov)%nat /\ nth j cov 0 <> 0).
    { destruct (in_dec Bool.bool_dec true (map (fun a => negb (Reqb a 0)) cov)) as [Hi|Hi].
      - apply in_map_iff in Hi as (a & Ha & Hin). apply (In_nth _ _ 0) in Hin as (j & Hj & Ej). exists j. split; auto. rewrite Ej. intros ->. rewrite Reqb_refl in Ha. discriminate.
      - exfalso. assert (Hz : Forall (fun a => a = 0) cov).
        { apply Forall_forall. intros a Ha. destruct (Reqb a 0) eqn:Er; [apply Reqb_true; auto|]. exfalso. apply Hi. apply in_map_iff. exists a. rewrite Er. auto. }
        assert (Hd : dot cov cov = 0) by (apply dot_zero_l; auto). rewrite <- norm_sq in Hd. nra. }
    destruct Hex as (j & Hj & Hnz). assert (Hs : sel 0 cov j).
    { split; auto. rewrite Rmult_0_l. apply Rabs_pos_lt. auto. }
    apply E2 in Hs. assert (Hin : In j []) by (rewrite <- Eg; apply union1d_in; right; exact Hs). destruct Hin.
  Qed.

  Lemma pls_match : forall nan ssx ssy cs E yv old, wf n p E -> length yv = n -> tmatvec E yv = tmatvec E ys ->
    gchain prm (fit_result dc s) kw true None n p E cs -> mchain env prm (fit_result dc s) kw d p E cs -> ochain env prm (fit_result dc s) kw p E cs ->
    (forall c, In c cs -> 0 < g_max c) ->
    let l := snipls_loop nan 0 ssx ssy (length cs) E yv old in
    map c_w l = map g_dir cs /\ map c_t l = map g_t cs /\ map c_q l = map g_p cs /\ map c_c l = map (fun c => dot (g_t c) ys / dot (g_t c) (g_t c)) cs /\
    ((forall j, (j < p)%nat -> In j old \/ nth j (g_dir (nth 0 cs pc0)) 0 <> 0) -> map c_p l = map g_p cs).
  Proof.
    intros nan ssx ssy cs. induction cs as [|c cs IH]; intros E yv old HE Hyv Heq Hg Hm Hoc Hpos; [cbn; auto|].
    destruct Hg as [Hg1 Hg2], Hm as [Hm1 Hm2], Hoc as [Ho1 Ho2].
    destruct (weight_of E c HE Hg1 Hm1 Ho1 (Hpos c (or_introl eq_refl))) as (HN & Hdir & _).
    pose proof Hg1 as (_ & Hld & Ht & Hpl & HgE & _).
    assert (HN' : 0 < vnorm (tmatvec E yv)) by (rewrite Heq; exact HN).
    destruct (step_some nan ssx ssy E yv old HE Hyv HN') as (sc & Es). cbn [length snipls_loop]. rewrite Es.
    pose proof (step_spec nan 0 ssx ssy n p E yv old sc HE Hn Hp Hyv Es) as F.
    destruct (step_lengths 0 ssx ssy n p E yv old sc HE Hn Hyv F) as (L1 & L2 & L3 & L4 & HX' & Hy').
    destruct F as (Fg & Fw & Ft & Fq & Fp & Fc & _ & _ & FX & Fy). rewrite Heq in *. set (v := tmatvec E ys) in *.
    assert (Hlv : length v = p) by (apply (tmatvec_length n p); auto).
    assert (Hgood : forall j, (j < length v)%nat -> nth j v 0 <> 0 -> In j (c_good sc)).
    { intros j Hj Hnz. apply Fg. right. split; auto. rewrite Rmult_0_l. apply Rabs_pos_lt. auto. }
    assert (EW : c_w sc = g_dir c) by (rewrite Fw, soft0, Hdir by auto; reflexivity).
    assert (ET : c_t sc = g_t c) by (rewrite Ft, Ht, EW; reflexivity).
    assert (EQ : c_q sc = g_p c) by (rewrite Fq, Hpl, ET; reflexivity).
    assert (EX : c_X sc = g_E c) by (rewrite FX, HgE, ET, EQ; reflexivity).
    assert (Hyt : dot yv (g_t c) = dot ys (g_t c)).
    { rewrite Ht, <- !(L_Lin.adjoint n p) by auto. rewrite Heq. reflexivity. }
    assert (EC : c_c sc = dot (g_t c) ys / dot (g_t c) (g_t c)) by (rewrite Fc, ET, Hyt, (dot_comm ys); reflexivity).
    assert (Heq' : tmatvec (c_X sc) (c_y sc) = tmatvec (c_X sc) ys).
    { rewrite Fy, FX. assert (Hortho : tmatvec (msub E (outer (c_t sc) (c_q sc))) (c_t sc) = vzeros p).
      { rewrite (tmatvec_deflate n p) by auto. rewrite Fq. apply (nth_ext _ _ 0 0).
        - unfold vzeros. rewrite vsub_length, (tmatvec_length n p), repeat_length by (auto; rewrite !vscale_length; auto). reflexivity.
        - intros j Hj. rewrite vsub_length, (tmatvec_length n p) in Hj by (auto; rewrite !vscale_length; auto).
          rewrite nth_vsub by (rewrite ?(tmatvec_length n p), ?vscale_length by auto; rewrite ?(tmatvec_length n p) by auto; auto).
          rewrite !nth_vscale by (rewrite ?vscale_length, ?(tmatvec_length n p) by auto; auto). unfold vzeros. rewrite nth_repeat. rnum.
          destruct (Req_dec (dot (c_t sc) (c_t sc)) 0) as [Z|NZ]; [|field; auto].
          rewrite Z. assert (HZ : Forall (fun a => a = 0) (c_t sc)) by (apply dot_self_zero; auto). rewrite (nth_tmatvec n p) by auto. rewrite dot_comm, dot_zero_l by auto. ring. }
      assert (H1 : tmatvec (msub E (outer (c_t sc) (c_q sc))) yv = tmatvec (msub E (outer (c_t sc) (c_q sc))) ys).
      { rewrite !(tmatvec_deflate n p) by auto. rewrite Heq. fold v. rewrite ET, (dot_comm (g_t c) yv), Hyt, (dot_comm ys). reflexivity. }
      rewrite <- FX in *. apply (nth_ext _ _ 0 0); [rewrite !(tmatvec_length n p) by auto; reflexivity|]. intros j Hj. rewrite (tmatvec_length n p) in Hj by auto.
      assert (Hz : dot (col j (c_X sc)) (c_t sc) = 0) by (rewrite <- (nth_tmatvec n p) by auto; rewrite Hortho; unfold vzeros; apply nth_repeat).
      rewrite !(nth_tmatvec n p) by auto. rewrite dot_vsub_r, dot_vscale_r, Hz by (rewrite vscale_length; lia).
      rewrite <- !(nth_tmatvec n p) by auto. rewrite H1. ring. }
    destruct (IH (c_X sc) (c_y sc) (c_good sc) HX' Hy' Heq') as (I1 & I2 & I3 & I4 & I5); [rewrite EX; auto|rewrite EX; auto|rewrite EX; auto|intros; apply Hpos; right; auto|].
    cbn [map]. rewrite I1, I2, I3, I4, EW, ET, EQ, EC. repeat (split; [reflexivity|]). intros Hall. cbn [nth] in Hall.
    assert (Hga : forall j, (j < p)%nat -> In j (c_good sc)).
    { intros j Hj. destruct (Hall j Hj) as [Hi|Hi]; [apply Fg; left; exact Hi|]. apply Hgood; [lia|]. intros Z. apply Hi. rewrite Hdir.
      rewrite (nth_indep _ 0 (0 / vnorm v)) by (rewrite map_length; lia). rewrite (map_nth (fun a => a / vnorm v) v 0 j), Z. unfold Rdiv. ring. }
    rewrite Fp, keep_all, EQ by (intros j Hj; apply Hga; congruence). f_equal. apply I5. intros j Hj. left. auto.
  Qed.
End Chain.

(** what fit scales is what snipls scales *)
Lemma pp_scaled_by : forall (env : pp_env R) c s X m v Z, pp_scaled env c s 0 X = Ok (m, v, Z) -> L_Snipls.scaled_by (pe_prep env) c s X Z.
Proof. intros env c s X m v Z E. apply (scaled_inv (pe_prep env) c s X m v Z). exact E. Qed.

Lemma response_scaled_by : forall (env : pp_env R) prm s n y yi my v, pp_center_data prm = true -> pp_trim prm = 0 -> st_y env prm s n y = Ok (Some (yi, my)) -> has_response y v -> length v = n -> (2 <= n)%nat ->
  L_Snipls.scaled_by (pe_prep env) (pp_center prm) s (as_column v) (as_column (yi_s yi)) /\ length (yi_s yi) = n /\
  exists m sv Z, scaled (pe_prep env) (pp_center prm) s (as_column v) = Ok (m, sv, Z) /\ nth 0 sv 0 = yi_sca yi.
Proof.
  intros env prm s n y yi my v Hcd Ht E (a & Hy & Ha) Hlv Hn2.
  assert (Hr : exists k, bind (response env prm s n k a) (fun yi => Ok (Some yi)) = Ok (Some (yi, my))).
  { destruct Hy as [-> | ->]; cbn [st_y] in E; unfold st_y in E; eexists; exact E. }
  destruct Hr as (k & Hr). destruct (response env prm s n k a) as [[yi' my']|] eqn:Er; cbn [bind] in Hr; [|discriminate]. inversion Hr; subst yi' my'.
  unfold response in Er.
  assert (Hrows : match a with A1 v => map (fun a => [a]) v | A2 Y => Y end = as_column v) by (destruct Ha as [-> | ->]; reflexivity).
  rewrite Hrows in Er. do 2 match type of Er with (if ?b then _ else _) = _ => destruct b; [discriminate|] end. rewrite Hcd, Ht in Er.
  destruct (pp_scaled env (pp_center prm) s 0 (as_column v)) as [[[m sc] Z]|] eqn:Es; cbn [bind] in Er; [|discriminate]. apply Ok_inj, pair_equal_spec in Er as [<- _]. cbn [yi_s yi_sca].
  pose proof Es as Es0. apply pp_scaled_by in Es. assert (HZ : wf n 1 Z) by (apply (scaled_wf (pe_prep env) (pp_center prm) s n 1 (as_column v) Z); [rewrite <- Hlv; apply as_column_wf|exact Hn2|exact Es]).
  rewrite (as_column_col n Z HZ). split; [exact Es|]. split; [unfold col; rewrite map_length; apply HZ|]. exists m, sc, Z. split; [exact Es0|reflexivity].
Qed.

Lemma sum_standardised : forall (v : list R) b, (0 < length v)%nat -> sum_of (map (fun a => (a - mean_of v) / b) v) = 0.
Proof.
  intros v b Hv. assert (Hn : 0 < INR (length v)) by (apply lt_0_INR; auto).
  assert (H : forall m l, sum_of (map (fun a => (a - m) / b) l) = (sum_of l - INR (length l) * m) / b).
  { intros m l. induction l as [|x l IH]; [cbn; unfold Rdiv; ring|]. cbn [map length]. change (sum_of (x :: l)) with (x + sum_of l). change (sum_of ((x - m) / b :: map (fun a => (a - m) / b) l)) with ((x - m) / b + sum_of (map (fun a => (a - m) / b) l)). rewrite IH, S_INR. unfold Rdiv. ring. }
  rewrite H. unfold mean_of. replace (sum_of v - INR (length v) * (sum_of v / INR (length v))) with 0 by (field; lra). unfold Rdiv. ring.
Qed.

(** the coefficients of the response on the scores *)
Lemma ols_C : forall (env : pp_env R) prm d X f prm' d' m n p v, is_matrix n p X -> direct_fit prm n p -> has_response (f_y f) v -> pp_regopt prm = "OLS"%string ->
  pp_fit env prm d X f = (prm', d', Ok m) -> (0 < pp_ncomp prm')%nat ->
  exists ym, pm_y m = Some ym /\ length (ym_C ym) = pp_ncomp prm' /\
    let ys := map (fun a => (a - ym_loc ym) / (if Req_EM_T (ym_sca ym) 0 then 1 else ym_sca ym)) v in
    forall i, (i < pp_ncomp prm')%nat -> nth i (ym_C ym) 0 = inner (column i (pm_T m)) ys / sqlen (column i (pm_T m)).
Proof.
  intros env prm d X f prm' d' m n p v HX Hd Hv Hols E Hh. destruct (plain_run _ _ _ _ _ _ _ _ _ _ HX Hd E Hh) as
    (Hn & Hp0 & Ep & most & s & mX & sX & Xs & yi & cs & yc & Rt & ym & _ & _ & Esc & HXs & Ey & _ & Hl & Hg & _ & HR & -> & Hym).
  destruct (with_h_fields prm (f_h f)) as (W1 & W2 & W3 & W4 & W5 & W6 & W7 & W8 & W9 & W10 & W11).
  destruct (has_response_some _ _ _ _ _ _ _ Ey Hv) as (y & my & ->). destruct (response_values _ _ _ _ _ _ _ _ Ey Hv) as [_ Hlv].
  destruct Hym as (Hyc & Hyf & ic & b0 & yfit & r & _ & ->). eexists. split; [reflexivity|]. cbn [ym_C ym_loc ym_sca pm_T]. split; [rewrite map_length; exact Hyc|].
  rewrite <- (response_scaled _ _ _ _ _ _ _ _ Ey Hv) by lia. intros i Hi.
  destruct (Hyf i Hi) as (_ & HC & _). unfold inner_coef in HC. rewrite Ep in HC. replace (pp_regopt (with_h prm (f_h f))) with "OLS"%string in HC by (destruct (f_h f); cbn; congruence).
  cbn [String.eqb Ascii.eqb Bool.eqb] in HC. apply Ok_inj in HC.
  rewrite (nth_indep _ 0 (fst (fst q0))) by (rewrite map_length; lia). rewrite (map_nth (fun q : R * list R * list R => fst (fst q))), <- HC.
  rewrite T_col by (try lia; eapply gchain_nth_len; eauto; lia).
  rewrite inner_dot, sqlen_dot, nsqr_vnorm. rnum. reflexivity.
Qed.

Lemma map_of_nth : forall {T} (h : T -> R) (l : list T) (d : T) (v : list R), length v = length l -> (forall i, (i < length l)%nat -> nth i v 0 = h (nth i l d)) -> v = map h l.
Proof.
  intros T h l d v Hl H. apply (nth_ext _ _ 0 0); [rewrite map_length; exact Hl|]. intros i Hi. rewrite Hl in Hi. rewrite H by auto.
  rewrite (nth_indep _ 0 (h d)) by (rewrite map_length; auto). symmetry. apply map_nth.
Qed.

Lemma C176_l : forall (env : pp_env R) prm d X f prm' d' m n p dc s inv v fs, is_matrix n p X -> (2 <= n)%nat -> direct_fit prm n p -> pp_init prm = Ok prm ->
  pp_optim prm <> OGrid -> exact_optimiser env (pp_optim prm) -> pp_center prm = CMean -> pp_center_data prm = true -> pp_trim prm = 0 ->
  ix_new (pp_idx prm) = Ok (fit_result dc s) -> configured s "arithmetic" "cov" "mean" -> has_response (f_y f) v ->
  pp_fit env prm d X f = (prm', d', Ok m) -> (0 < pp_ncomp prm')%nat ->
  (forall i, (i < pp_ncomp prm')%nat -> 0 < nth i (pm_max m) 0) ->
  snipls_fit (pe_prep env) inv 0 (pp_ncomp prm') CMean (if pp_scale_data prm then SStd else SNone) X v = Ok fs ->
  sn_W fs = pm_W m /\ sn_T fs = pm_T m /\ length (sn_C fs) = pp_ncomp prm' /\
  ((forall j, (j < p)%nat -> nth j (column 0 (pm_W m)) 0 <> 0) -> sn_P fs = pm_P m) /\
  (pp_regopt prm = "OLS"%string -> exists ym, pm_y m = Some ym /\ sn_C fs = ym_C ym).
Proof.
  intros env prm d X f prm' d' m n p dc s inv v fs HX Hn2 Hd Hinit Ho Hopt Hcm Hcd Htr Hix Hcf Hv E Hh Hpos Es.
  destruct (C148_l _ _ _ _ _ _ _ _ _ _ HX Hn2 Hd Hinit Htr E Hh) as (_ & _ & _ & Hsy). destruct (Hsy v Hv) as (ym1 & Eym1 & Hsc1).
  pose proof (fun Hols => ols_C _ _ _ _ _ _ _ _ _ _ v HX Hd Hv Hols E Hh) as HC.
  destruct (fit_asked _ _ _ _ _ _ _ _ _ _ HX Hd Ho E Hh) as (Hn & Hp & Ep & most & s' & mX & sX & Xs & yi & cs & Rt & ym & Hix' & Hsn & Esc & HXs & Ey & Hl & Hg & Hm & Hoc & Em & Hym).
  rewrite Hix in Hix'. apply Ok_inj in Hix'. subst most.
  destruct (with_h_fields prm (f_h f)) as (W1 & W2 & W3 & W4 & W5 & W6 & W7 & W8 & W9 & W10 & W11). rewrite <- Ep in W1, W2, W3, W4, W5, W6, W7, W8, W9, W10, W11.
  destruct (has_response_some _ _ _ _ _ _ _ Ey Hv) as (y & my & ->). destruct (response_values _ _ _ _ _ _ _ _ Ey Hv) as [_ Hlv].
  destruct Hym as (ic & b0 & yfit & r & B & Bs & C & ->). subst m. cbn [pm_W pm_T pm_P pm_max pm_y] in *. injection Eym1 as <-. cbn [ym_loc ym_sca] in Hsc1.
  destruct (response_scaled_by env prm' s' n (f_y f) y my v) as (HyS & Hly & _); try assumption; [congruence|congruence|].
  assert (Hs' : s' = if pp_scale_data prm then SStd else SNone).
  { unfold scale_name in Hsn. rewrite W11, W4, Hcm in Hsn. destruct (pp_scale_data prm); apply Ok_inj in Hsn; auto. }
  unfold st_scale in Esc. rewrite W3, Hcd, W4, Hcm, W5, Htr in Esc. apply pp_scaled_by in Esc. rewrite W4, Hcm in HyS. rewrite <- Hs' in Es.
  assert (Hy0 : sum_of (yi_s y) = 0).
  { rewrite (response_scaled _ _ _ _ _ _ _ _ Ey Hv) by lia. unfold scaling_of in Hsc1. rewrite Hcd, Hcm in Hsc1. destruct Hsc1 as [[-> _] _]. apply sum_standardised. lia. }
  destruct (L_Snipls.fit_inv (pe_prep env) inv 0 (pp_ncomp prm') CMean s' n p X v fs HX Hn2 Hp Hlv Es) as (X0 & y0 & Bf & Rw & Tf & SX & SY & HX0 & Hy0l & H). cbv zeta in H.
  pose proof (scaled_by_fun _ _ _ _ _ _ SX Esc) as ->. pose proof (as_column_inj _ _ (scaled_by_fun _ _ _ _ _ _ SY HyS)) as ->.
  unfold comps_of in H. rewrite <- Hl in H.
  assert (Hpos' : forall c, In c cs -> 0 < g_max c).
  { intros c Hc. apply (In_nth _ _ pc0) in Hc as (i & Hi & <-). specialize (Hpos i ltac:(lia)). rewrite (nth_indep _ 0 (g_max pc0)) in Hpos by (rewrite map_length; auto). rewrite map_nth in Hpos. exact Hpos. }
  pose proof (pls_match env prm' dc s (st_kw prm' f (Some (y, my))) n p (yi_s y) (st_opts prm' d) Hn Hn2 Hp ltac:(congruence) ltac:(rewrite W7; exact Hopt) Hcf
    ltac:(right; cbn; rewrite W5, Htr; reflexivity) eq_refl Hly Hy0 false (vsum (map nansum (map (map nsqr) Xs))) (nansum (map nsqr (yi_s y))) cs Xs (yi_s y) [] HXs Hly eq_refl Hg Hm Hoc Hpos') as (I1 & I2 & I3 & I4 & I5).
  set (l := snipls_loop _ _ _ _ _ _ _ _) in *.
  destruct H as (HT & _ & _ & EW & EP & EC & ET & _). rewrite EW, EP, EC, ET, I1.
  assert (Hne : l <> []) by (intros Z; rewrite Z in I1; destruct cs; [cbn in Hl; lia|discriminate]).
  assert (ETf : Tf = of_cols n (map c_t l)) by (destruct l; [congruence|destruct HT as (? & ? & _ & _ & _ & _ & ->); reflexivity]).
  split; [reflexivity|]. split; [rewrite ETf, I2; reflexivity|]. split; [rewrite I4, map_length; exact Hl|]. split.
  - intros Hall. rewrite I5; [reflexivity|]. intros j Hj. right. specialize (Hall j Hj). rewrite W_col in Hall by (try lia; eapply gchain_nth_len; eauto; lia). exact Hall.
  - intros Hols. destruct (HC Hols) as (ym2 & Eym2 & Hlen & HCi). injection Eym2 as <-. eexists. split; [reflexivity|]. cbn [ym_C ym_loc ym_sca] in *.
    rewrite I4. symmetry. apply (map_of_nth _ cs pc0); [congruence|]. intros i Hi. rewrite HCi by lia. rewrite <- (response_scaled _ _ _ _ _ _ _ _ Ey Hv) by lia.
    rewrite T_col by (try lia; eapply gchain_nth_len; eauto; lia). rewrite inner_dot, sqlen_dot. reflexivity.
Qed.
