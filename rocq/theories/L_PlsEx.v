(** A fit of ppdire with the covariance as projection index: the example of C176 *)

From Coq Require Import String Reals List Arith ZArith Bool Lia Lra.
Import List. Import ListNotations.
From Verif Require Import Num Err Vec VecR S_Stats S_Regress L_Mat L_Stats M_Utils M_Preproc M_Robcent L_Scaling M_Dicomo S_Dicomo L_Dicomo2 M_Ipopt M_Ppdire M_PpWorld
  S_Ppdire S_Ppdire2 S_Pca L_SdrOptEx L_OrderSc L_Pp4 L_PcaEx.
Open Scope R_scope.

Definition invC (M : list (list R)) : res (list (list R)) :=
  match M with
  | [[a]] => if Req_EM_T a 0 then Err LinAlgError else Ok [[/ a]]
  | _ => Err LinAlgError
  end.
Lemma invC_ok : inverse_ok invC /\ inverts_scalars invC /\ penrose invC.
Proof.
  assert (H : forall k M N, is_matrix k k M -> invC M = Ok N -> exists a, a <> 0 /\ M = [[a]] /\ N = [[/ a]] /\ k = 1%nat).
  { intros k M N [HM HF] E. unfold invC in E. destruct M as [|[|a [|? ?]] [|? ?]]; try discriminate.
    destruct (Req_EM_T a 0) as [|Ha]; [discriminate|]. injection E as <-. cbn in HM. eauto. }
  split; [|split].
  - intros k M N HM E. destruct (H k M N HM E) as (a & Ha & -> & -> & ->). split; [repeat constructor|].
    intros i j Hi Hj. assert (i = 0%nat) by lia. assert (j = 0%nat) by lia. subst. unfold cell, sum_of. cbn. field. exact Ha.
  - intros a Ha. unfold invC. destruct (Req_EM_T a 0); [contradiction|]. eauto.
  - intros k M N HM E. destruct (H k M N HM E) as (a & Ha & -> & -> & ->). split; [repeat constructor|].
    intros i j Hi Hj. assert (i = 0%nat) by lia. assert (j = 0%nat) by lia. subst. unfold cell, sum_of. cbn. field. exact Ha.
Qed.

Definition yC : list R := [1; 4; -1; -4].
Definition stC : dstate R := mk_dstate "arithmetic" "cov" "mean" None None None None.
Definition envC : pp_env R := mk_ppenv {| env_l1opt := fun _ x => x; env_es2 := 1 |} trigR invC (fun _ => Err LinAlgError)
  (fun _ _ g x0 => first_min [[1; 0]; [3/5; 4/5]] g x0) (fun _ _ => Err ValueError) (fun _ _ => Err ValueError).
Definition prmC : pparams R := mk_pp (mk_ppindex true (Some "cov"%string) (Ok (fit_result dcP stC))) 1 0 1 (OScipy "SLSQP") "OLS" CMean true false false false false.
Definition fC : fkw R := mk_fkw (YPos (A1 yC)) None false None None.
Lemma envC_exact : forall o, exact_optimiser envC o.
Proof. intros o dd g x0 x E. exact (first_min_exact _ _ _ _ E). Qed.
Definition kwC : dkw R := mk_dkw (Some (as_col yC)) (Some 0) (Some false) (Some 1) None None None None None (Some euclid).

Lemma covC_col : forall v, length v = 4%nat -> fit_result dcP stC (as_col v) kwC = Ok (covariance_of v yC).
Proof.
  intros v Hv. rewrite (fit_cov dcP stC _ v (as_col yC) yC).
  - unfold bessel, kwC. cbn [biascorr k_bias]. rewrite Rmult_1_r. reflexivity.
  - repeat split.
  - right. reflexivity.
  - right. reflexivity.
  - destruct v; [discriminate|discriminate].
  - reflexivity.
  - right. reflexivity.
  - rewrite Hv. reflexivity.
Qed.
Lemma mostC : forall a b, fit_result dcP stC (as_col (matvec XP [a; b])) kwC = Ok ((3 * a + 4 * b) / 2).
Proof.
  intros a b. rewrite covC_col by reflexivity. f_equal. unfold covariance_of, comoment, mean_of, sum_of. cbn. rnum. field.
Qed.
Lemma objC : forall a b, pp_objective (fit_result dcP stC) kwC XP [a; b] = Ok (- ((3 * a + 4 * b) / 2)).
Proof.
  intros a b. unfold pp_objective, npdot. change (ncols XP) with 2%nat. change (length [a; b]) with 2%nat. cbn [Nat.eqb bind]. rewrite mostC. reflexivity.
Qed.
Lemma minC : unit_minimiser 2 (pp_objective (fit_result dcP stC) kwC XP) [3/5; 4/5].
Proof.
  split; [reflexivity|]. split; [unfold sqlen, inner, sum_of; cbn; lra|]. eexists. split; [apply objC|].
  intros [|x [|y [|? ?]]] w Hl Hu Hw; try discriminate Hl. rewrite objC in Hw. apply Ok_inj in Hw. subst w.
  assert (Hxy : x * x + y * y = 1) by (unfold sqlen, inner, sum_of in Hu; cbn in Hu; lra).
  assert (0 <= (4 * x - 3 * y) * (4 * x - 3 * y)) by apply Rle_0_sqr. assert (3 * x + 4 * y <= 5) by nra. lra.
Qed.
Lemma not_minC : ~ unit_minimiser 2 (pp_objective (fit_result dcP stC) kwC XP) [1; 0].
Proof.
  intros (_ & _ & v & Hv & Hmin). rewrite objC in Hv. apply Ok_inj in Hv. subst v.
  specialize (Hmin [3/5; 4/5] _ eq_refl ltac:(unfold sqlen, inner, sum_of; cbn; lra) (objC _ _)). lra.
Qed.
Lemma dirC : direction envC prmC (fit_result dcP stC) kwC [] 2 XP = ([], Ok ([3/5; 4/5], None)).
Proof.
  transitivity ([] : dict, bind (first_min [[1; 0]; [3/5; 4/5]] (pp_objective (fit_result dcP stC) kwC XP) [3; 0]) (fun x =>
       if (length x =? 2)%nat then Ok (map (fun v : R => v / sqrt (vsum (map nsqr x))) x, @None R) else Err ValueError)); [reflexivity|].
  f_equal. cbn [first_min length]. destruct (em _) as [P|_]; [exfalso; exact (not_minC P)|]. destruct (em _) as [_|N]; [|exfalso; apply N; apply minC].
  cbn [bind]. change (length [3/5; 4/5] =? 2)%nat with true. cbv iota.
  assert (EN : map (fun v : R => v / sqrt (vsum (map nsqr [3/5; 4/5]))) [3/5; 4/5] = [3/5; 4/5]).
  { cbn. unfold nsqr. rnum. replace (3/5 * (3/5) + (4/5 * (4/5) + 0)) with 1 by field. rewrite sqrt_1. repeat (apply (f_equal2 cons); [field|]). reflexivity. }
  rewrite EN. reflexivity.
Qed.

Lemma XC_scaled : pp_scaled envC CMean SNone 0 XP = Ok ([0; 0], [1; 1], XP).
Proof. exact XP_scaled. Qed.
Lemma yC_scaled : pp_scaled envC CMean SNone 0 (map (fun a => [a]) yC) = Ok ([0], [1], map (fun a => [a]) yC).
Proof.
  unfold pp_scaled. set (Y := map (fun a => [a]) yC). destruct (sc_fit_transform_ft (pe_prep envC) (new_scaler CMean SNone 0) (A2 Y) eq_refl) as [E1 E2]. cbn [new_scaler sc_center sc_scale] in E1, E2.
  assert (HY : is_matrix 4 1 Y) by (split; [reflexivity|]; repeat (apply Forall_cons; [reflexivity|]); apply Forall_nil).
  assert (EF : ft (pe_prep envC) CMean SNone (check_input (A2 Y)) = Ok ([0], [1], Y)).
  { change (check_input (A2 Y)) with Y. unfold ft. cbn [location]. rewrite mean0_R.
    replace (map vmean (cols Y)) with [0] by (unfold Y, yC; cbn; unfold vmean; cbn; rnum; repeat (apply (f_equal2 cons); [field|]); reflexivity).
    cbn [bind scale_est]. change (repeat _ (ncols Y)) with [1]. cbn [bind]. pose proof (scale_data_id 4 1 Y) as HS. change (vzeros 1) with [0] in HS. change (repeat 1 1) with [1] in HS.
    rewrite HS by (first [exact HY|lia]). reflexivity. }
  rewrite EF in E1, E2. destruct (sc_fit_transform _ _ _) as [st Z]. cbn [fst snd ft_data] in E1, E2. subst Z. cbn zeta in E2. destruct E2 as (-> & -> & _). reflexivity.
Qed.
Definition yiC : yinfo R := mk_yi false yC yC 1.
Definition tC : list R := matvec XP [3/5; 4/5].
Definition plC : list R := map (fun v : R => ndiv v (nsqr (vnorm tC))) (tmatvec XP tC).
Lemma plC_val : plC = [135/97; 20/97].
Proof.
  unfold plC. assert (En : nsqr (vnorm tC) = 194/25).
  { unfold nsqr, vnorm, tC. cbn. unfold nsqr. rnum. rewrite sqrt_sqrt by lra. lra. }
  rewrite En. unfold tC. cbn. rnum. repeat (apply (f_equal2 cons); [field|]). reflexivity.
Qed.
Lemma cmpC : component prmC (fit_result dcP stC) kwC true None 4 2 XP ([3/5; 4/5], None) =
    Ok (mk_pcomp [3/5; 4/5] [3/5; 4/5] tC plC ((3 * (3/5) + 4 * (4/5)) / 2) ((3 * (3/5) + 4 * (4/5)) / 2) (msub XP (outer tC plC))).
Proof.
  unfold component. change (npdot XP [3/5; 4/5]) with (Ok tC). cbn [bind]. unfold tC at 1. rewrite mostC. cbn [bind].
  change (map (fun v : R => ndiv v (nsqr (vnorm tC))) (tmatvec XP tC)) with plC.
  change (length plC) with 2%nat. change (length tC) with 4%nat. change (length [3/5; 4/5]) with 2%nat. cbn [Nat.eqb andb negb bind]. unfold tC at 1. rewrite mostC. reflexivity.
Qed.
Lemma rotC : exists Rt, rotations envC 2 [mk_pcomp [3/5; 4/5] [3/5; 4/5] tC plC ((3 * (3/5) + 4 * (4/5)) / 2) ((3 * (3/5) + 4 * (4/5)) / 2) (msub XP (outer tC plC))] = Ok Rt.
Proof.
  unfold rotations. cbn [map g_w g_p]. rewrite plC_val.
  assert (E : exists a, a = 1 /\ matmul (transpose (of_cols 2 [[135/97; 20/97]])) (of_cols 2 [[3/5; 4/5]]) = [[a]]).
  { eexists. split; [|cbn; rnum; reflexivity]. field. }
  destruct E as (a & Ha & ->). cbn [pe_pinv envC invC]. destruct (Req_EM_T a 0); [lra|]. cbn [bind]. eauto.
Qed.
Lemma fit_C : exists m ym, pp_fit envC prmC [] XP fC = (prmC, [], Ok m) /\ pm_W m = [[3/5]; [4/5]] /\ pm_max m = [(3 * (3/5) + 4 * (4/5)) / 2] /\
  pm_sca m = [1; 1] /\ pm_y m = Some ym /\ ym_sca ym = 1.
Proof.
  destruct rotC as (Rt & ER).
  set (c := mk_pcomp [3/5; 4/5] [3/5; 4/5] tC plC ((3 * (3/5) + 4 * (4/5)) / 2) ((3 * (3/5) + 4 * (4/5)) / 2) (msub XP (outer tC plC))) in *.
  assert (EL : exists ci b bs, pp_loop envC 1 prmC (fit_result dcP stC) kwC (Some yiC) None 4 2 [1; 1] [] XP [] [] (of_cols 2 []) = ([], Ok ([c], [(ci, b, bs)], Rt))).
  { cbn [pp_loop]. rewrite dirC. cbn [bind]. rewrite cmpC. fold c. cbn [bind app]. rewrite ER. cbn [bind].
    change (inner_coef envC prmC (yi_kw yiC) (yi_s yiC) (yi_0 yiC) (g_t c)) with (Ok (ndiv (dot tC yC) (nsqr (vnorm tC)))). cbn [bind].
    change (length [1; 1] =? 2)%nat with true. cbn [negb bind]. do 3 eexists. reflexivity. }
  destruct EL as (ci & b & bs & EL).
  assert (EF : exists ic b0 yfit r, finish_y prmC SNone false XP XP yiC (col 0 (of_cols 2 [b])) = Ok (ic, b0, yfit, r)).
  { unfold finish_y. change (is_mean (pp_center prmC)) with true. change (pp_trim prmC) with 0. cbv iota zeta.
    rewrite trim_mean_zero by (change (yi_0 yiC) with yC; cbn; discriminate). cbn [bind]. do 4 eexists. reflexivity. }
  destruct EF as (ic & b0 & yfit & r & EF).
  assert (H : exists B Bs C, pp_fit envC prmC [] XP fC = (prmC, [], Ok (mk_pm 2 (of_cols 2 [g_w c]) (of_cols 2 [g_p c]) Rt (of_cols 4 [g_t c]) [g_crit c] [g_max c] [0; 0] [1; 1] false
    (Some (mk_ym B Bs ic b0 yfit r C 0 1))))).
  { do 3 eexists. unfold pp_fit. change (with_h prmC (f_h fC)) with prmC. change (ix_dicomo (pp_idx prmC) && match ix_mode (pp_idx prmC) with None => true | Some _ => false end)%bool with false. cbv iota.
    change (ix_new (pp_idx prmC)) with (@Ok (arr R -> dkw R -> res R) (fit_result dcP stC)). cbv iota beta. cbv zeta.
    change (with_whitening prmC) with prmC. change (pp_ncomp prmC) with 1%nat. change (length XP) with 4%nat. change (ncols XP) with 2%nat. change (Nat.min 4 2 <? 1)%nat with false. cbv iota.
    change (scale_name prmC) with (@Ok (scale_opt R) SNone). cbv iota beta. change ((4 <? 2)%nat && pp_compress prmC)%bool with false. cbv iota.
    change (pp_center_data prmC) with true. change (pp_center prmC) with (@CMean R). change (pp_trim prmC) with 0. cbv iota. rewrite XC_scaled.
    change (pp_whiten prmC) with false. change (f_y fC) with (YPos (A1 yC)). change (pp_optim prmC) with (OScipy "SLSQP"). cbv iota beta.
    assert (ERs : response envC prmC SNone 4 false (A1 yC) = Ok (yiC, 0)).
    { unfold response. change (pp_center_data prmC) with true. change (pp_center prmC) with (@CMean R). change (pp_trim prmC) with 0. cbv zeta. change (length (map (fun a : R => [a]) yC) =? 4)%nat with true.
      change (forallb (fun r : list R => (length r =? 1)%nat) (map (fun a : R => [a]) yC)) with true. cbn [negb]. rewrite yC_scaled. reflexivity. }
    rewrite ERs. cbn [bind]. change (yi_s yiC) with yC. change (index_kw prmC (f_bias fC) (Some yC)) with kwC. rewrite EL. cbn [bind map fst snd Nat.sub]. rewrite EF. reflexivity. }
  destruct H as (B & Bs & C & H). do 2 eexists. split; [exact H|]. repeat split.
Qed.
