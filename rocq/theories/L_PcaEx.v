(** A solver which answers only with minimisers, and a principal component
    analysis for which it answers: used in the examples of T_Pca *)

From Coq Require Import String Reals List Arith ZArith Bool Lia Lra.
Import List. Import ListNotations.
From Verif Require Import Num Err Vec VecR S_Stats S_Regress L_Mat L_Stats M_Utils M_Preproc M_Robcent L_Scaling M_Dicomo S_Dicomo L_Dicomo2 M_Ipopt M_Ppdire M_PpWorld
  S_Ppdire S_Ppdire2 S_Pca L_SdrOptEx L_OrderSc L_Pp4.
Open Scope R_scope.

Fixpoint first_min (cands : list (list R)) (g : list R -> res R) (x0 : list R) : res (list R) :=
  match cands with
  | [] => Err ValueError
  | c :: cs => if em (unit_minimiser (length x0) g c) then Ok c else first_min cs g x0
  end.
Lemma first_min_exact : forall cands g x0 x, first_min cands g x0 = Ok x -> unit_minimiser (length x0) g x.
Proof. induction cands as [|c cs IH]; intros g x0 x E; [discriminate|]. cbn in E. destruct (em _) as [H|]; [apply Ok_inj in E; subst; exact H|eauto]. Qed.

Definition XP : list (list R) := [[3; 0]; [0; 1]; [-3; 0]; [0; -1]].
Definition EP : list (list R) := [[0; 0]; [0; 1]; [0; 0]; [0; -1]].
Definition stP : dstate R := mk_dstate "arithmetic" "var" "mean" None None None None.
Definition dcP : dcor_env R := mk_dcor (fun _ _ => Err ValueError) (fun _ _ => Err ValueError).
Definition envP : pp_env R := mk_ppenv {| env_l1opt := fun _ x => x; env_es2 := 1 |} trigR (fun M => Ok M) (fun _ => Err LinAlgError)
  (fun _ _ g x0 => first_min [[1; 0]; [0; 1]] g x0) (fun _ _ => Err ValueError) (fun _ _ => Err ValueError).
Definition prmP : pparams R := mk_pp (mk_ppindex true (Some "var"%string) (Ok (fit_result dcP stP))) 2 0 1 (OScipy "SLSQP") "OLS" CMean true false false false false.
Definition fP : fkw R := mk_fkw YNone None false None None.
Lemma envP_exact : forall o, exact_optimiser envP o.
Proof. intros o dd g x0 x E. exact (first_min_exact _ _ _ _ E). Qed.

Definition kwP : dkw R := mk_dkw None (Some 0) (Some false) (Some 1) None None None None None (Some euclid).
Lemma varP_col : forall v, length v = 4%nat -> fit_result dcP stP (as_col v) kwP = Ok (variance_of v).
Proof.
  intros v Hv. rewrite (fit_var dcP stP _ v).
  - unfold bessel, kwP. cbn [biascorr k_bias]. rewrite Rmult_1_r. reflexivity.
  - repeat split.
  - right. reflexivity.
  - right. reflexivity.
  - destruct v; [discriminate|discriminate].
Qed.
Lemma objP : forall a b c e, pp_objective (fit_result dcP stP) kwP [[c; 0]; [0; e]; [- c; 0]; [0; - e]] [a; b] = Ok (- ((c * c * (a * a) + e * e * (b * b)) / 2)).
Proof.
  intros a b c e. unfold pp_objective, npdot.
  change (ncols [[c; 0]; [0; e]; [- c; 0]; [0; - e]]) with 2%nat. change (length [a; b]) with 2%nat. cbn [Nat.eqb bind]. rewrite varP_col by reflexivity. cbn [bind]. f_equal.
  unfold variance_of, mean_of, sum_of. cbn. rnum. field.
Qed.
Lemma minP : forall a b c e, a * a + b * b = 1 -> (forall x y, x * x + y * y = 1 -> c * c * (x * x) + e * e * (y * y) <= c * c * (a * a) + e * e * (b * b)) ->
  unit_minimiser 2 (pp_objective (fit_result dcP stP) kwP [[c; 0]; [0; e]; [- c; 0]; [0; - e]]) [a; b].
Proof.
  intros a b c e H1 Hm. split; [reflexivity|]. split; [unfold sqlen, inner, sum_of; cbn; lra|]. eexists. split; [apply objP|].
  intros [|x [|y [|? ?]]] w Hl Hu Hw; try discriminate Hl. rewrite objP in Hw. apply Ok_inj in Hw. subst w.
  assert (Hxy : x * x + y * y = 1) by (unfold sqlen, inner, sum_of in Hu; cbn in Hu; lra). specialize (Hm x y Hxy). lra.
Qed.
Lemma not_minP : forall a b c e x y, x * x + y * y = 1 -> c * c * (a * a) + e * e * (b * b) < c * c * (x * x) + e * e * (y * y) ->
  ~ unit_minimiser 2 (pp_objective (fit_result dcP stP) kwP [[c; 0]; [0; e]; [- c; 0]; [0; - e]]) [a; b].
Proof.
  intros a b c e x y H1 Hlt (_ & _ & v & Hv & Hmin). rewrite objP in Hv. apply Ok_inj in Hv. subst v.
  specialize (Hmin [x; y] _ eq_refl ltac:(unfold sqlen, inner, sum_of; cbn; lra) (objP _ _ _ _)). lra.
Qed.
Lemma XP_wf : is_matrix 4 2 XP.
Proof. split; [reflexivity|]. unfold XP. repeat (apply Forall_cons; [reflexivity|]). apply Forall_nil. Qed.
Lemma XP_scaled : pp_scaled envP CMean SNone 0 XP = Ok ([0; 0], [1; 1], XP).
Proof.
  unfold pp_scaled. destruct (sc_fit_transform_ft (pe_prep envP) (new_scaler CMean SNone 0) (A2 XP) eq_refl) as [E1 E2]. cbn [new_scaler sc_center sc_scale] in E1, E2.
  assert (EF : ft (pe_prep envP) CMean SNone (check_input (A2 XP)) = Ok ([0; 0], [1; 1], XP)).
  { change (check_input (A2 XP)) with XP. unfold ft. cbn [location]. rewrite mean0_R.
    replace (map vmean (cols XP)) with [0; 0] by (unfold XP; cbn; unfold vmean; cbn; rnum; repeat (apply (f_equal2 cons); [field|]); reflexivity).
    cbn [bind scale_est]. change (repeat _ (ncols XP)) with [1; 1]. cbn [bind]. pose proof (scale_data_id 4 2 XP) as HS. change (vzeros 2) with [0; 0] in HS. change (repeat 1 2) with [1; 1] in HS.
    rewrite HS by (first [exact XP_wf|lia]). reflexivity. }
  rewrite EF in E1, E2. destruct (sc_fit_transform _ _ _) as [st Z]. cbn [fst snd ft_data] in E1, E2. subst Z. cbn zeta in E2. destruct E2 as (-> & -> & _). reflexivity.
Qed.

Definition MP (c e : R) : list (list R) := [[c; 0]; [0; e]; [- c; 0]; [0; - e]].
Lemma norm10 : map (fun v : R => v / sqrt (vsum (map nsqr [1; 0]))) [1; 0] = [1; 0].
Proof. cbn. unfold nsqr. rnum. replace (1 * 1 + (0 * 0 + 0)) with 1 by ring. rewrite sqrt_1. repeat (apply (f_equal2 cons); [field|]). reflexivity. Qed.
Lemma norm01 : map (fun v : R => v / sqrt (vsum (map nsqr [0; 1]))) [0; 1] = [0; 1].
Proof. cbn. unfold nsqr. rnum. replace (0 * 0 + (1 * 1 + 0)) with 1 by ring. rewrite sqrt_1. repeat (apply (f_equal2 cons); [field|]). reflexivity. Qed.
Lemma dirP : forall c e, direction envP prmP (fit_result dcP stP) kwP [] 2 (MP c e) =
  ([], bind (first_min [[1; 0]; [0; 1]] (pp_objective (fit_result dcP stP) kwP (MP c e)) [c; 0]) (fun x =>
       if (length x =? 2)%nat then Ok (map (fun v : R => v / sqrt (vsum (map nsqr x))) x, None) else Err ValueError)).
Proof. reflexivity. Qed.
Lemma dir1 : direction envP prmP (fit_result dcP stP) kwP [] 2 (MP 3 1) = ([], Ok ([1; 0], None)).
Proof.
  rewrite dirP. cbn [first_min length]. destruct (em _) as [_|N]; [|exfalso; apply N; apply minP; [lra|intros x y H; nra]].
  cbn [bind]. change (length [1; 0] =? 2)%nat with true. cbv iota. rewrite norm10. reflexivity.
Qed.
Lemma dir2 : direction envP prmP (fit_result dcP stP) kwP [] 2 (MP 0 1) = ([], Ok ([0; 1], None)).
Proof.
  rewrite dirP. cbn [first_min length]. destruct (em _) as [P|_]; [exfalso; revert P; apply (not_minP _ _ _ _ 0 1); lra|].
  destruct (em _) as [_|N]; [|exfalso; apply N; apply minP; [lra|intros x y H; nra]].
  cbn [bind]. change (length [0; 1] =? 2)%nat with true. cbv iota. rewrite norm01. reflexivity.
Qed.
Lemma mostP : forall a b c e, bind (npdot (MP c e) [a; b]) (fun t => fit_result dcP stP (as_col t) kwP) = Ok ((c * c * (a * a) + e * e * (b * b)) / 2).
Proof.
  intros a b c e. pose proof (objP a b c e) as H. unfold pp_objective in H. change [[c; 0]; [0; e]; [- c; 0]; [0; - e]] with (MP c e) in H.
  destruct (npdot (MP c e) [a; b]) as [t|]; [|discriminate]. cbn [bind] in *. destruct (fit_result dcP stP (as_col t) kwP) as [v|]; [|discriminate]. cbn [bind] in H. apply Ok_inj in H. f_equal. revert H. rnum. lra.
Qed.
Lemma cmpP : forall a b c e, exists t pl, component prmP (fit_result dcP stP) kwP false None 4 2 (MP c e) ([a; b], None) =
    Ok (mk_pcomp [a; b] [a; b] t pl ((c * c * (a * a) + e * e * (b * b)) / 2) 0 (msub (MP c e) (outer t pl))) /\
    t = [a * c; b * e; - (a * c); - (b * e)] /\ pl = map (fun v => v / (2 * (c * c * (a * a) + e * e * (b * b)))) [2 * (c * c * a); 2 * (e * e * b)].
Proof.
  intros a b c e. pose proof (mostP a b c e) as H. unfold component. change (npdot (MP c e) [a; b]) with (Ok (matvec (MP c e) [a; b])) in *. cbn [bind] in *. rewrite H. cbn [bind].
  set (t := matvec (MP c e) [a; b]). assert (Et : t = [a * c; b * e; - (a * c); - (b * e)]) by (unfold t; cbn; rnum; repeat (apply (f_equal2 cons); [ring|]); reflexivity).
  set (pl := map (fun v : R => ndiv v (nsqr (vnorm t))) (tmatvec (MP c e) t)).
  exists t, pl. split; [|split; [exact Et|]].
  - replace (length pl) with 2%nat by reflexivity. reflexivity.
  - unfold pl. assert (En : nsqr (vnorm t) = 2 * (c * c * (a * a) + e * e * (b * b))).
    { rewrite Et. unfold nsqr, vnorm. cbn. unfold nsqr. rnum. rewrite sqrt_sqrt by nra. ring. }
    rewrite En. apply (f_equal (map _)). rewrite Et. cbn. rnum. repeat (apply (f_equal2 cons); [ring|]). reflexivity.
Qed.
Lemma loopP : exists c1 c2 Rt, pp_loop envP 2 prmP (fit_result dcP stP) kwP None None 4 2 [1; 1] [] XP [] [] (of_cols 2 []) = ([], Ok ([c1; c2], [], Rt)) /\
  g_w c1 = [1; 0] /\ g_w c2 = [0; 1] /\ g_max c1 = 9 / 2 /\ g_max c2 = 1 / 2.
Proof.
  destruct (cmpP 1 0 3 1) as (t1 & p1 & E1 & Et1 & Ep1). destruct (cmpP 0 1 0 1) as (t2 & p2 & E2 & _).
  assert (EX : XP = MP 3 1) by reflexivity.
  assert (EE : msub (MP 3 1) (outer t1 p1) = MP 0 1).
  { rewrite Et1, Ep1. unfold msub, outer, MP. cbn. rnum. repeat (apply (f_equal2 cons); [repeat (apply (f_equal2 cons); [field|]); reflexivity|]). reflexivity. }
  cbn [pp_loop]. rewrite EX, dir1. cbn [bind]. rewrite E1. cbn [bind]. unfold rotations. cbn [envP pe_pinv]. cbn [bind]. cbn [g_E]. rewrite EE. rewrite dir2. cbn [bind]. rewrite E2. cbn [bind].
  do 3 eexists. split; [reflexivity|]. cbn [g_w g_max]. repeat split; field.
Qed.
Lemma fit_P : exists m, pp_fit envP prmP [] XP fP = (prmP, [], Ok m) /\ pm_W m = [[1; 0]; [0; 1]] /\ pm_max m = [9 / 2; 1 / 2].
Proof.
  destruct loopP as (c1 & c2 & Rt & EL & Hw1 & Hw2 & Hm1 & Hm2).
  assert (H : pp_fit envP prmP [] XP fP = (prmP, [], Ok (mk_pm 2 (of_cols 2 [g_w c1; g_w c2]) (of_cols 2 [g_p c1; g_p c2]) Rt (of_cols 4 [g_t c1; g_t c2]) [g_crit c1; g_crit c2] [g_max c1; g_max c2] [0; 0] [1; 1] false None))).
  { unfold pp_fit. change (with_h prmP (f_h fP)) with prmP. change (ix_dicomo (pp_idx prmP) && match ix_mode (pp_idx prmP) with None => true | Some _ => false end)%bool with false. cbv iota.
    change (ix_new (pp_idx prmP)) with (@Ok (arr R -> dkw R -> res R) (fit_result dcP stP)). cbv iota beta. cbv zeta.
    change (with_whitening prmP) with prmP. change (pp_ncomp prmP) with 2%nat. change (length XP) with 4%nat. change (ncols XP) with 2%nat. change (Nat.min 4 2 <? 2)%nat with false. cbv iota.
    change (scale_name prmP) with (@Ok (scale_opt R) SNone). cbv iota beta. change ((4 <? 2)%nat && pp_compress prmP)%bool with false. cbv iota.
    change (pp_center_data prmP) with true. change (pp_center prmP) with (@CMean R). change (pp_trim prmP) with 0. cbv iota. rewrite XP_scaled.
    change (pp_whiten prmP) with false. change (f_y fP) with (@YNone R). change (pp_optim prmP) with (OScipy "SLSQP"). cbv iota beta.
    change (index_kw prmP (f_bias fP) None) with kwP. rewrite EL. reflexivity. }
  eexists. split; [exact H|]. cbn [pm_W pm_max]. rewrite Hw1, Hw2, Hm1, Hm2. split; reflexivity.
Qed.
