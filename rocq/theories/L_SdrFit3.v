(** Shapes of the bases, covariances of the scores *)

From Coq Require Import String Reals List Arith ZArith Bool Lra Lia.
Import List. Import ListNotations.
From Verif Require Import Num Err Vec VecR S_Stats S_Regress L_Mat L_Lin L_Matmul L_Stats M_Utils M_Preproc M_Robcent L_Scaling M_Dicomo M_Ipopt M_SdrUtils M_Sudire S_Sudire
  L_SdrMat L_SdrKer L_SdrEig L_SdrPow L_SdrMeth L_SdrFit L_SdrFit2.
Open Scope R_scope.

Lemma eigen_basis_wf : forall n p d X B c s K, eigen_basis n p d X B c s K -> wf p d B.
Proof. intros n p d X B c s K [S [Z [V [_ [_ [_ [_ [_ [WB _]]]]]]]]]. exact WB. Qed.

Definition direct_kernel (prm : sparams R) (q : nat) (ys : list R) (kernel : list (list R) -> nat -> nat -> R) : Prop :=
  match sp_meth prm with
  | MSir => exists labels, case_labels ys (sp_slices prm) (sp_cont prm) labels /\ (0 < sp_slices prm <= length (distinct labels))%nat /\ kernel = between labels (firstn (sp_slices prm) (distinct labels))
  | MSave => exists labels, case_labels ys (sp_slices prm) (sp_cont prm) labels /\ (sp_slices prm <= length (distinct labels))%nat /\ kernel = (fun Z => average_variance labels (firstn (sp_slices prm) (distinct labels)) Z q)
  | MDr => exists labels, case_labels ys (sp_slices prm) (sp_cont prm) labels /\ (0 < sp_slices prm <= length (distinct labels))%nat /\ kernel = (fun Z => directional labels (firstn (sp_slices prm) (distinct labels)) Z q)
  | MPhd => kernel = (fun Z => response_weighted Z ys)
  | MIht => kernel = iterated q ys
  | _ => False
  end.
Lemma direct_ok : forall (env : sd_env R) prm n q Xs ys P0, eigh_ok (se_eigh env) -> (0 < n)%nat -> (0 < q)%nat -> wf n q Xs -> length ys = n ->
  sd_direct env prm Xs ys = Some (Ok P0) ->
  exists kernel, direct_kernel prm q ys kernel /\ eigen_basis n q (Nat.min (sp_ncomp prm) q) Xs P0 (sp_center_data prm) (sp_scale_data prm) kernel.
Proof.
  intros env prm n q Xs ys P0 He Hn Hq W Ly E. unfold sd_direct in E. cbv zeta in E. unfold direct_kernel. destruct (sp_meth prm); try discriminate; injection E as E.
  - apply (SIR_ok (se_eigh env) n q Xs He Hn Hq W ys _ _ Ly) in E as [labels [HL [Hk HB]]]. eexists. split; [exists labels; split; [exact HL|]; split; [exact Hk|reflexivity]|]. exact HB.
  - apply (SAVE_ok (se_eigh env) n q Xs He Hn Hq W ys _ _ Ly) in E as [labels [HL [Hk HB]]]. eexists. split; [exists labels; split; [exact HL|]; split; [exact Hk|reflexivity]|]. exact HB.
  - apply (DR_ok (se_eigh env) n q Xs He Hn Hq W ys _ _ Ly) in E as [labels [HL [Hk HB]]]. eexists. split; [exists labels; split; [exact HL|]; split; [exact Hk|reflexivity]|]. exact HB.
  - eexists. split; [reflexivity|]. apply (PHD_ok (se_eigh env) n q Xs He Hn Hq W ys Ly) in E. exact E.
  - eexists. split; [reflexivity|]. apply (IHT_ok (se_eigh env) n q Xs He Hn Hq W ys Ly) in E. exact E.
Qed.

Lemma unvec_wf : forall h (b : list R) B, unvec h b = Ok B -> (0 < h)%nat /\ length b = (h * length B)%nat /\ wf (length B) h B.
Proof.
  intros h b B E. destruct (Nat.eq_dec h 0) as [->|Hh]; [discriminate|].
  destruct (Nat.eq_dec (length b mod h) 0) as [Hm|Hm]; [|rewrite unvec_bad in E by auto; discriminate].
  set (p := (length b / h)%nat). assert (Lb : length b = (h * p)%nat) by (unfold p; pose proof (Nat.div_mod (length b) h Hh); lia).
  destruct (unvec_spec p h b ltac:(lia) Lb) as [B' [EB [WB _]]]. rewrite E in EB. apply Ok_inj in EB. subst B'. rewrite (wf_length _ _ _ WB). split; [lia|]. auto.
Qed.

Lemma optimise_ok : forall (env : sd_env R) st Xs ys N2 metric bias st' P, sd_optimise env st Xs ys N2 metric bias = (st', Ok P) ->
  exists d f x0 x B, se_ipopt env d f (match ss_cons st with Some c => c | None => constraints (sp_scale_data (ss_prm st)) Xs (sp_ncomp (ss_prm st)) end) x0 = Ok x /\
    unvec (sp_ncomp (ss_prm st)) x = Ok B /\ n2_times (sp_scale_data (ss_prm st)) N2 B = Ok P.
Proof.
  intros env st Xs ys N2 metric bias st' P E. unfold sd_optimise in E. cbv zeta in E.
  destruct (match ss_start st with Some b => Ok b | None => start_value env (ss_prm st) Xs ys N2 end) as [start|] eqn:ES; [|discriminate].
  set (cons := match ss_cons st with Some c => c | None => constraints (sp_scale_data (ss_prm st)) Xs (sp_ncomp (ss_prm st)) end) in *.
  set (args := match ss_args st with Some a => a | None => _ end) in *.
  destruct (se_ipopt env (ss_dict st) (fun b => dcov_trim b args) cons start) as [x1|] eqn:E1; [|discriminate]. cbn [bind] in E.
  destruct (unvec (sp_ncomp (ss_prm st)) x1) as [B1|] eqn:E2; [|discriminate]. cbn [bind] in E.
  destruct (n2_times (sp_scale_data (ss_prm st)) N2 B1) as [B1'|] eqn:E3; [|discriminate].
  assert (G : forall f d, bind (se_ipopt env d f cons (flatF B1')) (fun x => bind (unvec (sp_ncomp (ss_prm st)) x) (n2_times (sp_scale_data (ss_prm st)) N2)) = Ok P ->
    exists d f x0 x B, se_ipopt env d f cons x0 = Ok x /\ unvec (sp_ncomp (ss_prm st)) x = Ok B /\ n2_times (sp_scale_data (ss_prm st)) N2 B = Ok P).
  { intros f d EP. destruct (se_ipopt env d f cons (flatF B1')) as [x|] eqn:Ex; [|discriminate]. cbn [bind] in EP.
    destruct (unvec (sp_ncomp (ss_prm st)) x) as [B|] eqn:EB; [|discriminate]. cbn [bind] in EP.
    exists d, f, (flatF B1'), x, B. auto. }
  assert (D : B1' = P -> exists d f x0 x B, se_ipopt env d f cons x0 = Ok x /\ unvec (sp_ncomp (ss_prm st)) x = Ok B /\ n2_times (sp_scale_data (ss_prm st)) N2 B = Ok P).
  { intros <-. exists (ss_dict st), (fun b => dcov_trim b args), start, x1, B1. auto. }
  destruct (sp_meth (ss_prm st)); try discriminate; injection E as _ E; try (apply D; exact E); eapply G; exact E.
Qed.

Lemma n2_times_wf : forall scale (N2 B P : list (list R)) p h, (0 < p)%nat -> wf p p N2 -> wf (length B) h B -> n2_times scale N2 B = Ok P -> wf (length P) h P /\ length P = length B.
Proof.
  intros scale N2 B P p h Hp WN WB E. unfold n2_times in E. destruct scale; [|apply Ok_inj in E; subst; auto].
  assert (L : length B = p).
  { unfold npmatmul in E. rewrite (wf_ncols p p N2 WN Hp) in E. destruct (p =? length B)%nat eqn:EL; [apply Nat.eqb_eq in EL; auto|discriminate]. }
  rewrite L in WB. pose proof (npmatmul_ok p p h _ _ _ _ P Hp Hp (rep_self _ _ _ WN) (rep_self _ _ _ WB) E) as [WP _].
  rewrite (wf_length _ _ _ WP). auto.
Qed.
Lemma npmatmul_dim : forall n p (X P T : list (list R)), (0 < n)%nat -> wf n p X -> npmatmul X P = Ok T -> length P = p.
Proof.
  intros n p X P T Hn W E. unfold npmatmul in E. rewrite (wf_ncols n p X W Hn) in E. destruct (p =? length P)%nat eqn:EL; [apply Nat.eqb_eq in EL; auto|discriminate].
Qed.

(** the start value has one column per component and as many rows as the data have columns *)
Lemma start_value_length : forall (env : sd_env R) prm n q Xs ys N2 b p, eigh_ok (se_eigh env) -> (0 < n)%nat -> (0 < q)%nat -> wf n q Xs -> length ys = n -> (0 < p)%nat -> wf p p N2 ->
  start_value env prm Xs ys N2 = Ok b -> length b = (Nat.min (sp_ncomp prm) q * q)%nat.
Proof.
  intros env prm n q Xs ys N2 b p He Hn Hq W Ly Hp WN E. unfold start_value in E. cbv zeta in E.
  set (s := sp_scale_data prm) in *. set (h := sp_ncomp prm) in *.
  destruct (bind (SAVE (se_eigh env) Xs ys 3 h false s true) (n2_times s N2)) as [sv|] eqn:E1; [|discriminate]. cbn [bind] in E.
  destruct (bind (SIR (se_eigh env) Xs ys 6 h false s true) (n2_times s N2)) as [si|] eqn:E2; [|discriminate]. cbn [bind] in E.
  destruct (bind (se_orth env sv) _) as [d1|]; [|discriminate]. cbn [bind] in E.
  destruct (bind (se_orth env si) _) as [d2|]; [|discriminate]. cbn [bind] in E.
  destruct (bind (DR (se_eigh env) Xs ys 6 h false s true) (n2_times s N2)) as [dr|] eqn:E3; [|discriminate]. cbn [bind] in E.
  destruct (bind (se_orth env dr) _) as [d3|]; [|discriminate]. cbn [bind] in E. apply Ok_inj in E. subst b.
  assert (G : forall B0 B, wf q (Nat.min h q) B0 -> n2_times s N2 B0 = Ok B -> length (flatF B) = (Nat.min h q * q)%nat).
  { intros B0 B WB EB. pose proof (wf_length _ _ _ WB) as L0. assert (WB' : wf (length B0) (Nat.min h q) B0) by (rewrite L0; auto).
    destruct (n2_times_wf s N2 B0 B p (Nat.min h q) Hp WN WB' EB) as [WP LP]. rewrite LP, L0 in WP. apply (flatF_spec q (Nat.min h q) B Hq WP). }
  assert (H1 : forall B r, (r = SAVE (se_eigh env) Xs ys 3 h false s true \/ r = SIR (se_eigh env) Xs ys 6 h false s true \/ r = DR (se_eigh env) Xs ys 6 h false s true) ->
    bind r (n2_times s N2) = Ok B -> length (flatF B) = (Nat.min h q * q)%nat).
  { intros B r Hr EB. destruct r as [B0|]; [|discriminate]. cbn [bind] in EB. apply (G B0 B); [|auto]. destruct Hr as [Hr|[Hr|Hr]]; symmetry in Hr.
    - apply (SAVE_ok (se_eigh env) n q Xs He Hn Hq W ys _ _ Ly) in Hr as [l [_ [_ HB]]]. apply (eigen_basis_wf _ _ _ _ _ _ _ _ HB).
    - apply (SIR_ok (se_eigh env) n q Xs He Hn Hq W ys _ _ Ly) in Hr as [l [_ [_ HB]]]. apply (eigen_basis_wf _ _ _ _ _ _ _ _ HB).
    - apply (DR_ok (se_eigh env) n q Xs He Hn Hq W ys _ _ Ly) in Hr as [l [_ [_ HB]]]. apply (eigen_basis_wf _ _ _ _ _ _ _ _ HB). }
  destruct (_ && _); [eapply H1; [|exact E1]; auto|]. destruct (_ && _); [eapply H1; [|exact E2]; auto|eapply H1; [|exact E3]; auto].
Qed.

(** ** every successful fit *)
Section Fit.
  Variables (env : sd_env R) (st st' : sstate R) (X : list (list R)) (y : arr R) (metric : list R -> list R -> R) (bias : bool) (m : smodel R) (n p : nat).
  Hypothesis He : eigh_ok (se_eigh env).
  Hypothesis HQ : forall N, se_isqrt env (npcov X) = Ok N -> wf p p N.
  Hypothesis HS : svd_shapes (se_svd env).
  Hypothesis W : wf n p X.
  Hypothesis Hn : (2 <= n)%nat.
  Hypothesis Hp : (0 < p)%nat.
  Hypothesis Hc : sp_copy (ss_prm st) = true.
  Hypothesis E : sd_fit env st X y metric bias = (st', Ok m).

  Lemma whiten_compress : forall prm : sparams R, sp_whiten (sd_whitening prm) = true -> sp_compress (sd_whitening prm) = false.
  Proof. intros prm. unfold sd_whitening. destruct (sp_whiten prm) eqn:EW; cbn; [auto|congruence]. Qed.

  Lemma fit_basis : exists pd ys P, sd_prepare env (sd_whitening (ss_prm st)) X = Ok pd /\ sd_response n y = Ok ys /\ pd_V pd = None /\ wf p (sp_ncomp (ss_prm st)) P /\
      (sp_ncomp (ss_prm st) <= Nat.min n p)%nat /\ (sp_whiten (ss_prm st) = false -> wf n p (pd_Xs pd)) /\ wf p p (pd_N2 pd) /\
      ((exists P0, sd_direct env (sd_whitening (ss_prm st)) (pd_Xs pd) ys = Some (Ok P0) /\ n2_times (sp_scale_data (sd_whitening (ss_prm st))) (pd_N2 pd) P0 = Ok P) \/
       (sd_direct env (sd_whitening (ss_prm st)) (pd_Xs pd) ys = None /\
        sd_optimise env (mk_ss (sd_whitening (ss_prm st)) (Some X) (ss_start st) (ss_cons st) (ss_args st) (ss_dict st)) (pd_Xs pd) ys (pd_N2 pd) metric bias = (st', Ok P))) /\
      sd_finish env (sd_whitening (ss_prm st)) (Some X) pd ys P = Ok m.
  Proof.
    destruct (fit_inv env st X y metric bias st' m Hc E) as [pd [ys [P [Hh [EP [EY [HP EF]]]]]]].
    set (prm := sd_whitening (ss_prm st)) in *.
    assert (En : sp_ncomp (ss_prm st) = sp_ncomp prm) by (unfold prm, sd_whitening; destruct (sp_whiten (ss_prm st)); reflexivity).
    rewrite (wf_length _ _ _ W) in *. rewrite (wf_ncols n p X W) in Hh by lia.
    destruct (response_inv _ _ _ EY) as [Ly _].
    destruct (prepare_shapes env prm X n p pd W Hn Hp HQ HS (whiten_compress _) EP) as [Hp2 [WN HD]].
    destruct (finish_inv _ _ _ _ _ _ _ EF) as [X' [EX [ET [_ [_ [_ [_ [EV _]]]]]]]]. injection EX as <-.
    pose proof (npmatmul_dim n p X P _ ltac:(lia) W ET) as LP.
    assert (WP : forall q, wf n q (pd_Xs pd) -> (0 < q)%nat -> wf p (sp_ncomp prm) P \/ exists q', wf p (Nat.min (sp_ncomp prm) q) P /\ q' = q /\ sd_direct env prm (pd_Xs pd) ys <> None).
    { intros q Wq Hq. destruct HP as [[P0 [ED EN]]|[ED EO]].
      - right. exists q. destruct (direct_ok env prm n q _ ys P0 He ltac:(lia) Hq Wq Ly ED) as [K [_ HB]]. apply eigen_basis_wf in HB.
        assert (WB' : wf (length P0) (Nat.min (sp_ncomp prm) q) P0) by (rewrite (wf_length _ _ _ HB); auto).
        destruct (n2_times_wf _ _ _ _ p _ Hp WN WB' EN) as [WP LP']. rewrite LP in WP. split; [auto|]. split; [auto|]. congruence.
      - left. apply optimise_ok in EO as (d & f & x0 & x & B & _ & EB & EN). cbn [ss_prm] in *. apply unvec_wf in EB as [_ [_ WB]].
        destruct (n2_times_wf _ _ _ _ p _ Hp WN WB EN) as [WP LP']. rewrite LP in WP. auto. }
    assert (LD : forall q, wf n q (pd_Xs pd) -> (0 < q)%nat -> sd_direct env prm (pd_Xs pd) ys <> None -> length P = q).
    { intros q Wq Hq HN. destruct HP as [[P0 [ED EN]]|[ED EO]]; [|congruence].
      destruct (direct_ok env prm n q _ ys P0 He ltac:(lia) Hq Wq Ly ED) as [K [_ HB]]. apply eigen_basis_wf in HB.
      assert (WB' : wf (length P0) (Nat.min (sp_ncomp prm) q) P0) by (rewrite (wf_length _ _ _ HB); auto).
      destruct (n2_times_wf _ _ _ _ p _ Hp WN WB' EN) as [_ LP']. rewrite LP', (wf_length _ _ _ HB). auto. }
    exists pd, ys, P. split; [auto|]. split; [auto|].
    destruct HD as [[EVn [q [Wq [Hqp Hq]]]]|[Hlt [Hcomp [Epc [[V [EVs WV]] [H1 [H2 H3]]]]]]].
    - split; [auto|]. split; [|split; [lia|split; [|split; [auto|split; [auto|auto]]]]]; [|intros EWh; rewrite <- Hqp; [auto|right; unfold prm, sd_whitening; rewrite EWh; auto]]. rewrite En.
      destruct (WP q Wq Hq) as [?|[q' [WPq [_ HN]]]]; [auto|]. rewrite <- (LD q Wq Hq HN), LP in WPq. rewrite Nat.min_l in WPq by lia. auto.
    - exfalso. specialize (EV V EVs). rewrite Epc in EV.
      assert (WV' : wf p n (map (firstn n) V)).
      { split; [rewrite map_length; apply (wf_length _ _ _ WV)|]. apply Forall_forall. intros r Hr. apply in_map_iff in Hr as [r' [<- Hr']].
        rewrite firstn_length, (wf_row _ _ _ _ WV Hr'). lia. }
      pose proof (npmatmul_dim p n _ P _ Hp WV' EV). lia.
  Qed.
End Fit.
