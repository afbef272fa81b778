(** Shapes of the prepared data and of the bases; inversion of fit *)

From Coq Require Import String Reals List Arith ZArith Bool Lra Lia.
Import List. Import ListNotations.
From Verif Require Import Num Err Vec VecR S_Stats S_Regress L_Mat L_Lin L_Matmul L_Stats M_Utils M_Preproc M_Robcent L_Scaling M_Dicomo M_Ipopt M_SdrUtils M_Sudire S_Sudire
  L_SdrMat L_SdrKer L_SdrEig L_SdrPow L_SdrMeth L_SdrFit L_Snipls L_Rm2 L_Pp.
Open Scope R_scope.

Lemma sd_scaled_inv : forall (env : sd_env R) c s t X m v Z, sd_scaled env c s t X = Ok (m, v, Z) ->
  scale_data (check_input (A2 X)) m v = Ok Z /\ location (se_prep env) c t (check_input (A2 X)) = Ok m /\ scale_est (se_prep env) s t (check_input (A2 X)) = Ok v.
Proof.
  intros env c s t X m v Z E. unfold sd_scaled in E. destruct (sc_fit_transform _ _ _) as [st [Z'|e]] eqn:Ef; [|discriminate].
  apply fit_transform_inv in Ef as (m' & v' & Em & Ev & Es & Hl & Hs). rewrite Em, Ev in E. inversion E; subst. auto.
Qed.
Lemma sd_scaled_wf : forall (env : sd_env R) c s t X m v Z n p, wf n p X -> (2 <= n)%nat -> (0 < p)%nat -> sd_scaled env c s t X = Ok (m, v, Z) -> wf n p Z.
Proof.
  intros env c s t X m v Z n p W Hn Hp E. apply sd_scaled_inv in E as [E _]. rewrite (check_input_id n p) in E by (auto; lia).
  apply (scale_data_wf n p X Z m v); auto; lia.
Qed.

Lemma wf_vsub_rows : forall n p (X : list (list R)) m, wf n p X -> length m = p -> wf n p (map (fun r => vsub r m) X).
Proof.
  intros n p X m W Hm. split; [rewrite map_length; apply (wf_length _ _ _ W)|]. apply Forall_forall. intros r Hr. apply in_map_iff in Hr as [r' [<- Hr']].
  rewrite vsub_length; rewrite (wf_row _ _ _ _ W Hr'); auto.
Qed.
Lemma mapM_length : forall {B C} (f : B -> res C) l r, mapM f l = Ok r -> length r = length l.
Proof.
  intros B C f l. induction l as [|a l IH]; intros r E; cbn in E; [apply Ok_inj in E; subst; auto|].
  destruct (f a); [|discriminate]. cbn in E. destruct (mapM f l) as [r'|]; [|discriminate]. cbn in E. apply Ok_inj in E. subst r. cbn. rewrite IH; auto.
Qed.

(** what fit does, when it succeeds with copy=True *)
Lemma fit_inv : forall (env : sd_env R) st X y metric bias st' m, sp_copy (ss_prm st) = true -> sd_fit env st X y metric bias = (st', Ok m) ->
  let prm := sd_whitening (ss_prm st) in
  exists pd ys P, (sp_ncomp prm <= Nat.min (length X) (ncols X))%nat /\ sd_prepare env prm X = Ok pd /\ sd_response (length X) y = Ok ys /\
    ((exists P0, sd_direct env prm (pd_Xs pd) ys = Some (Ok P0) /\ n2_times (sp_scale_data prm) (pd_N2 pd) P0 = Ok P) \/
     (sd_direct env prm (pd_Xs pd) ys = None /\
      sd_optimise env (mk_ss prm (Some X) (ss_start st) (ss_cons st) (ss_args st) (ss_dict st)) (pd_Xs pd) ys (pd_N2 pd) metric bias = (st', Ok P))) /\
    sd_finish env prm (Some X) pd ys P = Ok m.
Proof.
  intros env st X y metric bias st' m Hc E prm. unfold sd_fit in E. rewrite Hc in E. fold prm in E.
  assert (En : sp_ncomp (ss_prm st) = sp_ncomp prm) by (unfold prm, sd_whitening; destruct (sp_whiten (ss_prm st)); reflexivity).
  destruct (Nat.min (length X) (ncols X) <? sp_ncomp (ss_prm st))%nat eqn:EK; [discriminate|]. apply Nat.ltb_ge in EK. cbv zeta in E.
  destruct (sd_prepare env prm X) as [pd|] eqn:EP; [|discriminate]. cbn [bind] in E.
  destruct (sd_response (length X) y) as [ys|] eqn:EY; [|discriminate]. cbn [bind] in E.
  destruct (sd_direct env prm (pd_Xs pd) ys) as [r|] eqn:ED.
  - injection E as _ E. destruct r as [P0|]; [|discriminate]. cbn [bind] in E.
    destruct (n2_times (sp_scale_data prm) (pd_N2 pd) P0) as [P|] eqn:EN; [|discriminate]. cbn [bind] in E.
    exists pd, ys, P. split; [rewrite <- En; auto|]. split; [auto|]. split; [auto|]. split; [|auto]. left. exists P0. auto.
  - destruct (sd_optimise _ _ _ _ _ _ _) as [s2 r] eqn:EO. injection E as <- E. destruct r as [P|]; [|discriminate]. cbn [bind] in E.
    exists pd, ys, P. split; [rewrite <- En; auto|]. split; [auto|]. split; [auto|]. split; [|auto]. right. auto.
Qed.

Lemma response_inv : forall n (y : arr R) ys, sd_response n y = Ok ys -> length ys = n /\ (y = A1 ys \/ y = A2 (map (fun v => [v]) ys)).
Proof.
  intros n y ys E. unfold sd_response in E. cbv zeta in E.
  destruct (negb (length match y with A1 v => map (fun a => [a]) v | A2 Y => Y end =? n)%nat) eqn:EL; [discriminate|].
  destruct (negb _) eqn:EF in E; [discriminate|]. apply Ok_inj in E. subst ys.
  apply negb_false_iff, Nat.eqb_eq in EL. apply negb_false_iff in EF. split; [unfold col; rewrite map_length; auto|].
  destruct y as [v|Y].
  - left. f_equal. unfold col. rewrite map_map. cbn. rewrite map_id. reflexivity.
  - right. f_equal. unfold col. rewrite map_map. clear EL. induction Y as [|r Y IH]; [auto|]. cbn [forallb map] in *. apply andb_true_iff in EF as [E1 E2].
    rewrite <- IH by auto. f_equal. destruct r as [|a [|b r]]; try discriminate. reflexivity.
Qed.

(** ** shapes *)
Lemma prepare_shapes : forall (env : sd_env R) prm X n p pd, wf n p X -> (2 <= n)%nat -> (0 < p)%nat -> (forall N, se_isqrt env (npcov X) = Ok N -> wf p p N) -> svd_shapes (se_svd env) ->
  (sp_whiten prm = true -> sp_compress prm = false) -> sd_prepare env prm X = Ok pd -> (2 <= p)%nat /\ wf p p (pd_N2 pd) /\
    ((pd_V pd = None /\ exists q, wf n q (pd_Xs pd) /\ ((p <= n)%nat \/ sp_whiten prm = false -> q = p) /\ (0 < q)%nat) \/
     ((n < p)%nat /\ sp_compress prm = true /\ pd_p pd = n /\ (exists V, pd_V pd = Some V /\ wf p n V) /\
      ((sp_center_data prm = true /\ sd_is_mean (sp_center prm) = true /\ sp_scale_data prm = false /\ sp_whiten prm = false -> wf n n (pd_Xs pd)) /\
       (sp_center_data prm = true -> sd_is_mean (sp_center prm) = true -> sp_scale_data prm = true -> False) /\
       (sp_center_data prm && sd_is_mean (sp_center prm) = false -> sp_whiten prm = false -> wf n p (pd_Xs pd))))).
Proof.
  intros env prm X n p pd W Hn Hp HQ HS HWC E. unfold sd_prepare in E. cbv zeta in E. rewrite (wf_ncols n p X W) in E by lia. rewrite (wf_length _ _ _ W) in E.
  destruct (p =? 1)%nat eqn:E1; [discriminate|]. apply Nat.eqb_neq in E1. split; [lia|].
  destruct (se_isqrt env (npcov X)) as [N2|] eqn:EN; [|discriminate]. cbn [bind] in E.
  assert (WN : wf p p N2) by (apply HQ; auto).
  (* compression *)
  match type of E with bind ?c _ = _ => destruct c as [[[Xc pc] dims]|] eqn:EC; [|discriminate] end. cbn [bind] in E.
  assert (HC : (dims = None /\ Xc = X /\ (sp_compress prm = false -> pc = p)) \/ ((n < p)%nat /\ sp_compress prm = true /\ pc = n /\ wf n n Xc /\ exists V, dims = Some V /\ wf p n V)).
  { destruct ((n <? p)%nat && sp_compress prm) eqn:EB.
    - apply andb_true_iff in EB as [EB1 EB2]. apply Nat.ltb_lt in EB1.
      destruct (se_svd env (transpose X)) as [[[V sv] U]|] eqn:ES; [|discriminate]. cbn [bind] in EC.
      destruct (HS p n _ V sv U (proj1 (rep_transpose n p X _ ltac:(lia) (rep_self n p X W))) ES) as [WV [Ls WU]]. rewrite Nat.min_r in * by lia.
      assert (WX : wf n n (map (fun r => map2 nmul r sv) (transpose U))).
      { pose proof (proj1 (rep_transpose n n U _ ltac:(lia) (rep_self n n U WU))) as WT. split; [rewrite map_length; apply (wf_length _ _ _ WT)|].
        apply Forall_forall. intros r Hr. apply in_map_iff in Hr as [r' [<- Hr']]. rewrite map2_length, Ls, (wf_row _ _ _ _ WT Hr'). lia. }
      cbv zeta in EC. rewrite (wf_ncols n n _ WX ltac:(lia)) in EC. destruct (existsb _ _); apply Ok_inj in EC; injection EC as <- <- <-.
      + left. repeat split; auto. congruence.
      + right. repeat split; auto; try apply WX. exists V. split; auto.
    - apply Ok_inj in EC. injection EC as <- <- <-. left. auto. }
  clear EC.
  (* centring *)
  match type of E with bind ?c _ = _ => destruct c as [[[[X1 m1] s1] o1]|] eqn:EC; [|discriminate] end. cbn [bind] in E.
  set (cm := sp_center_data prm && sd_is_mean (sp_center prm)) in *.
  assert (H1 : forall q, wf n q Xc -> (cm = true -> wf n q X1) /\ (cm = false -> wf n p X1)).
  { intros q Wq. unfold cm. destruct (sp_center_data prm).
    - destruct (sd_is_mean (sp_center prm)) eqn:EM; cbn [andb].
      + destruct (mapM (trim_mean1 (sp_trim prm)) (cols Xc)) as [mm|] eqn:Em; [|discriminate]. cbn [bind] in EC. apply Ok_inj in EC. injection EC as <- _ _ _.
        split; [intros _|discriminate]. apply wf_vsub_rows; auto. apply mapM_length in Em. rewrite Em, cols_length. apply (wf_ncols n); auto; lia.
      + split; [discriminate|intros _]. destruct (sd_scaled _ _ _ _ _) as [[[a b] Z]|] eqn:EZ; [|discriminate]. cbn [bind] in EC. apply Ok_inj in EC. injection EC as <- _ _ _.
        eapply sd_scaled_wf; eauto.
    - cbn [andb]. split; [discriminate|intros _]. apply Ok_inj in EC. injection EC as <- _ _ _. auto. }
  clear EC.
  (* scaling *)
  match type of E with bind ?c _ = _ => destruct c as [[[[X2 m2] s2] o2]|] eqn:EC; [|discriminate] end. cbn [bind] in E.
  assert (H2 : sp_scale_data prm = false /\ X2 = X1 \/
    sp_scale_data prm = true /\ (sd_is_mean (sp_center prm) = true /\ npmatmul X1 N2 = Ok X2 \/ sd_is_mean (sp_center prm) = false /\ wf n p X2)).
  { destruct (sp_scale_data prm).
    - right. split; [auto|]. destruct (sp_center prm) eqn:ECC; try discriminate.
      + left. split; [auto|]. destruct (npmatmul X1 N2); [|discriminate]. cbn [bind] in EC. apply Ok_inj in EC. injection EC as <- _ _ _. auto.
      + right. split; [auto|]. destruct (sd_scaled _ _ _ _ _) as [[[a b] Z]|] eqn:EZ; [|discriminate]. cbn [bind] in EC. apply Ok_inj in EC. injection EC as <- _ _ _. eapply sd_scaled_wf; eauto.
      + right. split; [auto|]. destruct (sd_scaled _ _ _ _ _) as [[[a b] Z]|] eqn:EZ; [|discriminate]. cbn [bind] in EC. apply Ok_inj in EC. injection EC as <- _ _ _. eapply sd_scaled_wf; eauto.
    - left. split; [auto|]. apply Ok_inj in EC. injection EC as <- _ _ _. auto. }
  clear EC.
  (* whitening *)
  match type of E with bind ?c _ = _ => destruct c as [[X3 K]|] eqn:EC; [|discriminate] end. cbn [bind] in E. apply Ok_inj in E. subst pd. cbn [pd_N2 pd_V pd_Xs pd_p].
  split; [exact WN|].
  assert (H3 : (sp_whiten prm = false -> X3 = X2) /\ (wf n p X2 -> pc = p -> exists q, wf n q X3 /\ ((p <= n)%nat \/ sp_whiten prm = false -> q = p) /\ (0 < q)%nat)).
  { destruct (sp_whiten prm).
    - split; [discriminate|]. intros W2 Epc. destruct (se_svd env (transpose X2)) as [[[V sv] U]|] eqn:ES; [|discriminate]. cbn [bind] in EC. cbv zeta in EC.
      destruct (HS p n _ V sv U (proj1 (rep_transpose n p X2 _ ltac:(lia) (rep_self n p X2 W2))) ES) as [WV [Ls WU]].
      assert (WK : wf p (Nat.min p n) (map (fun r => firstn pc (map2 ndiv r sv)) V)).
      { split; [rewrite map_length; apply (wf_length _ _ _ WV)|]. apply Forall_forall. intros r Hr. apply in_map_iff in Hr as [r' [<- Hr']].
        rewrite firstn_length, map2_length, Ls, (wf_row _ _ _ _ WV Hr'). lia. }
      destruct (npmatmul X2 (map (fun r => firstn pc (map2 ndiv r sv)) V)) as [Z|] eqn:EZ; [|discriminate]. cbn [bind] in EC. apply Ok_inj in EC. injection EC as <- _.
      exists (Nat.min p n). split; [|split; [intros [?|?]; [lia|discriminate]|lia]].
      pose proof (npmatmul_ok n p (Nat.min p n) _ _ _ _ Z ltac:(lia) Hp (rep_self _ _ _ W2) (rep_self _ _ _ WK) EZ) as RZ.
      apply (proj1 (rep_map_rows n (Nat.min p n) Z _ _ RZ)).
    - apply Ok_inj in EC. injection EC as <- _. split; [auto|]. intros W2 _. exists p. split; [auto|]. lia. }
  clear EC. destruct H3 as [H3 H4].
  destruct HC as [[-> [-> Hpc]]|[Hlt [Hcomp [-> [WXc [V [-> WV]]]]]]].
  - left. split; [auto|]. assert (W1 : wf n p X1) by (destruct cm eqn:Ecm; [apply (proj1 (H1 p W)); auto|apply (proj2 (H1 p W)); auto]).
    assert (W2 : wf n p X2).
    { destruct H2 as [[_ ->]|[_ [[_ EZ]|[_ ?]]]]; auto. apply (npmatmul_ok n p p _ _ _ _ X2 ltac:(lia) Hp (rep_self _ _ _ W1) (rep_self _ _ _ WN) EZ). }
    destruct (Nat.eq_dec pc p) as [->|Hne]; [apply H4; auto|]. 
    destruct (sp_whiten prm) eqn:EW; [|rewrite (H3 eq_refl); exists p; split; [auto|lia]].
    exfalso. apply Hne, Hpc. auto.
  - right. split; [auto|]. split; [auto|]. split; [auto|]. split; [exists V; auto|]. split; [|split].
    + intros [A [B [C D]]]. rewrite (H3 D). destruct H2 as [[_ ->]|[HH _]]; [|congruence]. apply (proj1 (H1 n WXc)). unfold cm. rewrite A, B. reflexivity.
    + intros A B C. destruct H2 as [[HH _]|[_ [[_ EZ]|[HH _]]]]; try congruence. unfold npmatmul in EZ.
      rewrite (wf_ncols n n X1) in EZ; [|apply (proj1 (H1 n WXc)); unfold cm; rewrite A, B; reflexivity|lia]. rewrite (wf_length _ _ _ WN) in EZ.
      destruct (n =? p)%nat eqn:Enp; [apply Nat.eqb_eq in Enp; lia|discriminate].
    + intros A B. rewrite (H3 B). pose proof (proj2 (H1 n WXc) A) as W1. destruct H2 as [[_ ->]|[_ [[HH EZ]|[_ ?]]]]; auto.
      apply (npmatmul_ok n p p _ _ _ _ X2 ltac:(lia) Hp (rep_self _ _ _ W1) (rep_self _ _ _ WN) EZ).
Qed.
