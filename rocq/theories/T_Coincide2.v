(** Property theorem C202: sprm if more than half of the cases coincide. *)
From Coq Require Import Reals String List Arith ZArith Bool Lia Lra.
Import List. Import ListNotations.
From Verif Require Import Num Err Vec VecR OrdR L_Mat S_Utils S_Stats S_Weights M_Utils M_Preproc M_Robcent M_Msupport M_Rm M_Snipls S_Rm L_Scaling L_Scaling2 T_Scaling L_Snipls L_Snipls2 L_Snipls3 L_Missing L_Rm L_Rm2 T_Snipls T_Rm
  M_Sprm S_Sprm L_Sprm L_Sprm2 L_Sprm3 L_Sprm4 T_Sprm S_MissReg L_MissReg S_Exact L_Exact S_Coincide L_Coincide L_Coincide2.
Open Scope R_scope.

Theorem C202_coinciding_refuted : forall (env : sp_env XR) P df p X y P' calls m X0 Xr, sprm_run env P df X y = (P', (calls, Ok m)) -> (2 <= length X)%nat -> s_pcapp P' = false ->
  xscaled (re_prep (se_rm env)) (s_centre P') (s_scale P') X X0 -> Forall (fun r => length r = p) X0 -> ncols X = p -> kept_vars (sp_keep m) X0 = finite_mat Xr ->
  (length Xr < 2 * length (zero_rows Xr))%nat -> length (sp_cw m) = length X /\ all_missing (sp_cw m).
Proof. exact coincide_sprm. Qed.
Print Assumptions C202_coinciding_refuted.

(** a binary variable that is neither centred nor scaled *)
Definition XD : list (list XR) := [[Fin 0]; [Fin 0]; [Fin 1]].
Definition yD : list XR := [Fin 3; Fin 4; Fin 6].
Lemma caseD : exists m, sprm_fit spX SX None XD yD = Ok m.
Proof.
  destruct (ftX (new_scaler (s_centre SX) (s_scale SX) (Fin 0)) (A2 XD)) as (st1 & Xs & s1 & E1 & L1 & S1 & Hs1 & C1 & D1 & T1); auto.
  destruct (ftX st1 (A1 yD)) as (st2 & Ys & s2 & E2 & L2 & S2 & _ & C2 & D2 & T2); auto.
  rewrite Hs1 in S1 by discriminate. clear Hs1.
  assert (HXs : ncols Xs = 1%nat) by (eapply (ft_ncols (new_scaler (s_centre SX) (s_scale SX) (Fin 0)) st1 (Fin 0) [[Fin 0]; [Fin 1]]); eauto).
  assert (HlX : length Xs = 3%nat) by (rewrite (fit_transform_rows _ _ _ _ _ E1); reflexivity).
  assert (Hly : length (col 0 Ys) = 3%nat) by (unfold col; rewrite map_length, (fit_transform_rows _ _ _ _ _ E2); reflexivity).
  assert (Hchk : sp_check SX 3 1 = Ok (MHuber, 1%nat)).
  { unfold sp_check, rm_check. cbn -[nltb nleb n0 n1]. xnum. rewrite !XRleb_Fin. cbn [XRltb].
    repeat match goal with |- context [Rltb ?a ?b] => destruct (Rltb a b) eqn:?E end; repeat match goal with |- context [Rleb ?a ?b] => destruct (Rleb a b) eqn:?E end;
    rcmp_all; auto; exfalso; lra. }
  assert (Hz : zero_scale [Fin 1] = []).
  { unfold zero_scale, where_. cbn [where_from]. xnum. cbn [XRltb].
    replace (Rltb 1 (1 / 100000)) with false by (symmetry; apply Rltb_false; lra). reflexivity. }
  unfold sprm_fit, sprm_run. change (length XD) with 3%nat. change (ncols XD) with 1%nat. rewrite Hchk.
  cbn [sp_columns SX s_columns s_scale set_columns length Nat.eqb negb andb].
  unfold sp_scaled. cbn [s_centre s_scale set_columns SX se_rm spX]. change (@n0 XR Num_XR) with (Fin 0).
  change (new_scaler (CUser (fun _ _ => Ok [Fin 0])) (SUser (fun _ _ => Ok [Fin 1])) (Fin 0)) with (new_scaler (s_centre SX) (s_scale SX) (Fin 0)).
  rewrite E1, E2, L1, S1, L2, S2. unfold sp_drop. rewrite Hz.
  assert (Hk : vars_to_keep 1 [Fin 1] = [0%nat]) by (unfold vars_to_keep; rewrite Hz; reflexivity). rewrite Hk. cbn [length Nat.ltb Nat.leb set_columns].
  match goal with |- context [sp_estimate spX ?q] => change q with SX end. cbn [snd].
  unfold sp_estimate. cbn [sp_start s_pcapp SX sp_start_cuts s_specific]. cbv zeta.
  match goal with |- context [sp_loop spX _ _ _ _ ?cu Xs ?yy ?s] => set (cuts := cu); set (S0 := s) end.
  assert (HS0 : length (q_sw S0) = 3%nat).
  { unfold S0. cbn [q_sw]. rewrite map_length, floor_length, vmul_length, !mweights_length, start_dx_length, start_dy_length; rewrite ?Hly, ?HlX; reflexivity. }
  change (S (s_maxit SX)) with 3%nat.
  assert (Hloop : exists calls st, sp_loop spX 3 SX MHuber 1 cuts Xs (col 0 Ys) S0 = (calls, Some (Ok st)) /\ (exists f, q_fit st = Some f /\ sp_colret_of (ColBool false) f <> Err IndexError) /\ q_sw st <> []).
  { rewrite sp_loop_S. replace (nltb (s_tol SX) (q_diff S0) && (q_loops S0 <? s_maxit SX)%nat)%bool with true.
    2:{ symmetry. unfold S0. cbn [q_diff q_loops s_tol SX s_maxit]. xnum. cbn [XRltb]. replace (Rltb 0 1) with true by (symmetry; apply Rltb_true; lra). reflexivity. }
    assert (Hrs : length (row_scale (q_sw S0) Xs) = 3%nat) by (rewrite row_scale_length, HS0, HlX; reflexivity).
    destruct (snipls_X (s_eta SX) (row_scale (q_sw S0) Xs) (vmul (col 0 Ys) (q_sw S0))) as [f Ef].
    { lia. } { rewrite ncols_row_scale; auto. intros E0; rewrite E0 in HS0; discriminate. } { rewrite Hrs, vmul_length, HS0, Hly. reflexivity. }
    assert (Hcr : exists cr, sp_colret_of (s_columns SX) f = Ok cr) by (unfold sp_colret_of; cbn [s_columns SX]; destruct (sn_colret f); eauto).
    destruct Hcr as [cr Ecr].
    assert (Hb : exists st' brk, sp_body spX SX MHuber cuts (length Xs) (col 0 Ys) S0 f = Ok (st', brk) /\ q_fit st' = Some f /\ (brk = false -> q_loops st' = 2%nat) /\
               length (q_sw st') = length (q_sw st')).
    { unfold sp_body. match goal with |- context [sc_fit_transform _ _ (A2 ?t)] => destruct (ftX (new_scaler (s_centre SX) (sp_tsc SX) (Fin 0)) (A2 t)) as (st4 & Z & s4 & E4 & _); auto end.
      change (@n0 XR Num_XR) with (Fin 0). change (re_prep (se_rm spX)) with (re_prep rmX). rewrite E4. cbn [snd]. destruct cuts as [[cc cb] cq]. cbv zeta.
      destruct (_ <=? _)%nat; do 2 eexists; (split; [reflexivity|]); (split; [reflexivity|]); (split; [|reflexivity]); [discriminate|reflexivity]. }
    destruct Hb as (st' & brk & Eb & Hq & Hbrk & _).
    assert (Hp : pass spX SX MHuber 1 cuts Xs (col 0 Ys) S0 = Ok (st', brk)).
    { unfold pass. change (re_prep (se_rm spX)) with (re_prep rmX). change (se_inv spX) with (fun M : list (list XR) => Ok M). rewrite Ef. cbn [bind]. rewrite Ecr. cbn [bind]. exact Eb. }
    rewrite Hp. destruct (pass_lens spX SX MHuber 1 cuts Xs (col 0 Ys) ltac:(lia) ltac:(lia) S0 st' brk ltac:(lia) Hp) as [Hsw _].
    assert (Hgo : (exists f0, q_fit st' = Some f0 /\ sp_colret_of (ColBool false) f0 <> Err IndexError) /\ q_sw st' <> []).
    { split; [exists f; split; auto; change (ColBool false) with (s_columns SX); rewrite Ecr; discriminate|]. intros E0; rewrite E0 in Hsw; cbn in Hsw; lia. }
    destruct brk; [do 2 eexists; split; [reflexivity|exact Hgo]|].
    rewrite sp_loop_S, (Hbrk eq_refl). change (2 <? s_maxit SX)%nat with false. rewrite andb_false_r. do 2 eexists; split; [reflexivity|exact Hgo]. }
  destruct Hloop as (calls & st & El & (f & Hf & Hcr) & Hsw). rewrite El. cbn [snd].
  unfold sp_finish. rewrite Hf.
  destruct (ftX (new_scaler (s_centre SX) SNone (Fin 0)) (A2 (row_scale (map nsqrt (q_sw st)) Xs))) as (st4 & Z & s4 & E4 & _); auto.
  { right. split; [reflexivity|].
    assert (Hne : map (@nsqrt XR _) (q_sw st) <> []) by (destruct (q_sw st); [congruence|discriminate]).
    unfold check_input. rewrite ncols_row_scale, HXs by auto. rewrite andb_false_r. rewrite ncols_row_scale by auto. lia. }
  change (@n0 XR Num_XR) with (Fin 0). change (re_prep (se_rm spX)) with (re_prep rmX). rewrite E4. cbn [snd]. cbv zeta. rewrite HXs. cbn [length Nat.eqb negb s_columns SX].
  unfold sp_colret_of. destruct (sn_colret f); cbn [bind]; eexists; reflexivity.
Qed.
Lemma scaledD : xscaled (re_prep rmX) (s_centre SX) (s_scale SX) XD (finite_mat [[0]; [0]; [1]]).
Proof.
  destruct (ft_intro (re_prep rmX) (new_scaler (s_centre SX) (s_scale SX) (Fin 0)) (A2 XD) (finite_mat [[0]; [0]; [1]]) [Fin 0] [Fin 1]) as [st E]; [| | | | |exists st; exact E]; try reflexivity.
  - apply tr0X.
  - cbn. unfold Reqb. destruct (Req_EM_T 1 0); [lra|]. unfold finite_mat, finite_vec. cbn [map]. destruct (Req_EM_T 1 0); [lra|]. repeat f_equal; lra.
Qed.
Example C202_case : exists m, sprm_fit spX SX None XD yD = Ok m /\ sp_cw m = [NaN; NaN; NaN].
Proof.
  destruct caseD as [m E]. exists m. split; [exact E|]. unfold sprm_fit in E. destruct (sprm_run spX SX None XD yD) as [P' [calls r]] eqn:ER. cbn [snd] in E. subst r.
  pose proof ER as EI. apply run_inv in EI as (f & k & c1 & c2 & mX & sX & Xs & my & sy & ys & X' & Xs' & sX' & _ & Ec1 & _ & _ & Esc & Ed & EP' & _ & _ & Ees). apply Ok_inj in Ec1. subst c1.
  assert (HsX : sX = [Fin 1]).
  { unfold sp_scaled in Esc. destruct (ftX (new_scaler (s_centre SX) (s_scale SX) (Fin 0)) (A2 XD)) as (st1 & Zs & s1 & E1 & _ & S1 & Hs1 & _); auto. rewrite Hs1 in S1 by discriminate.
    change (sc_fit_transform _ (new_scaler _ _ _) (A2 XD)) with (sc_fit_transform (re_prep rmX) (new_scaler (s_centre SX) (s_scale SX) (Fin 0)) (A2 XD)) in Esc. rewrite E1 in Esc.
    destruct (sc_fit_transform _ st1 (A1 yD)) as [s2 [Ys|]]; [|discriminate]. rewrite S1 in Esc. destruct (a_col_loc st1), (a_col_loc s2), (a_col_sca s2); try discriminate. apply Ok_inj in Esc. congruence. }
  subst sX. assert (Hz : zero_scale [Fin 1] = []).
  { unfold zero_scale, where_. cbn [where_from]. xnum. cbn [XRltb]. replace (Rltb 1 (1 / 100000)) with false by (symmetry; apply Rltb_false; lra). reflexivity. }
  assert (HKm : sp_keep m = [0%nat]).
  { apply estimate_inv in Ees as (? & ? & ? & ? & ? & ? & _ & _ & _ & Efi). apply finish_inv in Efi as (? & _ & _ & Efi). cbv zeta in Efi. destruct Efi as (_ & Ek & _). rewrite Ek. unfold vars_to_keep. rewrite Hz. reflexivity. }
  destruct (C202_coinciding_refuted spX SX None 1 XD yD P' calls m (finite_mat [[0]; [0]; [1]]) [[0]; [0]; [1]] ER) as [HL HM].
  - cbn; lia. - rewrite EP'. reflexivity. - rewrite EP'. exact scaledD. - repeat constructor. - reflexivity. - rewrite HKm. reflexivity.
  - cbn. destruct (Req_EM_T 0 0); [|congruence]. destruct (Req_EM_T 1 0); [lra|]. cbn. lia.
  - destruct (sp_cw m) as [|a [|b [|c [|]]]]; try discriminate. unfold all_missing in HM. inversion HM as [|? ? H1 HM1]; subst. inversion HM1 as [|? ? H2 HM2]; subst. inversion HM2; subst. reflexivity.
Qed.
