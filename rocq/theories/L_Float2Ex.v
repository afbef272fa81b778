(** Fits of rm and sprm in double arithmetic, for the cases beside C194 *)
From Coq Require Import Reals List Arith ZArith Bool Lia Lra.
Import ListNotations.
From Verif Require Import Num Err Vec VecR OrdR L_Mat S_Weights M_Utils M_Preproc M_Robcent M_Msupport M_Float S_Float L_Float M_Rm M_Snipls M_Sprm S_Rm S_Sprm L_Scaling L_Scaling2 L_Snipls L_Snipls2 L_Snipls3 L_Missing L_Rm L_Rm2 L_Sprm L_Sprm2 L_Sprm3 L_Sprm4 L_Float2.
Open Scope R_scope.
#[local] Instance Nb : Num R := Num_rnd binary64.
Ltac fnum := cbn [n0 n1 nadd nsub nmul ndiv nopp nabs nsqrt nleb nltb neqb nlit npowr ntanh nfloor Nb Num_rnd] in *.
(** cut-offs that are doubles *)
Definition cut64 (f : mfun) (c b r : R) : Prop := cutoffs_ok f c b r /\ binary64 c = c /\ binary64 b = b /\ binary64 r = r.
Lemma b99 : 0 <= binary64 (99 / 100).
Proof. apply (rnd_nonneg _ binary64_rounding). lra. Qed.
Lemma b5 : binary64 (1 / 100000) <= 1.
Proof. apply (rnd_le1 _ binary64_rounding). lra. Qed.
Definition rmX64 : rm_env R := {| re_prep := {| env_l1opt := fun _ x => x; env_es2 := 1 |};
  re_normppf := fun _ => 2; re_chi2ppf := fun _ _ => 2; re_lstsq := fun _ _ => Ok [1] |}.
Definition PX64 : rm_par R := mk_rm_par (Some MHuber) ((1/2)) (0) (0)
  (CUser (fun _ _ => Ok [0])) (SUser (fun _ _ => Ok [1])) false 2 (0) true.
Definition XX64 : list (list R) := [[1]; [3]].
Lemma tr0X64 : check_trimming (0) = Ok tt.
Proof.
  unfold check_trimming. pose proof b99. fnum.  cbn [Rltb].
  repeat match goal with |- context [Rltb ?a ?b] => destruct (Rltb a b) eqn:?E end; rcmp_all; auto; exfalso; lra.
Qed.
Lemma scale_data_total64 : forall (Y : list (list R)) s, length s = 1%nat \/ length s = ncols Y -> (1 <= length s)%nat ->
  exists Z, scale_data Y [0] s = Ok Z.
Proof.
  intros Y s Hs Hp. unfold scale_data. assert (Hh : length (handle_zeros s) = length s) by (unfold handle_zeros; destruct s as [|? [|? ?]]; cbn; rewrite ?map_length; auto).
  destruct (Nat.eqb_spec (ncols Y) 1) as [E|E].
  - destruct (handle_zeros s); [cbn in Hh; lia|]. eauto.
  - cbn [length]. destruct (Nat.eqb_spec 1 (ncols Y)); [lia|]. cbn [bind].
    destruct (Nat.eqb_spec (length (handle_zeros s)) (ncols Y)); [eauto|]. destruct (handle_zeros s) as [|v0 [|v1 q]]; cbn in *; try lia. eauto.
Qed.
Lemma ftX64 : forall (st : scaler R) x, sc_trimming st = 0 -> sc_center st = CUser (fun _ _ => Ok [0]) ->
  (sc_scale st = SUser (fun _ _ => Ok [1]) \/ (sc_scale st = SNone /\ (1 <= ncols (check_input x))%nat)) ->
  exists st' Z s, sc_fit_transform (re_prep rmX64) st x = (st', Ok Z) /\ a_col_loc st' = Some [0] /\ a_col_sca st' = Some s /\
    (sc_scale st <> SNone -> s = [1]) /\ sc_center st' = sc_center st /\ sc_scale st' = sc_scale st /\ sc_trimming st' = 0.
Proof.
  intros st x Ht Hc Hs.
  set (s := match sc_scale st with SNone => repeat (1) (ncols (check_input x)) | _ => [1] end).
  assert (Hsc : scale_est (re_prep rmX64) (sc_scale st) (sc_trimming st) (check_input x) = Ok s).
  { unfold s. destruct Hs as [-> | [-> _]]; reflexivity. }
  destruct (scale_data_total64 (check_input x) s) as [Z Hd].
  { unfold s. destruct Hs as [-> | [-> _]]; [left; reflexivity|right; apply repeat_length]. }
  { unfold s. destruct Hs as [-> | [-> Hn]]; [cbn; lia|rewrite repeat_length; auto]. }
  destruct (ft_intro (re_prep rmX64) st x Z [0] s) as [st' E]; auto.
  - rewrite Hc. reflexivity. - rewrite Ht. apply tr0X64. - rewrite Hc. destruct Hs as [-> | [-> _]]; reflexivity.
  - apply ft_inv in E as F. destruct F as (m & s' & F1 & F2 & _ & _ & _ & F3 & F4 & F5 & F6 & F7).
    rewrite Hc in F1. cbn in F1. apply Ok_inj in F1 as <-. rewrite Hsc in F2. apply Ok_inj in F2 as <-.
    exists st', Z, s. repeat split; auto; try congruence. intros Hn. unfold s. destruct Hs as [-> | [E0 _]]; [reflexivity|congruence].
Qed.
(** row scaling by at least one weight keeps the number of columns *)
Lemma ncols_row_scale64 : forall (u : list R) X, u <> [] -> ncols (row_scale u X) = ncols X.
Proof. intros [|a u] [|r X] Hu; try congruence; auto. cbn. unfold ncols, vscale. cbn. apply map_length. Qed.
Lemma ft_ncols64 : forall (st st' : scaler R) v X Y m, sc_fit_transform (re_prep rmX64) st (A2 ([v] :: X)) = (st', Ok Y) ->
  a_col_loc st' = Some [m] -> ncols Y = 1%nat.
Proof.
  intros st st' v X Y m E Hm. apply ft_inv in E as (m' & s & _ & _ & _ & _ & Ed & E1 & _).
  assert (Hci : check_input (A2 ([v] :: X)) = [v] :: X) by (unfold check_input; destruct (_ =? _)%nat; reflexivity).
  rewrite Hci in Ed. rewrite Hm in E1. injection E1 as <-. unfold scale_data in Ed. unfold ncols in Ed. cbn [hd length Nat.eqb] in Ed.
  destruct (handle_zeros s); [discriminate|]. apply Ok_inj in Ed as <-. reflexivity.
Qed.
Lemma rm64 : (exists m, rm_fit rmX64 PX64 XX64 [3; 4] = Ok m) /\ XX64 <> [] /\
  forall f, r_fun PX64 = Some f -> cut64 f (cty rmX64 PX64) (cby rmX64 PX64) (cry rmX64 PX64) /\
                                 cut64 f (ctx rmX64 PX64 1) (cbx rmX64 PX64 1) (crx rmX64 PX64 1).
Proof.
  split; [|split; [discriminate|]].
  - destruct (ftX64 (new_scaler (r_centre PX64) (r_scale PX64) (0)) (A2 XX64)) as (st1 & Xs & s1 & E1 & L1 & S1 & _ & C1 & D1 & T1); auto.
    destruct (ftX64 st1 (A1 [3; 4])) as (st2 & Ys & s2 & E2 & L2 & S2 & _ & C2 & D2 & T2); auto.
    unfold rm_fit, rm_run. unfold rm_check. cbn [r_fun PX64 r_p1]. fnum.  cbn [Rltb].
    replace (Rltb 1 (1 / 2)) with false by (symmetry; apply Rltb_false; lra). replace (Rleb (1 / 2) 0) with false by (symmetry; apply Rleb_false; lra).
    cbn [orb length XX64 Nat.eqb negb andb].
    change [[1]; [3]] with XX64. rewrite E1, E2, L1, S1, L2, S2. cbv zeta. cbn [r_maxit PX64 rm_loop l_diff l_loops r_tol].
    fnum. cbn [Rltb]. replace (Rltb 0 1) with true by (symmetry; apply Rltb_true; lra). cbn [Nat.ltb Nat.leb andb re_lstsq rmX64].
    match goal with |- context [rm_body ?f ?a ?b ?c ?d ?e ?g ?h ?i] => set (S0 := h); destruct (rm_body f a b c d e g S0 i) as [st brk] eqn:Eb end.
    assert (HS0 : l_sw S0 <> []).
    { unfold S0. cbn [l_sw]. intros E0. apply (f_equal (@length R)) in E0. rewrite map_length in E0. unfold floor_w in E0. rewrite set_idx_length in E0.
      unfold vmul in E0. rewrite map2_length, !mweights_length in E0. unfold start_dx in E0. rewrite !map_length in E0.
      rewrite (fit_transform_rows _ _ _ _ _ E1) in E0. cbn in E0. discriminate. }
    assert (Hst : l_b st = Some [1] /\ (brk = false -> l_loops st = 2%nat) /\ l_sw st <> []).
    { unfold rm_body in Eb. destruct (_ <=? _)%nat; injection Eb as <- <-; (split; [reflexivity|split; [intros; try discriminate; reflexivity|]]); [exact HS0|].
      cbn [l_sw]. intros E0. apply (f_equal (@length R)) in E0. rewrite map_length in E0. unfold floor_w in E0. rewrite set_idx_length in E0.
      unfold vmul in E0. rewrite map2_length in E0. unfold Huber in E0. rewrite !upd_length, std_resid_length in E0. unfold start_dx, vsub, matvec in E0. rewrite map2_length, !map_length in E0.
      unfold col in E0. rewrite map_length in E0.
      rewrite (fit_transform_rows _ _ _ _ _ E1), (fit_transform_rows _ _ _ _ _ E2) in E0. cbn in E0. discriminate. }
    clear Eb. destruct Hst as (Hb & Hl & Hsw).
    assert (HXs : ncols Xs = 1%nat) by (eapply (ft_ncols64 (new_scaler (r_centre PX64) (r_scale PX64) (0)) st1 (1) [[3]]); eauto).
    assert (Hfin : forall wx, exists m, rm_finish rmX64 PX64 XX64 Xs [3; 4] (col 0 Ys) wx [0] s1 [0] s2 st2 st = Ok m).
    { intros wx. unfold rm_finish. rewrite Hb.
      destruct (ftX64 (sc_set_params st2 None (Some SNone) None) (A2 (row_scale (map nsqrt (l_sw st)) Xs))) as (st4 & Z & s4 & E4 & _); auto.
      { cbn. rewrite C2, C1. reflexivity. }
      { right. split; [reflexivity|].
        assert (Hne : map (@nsqrt R _) (l_sw st) <> []) by (destruct (l_sw st); [congruence|discriminate]).
        unfold check_input. rewrite ncols_row_scale64, HXs by auto. rewrite andb_false_r. rewrite ncols_row_scale64 by auto. lia. }
      rewrite E4. cbn [snd]. cbv zeta.
      assert (Hs1 : s1 = [1]).
      { apply ft_inv in E1 as (m' & s' & _ & F & _ & _ & _ & _ & F2 & _). cbn in F. apply Ok_inj in F as <-. congruence. }
      rewrite Hs1. change (negb (length [1%R] =? ncols XX64)%nat) with false. cbv iota. cbn [r_scale PX64 bind]. eauto. }
    destruct brk.
    + cbn [snd]. apply Hfin.
    + rewrite (Hl eq_refl). cbn [Nat.ltb Nat.leb]. rewrite andb_false_r. cbn [snd]. apply Hfin.
  - intros f E. injection E as <-. split; (split; [cbn; lra|repeat split; apply int64; lia]).
Qed.
Definition spX64 : sp_env R := {| se_rm := rmX64; se_inv := fun M => Ok M; se_svd := fun X => Ok (X, [1]) |}.
Definition SX64 : sp_par R := mk_sp_par (NInt 1) ((1/2)) true (Some MHuber) ((1/2)) (0) (0)
  (CUser (fun _ _ => Ok [0])) (SUser (fun _ _ => Ok [1])) 2 (0) false false (ColBool false) true.
Lemma scaled_X64 : forall X : list (list R), (2 <= length X)%nat -> ncols X = 1%nat -> exists m Z, scaled (re_prep rmX64) CMean SNone X = Ok (m, [1], Z).
Proof.
  intros X Hl Hn. unfold scaled.
  assert (Hci : check_input (A2 X) = X) by (apply check_input_rows; auto).
  assert (Hloc : exists v, location (re_prep rmX64) CMean (0) X = Ok [v]).
  { unfold location, mean. fnum. cbn [XReqb]. rewrite Reqb_refl.
    unfold cols. rewrite Hn. cbn [seq map]. destruct (manynan X); eauto. }
  destruct Hloc as [v Hloc].
  assert (Hd : exists Z, scale_data X [v] [1] = Ok Z).
  { unfold scale_data. rewrite Hn. cbn [Nat.eqb]. unfold handle_zeros. cbn [map]. destruct (neqb _ _); eauto. }
  destruct Hd as [Z Hd].
  destruct (ft_intro (re_prep rmX64) (new_scaler CMean SNone (0)) (A2 X) Z [v] [1]) as [st' E]; auto.
  - rewrite Hci. auto. - rewrite Hci. cbn. rewrite Hn. reflexivity. - apply tr0X64. - rewrite Hci; auto.
  - change (new_scaler CMean SNone (@n0 R Nb)) with (new_scaler CMean SNone (0)). rewrite E.
    apply ft_inv in E as (m & s & F1 & F2 & _ & _ & _ & F3 & F4 & _). rewrite F3, F4. cbn in F2.
    rewrite Hci, Hn in F2. apply Ok_inj in F2 as <-. eauto.
Qed.
Lemma snipls_X64 : forall eta (X : list (list R)) y, (2 <= length X)%nat -> ncols X = 1%nat -> length y = length X ->
  exists f, snipls_fit (re_prep rmX64) (fun M => Ok M) eta 1 CMean SNone X y = Ok f.
Proof.
  intros eta X y Hl Hn Hy. destruct (scaled_X64 X Hl Hn) as (mX & X0 & E1).
  destruct (scaled_X64 (map (fun v => [v]) y)) as (my & Y0 & E2). { rewrite map_length; lia. } { destruct y; [cbn in Hy; lia|reflexivity]. }
  unfold snipls_fit. rewrite Hn, Hy, Nat.eqb_refl. destruct (Nat.eqb_spec (length X) 1); [lia|]. cbn [andb negb Nat.leb]. rewrite E1, E2. cbn [bind]. cbv zeta.
  destruct (snipls_loop _ _ _ _ _ _ _ _); cbn [bind length Nat.eqb negb]; eauto.
Qed.
Lemma sp64 : exists m, sprm_fit spX64 SX64 None XX64 [3; 4] = Ok m /\
  cut64 (sp_fun m) (sp_ctx m) (sp_cbx m) (sp_crx m).
Proof.
  destruct (ftX64 (new_scaler (s_centre SX64) (s_scale SX64) (0)) (A2 XX64)) as (st1 & Xs & s1 & E1 & L1 & S1 & Hs1 & C1 & D1 & T1); auto.
  destruct (ftX64 st1 (A1 [3; 4])) as (st2 & Ys & s2 & E2 & L2 & S2 & _ & C2 & D2 & T2); auto.
  rewrite Hs1 in S1 by discriminate. clear Hs1.
  assert (HXs : ncols Xs = 1%nat) by (eapply (ft_ncols64 (new_scaler (s_centre SX64) (s_scale SX64) (0)) st1 (1) [[3]]); eauto).
  assert (HlX : length Xs = 2%nat) by (rewrite (fit_transform_rows _ _ _ _ _ E1); reflexivity).
  assert (Hly : length (col 0 Ys) = 2%nat) by (unfold col; rewrite map_length, (fit_transform_rows _ _ _ _ _ E2); reflexivity).
  assert (Hchk : sp_check SX64 2 1 = Ok (MHuber, 1%nat)).
  { unfold sp_check, rm_check. cbn -[nltb nleb n0 n1]. fnum.  cbn [Rltb].
    repeat match goal with |- context [Rltb ?a ?b] => destruct (Rltb a b) eqn:?E end; repeat match goal with |- context [Rleb ?a ?b] => destruct (Rleb a b) eqn:?E end;
    rcmp_all; auto; exfalso; lra. }
  assert (Hz : zero_scale [1] = []).
  { unfold zero_scale, where_. cbn [where_from]. fnum. cbn [Rltb].
    pose proof b5. replace (Rltb 1 (binary64 (1 / 100000))) with false by (symmetry; apply Rltb_false; lra). reflexivity. }
  unfold sprm_fit, sprm_run. change (length XX64) with 2%nat. change (ncols XX64) with 1%nat. rewrite Hchk.
  cbn [sp_columns SX64 s_columns s_scale set_columns length Nat.eqb negb andb].
  unfold sp_scaled. cbn [s_centre s_scale set_columns SX64 se_rm spX64]. change (@n0 R Nb) with (0).
  change (new_scaler (CUser (fun _ _ => Ok [0])) (SUser (fun _ _ => Ok [1])) (0)) with (new_scaler (s_centre SX64) (s_scale SX64) (0)).
  rewrite E1, E2, L1, S1, L2, S2. unfold sp_drop. rewrite Hz.
  assert (Hk : vars_to_keep 1 [1] = [0%nat]) by (unfold vars_to_keep; rewrite Hz; reflexivity). rewrite Hk. cbn [length Nat.ltb Nat.leb set_columns].
  match goal with |- context [sp_estimate spX64 ?q] => change q with SX64 end. cbn [snd].
  unfold sp_estimate. cbn [sp_start s_pcapp SX64 sp_start_cuts s_specific]. cbv zeta.
  match goal with |- context [sp_loop spX64 _ _ _ _ ?cu Xs ?yy ?s] => set (cuts := cu); set (S0 := s) end.
  assert (HS0 : length (q_sw S0) = 2%nat).
  { unfold S0. cbn [q_sw]. rewrite map_length, floor_length, vmul_length, !mweights_length, start_dx_length, start_dy_length; rewrite ?Hly, ?HlX; reflexivity. }
  change (S (s_maxit SX64)) with 3%nat.
  assert (Hloop : exists calls st, sp_loop spX64 3 SX64 MHuber 1 cuts Xs (col 0 Ys) S0 = (calls, Some (Ok st)) /\ (exists f, q_fit st = Some f /\ sp_colret_of (ColBool false) f <> Err IndexError) /\ q_sw st <> []).
  { rewrite sp_loop_S. replace (nltb (s_tol SX64) (q_diff S0) && (q_loops S0 <? s_maxit SX64)%nat)%bool with true.
    2:{ symmetry. unfold S0. cbn [q_diff q_loops s_tol SX64 s_maxit]. fnum. cbn [Rltb]. replace (Rltb 0 1) with true by (symmetry; apply Rltb_true; lra). reflexivity. }
    assert (Hrs : length (row_scale (q_sw S0) Xs) = 2%nat) by (rewrite row_scale_length, HS0, HlX; reflexivity).
    destruct (snipls_X64 (s_eta SX64) (row_scale (q_sw S0) Xs) (vmul (col 0 Ys) (q_sw S0))) as [f Ef].
    { lia. } { rewrite ncols_row_scale64; auto. intros E0; rewrite E0 in HS0; discriminate. } { rewrite Hrs, vmul_length, HS0, Hly. reflexivity. }
    assert (Hcr : exists cr, sp_colret_of (s_columns SX64) f = Ok cr) by (unfold sp_colret_of; cbn [s_columns SX64]; destruct (sn_colret f); eauto).
    destruct Hcr as [cr Ecr].
    assert (Hb : exists st' brk, sp_body spX64 SX64 MHuber cuts (length Xs) (col 0 Ys) S0 f = Ok (st', brk) /\ q_fit st' = Some f /\ (brk = false -> q_loops st' = 2%nat) /\
               length (q_sw st') = length (q_sw st')).
    { unfold sp_body. match goal with |- context [sc_fit_transform _ _ (A2 ?t)] => destruct (ftX64 (new_scaler (s_centre SX64) (sp_tsc SX64) (0)) (A2 t)) as (st4 & Z & s4 & E4 & _); auto end.
      change (@n0 R Nb) with (0). change (re_prep (se_rm spX64)) with (re_prep rmX64). rewrite E4. cbn [snd]. destruct cuts as [[cc cb] cq]. cbv zeta.
      destruct (_ <=? _)%nat; do 2 eexists; (split; [reflexivity|]); (split; [reflexivity|]); (split; [|reflexivity]); [discriminate|reflexivity]. }
    destruct Hb as (st' & brk & Eb & Hq & Hbrk & _).
    assert (Hp : pass spX64 SX64 MHuber 1 cuts Xs (col 0 Ys) S0 = Ok (st', brk)).
    { unfold pass. change (re_prep (se_rm spX64)) with (re_prep rmX64). change (se_inv spX64) with (fun M : list (list R) => Ok M). rewrite Ef. cbn [bind]. rewrite Ecr. cbn [bind]. exact Eb. }
    rewrite Hp. destruct (pass_lens spX64 SX64 MHuber 1 cuts Xs (col 0 Ys) ltac:(lia) ltac:(lia) S0 st' brk ltac:(lia) Hp) as [Hsw _].
    assert (Hgo : (exists f0, q_fit st' = Some f0 /\ sp_colret_of (ColBool false) f0 <> Err IndexError) /\ q_sw st' <> []).
    { split; [exists f; split; auto; change (ColBool false) with (s_columns SX64); rewrite Ecr; discriminate|]. intros E0; rewrite E0 in Hsw; cbn in Hsw; lia. }
    destruct brk; [do 2 eexists; split; [reflexivity|exact Hgo]|].
    rewrite sp_loop_S, (Hbrk eq_refl). change (2 <? s_maxit SX64)%nat with false. rewrite andb_false_r. do 2 eexists; split; [reflexivity|exact Hgo]. }
  destruct Hloop as (calls & st & El & (f & Hf & Hcr) & Hsw). rewrite El. cbn [snd].
  unfold sp_finish. rewrite Hf.
  destruct (ftX64 (new_scaler (s_centre SX64) SNone (0)) (A2 (row_scale (map nsqrt (q_sw st)) Xs))) as (st4 & Z & s4 & E4 & _); auto.
  { right. split; [reflexivity|].
    assert (Hne : map (@nsqrt R _) (q_sw st) <> []) by (destruct (q_sw st); [congruence|discriminate]).
    unfold check_input. rewrite ncols_row_scale64, HXs by auto. rewrite andb_false_r. rewrite ncols_row_scale64 by auto. lia. }
  change (@n0 R Nb) with (0). change (re_prep (se_rm spX64)) with (re_prep rmX64). rewrite E4. cbn [snd]. cbv zeta. rewrite HXs. cbn [length Nat.eqb negb s_columns SX64].
  unfold sp_colret_of. destruct (sn_colret f); cbn [bind]; unfold cuts; cbn [sp_loop_cuts]; eexists; (split; [reflexivity|]); cbn [sp_fun sp_ctx sp_cbx sp_crx];
    (split; [cbn; lra|repeat split; apply int64; lia]).
Qed.
