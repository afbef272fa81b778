(** Property theorems C45-C49, C91-C96: sparse partial robust M-regression. *)

From Coq Require Import Reals QArith String List Arith ZArith Bool Lia Lra Permutation.
Import ListNotations.
From Verif Require Import Num Err Vec VecR OrdR L_Mat S_Stats S_Weights S_Regress L_Stats M_Utils M_Preproc M_Robcent M_Msupport M_Rm M_Snipls S_Rm
  L_Scaling L_Scaling2 T_Scaling L_Snipls L_Snipls2 L_Snipls3 L_Missing L_Rm L_Rm2 T_Snipls T_Rm M_Sprm S_Sprm L_Sprm L_Sprm2 L_Sprm3 L_Sprm4.
Open Scope R_scope.

(** concrete environments: exact rational arithmetic, and a total one over the
    reals *)
Definition spQ (cut : Q) : sp_env Q := {| se_rm := rmQ cut; se_inv := invQ; se_svd := fun X => Ok (X, [1%Q]) |}.
Definition SQ (c : centre_opt Q) (s : scale_opt Q) (co : cols_opt) : sp_par Q :=
  mk_sp_par (NInt 1) (1#2)%Q true (Some MHuber) (95#100)%Q (97#100)%Q (99#100)%Q c s 2 (1#100)%Q false false co true.
(** the first column is constant *)
Definition XK : list (list Q) := [[5;0]; [5;1]; [5;2]; [5;-1]; [5;-2]]%Q.
Definition yK : list Q := [0; 1; 3; -1; -2]%Q.
Definition spR : sp_env R := {| se_rm := rmR; se_inv := fun M => Ok M; se_svd := fun Z => Ok (map (fun r => r ++ [0]) Z, [1]) |}.
Definition SR (k : Z) (c : centre_opt R) (s : scale_opt R) (pc sp : bool) (co : cols_opt) : sp_par R :=
  mk_sp_par (NInt k) (1/2) true (Some MHampel) (95/100) (975/1000) (999/1000) c s 20 (1/100) sp pc co true.
Lemma spR_quiet : quiet spR. Proof. split; discriminate. Qed.
Lemma spR_svd : svd_ok spR.
Proof.
  intros n q Z U sv HZ E. cbn in E. apply Ok_inj in E. injection E as <- <-. split; [|split; [discriminate|]].
  - exists (q + 1)%nat. split; [|cbn; lia]. destruct HZ as [H1 H2]. split; [rewrite map_length; auto|].
    apply Forall_forall. intros r Hr. apply in_map_iff in Hr as (r' & <- & Hr). rewrite Forall_forall in H2. rewrite app_length, (H2 _ Hr). reflexivity.
  - intros _. cbn. lra.
Qed.
Lemma spR_rows : svd_rows spR.
Proof. intros X U S0 E. cbn in E. apply Ok_inj in E. injection E as <- <-. apply map_length. Qed.
Lemma SR_names : forall c s pc sp, names_cover (SR 1 c s pc sp (ColBool false)) None 2.
Proof. intros; split; intros l E; discriminate. Qed.
Lemma SR_valid : forall c s pc sp co df, co <> ColBool true \/ df <> None -> ~ invalid_sp (SR 1 c s pc sp co) df 3 2 3.
Proof.
  intros c s pc sp co df Hco [H|[H|[H|[H|[[H H']|H]]]]].
  - apply H. exists 1%Z. split; [reflexivity|]. cbn. lia.
  - discriminate. - apply H. cbn. lra. - exact (PR_valid c s H). - cbn in H. destruct Hco; congruence. - congruence.
Qed.
(** with scale "None" every scale is one, so that every fit of three cases and
    two variables completes *)
Lemma sp_case : forall c pc sp co df, plain_centre c -> ~ (pc = false /\ sp = true) -> names_cover (SR 1 c SNone pc sp co) df 2 -> co <> ColBool true \/ df <> None ->
  exists m, sprm_fit spR (SR 1 c SNone pc sp co) df X3 y3' = Ok m.
Proof.
  intros c pc sp co df Hc Hopt Hnm Hco.
  assert (Hfit : exists st, sc_fit env0 (new_scaler c SNone 0) (A2 X3) = (st, Ok tt) /\ a_col_sca st = Some [1; 1]).
  { destruct (X3_fit c SNone) as [st E]; auto. { right; right; auto. } exists st. split; auto.
    apply fit_ok_inv in E as (m' & v' & _ & Ev & _ & _ & ->). cbn in Ev. apply Ok_inj in Ev as <-. reflexivity. }
  destruct Hfit as (st & Est & Ess).
  destruct (C49_supported_l spR (SR 1 c SNone pc sp co) df 3 2 X3 y3') as [H|(e & He & [->|[[M HM]|[Z HZ]]])]; auto; try lia; try discriminate.
  - apply X3_matrix. - right; right; reflexivity. - apply spR_quiet. - cbn; lia. - cbn; lra. - apply spR_svd.
  - intros _. exists st, [1; 1], 0%nat, 0%nat, 1%nat. cbn [s_centre s_scale SR]. repeat split; auto; try lia; cbn; lra.
  - exfalso. apply (C45_l spR (SR 1 c SNone pc sp co) df 3 2 X3 y3') in He as [He|(st' & s & z & E1 & E2 & E3 & E4)]; auto; try lia.
    + revert He. apply SR_valid; auto.
    + cbn [s_centre s_scale SR se_rm spR re_prep rmR] in E1. rewrite Est in E1. injection E1 as <-. rewrite Ess in E2. injection E2 as <-.
      cbn [s_ncomp SR] in E3. injection E3 as <-. unfold nonzero_scales in E4. cbn [filter] in E4. destruct (Rlt_dec 1 (1 / 100000)); [lra|]. cbn in E4. lia.
    + apply X3_matrix. + right; right; reflexivity. + apply spR_quiet.
Qed.

(* ------------------------------------------------------------------ *)
(** C45: the package's exception is raised exactly for invalid parameters and
    shapes, and for more components than variables of non-zero scale *)
Theorem C45_validation_exact : forall (env : sp_env R) P df n p X y, is_matrix n p X -> (2 <= n)%nat -> (1 <= p)%nat ->
  plain_centre (s_centre P) -> plain_scale (s_scale P) -> names_cover P df p -> quiet env ->
  (sprm_fit env P df X y = Err MyException <->
   invalid_sp P df n p (length y) \/
   exists st s z, sc_fit (re_prep (se_rm env)) (new_scaler (s_centre P) (s_scale P) 0) (A2 X) = (st, Ok tt) /\ a_col_sca st = Some s /\
     s_ncomp P = NInt z /\ (Z.of_nat (nonzero_scales s) < z)%Z).
Proof. exact C45_l. Qed.
Print Assumptions C45_validation_exact.
Example C45_case : is_matrix 3 2 X3 /\ names_cover (SR 1 CMean SStd true true (ColBool false)) None 2 /\ quiet spR /\
  ~ invalid_sp (SR 1 CMean SStd true true (ColBool false)) None 3 2 3 /\ invalid_sp (SR 3 CMean SStd true true (ColBool false)) None 3 2 3.
Proof.
  split; [apply X3_matrix|]. split; [apply SR_names|]. split; [apply spR_quiet|]. split; [apply SR_valid; left; discriminate|].
  left. intros (z & E & H1 & H2). cbn in E. injection E as <-. lia.
Qed.

(* ------------------------------------------------------------------ *)
(** C46 *)
Theorem C46_new_data : forall (env : sp_env R) P df X y m, sprm_fit env P df X y = Ok m -> length (sp_xsca m) = ncols X ->
  forall q X1 X2, (1 <= q)%nat -> is_matrix q (ncols X) X1 -> is_matrix q (ncols X) X2 ->
  (forall i j, (i < q)%nat -> (j < ncols X)%nat -> 1 / 100000 <= nth j (sp_xsca m) 0 -> cell X1 i j = cell X2 i j) ->
  sprm_predict m (A2 X1) = sprm_predict m (A2 X2) /\ sprm_transform m (A2 X1) = sprm_transform m (A2 X2) /\
  sprm_weightnewx env m (A2 X1) = sprm_weightnewx env m (A2 X2).
Proof. exact C46_new_data_l. Qed.
Print Assumptions C46_new_data.
Theorem C46_column_count : forall (env : sp_env R) P df X y m, sprm_fit env P df X y = Ok m -> s_copy P = true ->
  forall Xn, ncols Xn <> ncols X ->
  sprm_predict m (A2 Xn) = Err ValueError /\ sprm_transform m (A2 Xn) = Err ValueError /\ sprm_weightnewx env m (A2 Xn) = Err ValueError.
Proof. exact C46_columns_l. Qed.
Print Assumptions C46_column_count.
(** fitting on the variables of non-zero scale only gives the same estimates *)
Theorem C46_same_fit : forall (env : sp_env R) P df n p X y m, is_matrix n p X -> (2 <= n)%nat -> (1 <= p)%nat ->
  plain_centre (s_centre P) -> plain_scale (s_scale P) -> s_columns P = ColBool false -> sprm_fit env P df X y = Ok m ->
  length (sp_xsca m) = p /\
  exists m', sprm_fit env P df (select (nonzero_positions (sp_xsca m)) X) y = Ok m' /\ same_estimates m m'.
Proof. exact C46_fit_l. Qed.
Print Assumptions C46_same_fit.
Example C46_case : exists m, sprm_fit (spQ 1) (SQ CMedian SMad (ColBool false)) None XK yK = Ok m /\ sp_keep m = [1%nat] /\ length (sp_xsca m) = 2%nat /\
  sprm_predict m (A2 [[5;1];[5;3]]%Q) = sprm_predict m (A2 [[100;1];[-7;3]]%Q) /\ sprm_predict m (A2 [[1];[3]]%Q) = Err ValueError.
Proof. eexists. split; [vm_compute; reflexivity|]. vm_compute. repeat split; reflexivity. Qed.
Example C46_case_real : exists m, sprm_fit spR (SR 1 CMean SNone false false (ColBool false)) None X3 y3' = Ok m /\ length (sp_xsca m) = 2%nat.
Proof.
  destruct (sp_case CMean false false (ColBool false) None) as [m E]; [left; auto|intros [_ H]; discriminate|apply SR_names|left; discriminate|].
  exists m. split; auto. apply (C46_fit_l spR (SR 1 CMean SNone false false (ColBool false)) None 3 2 X3 y3' m); auto.
  - apply X3_matrix. - left; auto. - right; right; auto.
Qed.

(* ------------------------------------------------------------------ *)
(** C47 *)
Theorem C47_caseweights : forall (env : sp_env XR) (P : sp_par XR) df X y m,
  sprm_fit env P df X y = Ok m -> (2 <= length X)%nat -> svd_rows env ->
  finite_cutoffs (sp_fun m) (re_normppf (se_rm env) (s_p1 P)) (re_normppf (se_rm env) (s_p2 P)) (re_normppf (se_rm env) (s_p3 P)) ->
  finite_cutoffs (sp_fun m) (sp_ctx m) (sp_cbx m) (sp_crx m) ->
  length (sp_cw m) = length X /\ length (sp_xcw m) = length X /\ length (sp_ycw m) = length X /\
  forall i, (i < length X)%nat ->
    unit_or_nan (nth i (sp_xcw m) NaN) /\ unit_or_nan (nth i (sp_ycw m) NaN) /\ caseweight_ok (nth i (sp_cw m) NaN) /\
    nth i (sp_cw m) NaN = XRmul (nth i (sp_xcw m) NaN) (nth i (sp_ycw m) NaN).
Proof. exact C47_l. Qed.
Print Assumptions C47_caseweights.
Example C47_caseQ : exists m, sprm_fit (spQ 1) (SQ CMedian SMad (ColBool false)) None XK yK = Ok m /\
  existsb (fun w => Qltb w 1) (sp_cw m) = true /\ forallb (fun w => Qle_bool 0 w && Qle_bool w 1)%bool (sp_cw m) = true.
Proof. eexists. split; [vm_compute; reflexivity|]. vm_compute. split; reflexivity. Qed.
(** an execution over the extended reals, with missing data *)
Definition spX : sp_env XR := {| se_rm := rmX; se_inv := fun M => Ok M; se_svd := fun X => Ok (X, [Fin 1]) |}.
Definition SX : sp_par XR := mk_sp_par (NInt 1) (Fin (1/2)) true (Some MHuber) (Fin (1/2)) (Fin 0) (Fin 0)
  (CUser (fun _ _ => Ok [Fin 0])) (SUser (fun _ _ => Ok [Fin 1])) 2 (Fin 0) false false (ColBool false) true.
Lemma scaled_X : forall X : list (list XR), (2 <= length X)%nat -> ncols X = 1%nat -> exists m Z, scaled (re_prep rmX) CMean SNone X = Ok (m, [Fin 1], Z).
Proof.
  intros X Hl Hn. unfold scaled.
  assert (Hci : check_input (A2 X) = X) by (apply check_input_rows; auto).
  assert (Hloc : exists v, location (re_prep rmX) CMean (Fin 0) X = Ok [v]).
  { unfold location, mean. xnum. cbn [XReqb]. rewrite Reqb_refl.
    unfold cols. rewrite Hn. cbn [seq map]. destruct (manynan X); eauto. }
  destruct Hloc as [v Hloc].
  assert (Hd : exists Z, scale_data X [v] [Fin 1] = Ok Z).
  { unfold scale_data. rewrite Hn. cbn [Nat.eqb]. unfold handle_zeros. cbn [map]. destruct (neqb _ _); eauto. }
  destruct Hd as [Z Hd].
  destruct (ft_intro (re_prep rmX) (new_scaler CMean SNone (Fin 0)) (A2 X) Z [v] [Fin 1]) as [st' E]; auto.
  - rewrite Hci. auto. - rewrite Hci. cbn. rewrite Hn. reflexivity. - apply tr0X. - rewrite Hci; auto.
  - change (new_scaler CMean SNone (@n0 XR Num_XR)) with (new_scaler CMean SNone (Fin 0)). rewrite E.
    apply ft_inv in E as (m & s & F1 & F2 & _ & _ & _ & F3 & F4 & _). rewrite F3, F4. cbn in F2.
    rewrite Hci, Hn in F2. apply Ok_inj in F2 as <-. eauto.
Qed.
Lemma snipls_X : forall eta (X : list (list XR)) y, (2 <= length X)%nat -> ncols X = 1%nat -> length y = length X ->
  exists f, snipls_fit (re_prep rmX) (fun M => Ok M) eta 1 CMean SNone X y = Ok f.
Proof.
  intros eta X y Hl Hn Hy. destruct (scaled_X X Hl Hn) as (mX & X0 & E1).
  destruct (scaled_X (map (fun v => [v]) y)) as (my & Y0 & E2). { rewrite map_length; lia. } { destruct y; [cbn in Hy; lia|reflexivity]. }
  unfold snipls_fit. rewrite Hn, Hy, Nat.eqb_refl. destruct (Nat.eqb_spec (length X) 1); [lia|]. cbn [andb negb Nat.leb]. rewrite E1, E2. cbn [bind]. cbv zeta.
  destruct (snipls_loop _ _ _ _ _ _ _ _); cbn [bind length Nat.eqb negb]; eauto.
Qed.
Example C47_caseX : exists m, sprm_fit spX SX None XX [Fin 3; Fin 4] = Ok m /\
  finite_cutoffs (sp_fun m) (sp_ctx m) (sp_cbx m) (sp_crx m).
Proof.
  destruct (ftX (new_scaler (s_centre SX) (s_scale SX) (Fin 0)) (A2 XX)) as (st1 & Xs & s1 & E1 & L1 & S1 & Hs1 & C1 & D1 & T1); auto.
  destruct (ftX st1 (A1 [Fin 3; Fin 4])) as (st2 & Ys & s2 & E2 & L2 & S2 & _ & C2 & D2 & T2); auto.
  rewrite Hs1 in S1 by discriminate. clear Hs1.
  assert (HXs : ncols Xs = 1%nat) by (eapply (ft_ncols (new_scaler (s_centre SX) (s_scale SX) (Fin 0)) st1 (Fin 1) [[NaN]]); eauto).
  assert (HlX : length Xs = 2%nat) by (rewrite (fit_transform_rows _ _ _ _ _ E1); reflexivity).
  assert (Hly : length (col 0 Ys) = 2%nat) by (unfold col; rewrite map_length, (fit_transform_rows _ _ _ _ _ E2); reflexivity).
  assert (Hchk : sp_check SX 2 1 = Ok (MHuber, 1%nat)).
  { unfold sp_check, rm_check. cbn -[nltb nleb n0 n1]. xnum. rewrite !XRleb_Fin. cbn [XRltb].
    repeat match goal with |- context [Rltb ?a ?b] => destruct (Rltb a b) eqn:?E end; repeat match goal with |- context [Rleb ?a ?b] => destruct (Rleb a b) eqn:?E end;
    rcmp_all; auto; exfalso; lra. }
  assert (Hz : zero_scale [Fin 1] = []).
  { unfold zero_scale, where_. cbn [where_from]. xnum. cbn [XRltb].
    replace (Rltb 1 (1 / 100000)) with false by (symmetry; apply Rltb_false; lra). reflexivity. }
  unfold sprm_fit, sprm_run. change (length XX) with 2%nat. change (ncols XX) with 1%nat. rewrite Hchk.
  cbn [sp_columns SX s_columns s_scale set_columns length Nat.eqb negb andb].
  unfold sp_scaled. cbn [s_centre s_scale set_columns SX se_rm spX]. change (@n0 XR Num_XR) with (Fin 0).
  change (new_scaler (CUser (fun _ _ => Ok [Fin 0])) (SUser (fun _ _ => Ok [Fin 1])) (Fin 0)) with (new_scaler (s_centre SX) (s_scale SX) (Fin 0)).
  rewrite E1, E2, L1, S1, L2, S2. unfold sp_drop. rewrite Hz.
  assert (Hk : vars_to_keep 1 [Fin 1] = [0%nat]) by (unfold vars_to_keep; rewrite Hz; reflexivity). rewrite Hk. cbn [length Nat.ltb Nat.leb set_columns].
  match goal with |- context [sp_estimate spX ?q] => change q with SX end. cbn [snd].
  unfold sp_estimate. cbn [sp_start s_pcapp SX sp_start_cuts s_specific]. cbv zeta.
  match goal with |- context [sp_loop spX _ _ _ _ ?cu Xs ?yy ?s] => set (cuts := cu); set (S0 := s) end.
  assert (HS0 : length (q_sw S0) = 2%nat).
  { unfold S0. cbn [q_sw]. rewrite map_length, floor_length, vmul_length, !mweights_length, start_dx_length, start_dy_length; rewrite ?Hly, ?HlX; reflexivity. }
  change (S (s_maxit SX)) with 3%nat.
  assert (Hloop : exists calls st, sp_loop spX 3 SX MHuber 1 cuts Xs (col 0 Ys) S0 = (calls, Some (Ok st)) /\ (exists f, q_fit st = Some f /\ sp_colret_of (ColBool false) f <> Err IndexError) /\ q_sw st <> []).
  { rewrite sp_loop_S. replace (nltb (s_tol SX) (q_diff S0) && (q_loops S0 <? s_maxit SX)%nat)%bool with true.
    2:{ symmetry. unfold S0. cbn [q_diff q_loops s_tol SX s_maxit]. xnum. cbn [XRltb]. replace (Rltb 0 1) with true by (symmetry; apply Rltb_true; lra). reflexivity. }
    assert (Hrs : length (row_scale (q_sw S0) Xs) = 2%nat) by (rewrite row_scale_length, HS0, HlX; reflexivity).
    destruct (snipls_X (s_eta SX) (row_scale (q_sw S0) Xs) (vmul (col 0 Ys) (q_sw S0))) as [f Ef].
    { lia. } { rewrite ncols_row_scale; auto. intros E0; rewrite E0 in HS0; discriminate. } { rewrite Hrs, vmul_length, HS0, Hly. reflexivity. }
    assert (Hcr : exists cr, sp_colret_of (s_columns SX) f = Ok cr) by (unfold sp_colret_of; cbn [s_columns SX]; destruct (sn_colret f); eauto).
    destruct Hcr as [cr Ecr].
    assert (Hb : exists st' brk, sp_body spX SX MHuber cuts (length Xs) (col 0 Ys) S0 f = Ok (st', brk) /\ q_fit st' = Some f /\ (brk = false -> q_loops st' = 2%nat) /\
               length (q_sw st') = length (q_sw st')).
    { unfold sp_body. match goal with |- context [sc_fit_transform _ _ (A2 ?t)] => destruct (ftX (new_scaler (s_centre SX) (sp_tsc SX) (Fin 0)) (A2 t)) as (st4 & Z & s4 & E4 & _); auto end.
      change (@n0 XR Num_XR) with (Fin 0). change (re_prep (se_rm spX)) with (re_prep rmX). rewrite E4. cbn [snd]. destruct cuts as [[cc cb] cq]. cbv zeta.
      destruct (_ <=? _)%nat; do 2 eexists; (split; [reflexivity|]); (split; [reflexivity|]); (split; [|reflexivity]); [discriminate|reflexivity]. }
    destruct Hb as (st' & brk & Eb & Hq & Hbrk & _).
    assert (Hp : pass spX SX MHuber 1 cuts Xs (col 0 Ys) S0 = Ok (st', brk)).
    { unfold pass. change (re_prep (se_rm spX)) with (re_prep rmX). change (se_inv spX) with (fun M : list (list XR) => Ok M). rewrite Ef. cbn [bind]. rewrite Ecr. cbn [bind]. exact Eb. }
    rewrite Hp. destruct (pass_lens spX SX MHuber 1 cuts Xs (col 0 Ys) ltac:(lia) ltac:(lia) S0 st' brk ltac:(lia) Hp) as [Hsw _].
    assert (Hgo : (exists f0, q_fit st' = Some f0 /\ sp_colret_of (ColBool false) f0 <> Err IndexError) /\ q_sw st' <> []).
    { split; [exists f; split; auto; change (ColBool false) with (s_columns SX); rewrite Ecr; discriminate|]. intros E0; rewrite E0 in Hsw; cbn in Hsw; lia. }
    destruct brk; [do 2 eexists; split; [reflexivity|exact Hgo]|].
    rewrite sp_loop_S, (Hbrk eq_refl). change (2 <? s_maxit SX)%nat with false. rewrite andb_false_r. do 2 eexists; split; [reflexivity|exact Hgo]. }
  destruct Hloop as (calls & st & El & (f & Hf & Hcr) & Hsw). rewrite El. cbn [snd].
  unfold sp_finish. rewrite Hf.
  destruct (ftX (new_scaler (s_centre SX) SNone (Fin 0)) (A2 (row_scale (map nsqrt (q_sw st)) Xs))) as (st4 & Z & s4 & E4 & _); auto.
  { right. split; [reflexivity|].
    assert (Hne : map (@nsqrt XR _) (q_sw st) <> []) by (destruct (q_sw st); [congruence|discriminate]).
    unfold check_input. rewrite ncols_row_scale, HXs by auto. rewrite andb_false_r. rewrite ncols_row_scale by auto. lia. }
  change (@n0 XR Num_XR) with (Fin 0). change (re_prep (se_rm spX)) with (re_prep rmX). rewrite E4. cbn [snd]. cbv zeta. rewrite HXs. cbn [length Nat.eqb negb s_columns SX].
  unfold sp_colret_of. destruct (sn_colret f); cbn [bind]; unfold cuts; cbn [sp_loop_cuts]; eexists; (split; [reflexivity|]); cbn [sp_fun sp_ctx sp_cbx sp_crx];
    exists 2, 2, 2; repeat split; cbn; lra.
Qed.

(* ------------------------------------------------------------------ *)
(** C48: one new case, two batches, two weights; and a batch of one case gets as
    many weights as there are components *)
Theorem C48_batch_refuted : exists m a b,
  sprm_fit (spQ 1) (SQ CMedian SMad (ColBool false)) None (map (fun v => [v]) [0;1;2;-1;-2]%Q) yK = Ok m /\
  sprm_weightnewx (spQ 1) m (A2 [[0];[1];[6]]%Q) = Ok a /\ sprm_weightnewx (spQ 1) m (A2 [[0];[3];[6]]%Q) = Ok b /\
  Qltb (nth 2 a 0%Q) (1#4)%Q = true /\ Qeq_bool (nth 2 b 0%Q) 1 = true.
Proof. do 3 eexists. do 3 (split; [vm_compute; reflexivity|]). vm_compute. split; reflexivity. Qed.
Print Assumptions C48_batch_refuted.
Theorem C48_single_case : forall (A : Type) (N : Num A) (env : sp_env A) (m : sp_model A) r w, (2 <= ncols (sp_R m))%nat ->
  sprm_weightnewx env m (A2 [r]) = Ok w -> length w = ncols (sp_R m).
Proof. exact @C48_single_l. Qed.
Print Assumptions C48_single_case.
Example C48_case : exists m w, sprm_fit (spQ 100) (mk_sp_par (NInt 2) 0%Q true (Some MHuber) (95#100)%Q (97#100)%Q (99#100)%Q CMedian SNone 2 (1#100)%Q false false (ColBool false) true)
    None [[0;0];[1;0];[0;1];[1;1];[2;1]]%Q [0;1;2;3;5]%Q = Ok m /\
  sprm_weightnewx (spQ 100) m (A2 [[1;2]]%Q) = Ok w /\ length w = 2%nat /\ ncols (sp_R m) = 2%nat.
Proof. do 2 eexists. do 2 (split; [vm_compute; reflexivity|]). vm_compute. split; reflexivity. Qed.

(* ------------------------------------------------------------------ *)
(** C49: start_X_init other than "pcapp" with start_cutoff_mode "specific" never
    completes; every other combination does *)
Theorem C49_start_refuted : forall (A : Type) (N : Num A) (env : sp_env A) P df X y m,
  s_pcapp P = false -> s_specific P = true -> sprm_fit env P df X y <> Ok m.
Proof. exact @C49_never_l. Qed.
Print Assumptions C49_start_refuted.
Theorem C49_start_error : forall (env : sp_env R) P df n p X y, is_matrix n p X -> (2 <= n)%nat -> (1 <= p)%nat ->
  plain_centre (s_centre P) -> plain_scale (s_scale P) -> names_cover P df p -> quiet env ->
  s_pcapp P = false -> s_specific P = true ->
  sprm_fit env P df X y = Err MyException \/ sprm_fit env P df X y = Err UnboundLocalError.
Proof. exact C49_error_l. Qed.
Print Assumptions C49_start_error.
Theorem C49_supported : forall (env : sp_env R) P df n p X y, is_matrix n p X -> (2 <= n)%nat -> (1 <= p)%nat ->
  plain_centre (s_centre P) -> plain_scale (s_scale P) -> names_cover P df p -> quiet env ->
  ~ (s_pcapp P = false /\ s_specific P = true) -> (2 <= s_maxit P)%nat -> s_tol P < 1 -> svd_ok env ->
  (s_pcapp P = true -> some_variation env P n p X) ->
  (exists m, sprm_fit env P df X y = Ok m) \/
  (exists e, sprm_fit env P df X y = Err e /\ (e = MyException \/ from_linalg env e)).
Proof. exact C49_supported_l. Qed.
Print Assumptions C49_supported.
Example C49_case : (exists m, sprm_fit spR (SR 1 CMedian SNone true true (ColBool false)) None X3 y3' = Ok m) /\
  (exists m, sprm_fit spR (SR 1 CMedian SNone true false (ColBool false)) None X3 y3' = Ok m) /\
  sprm_fit spR (SR 1 CMedian SNone false true (ColBool false)) None X3 y3' <> Err MyException.
Proof.
  split; [apply sp_case; [right; left; auto|intros [H _]; discriminate|apply SR_names|left; discriminate]|].
  split; [apply sp_case; [right; left; auto|intros [H _]; discriminate|apply SR_names|left; discriminate]|].
  intros He. apply (C45_l spR _ None 3 2 X3 y3') in He as [He|(st' & s & z & E1 & E2 & E3 & E4)]; auto; try lia.
  - revert He. apply SR_valid; left; discriminate.
  - cbn in E3. injection E3 as <-. apply fit_ok_inv in E1 as (m' & v' & _ & Ev & _ & _ & ->). cbn in Ev. apply Ok_inj in Ev as <-. cbn in E2. injection E2 as <-.
    unfold nonzero_scales in E4. cbn [filter] in E4. rnum. destruct (Rlt_dec 1 (1 / 100000)); [lra|]. cbn in E4. lia.
  - apply X3_matrix. - right; left; auto. - right; right; auto. - apply SR_names. - apply spR_quiet.
Qed.

(* ------------------------------------------------------------------ *)
(** C91 *)
Theorem C91_training_data : forall (env : sp_env R) P df n p X y m, is_matrix n p X -> (2 <= n)%nat -> (1 <= p)%nat -> s_copy P = true ->
  sprm_fit env P df X y = Ok m ->
  sprm_predict m (A2 X) = Ok (sp_fitted m) /\ length (sp_fitted m) = n /\ length (sp_resid m) = n /\
  (forall i, (i < n)%nat -> nth i (sp_fitted m) 0 + nth i (sp_resid m) 0 = nth i y 0) /\
  (s_centre P = CMean -> sum_of (sp_resid m) = 0) /\
  (s_centre P <> CMean -> s_centre P <> CNone -> is_median (sp_resid m) 0) /\
  (length (sp_xloc m) = p -> length (sp_xsca m) = p -> sprm_transform m (A2 X) = Ok (sp_T m)).
Proof. exact C91_l. Qed.
Print Assumptions C91_training_data.
Example C91_case : exists m, sprm_fit spR (SR 1 CMedian SNone true true (ColBool false)) None X3 y3' = Ok m /\
  sprm_transform m (A2 X3) = Ok (sp_T m) /\ is_median (sp_resid m) 0.
Proof.
  destruct (sp_case CMedian true true (ColBool false) None) as [m E]; [right; left; auto|intros [H _]; discriminate|apply SR_names|left; discriminate|].
  exists m. split; auto. destruct (C91_l spR (SR 1 CMedian SNone true true (ColBool false)) None 3 2 X3 y3' m X3_matrix ltac:(lia) ltac:(lia) eq_refl E) as (_ & _ & _ & _ & _ & Hm & Ht).
  assert (HL : length (sp_xloc m) = 2%nat /\ length (sp_xsca m) = 2%nat).
  { unfold sprm_fit in E. destruct (sprm_run _ _ _ _ _) as [P' [calls r]] eqn:ER. cbn in E. subst r.
    destruct (run_plain spR (SR 1 CMedian SNone true true (ColBool false)) None 3 2 X3 y3') as (f & k & c1 & c2 & mX & sX & Xs & my & sy & ys & Hf & Hk & Hk1 & He & Hy & Hc1 & Hc2 & Esc & WX & Hys & HmX & HsX & Elo & Ese & Esd & _ & Er); auto; try lia.
    { apply X3_matrix. } { right; left; auto. } { right; right; auto. } { apply SR_names. } { apply SR_valid; left; discriminate. }
    rewrite ER in Er. destruct (_ <? _)%nat; [discriminate|]. 
    assert (Hatt : sp_xloc m = mX /\ sp_xsca m = sX).
    { destruct (zero_scale sX); injection Er as _ Er; symmetry in Er;
        destruct (estimate_same _ _ _ _ _ (vars_to_keep 2 sX) _ 2 _ _ _ _ _ mX _ sX _ _ _ _ _ Er) as (m' & E' & _ & _ & A1 & A2); rewrite Er in E'; injection E' as <-; auto. }
    destruct Hatt as [-> ->]. auto. }
  destruct HL. split; [auto|]. apply Hm; discriminate.
Qed.

(* ------------------------------------------------------------------ *)
(** C92 *)
Theorem C92_budget : forall (A : Type) (N : Num A) (env : sp_env A) P df X y,
  (length (fst (snd (sprm_run env P df X y))) <= s_maxit P - 1)%nat.
Proof. exact @C92_budget_l. Qed.
Print Assumptions C92_budget.
Theorem C92_small_budget : forall (A : Type) (N : Num A) (env : sp_env A) P df X y m,
  (s_maxit P <= 1)%nat -> sprm_fit env P df X y <> Ok m.
Proof. exact @C92_small_l. Qed.
Print Assumptions C92_small_budget.
Example C92_case : length (fst (snd (sprm_run (spQ 1) (SQ CMedian SMad (ColBool false)) None XK yK))) = 1%nat.
Proof. vm_compute. reflexivity. Qed.

(* ------------------------------------------------------------------ *)
(** C93: refitting the same object on the same data can fail, because fit
    overwrites the parameter [columns]; with columns=False and another scale than
    scaleTau2 no parameter is changed *)
Theorem C93_refit_refuted : exists P' calls m,
  sprm_run (spQ 1) (SQ CMedian SMad (ColBool true)) (Some ["a"; "b"]%string) XK yK = (P', (calls, Ok m)) /\
  s_columns P' = ColNames ["b"%string] /\
  sprm_fit (spQ 1) P' (Some ["a"; "b"]%string) XK yK = Err IndexError.
Proof. do 3 eexists. split; [vm_compute; reflexivity|]. vm_compute. split; reflexivity. Qed.
Print Assumptions C93_refit_refuted.
Theorem C93_unchanged : forall (A : Type) (N : Num A) (env : sp_env A) P df X y,
  s_columns P = ColBool false -> s_scale P <> STau2 -> fst (sprm_run env P df X y) = P.
Proof. exact @C93_unchanged_l. Qed.
Print Assumptions C93_unchanged.
Theorem C93_only_columns_and_scale : forall (A : Type) (N : Num A) (env : sp_env A) P df X y,
  exists c s, fst (sprm_run env P df X y) = set_scale (set_columns P c) s /\
  (s <> s_scale P -> s_scale P = STau2 /\ s = SMad /\ existsb (fun v => neqb v n0) (mad X) = true).
Proof. exact @C93_others_l. Qed.
Print Assumptions C93_only_columns_and_scale.
Example C93_case : s_scale (fst (sprm_run (spQ 1) (SQ CMedian STau2 (ColBool false)) None XK yK)) = SMad.
Proof. vm_compute. reflexivity. Qed.

(* ------------------------------------------------------------------ *)
(** C94: the response weights are not those of the residuals of the fitted model:
    case 2 has the larger absolute residual and the larger weight *)
Theorem C94_residual_weights_refuted : exists m,
  sprm_fit (spQ 2) (SQ CMedian SNone (ColBool false)) None [[0];[1];[2];[-1];[-2];[8]]%Q [0;1;1;-1;-2;8]%Q = Ok m /\
  Qltb (Qabs.Qabs (nth 5 (sp_resid m) 0%Q)) (Qabs.Qabs (nth 2 (sp_resid m) 0%Q)) = true /\
  Qltb (nth 5 (sp_ycw m) 0%Q) (1#10)%Q = true /\ Qltb (6#10)%Q (nth 2 (sp_ycw m) 0%Q) = true.
Proof. eexists. split; [vm_compute; reflexivity|]. vm_compute. repeat split; reflexivity. Qed.
Print Assumptions C94_residual_weights_refuted.

(* ------------------------------------------------------------------ *)
(** C95 *)
Theorem C95_retained_names : forall (env : sp_env R) P df n p X y m names, is_matrix n p X -> (2 <= n)%nat -> (1 <= p)%nat ->
  plain_centre (s_centre P) -> plain_scale (s_scale P) -> s_columns P = ColBool true -> df = Some names -> length names = p -> svd_rows env ->
  sprm_fit env P df X y = Ok m ->
  length (sp_coef m) = length (sp_keep m) /\
  ((exists retained, sp_colret m = CrNames retained /\
     forall i, (i < length (sp_coef m))%nat -> nth i (sp_coef m) 0 <> 0 ->
       exists nm, nth_error names (nth i (sp_keep m) 0%nat) = Some nm /\ In nm retained) \/
   (sp_colret m = CrNone /\ forall i, nth i (sp_coef m) 0 = 0)).
Proof. exact C95_names_l. Qed.
Print Assumptions C95_retained_names.
(** without names, colret_ counts positions among the variables of non-zero
    scale: here it reports the constant variable 0, while only variable 1 is used *)
Theorem C95_positions_refuted : exists m, sprm_fit (spQ 1) (SQ CMedian SMad (ColBool false)) None XK yK = Ok m /\
  sp_colret m = CrPos [0%nat] /\ sp_keep m = [1%nat].
Proof. eexists. split; [vm_compute; reflexivity|]. vm_compute. split; reflexivity. Qed.
Print Assumptions C95_positions_refuted.
Example C95_case : exists m, sprm_fit spR (SR 1 CMean SNone true false (ColBool true)) (Some ["u"; "v"]%string) X3 y3' = Ok m /\ svd_rows spR.
Proof.
  destruct (sp_case CMean true false (ColBool true) (Some ["u"; "v"]%string)) as [m E]; [left; auto|intros [H _]; discriminate| |right; discriminate|].
  - split; intros l H; [discriminate|]. injection H as <-. cbn. lia.
  - exists m. split; auto. apply spR_rows.
Qed.

(* ------------------------------------------------------------------ *)
(** C96 *)
Theorem C96_weighted_score_refuted : forall (env : sp_env R) P df X y m, sprm_fit env P df X y = Ok m -> (2 <= length X)%nat -> svd_rows env -> s_copy P = true ->
  forall Xn yn, ncols Xn = ncols X -> length yn = length Xn -> length Xn <> length X ->
  sprm_valscore m (A2 Xn) yn (Some true) = Err ValueError.
Proof. exact C96_weighted_l. Qed.
Print Assumptions C96_weighted_score_refuted.
Theorem C96_normal_score : forall (env : sp_env R) P df X y m, sprm_fit env P df X y = Ok m -> s_copy P = true ->
  forall Xn yn, ncols Xn = ncols X -> length yn = length Xn -> (1 <= length yn)%nat ->
  exists yp, sprm_predict m (A2 Xn) = Ok yp /\ length yp = length yn /\
    sprm_valscore m (A2 Xn) yn (Some false) =
      Ok (1 - sum_of (map2 (fun a b => (a - b) * (a - b)) yn yp) /
              sum_of (map (fun a => (a - sum_of yn / INR (length yn)) * (a - sum_of yn / INR (length yn))) yn)).
Proof. exact C96_normal_l. Qed.
Print Assumptions C96_normal_score.
Example C96_case : exists m, sprm_fit spR (SR 1 CMedian SNone true true (ColBool false)) None X3 y3' = Ok m /\
  sprm_valscore m (A2 [[1;2];[3;4]]) [0;1] (Some true) = Err ValueError.
Proof.
  destruct (sp_case CMedian true true (ColBool false) None) as [m E]; [right; left; auto|intros [H _]; discriminate|apply SR_names|left; discriminate|].
  exists m. split; auto. apply (C96_weighted_l spR (SR 1 CMedian SNone true true (ColBool false)) None X3 y3' m E); auto; try (cbn; lia). apply spR_rows.
Qed.
