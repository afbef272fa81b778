(** Lemmas about sprm, continued: zero-scale variables, new data, totality,
    refitting. *)

From Coq Require Import Reals String List Arith ZArith Bool Lia Lra Permutation.
Import ListNotations.
From Verif Require Import Num Err Vec VecR OrdR L_Mat S_Stats S_Weights L_Stats M_Utils M_Preproc M_Robcent M_Msupport M_Rm M_Plot M_Snipls S_Rm
  L_Lin L_Scaling L_Scaling2 L_Preproc L_Missing L_Msupport S_Regress L_Snipls L_Snipls2 L_Snipls3 L_Rm L_Rm2 M_Sprm S_Sprm L_Sprm L_Sprm2.
Open Scope R_scope.

(* ------------------------------------------------------------------ *)
(** * Attributes of a completed fit *)
Lemma fit_attrs_sp : forall {A} `{Num A} (env : sp_env A) P df X y m, sprm_fit env P df X y = Ok m ->
  sp_keep m = vars_to_keep (ncols X) (sp_xsca m) /\ sp_p m = (if s_copy P then Some (ncols X) else None) /\ length y = length X.
Proof.
  intros A HA env P df X y m E. unfold sprm_fit in E. destruct (sprm_run env P df X y) as [P' [calls r]] eqn:ER. cbn in E. subst r.
  apply run_inv in ER as (f & k & c1 & c2 & mX & sX & Xs & my & sy & ys & X' & Xs' & sX' & ER). cbv zeta in ER.
  destruct ER as (_ & _ & Hly & _ & _ & _ & EP & _ & _ & Eest). apply estimate_inv in Eest as (Us & rc & c & b & q & st & _ & _ & _ & EF).
  apply finish_inv in EF as (fit & _ & _ & EF). cbv zeta in EF.
  destruct EF as (E1 & E2 & _ & _ & _ & _ & _ & _ & _ & _ & _ & _ & _ & E3 & _). rewrite E1, E2, E3. split; auto. split; auto.
  rewrite EP. unfold tau_fix. destruct (s_scale _); auto. destruct (existsb _ _); auto.
Qed.
Lemma select_sel : forall js (X : list (list R)), map (sel js) X = select js X. Proof. reflexivity. Qed.

(* ------------------------------------------------------------------ *)
(** * C46 *)
Lemma select_agree : forall s q (X1 X2 : list (list R)), is_matrix q (length s) X1 -> is_matrix q (length s) X2 ->
  (forall i j, (i < q)%nat -> (j < length s)%nat -> 1 / 100000 <= nth j s 0 -> cell X1 i j = cell X2 i j) ->
  map (sel (nonzero_positions s)) X1 = map (sel (nonzero_positions s)) X2.
Proof.
  intros s q X1 X2 H1 H2 H. apply (list_ext _ _ []). { rewrite !map_length, (wf_length _ _ _ H1), (wf_length _ _ _ H2). auto. }
  intros i Hi. rewrite map_length, (wf_length _ _ _ H1) in Hi.
  rewrite !(nth_map_lt _ _ i []) by (rewrite ?(wf_length _ _ _ H1), ?(wf_length _ _ _ H2); auto).
  unfold sel. apply map_ext_in. intros j Hj. apply positions_in in Hj as [Hj Hb]. apply H; auto.
Qed.
Lemma C46_new_data_l : forall (env : sp_env R) P df X y m, sprm_fit env P df X y = Ok m -> length (sp_xsca m) = ncols X ->
  forall q X1 X2, (1 <= q)%nat -> is_matrix q (ncols X) X1 -> is_matrix q (ncols X) X2 ->
  (forall i j, (i < q)%nat -> (j < ncols X)%nat -> 1 / 100000 <= nth j (sp_xsca m) 0 -> cell X1 i j = cell X2 i j) ->
  sprm_predict m (A2 X1) = sprm_predict m (A2 X2) /\ sprm_transform m (A2 X1) = sprm_transform m (A2 X2) /\
  sprm_weightnewx env m (A2 X1) = sprm_weightnewx env m (A2 X2).
Proof.
  intros env P df X y m E Hs q X1 X2 Hq H1 H2 Ha. apply fit_attrs_sp in E as (Ek & Ep & _).
  rewrite (keep_eq (ncols X) (sp_xsca m) Hs) in Ek. rewrite <- Hs in H1, H2, Ha. assert (Hsel := select_agree _ _ _ _ H1 H2 Ha).
  assert (N1 : ncols X1 = ncols X2) by (rewrite !(wf_ncols q (length (sp_xsca m))) by (auto; lia); auto).
  assert (Ht : sprm_transform m (A2 X1) = sprm_transform m (A2 X2)).
  { unfold sprm_transform, predict_check_input. rewrite N1, Ek, Hsel. reflexivity. }
  split; [|split; auto].
  - unfold sprm_predict, predict_check_input. rewrite N1, Ek, Hsel. reflexivity.
  - unfold sprm_weightnewx. rewrite Ht. reflexivity.
Qed.
Lemma C46_columns_l : forall (env : sp_env R) P df X y m, sprm_fit env P df X y = Ok m -> s_copy P = true ->
  forall Xn, ncols Xn <> ncols X -> sprm_predict m (A2 Xn) = Err ValueError /\ sprm_transform m (A2 Xn) = Err ValueError /\
    sprm_weightnewx env m (A2 Xn) = Err ValueError.
Proof.
  intros env P df X y m E Hc Xn Hn. apply fit_attrs_sp in E as (_ & Ep & _). rewrite Hc in Ep.
  assert (Ht : sprm_transform m (A2 Xn) = Err ValueError).
  { unfold sprm_transform, predict_check_input. rewrite Ep. destruct (Nat.eqb_spec (ncols Xn) (ncols X)); [contradiction|reflexivity]. }
  split; [|split; auto].
  - unfold sprm_predict, predict_check_input. rewrite Ep. destruct (Nat.eqb_spec (ncols Xn) (ncols X)); [contradiction|reflexivity].
  - unfold sprm_weightnewx. rewrite Ht. reflexivity.
Qed.

(** ** the fit itself *)
Lemma select_wf : forall n p X js, wf n p X -> wf n (length js) (select js X).
Proof.
  intros n p X js [H1 H2]. unfold select. split; [rewrite map_length; auto|]. apply Forall_forall. intros r Hr. apply in_map_iff in Hr as (r' & <- & _).
  apply map_length.
Qed.
Lemma select_mget : forall n p X js i j, wf n p X -> (i < n)%nat -> (j < length js)%nat -> mget (select js X) i j = mget X i (nth j js 0%nat).
Proof.
  intros n p X js i j H Hi Hj. unfold mget, select. rewrite (nth_map_lt _ _ i []) by (rewrite (wf_length _ _ _ H); auto).
  change (@n0 R Num_R) with 0. rewrite (nth_map_lt _ _ j 0%nat) by auto. reflexivity.
Qed.
Lemma select_col : forall X js j, (j < length js)%nat -> col j (select js X) = col (nth j js 0%nat) X.
Proof.
  intros X js j Hj. unfold col, select. rewrite map_map. apply map_ext. intros r. change (@n0 R Num_R) with 0.
  rewrite (nth_map_lt _ _ j 0%nat) by auto. reflexivity.
Qed.
Definition rsel (js : list nat) (r : list R) : list R := map (fun j => nth j r 0) js.
Lemma select_location : forall env c n p X m m' js, wf n p X -> (2 <= n)%nat -> plain_centre c -> js <> [] -> (forall j, In j js -> (j < p)%nat) ->
  length m' = length js ->
  location env c 0 X = Ok m -> location env c 0 (select js X) = Ok m' -> m' = rsel js m.
Proof.
  intros env c n p X m m' js HX Hn Hc Hne Hj Hl E E'. apply (list_ext _ _ 0). { unfold rsel. rewrite map_length. auto. }
  intros i Hi. rewrite Hl in Hi. unfold rsel. rewrite (nth_map_lt _ _ i 0%nat) by auto.
  pose proof (location_col env c 0 n (length js) (select js X) m' i (select_wf n p X js HX) ltac:(lia) Hc E' Hi) as F1.
  pose proof (location_col env c 0 n p X m (nth i js 0%nat) HX ltac:(lia) Hc E (Hj _ (nth_In _ _ Hi))) as F2.
  rewrite select_col in F1 by auto. rewrite F2 in F1. apply Ok_inj in F1. auto.
Qed.
Lemma select_scale : forall env c n p X m m' js, wf n p X -> (2 <= n)%nat -> plain_scale c -> js <> [] -> (forall j, In j js -> (j < p)%nat) ->
  length m' = length js ->
  scale_est env c 0 X = Ok m -> scale_est env c 0 (select js X) = Ok m' -> m' = rsel js m.
Proof.
  intros env c n p X m m' js HX Hn Hc Hne Hj Hl E E'. apply (list_ext _ _ 0). { unfold rsel. rewrite map_length. auto. }
  intros i Hi. rewrite Hl in Hi. unfold rsel. rewrite (nth_map_lt _ _ i 0%nat) by auto.
  pose proof (scale_est_col env c 0 n (length js) (select js X) m' i (select_wf n p X js HX) ltac:(lia) Hc E' Hi) as F1.
  pose proof (scale_est_col env c 0 n p X m (nth i js 0%nat) HX ltac:(lia) Hc E (Hj _ (nth_In _ _ Hi))) as F2.
  rewrite select_col in F1 by auto. rewrite F2 in F1. apply Ok_inj in F1. auto.
Qed.
Lemma select_scale_data : forall n p X m s Xs js, wf n p X -> (1 <= n)%nat -> (1 <= p)%nat -> length m = p -> length s = p ->
  js <> [] -> (forall j, In j js -> (j < p)%nat) -> scale_data X m s = Ok Xs -> scale_data (select js X) (rsel js m) (rsel js s) = Ok (select js Xs).
Proof.
  intros n p X m s Xs js HX Hn Hp Hm Hs Hne Hj E.
  destruct (scale_data_cells n p X m s HX Hn Hp Hm Hs) as (Z & EZ & WZ & CZ). rewrite E in EZ. apply Ok_inj in EZ as <-.
  assert (Hjs : (1 <= length js)%nat) by (destruct js; [congruence|cbn; lia]).
  destruct (scale_data_cells n (length js) (select js X) (rsel js m) (rsel js s)) as (Z & EZ & WZ' & CZ'); auto; try (unfold rsel; apply map_length).
  { eapply select_wf; eauto. }
  rewrite EZ. f_equal. apply (mat_ext n (length js)); auto. { eapply select_wf; eauto. }
  intros a b Ha Hb. rewrite CZ' by auto. rewrite !(select_mget n p) by auto. rewrite CZ by (auto; apply Hj, nth_In; auto).
  unfold rsel. rewrite !(nth_map_lt _ _ b 0%nat 0) by auto. reflexivity.
Qed.
Lemma seq_select : forall n p (X : list (list R)), wf n p X -> select (seq 0 p) X = X.
Proof.
  intros n p X [_ H]. unfold select. rewrite <- (map_id X) at 2. apply map_ext_in. intros r Hr. rewrite Forall_forall in H. rewrite <- (H r Hr).
  apply nth_seq_id.
Qed.
Lemma zero_scale_nil : forall s : list R, zero_scale s = [] <-> nonzero_positions s = seq 0 (length s).
Proof.
  intros s. split.
  - intros E. rewrite <- (keep_eq (length s) s eq_refl). unfold vars_to_keep. rewrite E.
    cbn [existsb negb]. induction (seq 0 (length s)) as [|a l IH]; cbn; [auto|f_equal; exact IH].
  - intros E. destruct (zero_scale s) as [|j l] eqn:Ez; auto. exfalso.
    assert (Hj : In j (zero_scale s)) by (rewrite Ez; left; auto). apply (where_in _ _ _ 0) in Hj as [Hj Hb].
    assert (Hin : In j (nonzero_positions s)) by (rewrite E; apply in_seq; lia). apply positions_in in Hin as [_ Hin].
    pose proof (big_nltb (nth j s 0)) as Hbig. rewrite Hb in Hbig. unfold big in Hbig. destruct (Rlt_dec _ _); [lra|discriminate].
Qed.
Lemma nonzero_rsel : forall s, zero_scale (rsel (nonzero_positions s) s) = [].
Proof.
  intros s. destruct (zero_scale _) as [|j l] eqn:Ez; auto. exfalso.
  assert (Hj : In j (zero_scale (rsel (nonzero_positions s) s))) by (rewrite Ez; left; auto). apply (where_in _ _ _ 0) in Hj as [Hj Hb].
  unfold rsel in Hj, Hb. rewrite map_length in Hj. rewrite (nth_map_lt _ _ j 0%nat) in Hb by auto.
  assert (Hin := nth_In _ 0%nat Hj). apply positions_in in Hin as [_ Hin].
  pose proof (big_nltb (nth (nth j (nonzero_positions s) 0%nat) s 0)) as Hbig. rewrite Hb in Hbig. unfold big in Hbig. destruct (Rlt_dec _ _); [lra|discriminate].
Qed.

(** [sp_estimate] uses the positions kept, the number of columns and the full
    location and scale vectors for nothing but storing them *)
Lemma estimate_same : forall {A} `{Num A} (env : sp_env A) P f k keep keep' p0 p0' X Xs y ys mX mX' sXf sXf' sX my sy calls m,
  sp_estimate env P f k keep p0 X Xs y ys mX sXf sX my sy = (calls, Ok m) ->
  exists m', sp_estimate env P f k keep' p0' X Xs y ys mX' sXf' sX my sy = (calls, Ok m') /\ same_estimates m m' /\
    sp_keep m' = keep' /\ sp_xloc m' = mX' /\ sp_xsca m' = sXf'.
Proof.
  intros A HA env P f k keep keep' p0 p0' X Xs y ys mX mX' sXf sXf' sX my sy calls m E. unfold sp_estimate in *.
  destruct (sp_start env P Xs) as [[Us rc]|]; [|discriminate]. destruct (sp_start_cuts env P rc) as [[[c b] q]|]; [|discriminate]. cbv zeta in *.
  match type of E with context [sp_loop ?a ?b ?c ?d ?e ?f ?g ?h ?i] => destruct (sp_loop a b c d e f g h i) as [cs r] end.
  destruct r as [[st|e]|]; try discriminate. injection E as <- E. unfold sp_finish in *. destruct (q_fit st) as [fit|]; [|discriminate].
  destruct (snd (sc_fit_transform _ _ _)); [|discriminate]. cbv zeta in *. destruct (negb _); [discriminate|].
  apply bind_Ok in E as (cr & Ec & E). rewrite Ec. cbn [bind]. destruct (sp_loop_cuts _ _ _ _ _) as [[cx bx] rx]. apply Ok_inj in E as <-.
  eexists. split; [reflexivity|]. cbn. repeat split; reflexivity.
Qed.

Lemma C46_fit_l : forall (env : sp_env R) P df n p X y m, is_matrix n p X -> (2 <= n)%nat -> (1 <= p)%nat ->
  plain_centre (s_centre P) -> plain_scale (s_scale P) -> s_columns P = ColBool false ->
  sprm_fit env P df X y = Ok m ->
  length (sp_xsca m) = p /\
  exists m', sprm_fit env P df (select (nonzero_positions (sp_xsca m)) X) y = Ok m' /\ same_estimates m m'.
Proof.
  intros env P df n p X y m HX Hn Hp Hc Hs Hco E. assert (HlX := wf_length _ _ _ HX). assert (Hnc : ncols X = p) by (apply (wf_ncols n p); auto; lia).
  assert (Hv : ~ invalid_sp P df n p (length y)).
  { intros Hi. unfold sprm_fit, sprm_run in E. rewrite HlX, Hnc in E.
    assert (Hi' : (~ (exists z, s_ncomp P = NInt z /\ (1 <= z <= Z.of_nat n)%Z /\ (z <= Z.of_nat p)%Z) \/
      s_eta_float P = false \/ ~ (0 <= s_eta P < 1) \/ invalid_rm (sp_rm P)) \/ length y <> n).
    { unfold invalid_sp in Hi. rewrite Hco in Hi. destruct Hi as [?|[?|[?|[?|[[? _]|?]]]]]; try discriminate; tauto. }
    destruct Hi' as [Hi'|Hi']; [rewrite (sp_check_invalid P n p Hi') in E; discriminate|].
    destruct (sp_check P n p) as [[f k]|]; [|discriminate]. destruct (sp_columns P df); [|discriminate].
    destruct (Nat.eqb_spec (length y) n); [contradiction|discriminate]. }
  assert (Hnm : forall q, names_cover (set_columns P (ColBool false)) None q) by (intros q; split; intros l El; discriminate).
  assert (HP : set_columns P (ColBool false) = P) by (destruct P; cbn in *; subst; reflexivity).
  assert (Hrun : forall Z, sprm_run env P df Z y = sprm_run env P None Z y).
  { intros Z. unfold sprm_run, sp_columns. rewrite Hco. reflexivity. }
  rewrite HP in Hnm. unfold sprm_fit in *. rewrite Hrun in E.
  assert (Hv' : ~ invalid_sp P None n p (length y)).
  { intros Hi. apply Hv. unfold invalid_sp in *. rewrite Hco in *. destruct Hi as [?|[?|[?|[?|[[? _]|?]]]]]; try discriminate; tauto. }
  destruct (run_plain env P None n p X y) as (f & k & c1 & c2 & mX & sX & Xs & my & sy & ys & Hf & Hk & Hk1 & He & Hy & Hc1 & Hc2 & Esc & WX & Hys & HmX & HsX & Elo & Ese & Esd & (Ey1 & Ey2 & Ys & Ey3 & Ey4) & Er); auto.
  assert (c1 = ColBool false) by (unfold sp_columns in Hc1; rewrite Hco in Hc1; congruence). subst c1.
  assert (c2 = ColBool false) by (unfold sp_drop in Hc2; destruct (zero_scale sX); congruence). subst c2.
  rewrite Er in E. cbn [snd] in E. rewrite (keep_eq p sX HsX) in E.
  destruct (Nat.ltb_spec (length (nonzero_positions sX)) k) as [|Hkk]; [discriminate|].
  set (js := nonzero_positions sX) in *. set (X' := select js X). set (Xs' := select js Xs). set (sX' := rsel js sX).
  assert (Hjs : forall j, In j js -> (j < p)%nat) by (intros j Hj; apply positions_in in Hj; lia).
  assert (Hne : js <> []) by (destruct js; [cbn in Hkk; lia|discriminate]).
  assert (E' : exists calls, sp_estimate env P f k js p X' Xs' y ys mX sX sX' my sy = (calls, Ok m)).
  { rewrite HP in E. destruct (zero_scale sX) as [|z zs] eqn:Ez.
    - apply zero_scale_nil in Ez. fold js in Ez. unfold X', Xs', sX'. rewrite Ez, HsX. rewrite (seq_select n p X HX), (seq_select n p Xs WX).
      unfold rsel. rewrite <- HsX, nth_seq_id. rewrite HsX. rewrite Ez, HsX in E.
      destruct (sp_estimate _ _ _ _ _ _ _ _ _ _ _ _ _ _ _) as [calls r]. cbn in E. subst r. eauto.
    - fold js in E. change (map (sel js) X) with X' in E. change (map (sel js) Xs) with Xs' in E. change (sel js sX) with sX' in E.
      destruct (sp_estimate _ _ _ _ _ _ _ _ _ _ _ _ _ _ _) as [calls r]. cbn in E. subst r. eauto. }
  destruct E' as [calls E'].
  assert (Hxs : sp_xsca m = sX).
  { apply estimate_inv in E' as (Us & rc & c & b & q & st & _ & _ & _ & EF). apply finish_inv in EF as (fit & _ & _ & EF). cbv zeta in EF.
    destruct EF as (_ & _ & _ & _ & _ & _ & _ & _ & _ & _ & _ & _ & _ & E3 & _). exact E3. }
  split; [rewrite Hxs; auto|]. rewrite Hxs. fold js X'. rewrite Hrun.
  set (p' := length js). assert (Hp' : (1 <= p')%nat) by (unfold p'; lia).
  assert (WX' : wf n p' X') by (eapply select_wf; eauto).
  assert (Hv2 : ~ invalid_sp P None n p' (length y)).
  { intros Hi. apply Hv'. unfold invalid_sp in *. rewrite Hco in *. destruct Hi as [Hi|Hi]; [|right; exact Hi].
    exfalso. apply Hi. exists (Z.of_nat k). split; auto. unfold p'. lia. }
  destruct (run_plain env P None n p' X' y) as (f2 & k2 & d1 & d2 & mX2 & sX2 & Xs2 & my2 & sy2 & ys2 & Hf2 & Hk2 & _ & _ & _ & Hd1 & Hd2 & _ & WX2 & _ & HmX2 & HsX2 & Elo2 & Ese2 & Esd2 & (Fy1 & Fy2 & Ys2 & Fy3 & Fy4) & Er2); auto.
  assert (f2 = f) by congruence. subst f2. assert (k2 = k) by (rewrite Hk in Hk2; injection Hk2; lia). subst k2.
  assert (d1 = ColBool false) by (unfold sp_columns in Hd1; rewrite Hco in Hd1; congruence). subst d1.
  assert (d2 = ColBool false) by (unfold sp_drop in Hd2; destruct (zero_scale sX2); congruence). subst d2.
  rewrite Ey1 in Fy1. apply Ok_inj in Fy1 as <-. rewrite Ey2 in Fy2. apply Ok_inj in Fy2 as <-. rewrite Ey3 in Fy3. apply Ok_inj in Fy3 as <-. subst ys2.
  assert (EmX : mX2 = rsel js mX) by (eapply (select_location _ _ n p X); eauto).
  assert (EsX : sX2 = sX') by (eapply (select_scale _ _ n p X); eauto).
  assert (EXs : Xs2 = Xs').
  { pose proof (select_scale_data n p X mX sX Xs js HX ltac:(lia) Hp HmX HsX Hne Hjs Esd) as F. rewrite EmX, EsX in Esd2. unfold sX' in Esd2. unfold X' in Esd2. rewrite F in Esd2.
    apply Ok_inj in Esd2. auto. }
  rewrite Er2. cbn [snd]. rewrite HP. subst sX2 Xs2.
  assert (Hz : zero_scale sX' = []) by apply nonzero_rsel. rewrite Hz. rewrite (keep_eq p' sX' HsX2).
  apply zero_scale_nil in Hz. rewrite Hz, seq_length, HsX2. destruct (Nat.ltb_spec p' k) as [|_]; [unfold p' in *; lia|].
  apply (estimate_same env P f k js (seq 0 p') p p' X' Xs' y ys mX mX2 sX sX' sX' my sy) in E' as (m' & E' & Hsame & _). subst ys.
  rewrite E'. cbn [snd]. eauto.
Qed.

(* ------------------------------------------------------------------ *)
(** * C48 *)
Lemma matmul_rows : forall {A} `{Num A} (X Y : list (list A)), length (matmul X Y) = length X.
Proof. intros. unfold matmul. apply map_length. Qed.
Lemma matmul_cols : forall {A} `{Num A} (r : list A) X Y, ncols (matmul (r :: X) Y) = ncols Y.
Proof. intros A HA r X Y. unfold matmul, ncols at 1. cbn. rewrite map_length. apply cols_length. Qed.
Lemma scale_data_rows1 : forall {A} `{Num A} (X : list (list A)) m s Y, scale_data X m s = Ok Y -> length Y = length X.
Proof. intros A HA X m s Y E. apply scale_data_rows in E. auto. Qed.
Lemma C48_single_l : forall {A} `{Num A} (env : sp_env A) (m : sp_model A) r w, (2 <= ncols (sp_R m))%nat ->
  sprm_weightnewx env m (A2 [r]) = Ok w -> length w = ncols (sp_R m).
Proof.
  intros A HA env m r w Hk E. unfold sprm_weightnewx in E. apply bind_Ok in E as (Tn & ET & E).
  unfold sprm_transform, predict_check_input in ET. destruct (sp_p m) as [q|]; [|discriminate]. destruct (negb _); [discriminate|].
  apply bind_Ok in ET as (Z & EZ & ET). apply Ok_inj in ET as <-. apply scale_data_rows1 in EZ. rewrite map_length in EZ. cbn in EZ.
  destruct Z as [|z [|? ?]]; try discriminate.
  destruct (sc_fit_transform _ _ _) as [st' [dtn|]] eqn:Ed; [|discriminate]. cbn [snd] in E. apply Ok_inj in E as <-.
  rewrite mweights_length, start_dx_length. apply fit_transform_rows in Ed. rewrite Ed. unfold check_input.
  rewrite matmul_rows, matmul_cols. cbn [length Nat.eqb]. destruct (Nat.leb_spec 2 (ncols (sp_R m))); [|lia]. cbn [andb]. rewrite map_length.
  unfold matmul. cbn. rewrite map_length. apply cols_length.
Qed.

(* ------------------------------------------------------------------ *)
(** * C92 *)
Lemma C92_budget_l : forall {A} `{Num A} (env : sp_env A) P df X y, (length (fst (snd (sprm_run env P df X y))) <= s_maxit P - 1)%nat.
Proof.
  intros A HA env P df X y. unfold sprm_run. destruct (sp_check P _ _) as [[f k]|]; [|cbn; lia]. destruct (sp_columns P df) as [c1|]; [|cbn; lia].
  destruct (negb _); [cbn; lia|]. destruct (_ && _); [cbn; lia|]. cbv zeta. fold (tau_fix (set_columns P c1) X).
  assert (HP : forall c, s_maxit (set_columns (tau_fix (set_columns P c1) X) c) = s_maxit P).
  { intros c. unfold tau_fix. destruct (s_scale _); auto. destruct (existsb _ _); auto. }
  destruct (sp_scaled _ _ _ _) as [[[[mX sX] Xs] [[my sy] ys]]|]; [|cbn; lia]. destruct (sp_drop _ _ _) as [c2|]; [|cbn; lia].
  destruct (_ <? _)%nat; [cbn; lia|].
  assert (Hest : forall keep p0 X' Xs' sX', (length (fst (sp_estimate env (set_columns (tau_fix (set_columns P c1) X) c2) f k keep p0 X' Xs' y ys mX sX sX' my sy)) <= s_maxit P - 1)%nat).
  { intros keep p0 X' Xs' sX'. specialize (HP c2). set (P3 := set_columns _ c2) in *. unfold sp_estimate.
    destruct (sp_start env P3 Xs') as [[Us rc]|]; [|cbn; lia]. destruct (sp_start_cuts env P3 rc) as [[[c b] q]|]; [|cbn; lia]. cbv zeta.
    match goal with |- context [sp_loop ?a ?b ?c ?d ?e ?f ?g ?h ?i] => destruct (sp_loop_terminates a c d e f g h b i) as [_ Hl]; [cbn [q_loops]; lia|lia|];
      destruct (sp_loop a b c d e f g h i) as [cs r] end. cbn [fst] in *. cbn [q_loops] in Hl. lia. }
  destruct (zero_scale sX); cbn [snd]; apply Hest.
Qed.
Lemma C92_small_l : forall {A} `{Num A} (env : sp_env A) P df X y m, (s_maxit P <= 1)%nat -> sprm_fit env P df X y <> Ok m.
Proof.
  intros A HA env P df X y m Hm E. unfold sprm_fit in E. destruct (sprm_run env P df X y) as [P' [calls r]] eqn:ER. cbn in E. subst r.
  apply run_inv in ER as (f & k & c1 & c2 & mX & sX & Xs & my & sy & ys & X' & Xs' & sX' & ER). cbv zeta in ER.
  destruct ER as (_ & _ & _ & _ & _ & _ & EP & _ & _ & Eest). apply estimate_inv in Eest as (Us & rc & c & b & q & st & _ & _ & EL & EF).
  assert (HP : s_maxit P' = s_maxit P) by (rewrite EP; unfold tau_fix; destruct (s_scale _); auto; destruct (existsb _ _); auto).
  rewrite sp_loop_none in EL.
  - injection EL as _ <-. apply finish_inv in EF as (fit & EF & _). discriminate.
  - unfold sp_start_state. cbn [q_loops]. destruct (Nat.ltb_spec 1 (s_maxit P')); [lia|]. apply andb_false_r.
Qed.

(* ------------------------------------------------------------------ *)
(** * C49 *)
Lemma C49_never_l : forall {A} `{Num A} (env : sp_env A) P df X y m, s_pcapp P = false -> s_specific P = true -> sprm_fit env P df X y <> Ok m.
Proof.
  intros A HA env P df X y m Hp Hs E. unfold sprm_fit in E. destruct (sprm_run env P df X y) as [P' [calls r]] eqn:ER. cbn in E. subst r.
  apply run_inv in ER as (f & k & c1 & c2 & mX & sX & Xs & my & sy & ys & X' & Xs' & sX' & ER). cbv zeta in ER.
  destruct ER as (_ & _ & _ & _ & _ & _ & EP & _ & _ & Eest). apply estimate_inv in Eest as (Us & rc & c & b & q & st & E1 & E2 & _).
  assert (HP : s_pcapp P' = false /\ s_specific P' = true) by (rewrite EP; unfold tau_fix; destruct (s_scale _); auto; destruct (existsb _ _); auto).
  destruct HP as [H1 H2]. unfold sp_start in E1. rewrite H1 in E1. apply Ok_inj in E1. injection E1 as <- <-. unfold sp_start_cuts in E2. rewrite H2 in E2. discriminate.
Qed.
Lemma C49_error_l : forall (env : sp_env R) P df n p X y, is_matrix n p X -> (2 <= n)%nat -> (1 <= p)%nat ->
  plain_centre (s_centre P) -> plain_scale (s_scale P) -> names_cover P df p -> quiet env ->
  s_pcapp P = false -> s_specific P = true ->
  sprm_fit env P df X y = Err MyException \/ sprm_fit env P df X y = Err UnboundLocalError.
Proof.
  intros env P df n p X y HX Hn Hp Hc Hs Hnm Hq Hpc Hsp.
  destruct (Classical_Prop.classic (invalid_sp P df n p (length y))) as [Hi|Hv].
  { left. apply (C45_l env P df n p X y); auto. }
  destruct (run_plain env P df n p X y) as (f & k & c1 & c2 & mX & sX & Xs & my & sy & ys & Hf & Hk & Hk1 & He & Hy & Hc1 & Hc2 & Esc & WX & Hys & HmX & HsX & Elo & Ese & Esd & _ & Er); auto.
  unfold sprm_fit. rewrite Er. cbn [snd]. destruct (_ <? _)%nat; [left; reflexivity|right].
  destruct (zero_scale sX); unfold sp_estimate, sp_start, sp_start_cuts; cbn [set_columns s_pcapp s_specific]; rewrite Hpc, Hsp; reflexivity.
Qed.
