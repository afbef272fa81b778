(** Lemmas about rm, continued: budget, validation, totality, fitted values. *)

From Coq Require Import Reals List Arith ZArith Bool Lia Lra Permutation.
Import ListNotations.
From Verif Require Import Num Err Vec VecR OrdR L_Mat S_Stats S_Weights L_Stats M_Utils M_Preproc M_Robcent M_Msupport M_Rm S_Rm
  L_Lin L_Scaling L_Scaling2 L_Preproc L_Missing L_Msupport S_Regress L_Snipls L_Snipls2 L_Snipls3 L_Rm.
Open Scope R_scope.

(* ------------------------------------------------------------------ *)
(** * A fit of the scaler depends on its parameters and data only *)
Lemma ft_inv : forall {A} `{Num A} (env : prep_env A) (st st' : scaler A) x Y, sc_fit_transform env st x = (st', Ok Y) ->
  exists m s, location env (sc_center st) (sc_trimming st) (check_input x) = Ok m /\
    scale_est env (sc_scale st) (sc_trimming st) (check_input x) = Ok s /\
    check_trimming (sc_trimming st) = Ok tt /\ is_bad (sc_center st) (sc_scale st) = false /\
    scale_data (check_input x) m s = Ok Y /\
    a_col_loc st' = Some m /\ a_col_sca st' = Some s /\ sc_center st' = sc_center st /\ sc_scale st' = sc_scale st /\
    sc_trimming st' = sc_trimming st.
Proof.
  intros A HA env st st' x Y E. apply C01_fit_transform_l in E as (st1 & E1 & E2).
  apply fit_ok_inv in E1 as (m & s & El & Es & Et & Eb & ->). exists m, s.
  unfold sc_transform in E2. cbn [a_center a_scale] in E2. destruct (scale_data (check_input x) m s) as [Z|] eqn:Ed; [|discriminate].
  injection E2 as <- <-. cbn. repeat split; auto.
Qed.
Lemma ft_intro : forall {A} `{Num A} (env : prep_env A) (st : scaler A) x Y m s,
  location env (sc_center st) (sc_trimming st) (check_input x) = Ok m ->
  scale_est env (sc_scale st) (sc_trimming st) (check_input x) = Ok s ->
  check_trimming (sc_trimming st) = Ok tt -> is_bad (sc_center st) (sc_scale st) = false ->
  scale_data (check_input x) m s = Ok Y -> exists st', sc_fit_transform env st x = (st', Ok Y).
Proof.
  intros A HA env st x Y m s El Es Et Eb Ed. eexists. apply C01_fit_transform_l. eexists. split.
  - apply fit_ok_intro; eauto.
  - unfold sc_transform. cbn [a_center a_scale]. rewrite Ed. reflexivity.
Qed.
Lemma ft_same : forall {A} `{Num A} (env : prep_env A) (st st' s1 : scaler A) x x' Y,
  sc_center st = sc_center st' -> sc_scale st = sc_scale st' -> sc_trimming st = sc_trimming st' -> check_input x = check_input x' ->
  sc_fit_transform env st x = (s1, Ok Y) -> exists s2, sc_fit_transform env st' x' = (s2, Ok Y).
Proof.
  intros A HA env st st' s1 x x' Y Hc Hs Ht Hx E. apply ft_inv in E as (m & s & E1 & E2 & E3 & E4 & E5 & _).
  rewrite Hc, Hs, Ht, Hx in *. eapply ft_intro; eauto.
Qed.
(** success for the plain options *)
Lemma ft_plain : forall (env : prep_env R) (st : scaler R) n p x X, check_input x = X -> is_matrix n p X -> (2 <= n)%nat -> (1 <= p)%nat ->
  plain_centre (sc_center st) -> plain_scale (sc_scale st) -> sc_trimming st = 0 ->
  exists st' Y m s, sc_fit_transform env st x = (st', Ok Y) /\ is_matrix n p Y /\ a_col_loc st' = Some m /\ a_col_sca st' = Some s /\
    length m = p /\ length s = p /\ sc_center st' = sc_center st /\ sc_scale st' = sc_scale st /\ sc_trimming st' = 0.
Proof.
  intros env st n p x X Hx HX Hn Hp Hc Hs Ht.
  destruct (fit_succeeds env (sc_center st) (sc_scale st) 0 n p X) as [st0 E0]; auto; [lra| |].
  { intros g [Hg1 _]. rewrite Rmult_0_l in Hg1. assert (g = 0)%nat; [|lia]. destruct g; auto. rewrite S_INR in Hg1. pose proof (pos_INR g). lra. }
  destruct (fit_cols env _ _ 0 n p X st0 HX Hn Hc Hs E0) as (m & v & Ec & Es & Hm & Hv & _).
  apply fit_ok_inv in E0 as (m' & v' & El & Ev & Et & Eb & ->). cbn in Ec, Es, El, Ev, Et, Eb. injection Ec as ->. injection Es as ->.
  destruct (scale_data_cells n p X m v HX ltac:(lia) Hp Hm Hv) as (Z & EZ & WZ & _).
  rewrite (check_input_id n p) in El, Ev by auto.
  destruct (ft_intro env st x Z m v) as [st' E']; auto; try (rewrite Ht; auto); try (rewrite Hx; auto).
  exists st', Z, m, v. apply ft_inv in E' as E2. destruct E2 as (m2 & v2 & F1 & F2 & _ & _ & _ & F3 & F4 & F5 & F6 & F7).
  rewrite Hx, Ht in *. rewrite El in F1. rewrite Ev in F2. apply Ok_inj in F1 as ->. apply Ok_inj in F2 as ->. repeat split; auto; apply WZ.
Qed.
Lemma check_A1 : forall y : list R, (2 <= length y)%nat -> check_input (A1 y) = as_column y.
Proof. intros y Hy. unfold check_input, ncols. cbn [length hd]. destruct (Nat.leb_spec 2 (length y)); [reflexivity|lia]. Qed.

(* ------------------------------------------------------------------ *)
(** * C40 *)
Lemma C40_budget_l : forall {A} `{Num A} (env : rm_env A) P X y, (length (fst (rm_run env P X y)) <= r_maxit P - 1)%nat.
Proof.
  intros A HA env P X y. unfold rm_run. destruct (rm_check P) as [f|]; [|cbn; lia]. destruct (negb _); [cbn; lia|].
  destruct (_ && _); [cbn; lia|]. destruct (sc_fit_transform _ _ (A2 X)) as [st1 [Xs|]]; [|cbn; lia].
  destruct (sc_fit_transform _ st1 (A1 y)) as [st2 [Ys|]]; [|cbn; lia].
  destruct (a_col_loc st1), (a_col_sca st1), (a_col_loc st2), (a_col_sca st2); try (cbn; lia). cbv zeta.
  match goal with |- context [rm_loop env ?k P f ?a ?b ?c ?s] => pose proof (loop_terminates env P f a b c k s) as [_ Hl];
    [cbn [l_loops]; lia|lia|]; destruct (rm_loop env k P f a b c s) end. cbn in *. lia.
Qed.
Lemma C40_terminates_l : forall {A} `{Num A} (env : rm_env A) P f Xs ys wx st, (1 <= l_loops st)%nat ->
  exists r calls, forall fuel, (S (r_maxit P) <= fuel)%nat -> rm_loop env fuel P f Xs ys wx st = (calls, Some r).
Proof.
  intros A HA env P f Xs ys wx st Hl.
  destruct (loop_terminates env P f Xs ys wx (S (r_maxit P)) st) as [Hs _]; [lia|lia|].
  destruct (rm_loop env (S (r_maxit P)) P f Xs ys wx st) as [calls [r|]] eqn:E; [|cbn in Hs; congruence].
  exists r, calls. intros fuel Hf. eapply loop_fuel; eauto.
Qed.
Lemma C40_small_l : forall {A} `{Num A} (env : rm_env A) P X y m, (r_maxit P <= 1)%nat -> rm_fit env P X y <> Ok m.
Proof.
  intros A HA env P X y m Hm E.
  apply rm_fit_inv in E as (f & st1 & Xs & st2 & Ys & mX & sX & my & sy & st & calls & _ & _ & _ & _ & _ & _ & _ & _ & _ & El & Ef).
  rewrite loop_none in El.
  - injection El as _ <-. apply rm_finish_inv in Ef as (b & Eb & _). discriminate.
  - cbn [start_state l_loops]. destruct (Nat.ltb_spec 1 (r_maxit P)); [lia|]. apply andb_false_r.
Qed.

(* ------------------------------------------------------------------ *)
(** * Running a fit with plain options *)
Lemma check_valid : forall P : rm_par R, ~ invalid_rm P -> exists f, r_fun P = Some f /\ rm_check P = Ok f.
Proof.
  intros P Hi. unfold rm_check. destruct (r_fun P) as [f|] eqn:Ef; [|exfalso; apply Hi; left; auto]. exists f. split; auto. rnum.
  assert (Hp1 : 0 < r_p1 P <= 1).
  { destruct (Rlt_dec 0 (r_p1 P)), (Rle_dec (r_p1 P) 1); try (split; assumption); exfalso; apply Hi; right; left; lra. }
  replace (Rltb 1 (r_p1 P)) with false by (symmetry; apply Rltb_false; lra).
  replace (Rleb (r_p1 P) 0) with false by (symmetry; apply Rleb_false; lra). cbn [orb]. destruct f; auto.
  destruct (Rltb (r_p1 P) (r_p2 P)) eqn:E1, (Rltb (r_p2 P) (r_p3 P)) eqn:E2, (Rleb (r_p3 P) 1) eqn:E3; cbn [andb negb]; auto;
    exfalso; apply Hi; right; right; split; auto; rcmp_all; lra.
Qed.
Lemma check_invalid : forall P : rm_par R, invalid_rm P -> rm_check P = Err MyException.
Proof.
  intros P Hi. unfold rm_check. destruct (r_fun P) as [f|] eqn:Ef; auto. rnum.
  destruct (Rltb 1 (r_p1 P)) eqn:E1; auto. destruct (Rleb (r_p1 P) 0) eqn:E2; auto. cbn [orb]. rcmp_all.
  destruct Hi as [Hi|[Hi|[Hf Hi]]]; [congruence|exfalso; apply Hi; lra|]. rewrite Ef in Hf. injection Hf as ->.
  destruct (Rltb (r_p1 P) (r_p2 P)) eqn:F1, (Rltb (r_p2 P) (r_p3 P)) eqn:F2, (Rleb (r_p3 P) 1) eqn:F3; auto. rcmp_all. exfalso; apply Hi; lra.
Qed.

Lemma row_scale_wf : forall n p (X : list (list R)) u, wf n p X -> length u = n -> wf n p (row_scale u X).
Proof.
  intros n p X u [HX HF] Hu. unfold row_scale. split; [rewrite map2_length_eq; lia|].
  rewrite Forall_forall in *. intros r Hr. apply (In_nth _ _ []) in Hr as (i & Hi & <-). rewrite map2_length_eq in Hi by lia.
  rewrite (nth_map2 _ _ _ i 0 [] []) by lia. unfold vscale. rewrite map_length. apply HF. apply nth_In. lia.
Qed.

(** all runs with valid parameters, plain options and matching data *)
Lemma rm_run_plain : forall (env : rm_env R) P n p X y, ~ invalid_rm P -> is_matrix n p X -> (2 <= n)%nat -> (1 <= p)%nat -> length y = n ->
  plain_centre (r_centre P) -> plain_scale (r_scale P) ->
  exists f Xs y0 mX sX my sy st2 calls r,
    r_fun P = Some f /\ is_matrix n p Xs /\ length y0 = n /\ length sX = p /\
    sc_center st2 = r_centre P /\ sc_trimming st2 = 0 /\
    rm_loop env (S (r_maxit P)) P f Xs y0 (start_wx env P f p Xs) (start_state env P f (start_wx env P f p Xs) y y0) = (calls, Some r) /\
    rm_fit env P X y = match r with Ok st => rm_finish env P X Xs y y0 (start_wx env P f p Xs) mX sX my sy st2 st | Err e => Err e end.
Proof.
  intros env P n p X y Hv HX Hn Hp Hy Hc Hs.
  destruct (check_valid P Hv) as (f & Hf & Hck).
  assert (Hnc : ncols X = p) by (apply (wf_ncols n p); auto; lia).
  destruct (ft_plain (re_prep env) (new_scaler (r_centre P) (r_scale P) 0) n p (A2 X) X) as (st1 & Xs & mX & sX & E1 & W1 & L1 & S1 & HmX & HsX & C1 & D1 & T1); auto.
  { apply (check_input_id n p); auto. }
  destruct (ft_plain (re_prep env) st1 n 1 (A1 y) (as_column y)) as (st2 & Ys & my & sy & E2 & W2 & L2 & S2 & _ & _ & C2 & D2 & T2); auto.
  { apply check_A1; lia. } { rewrite <- Hy. apply as_column_wf. } { rewrite C1; auto. } { rewrite D1; auto. }
  destruct (C40_terminates_l env P f Xs (col 0 Ys) (start_wx env P f p Xs) (start_state env P f (start_wx env P f p Xs) y (col 0 Ys))) as (r & calls & Hl); [cbn; lia|].
  specialize (Hl (S (r_maxit P)) (le_n _)).
  exists f, Xs, (col 0 Ys), mX, sX, my, sy, st2, calls, r. split; auto. split; auto.
  split; [rewrite col_length; apply (wf_length _ _ _ W2)|]. split; auto. split; [cbn in C1; congruence|]. split; auto. split; auto.
  unfold rm_fit, rm_run. rewrite Hck.
  destruct (Nat.eqb_spec (length y) (length X)) as [_|Hd]; [|exfalso; apply Hd; rewrite (wf_length _ _ _ HX); auto]. cbn [negb].
  destruct (Nat.eqb_spec (length X) 1) as [Hd|_]; [rewrite (wf_length _ _ _ HX) in Hd; lia|]. cbn [andb].
  change (@n0 R Num_R) with 0. rewrite E1, E2, L1, S1, L2, S2, Hnc. cbv zeta.
  unfold start_wx, start_state in Hl |- *. rewrite Hl. cbn [snd]. destruct r; reflexivity.
Qed.

Lemma finish_plain : forall (env : rm_env R) P n p X Xs y y0 mX sX my sy st2 st f, is_matrix n p X -> is_matrix n p Xs -> (2 <= n)%nat -> (1 <= p)%nat ->
  length y = n -> length y0 = n -> length sX = p -> plain_centre (r_centre P) -> sc_center st2 = r_centre P -> sc_trimming st2 = 0 ->
  length (l_sw st) = n -> l_b st <> None -> ~ (r_scale P = SNone /\ r_centre P <> CMean) ->
  exists m, rm_finish env P X Xs y y0 (start_wx env P f p Xs) mX sX my sy st2 st = Ok m.
Proof.
  intros env P n p X Xs y y0 mX sX my sy st2 st f HX HXs Hn Hp Hy Hy0 HsX Hc C2 T2 Hsw Hb Hex. unfold rm_finish.
  destruct (l_b st) as [b|]; [|congruence].
  destruct (ft_plain (re_prep env) (sc_set_params st2 None (Some SNone) None) n p (A2 (row_scale (map nsqrt (l_sw st)) Xs)) (row_scale (map nsqrt (l_sw st)) Xs))
    as (st3 & Z & m3 & s3 & E3 & _); auto.
  { apply (check_input_id n p); auto. apply row_scale_wf; auto. rewrite map_length; auto. }
  { apply row_scale_wf; auto. rewrite map_length; auto. }
  { cbn. rewrite C2. auto. } { cbn. right; right; reflexivity. }
  rewrite E3. cbn [snd]. cbv zeta. rewrite (wf_ncols n p) by (auto; lia). rewrite HsX, Nat.eqb_refl. cbn [negb].
  destruct (r_scale P); try (cbn [bind]; eauto; fail).
  destruct (r_centre P); cbn [bind]; eauto; exfalso; apply Hex; split; auto; discriminate.
Qed.

Lemma loop_sw_length : forall (env : rm_env R) P f Xs ys wx fuel st st' calls n, length Xs = n -> length ys = n -> length wx = n -> length (l_sw st) = n ->
  rm_loop env fuel P f Xs ys wx st = (calls, Some (Ok st')) -> length (l_sw st') = n.
Proof.
  intros env P f Xs ys wx fuel. induction fuel as [|k IH]; intros st st' calls n HX Hy Hw Hs E; [discriminate|]. cbn [rm_loop] in E.
  destruct (_ && _); [|injection E as <- <-; auto]. destruct (re_lstsq env _ _) as [b|e]; [|discriminate].
  destruct (rm_body _ _ _ _ _ _ _ st b) as [st1 brk] eqn:Eb.
  assert (H1 : length (l_sw st1) = n).
  { unfold rm_body in Eb. destruct (_ <=? _)%nat; injection Eb as <- _; cbn [l_sw]; auto.
    rewrite map_length. unfold floor_w. rewrite set_idx_length. unfold vmul. rewrite map2_length, mweights_length, std_resid_length.
    unfold vsub. rewrite map2_length. unfold matvec. rewrite map_length. lia. }
  destruct brk; [injection E as <- <-; auto|].
  destruct (rm_loop env k P f Xs ys wx st1) as [cs r'] eqn:E'. injection E as <- ->. eapply IH; [| | | |exact E']; auto.
Qed.

Definition solver_total (env : rm_env R) : Prop := forall Xw yw, exists b, re_lstsq env Xw yw = Ok b.

Lemma start_sw_length : forall (env : rm_env R) P f n p Xs y y0, is_matrix n p Xs -> length y = n -> length y0 = n ->
  length (start_wx env P f p Xs) = n /\ length (l_sw (start_state env P f (start_wx env P f p Xs) y y0)) = n.
Proof.
  intros env P f n p Xs y y0 HXs Hy Hy0.
  assert (H1 : length (start_wx env P f p Xs) = n).
  { unfold start_wx. rewrite mweights_length. unfold start_dx. rewrite !map_length. apply (wf_length _ _ _ HXs). }
  split; auto. unfold start_state. cbn [l_sw]. rewrite map_length. unfold floor_w. rewrite set_idx_length. unfold vmul.
  rewrite map2_length, mweights_length, H1. unfold start_dy. destruct (r_centre P), (r_scale P); cbv zeta; rewrite map_length; lia.
Qed.

Lemma C42_supported_l : forall (env : rm_env R) P n p X y, ~ invalid_rm P -> is_matrix n p X -> (2 <= n)%nat -> (1 <= p)%nat -> length y = n ->
  plain_centre (r_centre P) -> plain_scale (r_scale P) -> ~ (r_scale P = SNone /\ r_centre P <> CMean) ->
  (2 <= r_maxit P)%nat -> r_tol P < 1 -> solver_total env -> exists m, rm_fit env P X y = Ok m.
Proof.
  intros env P n p X y Hv HX Hn Hp Hy Hc Hs Hex Hmx Htol Hsol.
  destruct (rm_run_plain env P n p X y) as (f & Xs & y0 & mX & sX & my & sy & st2 & calls & r & Hf & WX & Hy0 & HsX & C2 & T2 & El & E); auto.
  rewrite E. destruct (start_sw_length env P f n p Xs y y0 WX Hy Hy0) as [Hwx Hsw].
  destruct r as [st|e]; [|apply loop_err in El as (Xw & yw & Ee); destruct (Hsol Xw yw) as [b Eb]; congruence].
  apply (finish_plain env P n p X Xs y y0 mX sX my sy st2 st f); auto.
  - eapply loop_sw_length; [| | | |exact El]; auto. apply (wf_length _ _ _ WX).
  - apply loop_entered in El.
    + destruct El as (b & -> & _). discriminate.
    + cbn [start_state l_diff l_loops]. rnum. apply andb_true_iff. split; [apply Rltb_true; auto|apply Nat.ltb_lt; lia].
Qed.
Lemma C42_unusable_l : forall {A} `{Num A} (env : rm_env A) P X y m, r_scale P = SNone -> r_centre P <> CMean -> rm_fit env P X y <> Ok m.
Proof.
  intros A HA env P X y m Hs Hc E.
  apply rm_fit_inv in E as (f & st1 & Xs & st2 & Ys & mX & sX & my & sy & st & calls & _ & _ & _ & _ & _ & _ & _ & _ & _ & _ & Ef).
  apply rm_finish_inv in Ef as (b & _ & _ & Ef). cbv zeta in Ef. rewrite Hs in Ef.
  destruct Ef as (_ & _ & _ & _ & _ & _ & _ & _ & _ & _ & _ & _ & Hcc & _). congruence.
Qed.
(** the error is UnboundLocalError *)
Lemma C42_error_l : forall (env : rm_env R) P n p X y, ~ invalid_rm P -> is_matrix n p X -> (2 <= n)%nat -> (1 <= p)%nat -> length y = n ->
  plain_centre (r_centre P) -> r_scale P = SNone -> r_centre P <> CMean -> solver_total env ->
  rm_fit env P X y = Err UnboundLocalError.
Proof.
  intros env P n p X y Hv HX Hn Hp Hy Hc Hs Hex Hsol.
  destruct (rm_run_plain env P n p X y) as (f & Xs & y0 & mX & sX & my & sy & st2 & calls & r & Hf & WX & Hy0 & HsX & C2 & T2 & El & E); auto.
  { rewrite Hs. right; right; auto. }
  rewrite E. destruct (start_sw_length env P f n p Xs y y0 WX Hy Hy0) as [Hwx Hsw].
  destruct r as [st|e]; [|apply loop_err in El as (Xw & yw & Ee); destruct (Hsol Xw yw) as [b Eb]; congruence].
  assert (Hst : length (l_sw st) = n) by (eapply loop_sw_length; [| | | |exact El]; auto; apply (wf_length _ _ _ WX)).
  unfold rm_finish. destruct (l_b st) as [b|]; auto.
  destruct (ft_plain (re_prep env) (sc_set_params st2 None (Some SNone) None) n p (A2 (row_scale (map nsqrt (l_sw st)) Xs)) (row_scale (map nsqrt (l_sw st)) Xs))
    as (st3 & Z & m3 & s3 & E3 & _); auto.
  { apply (check_input_id n p); auto. apply row_scale_wf; auto. rewrite map_length; auto. }
  { apply row_scale_wf; auto. rewrite map_length; auto. }
  { cbn. rewrite C2. auto. } { cbn. right; right; reflexivity. }
  rewrite E3. cbn [snd]. cbv zeta. rewrite (wf_ncols n p) by (auto; lia). rewrite HsX, Nat.eqb_refl. cbn [negb]. rewrite Hs.
  destruct Hc as [Hc|[Hc|Hc]]; rewrite Hc in *; cbn [bind]; congruence.
Qed.

(* ------------------------------------------------------------------ *)
(** * C41 *)
Lemma C41_l : forall (env : rm_env R) P n p X y, is_matrix n p X -> (2 <= n)%nat -> (1 <= p)%nat ->
  plain_centre (r_centre P) -> plain_scale (r_scale P) -> (forall Xw yw, re_lstsq env Xw yw <> Err MyException) ->
  (rm_fit env P X y = Err MyException <-> invalid_rm P \/ length y <> n).
Proof.
  intros env P n p X y HX Hn Hp Hc Hs Hl. assert (HlX := wf_length _ _ _ HX). split.
  - intros E. destruct (Nat.eq_dec (length y) n) as [Hy|]; [|right; auto]. left.
    assert (Hdec : invalid_rm P \/ ~ invalid_rm P) by apply Classical_Prop.classic. destruct Hdec as [|Hv]; auto. exfalso.
    destruct (rm_run_plain env P n p X y) as (f & Xs & y0 & mX & sX & my & sy & st2 & calls & r & Hf & WX & Hy0 & HsX & C2 & T2 & El & E'); auto.
    rewrite E' in E. destruct (start_sw_length env P f n p Xs y y0 WX Hy Hy0) as [Hwx Hsw].
    destruct r as [st|e]; [|apply loop_err in El as (Xw & yw & Ee); injection E as ->; apply (Hl Xw yw); auto].
    assert (Hst : length (l_sw st) = n) by (eapply loop_sw_length; [| | | |exact El]; auto; apply (wf_length _ _ _ WX)).
    unfold rm_finish in E. destruct (l_b st) as [b|]; [|discriminate].
    destruct (ft_plain (re_prep env) (sc_set_params st2 None (Some SNone) None) n p (A2 (row_scale (map nsqrt (l_sw st)) Xs)) (row_scale (map nsqrt (l_sw st)) Xs))
      as (st3 & Z & m3 & s3 & E3 & _); auto.
    { apply (check_input_id n p); auto. apply row_scale_wf; auto. rewrite map_length; auto. }
    { apply row_scale_wf; auto. rewrite map_length; auto. }
    { cbn. rewrite C2. auto. } { cbn. right; right; reflexivity. }
    rewrite E3 in E. cbn [snd] in E. cbv zeta in E. rewrite (wf_ncols n p) in E by (auto; lia). rewrite HsX, Nat.eqb_refl in E. cbn [negb] in E.
    destruct (r_scale P), (r_centre P); discriminate.
  - intros [Hi|Hy].
    + unfold rm_fit, rm_run. rewrite (check_invalid P Hi). reflexivity.
    + destruct (rm_check P) as [f|e] eqn:Ec.
      * unfold rm_fit, rm_run. rewrite Ec. destruct (Nat.eqb_spec (length y) (length X)); [lia|reflexivity].
      * unfold rm_fit, rm_run. rewrite Ec. cbn [snd]. unfold rm_check in Ec.
        destruct (r_fun P); [|injection Ec as <-; auto]. destruct (_ || _); [injection Ec as <-; auto|]. destruct m; try discriminate.
        destruct (negb _); [injection Ec as <-; auto|discriminate].
Qed.

(* ------------------------------------------------------------------ *)
(** * C43 *)
Lemma centred_mean : forall e : list R, e <> [] -> sum_of (map (fun r => r - vmean e) e) = 0.
Proof.
  intros e He. change sum_of with (@vsum R Num_R). rewrite vsum_map_sumn with (d := 0). rewrite sumn_minus, sumn_const, <- vsum_sumn.
  unfold vmean. rnum. rewrite nnat_R. field. apply not_0_INR. destruct e; [congruence|discriminate].
Qed.
Lemma centred_median : forall e : list R, e <> [] -> is_median (map (fun r => r - vmedian e) e) 0.
Proof.
  intros e He. apply is_median_iff; [destruct e; [congruence|discriminate]|].
  rewrite (map_ext (fun r => r - vmedian e) (fun r => 1 * r + - vmedian e)) by (intros; ring).
  rewrite vmedian_affine by auto. ring.
Qed.
Lemma np_median_R : forall v : list R, np_median v = vmedian v.
Proof. intros v. unfold np_median. rewrite vanynan_R. reflexivity. Qed.
Lemma resid_map : forall (y yp : list R) i, length y = length yp ->
  vsub y (map (fun v => v + i) yp) = map (fun r => r - i) (vsub y yp).
Proof.
  intros y. induction y as [|a y IH]; intros [|b yp] i E; try discriminate; [reflexivity|].
  cbn. f_equal; [ring|]. apply IH. cbn in E. lia.
Qed.
Lemma dot_ones : forall (r s b : list R), length r = length s -> Forall (fun v => v = 1) s ->
  dot r (map2 (fun sx bj => 1 / sx * bj) s b) = dot r b.
Proof.
  intros r. induction r as [|a r IH]; intros [|s0 s] b E Hs; try discriminate; [reflexivity|].
  destruct b as [|b0 b]; [reflexivity|]. inversion Hs; subst.
  change (a * (1 / 1 * b0) + dot r (map2 (fun sx bj => 1 / sx * bj) s b) = a * b0 + dot r b).
  rewrite (IH s b) by (auto; cbn in E; lia). field.
Qed.
Lemma C43_l : forall (env : rm_env R) P n p X y m, is_matrix n p X -> (2 <= n)%nat -> (1 <= p)%nat ->
  rm_fit env P X y = Ok m -> r_copy P = true ->
  rm_predict m (A2 X) = Ok (rm_fitted m) /\ length (rm_fitted m) = n /\ length (rm_resid m) = n /\
  (forall i, (i < n)%nat -> nth i (rm_fitted m) 0 + nth i (rm_resid m) 0 = nth i y 0) /\
  (r_centre P = CMean -> sum_of (rm_resid m) = 0) /\ (r_centre P <> CMean -> is_median (rm_resid m) 0).
Proof.
  intros env P n p X y m HX Hn Hp E Hcp.
  apply rm_fit_inv in E as (f & st1 & Xs & st2 & Ys & mX & sX & my & sy & st & calls & Hchk & Hly & H1 & Ex & Ey & EmX & EsX & Emy & Esy & El & Ef).
  apply rm_finish_inv in Ef as (b & Eb & HsX & Ef). cbv zeta in Ef.
  set (bres := map2 _ sX b) in Ef. assert (HlX := wf_length _ _ _ HX).
  assert (Hnc : ncols X = p) by (apply (wf_ncols n p); auto; lia).
  destruct Ef as (Ep & Eco & Ecs & Efi & Ere & _ & _ & _ & _ & _ & _ & _ & Ei). rewrite Hcp in Ep.
  assert (Hlp : length (matvec X bres) = n) by (rewrite matvec_length; auto).
  set (e := vsub y (matvec X bres)) in *.
  assert (Hle : length e = n) by (unfold e; rewrite vsub_length; lia).
  assert (Hne : e <> []) by (destruct e; [cbn in Hle; lia|discriminate]).
  set (ic := match r_centre P with CMean => vmean e | _ => np_median e end) in *.
  assert (Eic : rm_intercept m = ic).
  { destruct (r_scale P) eqn:Esc; try (apply Ei).
    destruct Ei as (Hc & Ei & _). rewrite Ei. unfold ic. rewrite Hc. unfold e. f_equal. f_equal.
    apply map_ext_in. intros r Hr. unfold bres.
    apply ft_inv in Ex as (m1 & s1 & _ & F1 & _ & _ & _ & _ & F2 & F3 & F4 & _). cbn [new_scaler sc_scale sc_center] in F1, F3, F4.
    apply ft_inv in Ey as (m2 & s2 & _ & G1 & _ & _ & _ & _ & G2 & _).
    rewrite F4 in G1. try rewrite Esc in F1; try rewrite Esc in G1. cbn [scale_est] in F1, G1. apply Ok_inj in F1, G1.
    rewrite EsX in F2. injection F2 as ->. rewrite Esy in G2. injection G2 as ->. subst s1 s2.
    assert (Hsy : nth 0 (repeat (@n1 R Num_R) (ncols (check_input (A1 y)))) (@n0 R Num_R) = 1).
    { rewrite check_A1 by lia. destruct y; [cbn in Hly; lia|]. reflexivity. }
    rewrite Hsy. rnum. symmetry. apply dot_ones.
    - rewrite HsX, Hnc. destruct HX as [_ HF]. rewrite Forall_forall in HF. apply HF; auto.
    - apply Forall_forall. intros v Hv. apply repeat_spec in Hv. exact Hv. }
  assert (Hfl : length (rm_fitted m) = n) by (rewrite Efi, map_length; auto).
  split. { unfold rm_predict, predict_check_input. rewrite Ep, Nat.eqb_refl. cbn [negb]. rewrite Eco, Eic, Efi. reflexivity. }
  split; auto. split; [rewrite Ere; rewrite vsub_length; rewrite ?map_length; lia|].
  split. { intros i Hi. rewrite Ere, nth_vsub by (rewrite ?map_length; lia). rewrite <- Efi. ring. }
  assert (Hr : rm_resid m = map (fun r => r - ic) e) by (rewrite Ere; apply resid_map; lia).
  rewrite Hr. split.
  - intros Hc. unfold ic. rewrite Hc. apply centred_mean; auto.
  - intros Hc. replace ic with (vmedian e); [apply centred_median; auto|]. unfold ic. rewrite np_median_R. destruct (r_centre P); congruence.
Qed.

(* ------------------------------------------------------------------ *)
(** * C44 *)
Definition rm_scaled (env : rm_env R) P (X : list (list R)) (y : list R) X0 y0 : Prop :=
  scaled_by (re_prep env) (r_centre P) (r_scale P) X X0 /\ scaled_by (re_prep env) (r_centre P) (r_scale P) (as_column y) (as_column y0).
(** all differences y_j - q_i *)
Definition all_differences (y q : list R) : list R := flat_map (fun b => map (fun a => a - b) y) q.

Lemma C44_common : forall (env : rm_env R) P n p X y m X0 y0, is_matrix n p X -> (2 <= n)%nat -> (1 <= p)%nat -> length y = n ->
  rm_scaled env P X y X0 y0 -> rm_fit env P X y = Ok m -> r_scale P <> SNone ->
  rm_intercept_scaled m = (match r_centre P with CMean => vmean | _ => vmedian end) (all_differences y0 (matvec X0 (rm_coef_scaled m))) /\
  length y0 = n /\ length (matvec X0 (rm_coef_scaled m)) = n.
Proof.
  intros env P n p X y m X0 y0 HX Hn Hp Hy [[s1 S1] [s2 S2]] E Hsc.
  apply rm_fit_inv in E as (f & st1 & Xs & st2 & Ys & mX & sX & my & sy & st & calls & Hchk & Hly & H1 & Ex & Ey & EmX & EsX & Emy & Esy & El & Ef).
  apply rm_finish_inv in Ef as (b & Eb & HsX & Ef). cbv zeta in Ef. destruct Ef as (_ & _ & Ecs & _ & _ & _ & _ & _ & _ & _ & _ & _ & Ei).
  change (@n0 R Num_R) with 0 in Ex. rewrite S1 in Ex. injection Ex as -> ->.
  assert (Hcol : as_column y0 = Ys).
  { apply ft_inv in S1 as F. destruct F as (_ & _ & _ & _ & _ & _ & _ & _ & _ & C1 & D1 & T1).
    destruct (ft_same (re_prep env) st1 (new_scaler (r_centre P) (r_scale P) 0) st2 (A1 y) (A2 (as_column y)) Ys) as [s3 E3]; auto.
    - rewrite check_A1 by lia. symmetry. apply (check_input_id n 1); auto. rewrite <- Hy. apply as_column_wf.
    - rewrite S2 in E3. congruence. }
  subst Ys. rewrite col_as_column in *. rewrite Ecs.
  assert (W0 : wf n p Xs) by (eapply scaled_wf; eauto; exists st1; exact S1).
  assert (Hy0 : length y0 = n).
  { assert (W1 : wf n 1 (as_column y0)) by (eapply scaled_wf; [|exact Hn|exists s2; exact S2]; rewrite <- Hy; apply as_column_wf).
    destruct W1 as [W1 _]. unfold as_column in W1. rewrite map_length in W1. auto. }
  split; [|split; [auto|rewrite matvec_length; apply (wf_length _ _ _ W0)]].
  destruct (r_scale P); try congruence; destruct Ei as [_ ->]; unfold all_differences; destruct (r_centre P); rewrite ?np_median_R; reflexivity.
Qed.
Lemma flat_sum : forall y q : list R, vsum (all_differences y q) = INR (length q) * vsum y - INR (length y) * vsum q.
Proof.
  intros y q. induction q as [|b q IH]; [cbn; ring|]. unfold all_differences in *. cbn [flat_map]. rewrite vsum_app, IH.
  rewrite (vsum_map_sumn (fun a => a - b) y 0), sumn_minus, sumn_const, <- vsum_sumn. cbn [length]. rewrite S_INR.
  change (vsum (b :: q)) with (b + vsum q). ring.
Qed.
Lemma flat_length : forall y q : list R, length (all_differences y q) = (length q * length y)%nat.
Proof. intros y q. unfold all_differences. induction q as [|b q IH]; [reflexivity|]. cbn [flat_map]. rewrite app_length, IH, map_length. cbn. lia. Qed.

Lemma C44_mean_l : forall (env : rm_env R) P n p X y m X0 y0, is_matrix n p X -> (2 <= n)%nat -> (1 <= p)%nat -> length y = n ->
  rm_scaled env P X y X0 y0 -> rm_fit env P X y = Ok m -> r_scale P <> SNone -> r_centre P = CMean ->
  rm_intercept_scaled m = mean_of (vdiff y0 (fitted_by X0 (rm_coef_scaled m))).
Proof.
  intros env P n p X y m X0 y0 HX Hn Hp Hy Hsc E Hs Hc.
  destruct (C44_common env P n p X y m X0 y0) as (Ei & Hl & Hq); auto. rewrite Ei, Hc. unfold vmean. rnum. rewrite flat_sum, flat_length, nnat_R, mult_INR, Hl, Hq.
  rewrite vdiff_vsub. rewrite fitted_by_matvec.
  unfold mean_of. change sum_of with (@vsum R Num_R). rewrite vsub_length by lia. rewrite Hl.
  rewrite (vsum_sumn (vsub _ _)), vsub_length by lia. rewrite Hl.
  rewrite (sumn_ext n (fun i => nth i (vsub y0 (matvec X0 (rm_coef_scaled m))) 0) (fun i => nth i y0 0 - nth i (matvec X0 (rm_coef_scaled m)) 0)).
  2:{ intros i Hi. apply nth_vsub; lia. }
  rewrite sumn_minus. rewrite (vsum_sumn y0), (vsum_sumn (matvec X0 _)), Hl, Hq. field. apply not_0_INR; lia.
Qed.
Lemma C44_median_l : forall (env : rm_env R) P n p X y m X0 y0, is_matrix n p X -> (2 <= n)%nat -> (1 <= p)%nat -> length y = n ->
  rm_scaled env P X y X0 y0 -> rm_fit env P X y = Ok m -> r_scale P <> SNone -> r_centre P <> CMean ->
  is_median (all_differences y0 (fitted_by X0 (rm_coef_scaled m))) (rm_intercept_scaled m).
Proof.
  intros env P n p X y m X0 y0 HX Hn Hp Hy Hsc E Hs Hc.
  destruct (C44_common env P n p X y m X0 y0) as (Ei & Hl & Hq); auto.
  rewrite fitted_by_matvec.
  apply is_median_iff.
  - intros E0. apply (f_equal (@length R)) in E0. rewrite flat_length, Hl, Hq in E0. cbn in E0. nia.
  - rewrite Ei. destruct (r_centre P); congruence.
Qed.

(* ------------------------------------------------------------------ *)
(** * C90: an infinite upper cut-off *)
Lemma C90_l : forall c b x i v, 1 <= c -> c < b -> (i < length x)%nat -> nth i x NaN = Fin v -> b < v ->
  nth i (Hampel x (Fin c) (Fin b) PInf) NaN = NaN.
Proof.
  intros c b x i v Hc Hb Hi Ev Hv. change (Hampel x (Fin c) (Fin b) PInf) with (mweights MHampel (Fin c) (Fin b) PInf x).
  rewrite mweights_map_XR, (nth_map_lt _ _ _ NaN) by auto. rewrite Ev. cbn [mw1X]. xnum. rewrite !XRleb_Fin.
  replace (Rleb v c) with false by (symmetry; apply Rleb_false; lra). cbv zeta. cbn [XRltb]. rewrite XRleb_Fin.
  replace (Rltb c v) with true by (symmetry; apply Rltb_true; lra). cbn [andb].
  replace (Rleb v b) with false by (symmetry; apply Rleb_false; lra). cbn [XRltb].
  replace (Rltb b v) with true by (symmetry; apply Rltb_true; lra). cbn [andb]. unfold XRleb. cbn [XRltb orb XRsub XRadd XRopp XRmul XRabs].
  unfold XRsgninf. destruct (Rlt_dec 0 c); [|lra]. rewrite Rabs_right by lra. destruct (Rlt_dec 0 v); [|lra]. reflexivity.
Qed.
Lemma C90_full_l :
  (forall P : rm_par R, r_fun P = Some MHampel -> 0 < r_p1 P < r_p2 P -> r_p2 P < 1 -> r_p3 P = 1 -> rm_check P = Ok MHampel) /\
  (forall c b x i v, 1 <= c -> c < b -> (i < length x)%nat -> nth i x NaN = Fin v -> b < v ->
    nth i (Hampel x (Fin c) (Fin b) PInf) NaN = NaN).
Proof.
  split; [|exact C90_l]. intros P Hf H1 H2 H3. destruct (check_valid P) as (f & Ef & E); [|congruence].
  intros [Hi|[Hi|[_ Hi]]]; [congruence| |]; apply Hi; lra.
Qed.
