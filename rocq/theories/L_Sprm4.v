(** Lemmas about sprm, continued: totality, training data, refitting, names. *)

From Coq Require Import Reals String List Arith ZArith Bool Lia Lra Permutation.
Import ListNotations.
From Verif Require Import Num Err Vec VecR OrdR L_Mat S_Stats S_Weights L_Stats M_Utils M_Preproc M_Robcent M_Msupport M_Rm M_Plot M_Snipls S_Rm
  L_Lin L_Matmul L_Deflate L_Scaling L_Scaling2 L_Preproc L_Missing L_Msupport S_Regress L_Snipls L_Snipls2 L_Snipls3 L_Rm L_Rm2 M_Sprm S_Sprm L_Sprm L_Sprm2 L_Sprm3.
Open Scope R_scope.

(* ------------------------------------------------------------------ *)
(** * The inner fit fails only where the inverse routine does *)
Lemma scaled_total : forall env c s n q Z, plain_centre c -> plain_scale s -> is_matrix n q Z -> (2 <= n)%nat -> (1 <= q)%nat ->
  exists m v Z0, scaled env c s Z = Ok (m, v, Z0) /\ length v = q /\ wf n q Z0.
Proof.
  intros env c s n q Z Hc Hs HZ Hn Hq. destruct (ft_plain env (new_scaler c s 0) n q (A2 Z) Z) as (st & Y & m & v & E & W & L & S1 & Hm & Hv & _); auto.
  { apply (check_input_id n q); auto. }
  exists m, v, Y. split; auto. unfold scaled. change (@n0 R Num_R) with 0. rewrite E, L, S1. reflexivity.
Qed.
Lemma snipls_errors : forall env inv eta k c s n p X y, is_matrix n p X -> (2 <= n)%nat -> (1 <= p)%nat -> length y = n ->
  plain_centre c -> plain_scale s ->
  (exists f, snipls_fit env inv eta k c s X y = Ok f) \/ (exists e M, snipls_fit env inv eta k c s X y = Err e /\ inv M = Err e).
Proof.
  intros env inv eta k c s n p X y HX Hn Hp Hy Hc Hs.
  destruct (scaled_total env c s n p X Hc Hs HX Hn Hp) as (mX & sX & X0 & E1 & L1 & W1).
  destruct (scaled_total env c s n 1%nat (as_column y) Hc Hs) as (my & sy & Y0 & E2 & L2 & W2); auto. { rewrite <- Hy; apply as_column_wf. }
  unfold snipls_fit. rewrite (wf_ncols n p) by (auto; lia). rewrite (wf_length _ _ _ HX). destruct (Nat.eqb_spec n 1) as [|Hn1]; [lia|]. cbn [andb].
  rewrite Hy, Nat.eqb_refl. cbn [negb]. rewrite E1. cbn [bind]. unfold as_column in E2. rewrite E2. cbn [bind]. cbv zeta. rewrite L1, Nat.eqb_refl. cbn [negb].
  destruct (snipls_loop _ _ _ _ _ _ _ _) as [|c0 l]; [left; cbn [bind]; eauto|].
  destruct (inv (matmul (transpose _) _)) as [PWi|e] eqn:F1; [|right; exists e; eexists; cbn [bind]; split; [reflexivity|exact F1]]. cbn [bind].
  destruct (inv (matmul (matmul _ _) _)) as [Gi|e] eqn:F2; [|right; exists e; eexists; cbn [bind]; split; [reflexivity|exact F2]]. cbn [bind]. left. eauto.
Qed.
Lemma snipls_T_wf : forall env inv eta k c s n p X y f, is_matrix n p X -> (2 <= n)%nat -> (1 <= p)%nat -> length y = n ->
  snipls_fit env inv eta k c s X y = Ok f -> wf n k (sn_T f).
Proof.
  intros env inv eta k c s n p X y f HX Hn Hp Hy Hf.
  destruct (fit_inv env inv eta k c s n p X y f) as (X0 & y0 & B & Rw & T & S1 & S2 & _); auto.
  pose proof (fit_attrs env inv eta k c s n p X y f X0 y0 HX Hn Hp Hy Hf S1 S2) as (HT & _).
  pose proof (l_length env eta k c s n p X y X0 y0 HX Hn Hp Hy S1 S2) as Hl.
  set (l := comps_of eta k X0 y0) in *.
  destruct Hl as [Hl|[Hl Hk]].
  - destruct l as [|c0 l'] eqn:El.
    + cbn in Hl. subst k. destruct HT as (_ & _ & ->). apply (wf_of_cols n (repeat (vzeros (A:=R) n) 0)).
    + destruct HT as (PWi & Gi & _ & _ & _ & _ & ->). rewrite <- Hl, <- (map_length c_t). apply wf_of_cols.
  - rewrite Hl in HT. destruct HT as (_ & _ & ->). rewrite <- (repeat_length (vzeros (A:=R) n) k) at 1. apply wf_of_cols.
Qed.
Lemma colret_bound : forall env inv eta k c s n p X y f g, is_matrix n p X -> (2 <= n)%nat -> (1 <= p)%nat -> length y = n ->
  snipls_fit env inv eta k c s X y = Ok f -> sn_colret f = Some g -> forall j, In j g -> (j < p)%nat.
Proof.
  intros env inv eta k c s n p X y f g HX Hn Hp Hy Hf Hg j Hj.
  destruct (fit_inv env inv eta k c s n p X y f) as (X0 & y0 & B & Rw & T & S1 & S2 & _); auto.
  pose proof (colret_eq env inv eta k c s n p X y f X0 y0 HX Hn Hp Hy Hf S1 S2) as Hc.
  pose proof (l_facts env eta k c s n p X y X0 y0 HX Hn Hp Hy S1 S2) as HF.
  pose proof (nth_ret env inv eta k c s n p X y f X0 y0 HX Hn Hp Hy Hf S1 S2) as HR.
  cbv zeta in *. set (l := comps_of eta k X0 y0) in *. rewrite Hg in Hc. destruct (Nat.eqb_spec (length l) 0) as [|Hl]; [discriminate|].
  injection Hc as ->. rewrite HR in Hj. clear HR Hg.
  assert (Hall : forall i, (i < length l)%nat -> forall j, In j (c_good (nth i l sc0)) -> (j < p)%nat).
  { induction i as [i IH] using lt_wf_ind. intros Hi j' Hj'. destruct (HF i Hi) as (A1 & A2 & A3).
    destruct A3 as (A3 & _). apply A3 in Hj' as [Hj'|Hj'].
    - destruct i as [|i]; [destruct Hj'|]. cbn [gbefore] in Hj'. apply (IH i); auto; lia.
    - unfold L_Snipls.sel in Hj'. rewrite (tmatvec_length n p) in Hj' by (auto; lia). tauto. }
  apply (Hall (length l - 1)%nat ltac:(lia) j Hj).
Qed.

(* ------------------------------------------------------------------ *)
(** * C49: the supported options *)
Definition lin_or_ok {B} (env : sp_env R) (r : res B) : Prop := (exists b, r = Ok b) \/ (exists e, r = Err e /\ from_linalg env e).
Lemma lin_bind : forall {B C} env (x : res B) (g : B -> res C), lin_or_ok env x -> (forall b, x = Ok b -> lin_or_ok env (g b)) -> lin_or_ok env (bind x g).
Proof. intros B C env x g [[b ->]|(e & -> & He)] H; [apply H; auto|right; exists e; auto]. Qed.
Lemma lin_Ok : forall {B} env (b : B), lin_or_ok env (Ok b). Proof. left; eauto. Qed.

Lemma relcomp_total : forall sv : list R, sv <> [] -> 0 < sum_of (map (fun v => v * v) sv) ->
  exists rc, relcomp (map (fun v => ndiv v (vsum (map nsqr sv))) (map nsqr sv)) = Ok rc /\ (1 <= rc)%nat /\ (rc <= Nat.max (length sv - 1) 1)%nat.
Proof.
  intros sv Hne Hs. assert (E : map nsqr sv = map (fun v => v * v) sv) by (apply map_ext; intros; reflexivity).
  destruct (C29_l (map (fun v => ndiv v (vsum (map nsqr sv))) (map nsqr sv))) as (k & Ek & H1 & H2).
  - destruct sv; [congruence|discriminate].
  - rewrite E. change (@vsum R Num_R) with sum_of. set (t := sum_of _) in *. rnum.
    assert (Hsum : forall l, sum_of (map (fun v => v / t) l) = sum_of l / t).
    { induction l as [|a l IH]; cbn; [unfold Rdiv; ring|]. unfold sum_of in *. cbn. rewrite IH. unfold Rdiv. ring. }
    rewrite Hsum. unfold t. field. fold t. lra.
  - rewrite !map_length in H2. eauto.
Qed.
Lemma firstn_wf : forall n c rc (U : list (list R)), wf n c U -> (rc <= c)%nat -> wf n rc (map (firstn rc) U).
Proof.
  intros n c rc U [H1 H2] Hr. split; [rewrite map_length; auto|]. apply Forall_forall. intros r Hin. apply in_map_iff in Hin as (r' & <- & Hin).
  rewrite Forall_forall in H2. rewrite firstn_length, (H2 _ Hin). lia.
Qed.

Section Total.
  Variables (env : sp_env R) (P : sp_par R) (f : mfun) (k n p : nat) (Xs : list (list R)) (ys : list R) (cuts : R * R * R).
  Hypothesis HXs : is_matrix n p Xs.
  Hypothesis Hn : (2 <= n)%nat.
  Hypothesis Hp : (1 <= p)%nat.
  Hypothesis Hys : length ys = n.
  Hypothesis Hk : (1 <= k)%nat.
  Hypothesis Hc : plain_centre (s_centre P).
  Hypothesis Hs : plain_scale (s_scale P).
  Hypothesis Hnm : forall l, s_columns P = ColNames l -> (p <= length l)%nat.

  Lemma colret_total : forall Xw yw m, is_matrix n p Xw -> length yw = n ->
    snipls_fit (re_prep (se_rm env)) (se_inv env) (s_eta P) k CMean SNone Xw yw = Ok m -> exists cr, sp_colret_of (s_columns P) m = Ok cr.
  Proof.
    intros Xw yw m HXw Hyw Em. unfold sp_colret_of. destruct (sn_colret m) as [g|] eqn:Eg; [|eauto]. destruct (s_columns P) as [b|l] eqn:Ec; [eauto|].
    destruct (take_names_ok g l) as [l' El].
    - intros j Hj. specialize (Hnm l eq_refl). apply (colret_bound _ _ _ _ _ _ n p Xw yw m g HXw Hn Hp Hyw Em Eg) in Hj. lia.
    - rewrite El. cbn. eauto.
  Qed.
  Lemma pass_total : forall st, length (q_sw st) = n -> lin_or_ok env (pass env P f k cuts Xs ys st).
  Proof.
    intros st Hsw. unfold pass. assert (HXw : is_matrix n p (row_scale (q_sw st) Xs)) by (apply row_scale_wf; auto).
    assert (Hyw : length (vmul ys (q_sw st)) = n) by (rewrite vmul_length, Hys, Hsw; apply Nat.min_id).
    apply lin_bind.
    - destruct (snipls_errors (re_prep (se_rm env)) (se_inv env) (s_eta P) k CMean SNone n p (row_scale (q_sw st) Xs) (vmul ys (q_sw st))) as [[m E]|(e & M & E & F)]; auto.
      + left; reflexivity. + right; right; reflexivity. + left; eauto. + right. exists e. split; auto. left. eauto.
    - intros m Em. destruct (colret_total _ _ m HXw Hyw Em) as [cr Ecr]. rewrite Ecr. cbn [bind].
      pose proof (snipls_T_wf _ _ _ _ _ _ n p _ _ m HXw Hn Hp Hyw Em) as HT.
      unfold sp_body. set (T := map2 _ (q_sw st) (sn_T m)).
      assert (WT : wf n k T).
      { split; [unfold T; rewrite map2_length, (wf_length _ _ _ HT), Hsw; apply Nat.min_id|]. apply Forall_forall. intros r Hr.
        apply (In_nth _ _ []) in Hr as (i & Hi & <-). unfold T in *. rewrite map2_length in Hi.
        rewrite (nth_map2 _ _ _ i 0 []) by (destruct HT; lia). rewrite map_length. apply (wf_nth_row n k); auto. destruct HT; lia. }
      destruct (ft_plain (re_prep (se_rm env)) (new_scaler (s_centre P) (sp_tsc P) 0) n k (A2 T) T) as (st' & Z & m' & s' & E' & _); auto.
      { apply (check_input_id n k); auto. }
      { unfold sp_tsc. cbn. destruct Hs as [->|[->| ->]]; unfold plain_scale; auto. }
      change (@n0 R Num_R) with 0. rewrite E'. cbn [snd]. destruct cuts as [[c b] q]. cbv zeta. destruct (_ <=? _)%nat; apply lin_Ok.
  Qed.
  Lemma loop_total : forall fuel st, length (q_sw st) = n -> (s_maxit P + 1 - q_loops st <= fuel)%nat -> (1 <= fuel)%nat ->
    exists calls r, sp_loop env fuel P f k cuts Xs ys st = (calls, Some r) /\ lin_or_ok env r.
  Proof.
    assert (Hl : length Xs = n) by apply HXs.
    induction fuel as [|j IH]; intros st Hsw Hf H1; [lia|]. rewrite sp_loop_S.
    destruct (nltb (s_tol P) (q_diff st)); cbn [andb]; [|do 2 eexists; split; [reflexivity|apply lin_Ok]].
    destruct (Nat.ltb_spec (q_loops st) (s_maxit P)) as [Hlm|Hlm]; [|do 2 eexists; split; [reflexivity|apply lin_Ok]].
    destruct (pass_total st Hsw) as [[[st' brk] Ep]|(e & Ep & He)]; rewrite Ep.
    - pose proof (pass_lens env P f k cuts Xs ys ltac:(lia) ltac:(lia) st st' brk ltac:(lia) Ep) as [Hsw' _].
      destruct brk; [do 2 eexists; split; [reflexivity|apply lin_Ok]|].
      apply pass_inv in Ep as (_ & Ep & _). specialize (Ep eq_refl). destruct (IH st') as (calls & r & E & Hr); [lia|lia|lia|].
      rewrite E. do 2 eexists; split; [reflexivity|auto].
    - do 2 eexists; split; [reflexivity|]. right; eauto.
  Qed.
End Total.

Lemma loop_last : forall {A} `{Num A} (env : sp_env A) P f k cuts n Xs ys, length Xs = n -> (2 <= n)%nat -> length ys = n ->
  forall fuel st st' calls, length (q_sw st) = n -> sp_loop env fuel P f k cuts Xs ys st = (calls, Some (Ok st')) ->
  st' = st \/ exists st0 brk, length (q_sw st0) = n /\ pass env P f k cuts Xs ys st0 = Ok (st', brk).
Proof.
  intros A HA env P f k cuts n Xs ys HX Hn Hy. induction fuel as [|j IH]; intros st st' calls Hs E; [discriminate|]. rewrite sp_loop_S in E.
  destruct (_ && _); [|injection E as <- <-; auto]. destruct (pass env P f k cuts Xs ys st) as [[st1 []]|e] eqn:Ep; [| |discriminate].
  - injection E as <- <-. right. eauto.
  - destruct (sp_loop env j P f k cuts Xs ys st1) as [cs r'] eqn:E'. injection E as <- ->. right.
    pose proof (pass_lens env P f k cuts Xs ys ltac:(lia) ltac:(lia) st st1 false ltac:(lia) Ep) as [Hsw' _].
    apply IH in E' as [->|E']; [eauto|auto|lia].
Qed.

Lemma estimate_total : forall (env : sp_env R) P f k n p keep p0 X Xs y ys mX sXf sX my sy,
  is_matrix n p Xs -> is_matrix n p X -> (2 <= n)%nat -> (1 <= p)%nat -> length y = n -> length ys = n -> (1 <= k)%nat -> length sX = p ->
  plain_centre (s_centre P) -> plain_scale (s_scale P) -> (forall l, s_columns P = ColNames l -> (p <= length l)%nat) ->
  ~ (s_pcapp P = false /\ s_specific P = true) -> (2 <= s_maxit P)%nat -> s_tol P < 1 -> svd_ok env ->
  (s_pcapp P = true -> exists i j, (i < n)%nat /\ (j < p)%nat /\ cell Xs i j <> 0) ->
  lin_or_ok env (snd (sp_estimate env P f k keep p0 X Xs y ys mX sXf sX my sy)).
Proof.
  intros env P f k n p keep p0 X Xs y ys mX sXf sX my sy HXs HX Hn Hp Hy Hys Hk HsX Hc Hs Hnm Hopt Hmx Htol Hsvd Hnz.
  unfold sp_estimate.
  assert (Hst : (exists Us rc, sp_start env P Xs = Ok (Us, rc) /\ length Us = n /\ (s_pcapp P = true -> rc <> None)) \/ exists e, sp_start env P Xs = Err e /\ from_linalg env e).
  { unfold sp_start. destruct (s_pcapp P) eqn:Epc.
    - destruct (se_svd env Xs) as [[U sv]|e] eqn:Esv; [|right; exists e; split; auto; right; eauto]. cbn [bind].
      destruct (Hsvd n p Xs U sv HXs Esv) as ((c & WU & Hcl) & Hne & Hpos). specialize (Hpos (Hnz eq_refl)).
      destruct (relcomp_total sv Hne Hpos) as (rc & Erc & Hr1 & Hr2). rewrite Erc. cbn [bind].
      assert (Hrc : (rc <= c)%nat) by (destruct sv; [congruence|cbn [length] in *; lia]).
      destruct (ft_plain (re_prep (se_rm env)) (new_scaler (s_centre P) (s_scale P) 0) n rc (A2 (map (firstn rc) U)) (map (firstn rc) U)) as (st' & Z & m' & s' & E' & WZ & _); auto.
      { apply (check_input_id n rc); auto. apply (firstn_wf n c); auto. } { apply (firstn_wf n c); auto. }
      change (@n0 R Num_R) with 0. rewrite E'. cbn [snd]. left. exists Z, (Some rc). split; auto. split; [apply WZ|discriminate].
    - left. exists Xs, None. split; auto. split; [apply HXs|discriminate]. }
  destruct Hst as [(Us & rc & -> & HUs & Hrc)|(e & -> & He)]; [|right; exists e; auto].
  assert (Hcu : exists c b q, sp_start_cuts env P rc = Ok (c, b, q)).
  { unfold sp_start_cuts. destruct (s_specific P) eqn:Esp; [|eauto]. destruct rc as [r|]; [eauto|]. exfalso. destruct (s_pcapp P) eqn:E; [apply Hrc; auto|tauto]. }
  destruct Hcu as (c & b & q & ->). cbv zeta. fold (sp_start_state env P f c b q Us y ys).
  assert (Hl0 : length (q_sw (sp_start_state env P f c b q Us y ys)) = n).
  { unfold sp_start_state. cbn [q_sw]. rewrite map_length, floor_length, vmul_length, !mweights_length, start_dx_length, start_dy_length; lia. }
  destruct (loop_total env P f k n p Xs ys (sp_loop_cuts env P f k (c, b, q)) HXs Hn Hp Hys Hk Hc Hs Hnm (S (s_maxit P)) (sp_start_state env P f c b q Us y ys) Hl0) as (calls & r & El & Hr).
  { cbn [sp_start_state q_loops]. lia. } { lia. }
  rewrite El. cbn [snd]. destruct Hr as [[st ->]|(e & -> & He)]; [|right; exists e; auto].
  assert (Hpa : sp_passed env P f k (sp_loop_cuts env P f k (c, b, q)) Xs ys st).
  { apply sp_loop_entered in El; auto. cbn [sp_start_state q_diff q_loops]. rnum. apply andb_true_iff. split; [apply Rltb_true; auto|apply Nat.ltb_lt; lia]. }
  assert (Hsw : length (q_sw st) = n).
  { pose proof (loop_lens env P f k (sp_loop_cuts env P f k (c, b, q)) Xs ys) as H. destruct HXs as [HlX _]. rewrite HlX in H.
    apply (H Hn Hys (S (s_maxit P)) (sp_start_state env P f c b q Us y ys) st calls); auto.
    unfold lens_ok, sp_start_state. cbn [q_wye q_wte q_we]. rewrite floor_length, vmul_length, !mweights_length, start_dx_length, start_dy_length; lia. }
  destruct (loop_last env P f k (sp_loop_cuts env P f k (c, b, q)) n Xs ys (proj1 HXs) Hn Hys _ _ _ _ Hl0 El) as [->|(st0 & brk & Hsw0 & Ep)].
  { destruct Hpa as (sw & m & T & dt & Efit & _). discriminate. }
  unfold pass in Ep. apply bind_Ok in Ep as (m & Em & Ep). apply bind_Ok in Ep as (cr & Ecr & Ep). apply body_inv in Ep as (T & dt & Efit & _).
  unfold sp_finish. rewrite Efit.
  destruct (ft_plain (re_prep (se_rm env)) (new_scaler (s_centre P) SNone 0) n p (A2 (row_scale (map nsqrt (q_sw st)) Xs)) (row_scale (map nsqrt (q_sw st)) Xs))
    as (st3 & Z & m3 & s3 & E3 & _); auto.
  { apply (check_input_id n p); auto. apply row_scale_wf; auto. rewrite map_length; auto. }
  { apply row_scale_wf; auto. rewrite map_length; auto. } { right; right; reflexivity. }
  change (new_scaler (s_centre P) SNone (@n0 R Num_R)) with (new_scaler (s_centre P) SNone 0). rewrite E3. cbn [snd]. cbv zeta. rewrite (wf_ncols n p Xs) by (auto; lia). rewrite HsX, Nat.eqb_refl. cbn [negb].
  rewrite Ecr. cbn [bind]. destruct (sp_loop_cuts _ _ _ _ _) as [[? ?] ?]. apply lin_Ok.
Qed.

Lemma drop_names : forall (c : cols_opt) p (s : list R) c', length s = p -> (forall l, c = ColNames l -> (p <= length l)%nat) -> sp_drop c p s = Ok c' ->
  forall l, c' = ColNames l -> (match zero_scale s with [] => p | _ => length (vars_to_keep p s) end <= length l)%nat.
Proof.
  intros c p s c' Hs Hc E l ->. unfold sp_drop in E. destruct (zero_scale s) as [|z zs] eqn:Ez; [injection E as ->; auto|].
  destruct c as [b|l0]; [discriminate|]. apply bind_Ok in E as (a & _ & E). apply bind_Ok in E as (l' & El & E). injection E as <-.
  unfold take_names in El. clear Ez. revert l' El. induction (vars_to_keep p s) as [|j js IH]; intros l' El; cbn in El; [injection El as <-; cbn; lia|].
  destruct (nth_error l0 j); [|discriminate]. cbn [bind] in El. apply bind_Ok in El as (l2 & E2 & El). injection El as <-. cbn. specialize (IH l2 E2). lia.
Qed.
Lemma C49_supported_l : forall (env : sp_env R) P df n p X y, is_matrix n p X -> (2 <= n)%nat -> (1 <= p)%nat ->
  plain_centre (s_centre P) -> plain_scale (s_scale P) -> names_cover P df p -> quiet env ->
  ~ (s_pcapp P = false /\ s_specific P = true) -> (2 <= s_maxit P)%nat -> s_tol P < 1 -> svd_ok env -> (s_pcapp P = true -> some_variation env P n p X) ->
  (exists m, sprm_fit env P df X y = Ok m) \/ (exists e, sprm_fit env P df X y = Err e /\ (e = MyException \/ from_linalg env e)).
Proof.
  intros env P df n p X y HX Hn Hp Hc Hs Hnm Hq Hopt Hmx Htol Hsvd Hvar.
  destruct (Classical_Prop.classic (invalid_sp P df n p (length y))) as [Hi|Hv].
  { right. exists MyException. split; auto. apply (C45_l env P df n p X y); auto. }
  destruct (run_plain env P df n p X y) as (f & k & c1 & c2 & mX & sX & Xs & my & sy & ys & Hf & Hk & Hk1 & He & Hy & Hc1 & Hc2 & Esc & WX & Hys & HmX & HsX & Elo & Ese & Esd & _ & Er); auto.
  unfold sprm_fit. rewrite Er. cbn [snd]. destruct (Nat.ltb_spec (length (vars_to_keep p sX)) k) as [|Hkk]; [right; exists MyException; auto|].
  assert (Hcl : forall l, c1 = ColNames l -> (p <= length l)%nat).
  { intros l ->. destruct Hnm as [N1 N2]. unfold sp_columns in Hc1. destruct (s_columns P) as [[]|l'] eqn:Ec; try discriminate.
    - destruct df; [|discriminate]. injection Hc1 as ->. auto. - injection Hc1 as ->. auto. }
  assert (Hnz : s_pcapp P = true -> exists i j, (i < n)%nat /\ (j < p)%nat /\ In j (nonzero_positions sX) /\ cell Xs i j <> 0).
  { intros Epc. destruct (Hvar Epc) as (st & s & j & a & b & Est & Es & Hj & Hbig & Ha & Hb & Hd).
    assert (Hsj : s = sX).
    { apply fit_ok_inv in Est as (m' & v' & _ & Ev & _ & _ & ->). cbn in *. injection Es as ->. rewrite (check_input_id n p) in Ev by auto. congruence. }
    subst s. destruct (scale_data_cells n p X mX sX HX ltac:(lia) Hp HmX HsX) as (Z & EZ & WZ & CZ). rewrite Esd in EZ. apply Ok_inj in EZ as <-.
    destruct (Req_dec (cell Xs a j) 0) as [Ea|]; [|exists a, j; repeat split; auto; apply positions_in; split; auto; lia].
    destruct (Req_dec (cell Xs b j) 0) as [Eb|]; [|exists b, j; repeat split; auto; apply positions_in; split; auto; lia].
    exfalso. apply Hd. rewrite !cell_mget in *. rewrite CZ in Ea, Eb by auto. rnum.
    assert (H0 : forall v, v / nth j sX 0 = 0 -> v = 0).
    { intros v Hv0. apply (Rmult_eq_reg_r (/ nth j sX 0)); [|apply Rinv_neq_0_compat; lra]. unfold Rdiv in Hv0. lra. }
    destruct (Req_EM_T (nth j sX 0) 0); [lra|]. change (cell X b j) with (mget X b j). apply H0 in Ea. apply H0 in Eb. lra. }
  pose proof (drop_names c1 p sX c2 HsX Hcl Hc2) as Hnames.
  assert (Hgoal : lin_or_ok env (snd (match zero_scale sX with
            | [] => sp_estimate env (set_columns P c2) f k (vars_to_keep p sX) p X Xs y ys mX sX sX my sy
            | _ => sp_estimate env (set_columns P c2) f k (vars_to_keep p sX) p (map (sel (vars_to_keep p sX)) X) (map (sel (vars_to_keep p sX)) Xs) y ys
                     mX sX (sel (vars_to_keep p sX) sX) my sy
            end))).
  { rewrite (keep_eq p sX HsX) in *. destruct (zero_scale sX) as [|z zs] eqn:Ez.
    - apply (estimate_total env (set_columns P c2) f k n p); auto; try lia. intros Epc. destruct (Hnz Epc) as (i & j & H1 & H2 & _ & H3). eauto.
    - apply (estimate_total env (set_columns P c2) f k n (length (nonzero_positions sX))); auto; try lia.
      + apply (select_wf n p); auto. + apply (select_wf n p); auto. + unfold sel. apply map_length.
      + intros Epc. destruct (Hnz Epc) as (i & j & H1 & H2 & H3 & H4). apply (In_nth _ _ 0%nat) in H3 as (a & Ha & Ea).
        exists i, a. split; auto. split; auto. rewrite cell_mget in *. change (map (sel (nonzero_positions sX)) Xs) with (select (nonzero_positions sX) Xs).
        rewrite (select_mget n p) by auto. rewrite Ea. auto. }
  destruct Hgoal as [[m Hm]|(e & Hm & Hf')]; [left; exists m; exact Hm|right; exists e; split; auto].
Qed.

(* ------------------------------------------------------------------ *)
(** * C91: the training data *)
Lemma keep_case : forall p (s : list R) X' X, ((zero_scale s = [] /\ X' = X) \/ X' = map (sel (vars_to_keep p s)) X) ->
  forall n, is_matrix n p X -> X' = map (sel (vars_to_keep p s)) X.
Proof.
  intros p s X' X [[Hz ->]|H] n HX; auto. unfold vars_to_keep. rewrite Hz. cbn [existsb negb].
  replace (filter (fun _ => true) (seq 0 p)) with (seq 0 p) by (clear; induction (seq 0 p); cbn; congruence).
  change (map (sel (seq 0 p)) X) with (select (seq 0 p) X). symmetry. apply (seq_select n p); auto.
Qed.
Lemma check_k : forall {A} `{Num A} (P : sp_par A) n p f k, sp_check P n p = Ok (f, k) -> (1 <= k)%nat.
Proof.
  intros A HA P n p f k E. unfold sp_check in E. destruct (s_ncomp P) as [z|]; [|discriminate]. destruct (_ || _)%bool; [discriminate|].
  destruct (Z.leb_spec z 0); [discriminate|]. destruct (negb _); [discriminate|]. destruct (_ || _)%bool; [discriminate|].
  apply bind_Ok in E as (g & _ & E). apply Ok_inj in E. injection E as _ <-. lia.
Qed.
Lemma vars_lt : forall p (s : list R) j, In j (vars_to_keep p s) -> (j < p)%nat.
Proof. intros p s j Hj. apply filter_In in Hj as [Hj _]. apply in_seq in Hj. lia. Qed.

Lemma C91_l : forall (env : sp_env R) P df n p X y m, is_matrix n p X -> (2 <= n)%nat -> (1 <= p)%nat -> s_copy P = true ->
  sprm_fit env P df X y = Ok m ->
  sprm_predict m (A2 X) = Ok (sp_fitted m) /\ length (sp_fitted m) = n /\ length (sp_resid m) = n /\
  (forall i, (i < n)%nat -> nth i (sp_fitted m) 0 + nth i (sp_resid m) 0 = nth i y 0) /\
  (s_centre P = CMean -> sum_of (sp_resid m) = 0) /\
  (s_centre P <> CMean -> s_centre P <> CNone -> is_median (sp_resid m) 0) /\
  (length (sp_xloc m) = p -> length (sp_xsca m) = p -> sprm_transform m (A2 X) = Ok (sp_T m)).
Proof.
  intros env P df n p X y m HX Hn Hp Hcp E. assert (HlX := wf_length _ _ _ HX). assert (Hnc : ncols X = p) by (apply (wf_ncols n p); auto; lia).
  unfold sprm_fit in E. destruct (sprm_run env P df X y) as [P' [calls r]] eqn:ER. cbn in E. subst r.
  apply run_inv in ER as (f & k & c1 & c2 & mX & sX & Xs & my & sy & ys & X' & Xs' & sX' & ER). cbv zeta in ER. rewrite Hnc, HlX in ER.
  destruct ER as (Hck & _ & Hly & _ & Esc & _ & EP & Hkk & HX' & Eest). apply check_k in Hck.
  apply estimate_inv in Eest as (Us & rc & c & b & q & st & _ & _ & _ & EF).
  apply finish_inv in EF as (fit & Efit & HsX' & EF). cbv zeta in EF.
  set (bres := map2 _ sX' (sn_coef fit)) in EF.
  assert (HP : s_centre P' = s_centre P /\ s_copy P' = true) by (rewrite EP; unfold tau_fix; destruct (s_scale _); auto; destruct (existsb _ _); auto).
  destruct HP as [HPc HPy]. rewrite HPc, HPy in EF.
  destruct EF as (Ep & Ek & Eco & Ei & _ & Efi & Ere & ER & ET & _ & _ & _ & Exl & Exs & _).
  assert (EX' : X' = map (sel (vars_to_keep p sX)) X) by (eapply keep_case; eauto; destruct HX' as [(H1 & H2 & _)|(H2 & _)]; auto).
  assert (Hlp : length (matvec X' bres) = n) by (rewrite matvec_length, EX', map_length; auto).
  set (e := vsub y (matvec X' bres)) in *.
  assert (Hle : length e = n) by (unfold e; rewrite vsub_length; lia).
  assert (Hne : e <> []) by (destruct e; [cbn in Hle; lia|discriminate]).
  set (ic := match s_centre P with CMean => vmean e | CNone => n0 | _ => np_median e end) in *.
  assert (Hfl : length (sp_fitted m) = n) by (rewrite Efi, map_length; auto).
  split. { unfold sprm_predict, predict_check_input. rewrite Ep, Hnc, Nat.eqb_refl. cbn [negb]. rewrite Eco, Ei, Efi, Ek, EX'. reflexivity. }
  split; auto. split; [rewrite Ere; rewrite vsub_length; rewrite ?map_length; lia|].
  split. { intros i Hi. rewrite Ere, nth_vsub by (rewrite ?map_length; lia). rewrite <- Efi. ring. }
  assert (Hr : sp_resid m = map (fun r => r - ic) e) by (rewrite Ere; apply resid_map; lia).
  split; [|split].
  - intros Hc. rewrite Hr. unfold ic. rewrite Hc. apply centred_mean; auto.
  - intros Hc Hc'. rewrite Hr. replace ic with (vmedian e); [apply centred_median; auto|]. unfold ic. rewrite np_median_R. destruct (s_centre P); congruence.
  - intros Hl1 Hl2. rewrite Exl in Hl1. rewrite Exs in Hl2.
    unfold sprm_transform, predict_check_input. rewrite Ep, Hnc, Nat.eqb_refl. cbn [negb]. rewrite Ek, Exl, Exs, ET, ER.
    assert (Esd : scale_data X mX sX = Ok Xs).
    { unfold sp_scaled in Esc. destruct (sc_fit_transform _ _ (A2 X)) as [st1 [Z|]] eqn:E1; [|discriminate].
      destruct (sc_fit_transform _ st1 (A1 y)) as [st2 [Ys|]] eqn:E2; [|discriminate].
      apply ft_inv in E1 as (m1 & s1 & _ & _ & _ & _ & F3 & F4 & F5 & _). rewrite (check_input_id n p) in F3 by auto. rewrite F4, F5 in Esc.
      destruct (a_col_loc st2), (a_col_sca st2); try discriminate. injection Esc as -> -> -> _ _ _. exact F3. }
    assert (WXs : wf n p Xs) by (apply (scale_data_wf n p X Xs mX sX); auto; lia).
    assert (EXs' : Xs' = map (sel (vars_to_keep p sX)) Xs) by (eapply keep_case; eauto; destruct HX' as [(H1 & _ & H2 & _)|(_ & H2 & _)]; auto).
    destruct (vars_to_keep p sX) as [|j0 js] eqn:Ekeep.
    + cbn in Hkk. lia.
    + rewrite <- Ekeep in *.
      pose proof (select_scale_data n p X mX sX Xs (vars_to_keep p sX) HX ltac:(lia) Hp Hl1 Hl2 ltac:(rewrite Ekeep; discriminate) (vars_lt p sX) Esd) as F.
      unfold select, rsel in F. unfold sel. change (@n0 R Num_R) with 0. rewrite F. cbn [bind]. rewrite EXs'. reflexivity.
Qed.

(* ------------------------------------------------------------------ *)
(** * C93: what a fit does to the parameters *)
Lemma set_columns_same : forall {A} (P : sp_par A), set_columns P (s_columns P) = P. Proof. intros A []. reflexivity. Qed.
Lemma C93_unchanged_l : forall {A} `{Num A} (env : sp_env A) P df X y, s_columns P = ColBool false -> s_scale P <> STau2 ->
  fst (sprm_run env P df X y) = P.
Proof.
  intros A HA env P df X y Hc Hs. assert (HP : set_columns P (ColBool false) = P) by (rewrite <- Hc; apply set_columns_same).
  unfold sprm_run. destruct (sp_check P _ _) as [[f k]|]; auto. unfold sp_columns. rewrite Hc, HP.
  destruct (negb _); auto. destruct (_ && _); auto. cbv zeta. fold (tau_fix P X).
  assert (Ht : tau_fix P X = P) by (unfold tau_fix; destruct (s_scale P); congruence). rewrite Ht.
  destruct (sp_scaled _ _ _ _) as [[[[mX sX] Xs] [[my sy] ys]]|]; auto.
  assert (Hd : sp_drop (ColBool false) (ncols X) sX = Ok (ColBool false)) by (unfold sp_drop; destruct (zero_scale sX); auto). rewrite Hd, HP.
  destruct (_ <? _)%nat; auto. destruct (zero_scale sX); auto.
Qed.
(** every parameter but the column names and the scale is left alone by every fit *)
Lemma C93_others_l : forall {A} `{Num A} (env : sp_env A) P df X y, let P' := fst (sprm_run env P df X y) in
  exists c s, P' = set_scale (set_columns P c) s /\ (s <> s_scale P -> s_scale P = STau2 /\ s = SMad /\ existsb (fun v => neqb v n0) (mad X) = true).
Proof.
  intros A HA env P df X y. cbv zeta.
  assert (H0 : forall c, exists c' s, set_columns P c = set_scale (set_columns P c') s /\ (s <> s_scale P -> s_scale P = STau2 /\ s = SMad /\ existsb (fun v => neqb v n0) (mad X) = true)).
  { intros c. exists c, (s_scale P). split; [destruct P; reflexivity|congruence]. }
  assert (HP : exists c' s, P = set_scale (set_columns P c') s /\ (s <> s_scale P -> s_scale P = STau2 /\ s = SMad /\ existsb (fun v => neqb v n0) (mad X) = true)).
  { destruct (H0 (s_columns P)) as (c & s & E & Hx). exists c, s. rewrite set_columns_same in E. auto. }
  assert (H1 : forall c c2, exists c' s, set_columns (tau_fix (set_columns P c) X) c2 = set_scale (set_columns P c') s /\ (s <> s_scale P -> s_scale P = STau2 /\ s = SMad /\ existsb (fun v => neqb v n0) (mad X) = true)).
  { intros c c2. unfold tau_fix. destruct (s_scale (set_columns P c)) eqn:Es; try (apply H0).
    destruct (existsb _ _) eqn:Ex; [|apply H0]. exists c2, SMad. split; [destruct P; reflexivity|]. intros _. destruct P; cbn in *. auto. }
  assert (H2 : forall c, exists c' s, tau_fix (set_columns P c) X = set_scale (set_columns P c') s /\ (s <> s_scale P -> s_scale P = STau2 /\ s = SMad /\ existsb (fun v => neqb v n0) (mad X) = true)).
  { intros c. unfold tau_fix. destruct (s_scale (set_columns P c)) eqn:Es; try (apply H0).
    destruct (existsb _ _) eqn:Ex; [|apply H0]. exists c, SMad. split; [destruct P; reflexivity|]. intros _. destruct P; cbn in *. auto. }
  unfold sprm_run. destruct (sp_check P _ _) as [[f k]|]; [|exact HP]. destruct (sp_columns P df) as [c1|]; [|exact HP].
  destruct (negb _); [apply H0|]. destruct (_ && _); [apply H0|]. cbv zeta. fold (tau_fix (set_columns P c1) X).
  destruct (sp_scaled _ _ _ _) as [[[[mX sX] Xs] [[my sy] ys]]|]; [|apply H2]. destruct (sp_drop _ _ _) as [c2|]; [|apply H2].
  destruct (_ <? _)%nat; [apply H1|]. destruct (zero_scale sX); apply H1.
Qed.

(* ------------------------------------------------------------------ *)
(** * C95: the names of the retained variables *)
Lemma take_names_In : forall idx l l' i, take_names idx l = Ok l' -> In i idx -> exists s, nth_error l i = Some s /\ In s l'.
Proof.
  induction idx as [|j idx IH]; intros l l' i E Hi; [destruct Hi|]. unfold take_names in E. cbn in E.
  destruct (nth_error l j) as [s|] eqn:Ej; [|discriminate]. cbn [bind] in E. apply bind_Ok in E as (l2 & E2 & E). apply Ok_inj in E as <-.
  destruct Hi as [->|Hi]; [exists s; split; auto; left; auto|]. destruct (IH l l2 i E2 Hi) as (s' & H1 & H2). exists s'. split; auto. right; auto.
Qed.
Lemma take_names_nth : forall idx l l' i, take_names idx l = Ok l' -> (i < length idx)%nat -> nth_error l' i = nth_error l (nth i idx 0%nat).
Proof.
  induction idx as [|j idx IH]; intros l l' i E Hi; [cbn in Hi; lia|]. unfold take_names in E. cbn in E.
  destruct (nth_error l j) as [s|] eqn:Ej; [|discriminate]. cbn [bind] in E. apply bind_Ok in E as (l2 & E2 & E). apply Ok_inj in E as <-.
  destruct i as [|i]; cbn; auto. apply IH; auto. cbn in Hi; lia.
Qed.
Lemma C95_names_l : forall (env : sp_env R) P df n p X y m names, is_matrix n p X -> (2 <= n)%nat -> (1 <= p)%nat ->
  plain_centre (s_centre P) -> plain_scale (s_scale P) -> s_columns P = ColBool true -> df = Some names -> length names = p -> svd_rows env ->
  sprm_fit env P df X y = Ok m ->
  length (sp_coef m) = length (sp_keep m) /\
  ((exists retained, sp_colret m = CrNames retained /\
     forall i, (i < length (sp_coef m))%nat -> nth i (sp_coef m) 0 <> 0 ->
     exists nm, nth_error names (nth i (sp_keep m) 0%nat) = Some nm /\ In nm retained) \/
   (sp_colret m = CrNone /\ forall i, nth i (sp_coef m) 0 = 0)).
Proof.
  intros env P df n p X y m names HX Hn Hp Hc Hs Hco Hdf Hln Hsvd E. assert (HlX := wf_length _ _ _ HX). assert (Hnc : ncols X = p) by (apply (wf_ncols n p); auto; lia).
  assert (Hxs : length y = n).
  { apply fit_attrs_sp in E. lia. }
  destruct (scaled_plain env P n p X y) as (mX & sX & Xs & my & sy & ys & Esc & WX & Hys & HmX & HsX & _); auto.
  unfold sprm_fit in E. destruct (sprm_run env P df X y) as [P' [calls r]] eqn:ER. cbn in E. subst r.
  apply run_inv in ER as (f & k & c1 & c2 & mX' & sX1 & Xs1 & my' & sy' & ys' & X' & Xs' & sX' & ER). cbv zeta in ER. rewrite Hnc, HlX in ER.
  destruct ER as (Hck & Hc1 & Hly & _ & Esc' & Hdr & EP & Hkk & HX' & Eest). apply check_k in Hck.
  rewrite (tau_plain (set_columns P c1) X Hs) in *. change (sp_scaled env (set_columns P c1) X y) with (sp_scaled env P X y) in Esc'.
  rewrite Esc in Esc'. injection Esc' as <- <- <- <- <- <-.
  assert (c1 = ColNames names) by (unfold sp_columns in Hc1; rewrite Hco, Hdf in Hc1; congruence). subst c1.
  assert (EXs' : Xs' = map (sel (vars_to_keep p sX)) Xs) by (eapply keep_case; eauto; destruct HX' as [(H1 & _ & H2 & _)|(_ & H2 & _)]; auto).
  set (keep := vars_to_keep p sX) in *. set (p' := length keep). assert (Hp' : (1 <= p')%nat) by (unfold p'; lia).
  assert (WXs' : wf n p' Xs') by (rewrite EXs'; apply (select_wf n p Xs keep); auto).
  apply estimate_inv in Eest as (Us & rc & c & b & q & st & Est & _ & EL & EF).
  assert (HUs : length Us = n) by (rewrite <- (wf_length _ _ _ WXs'); eapply start_rows; [| |exact Est]; [rewrite (wf_length _ _ _ WXs'); auto|intros U S1; apply Hsvd]).
  apply finish_inv in EF as (fit & Efit & HsX' & EF). cbv zeta in EF.
  destruct EF as (_ & Ek & Eco & _ & _ & _ & _ & _ & _ & _ & _ & _ & _ & _ & _ & _ & _ & _ & _ & _ & Ecr).
  assert (Hl0 : length (q_sw (sp_start_state env P' f c b q Us y ys)) = n).
  { unfold sp_start_state. cbn [q_sw]. rewrite map_length, floor_length, vmul_length, !mweights_length, start_dx_length, start_dy_length; lia. }
  destruct (loop_last env P' f k (sp_loop_cuts env P' f k (c, b, q)) n Xs' ys (wf_length _ _ _ WXs') Hn Hys _ _ _ _ Hl0 EL) as [->|(st0 & brk & Hsw0 & Ep)].
  { discriminate. }
  unfold pass in Ep. apply bind_Ok in Ep as (m0 & Em & Ep). apply bind_Ok in Ep as (cr & _ & Ep). apply body_inv in Ep as (T & dt & Efit' & _).
  rewrite Efit in Efit'. injection Efit' as <-.
  assert (HXw : is_matrix n p' (row_scale (q_sw st0) Xs')) by (apply row_scale_wf; auto).
  assert (Hyw : length (vmul ys (q_sw st0)) = n) by (rewrite vmul_length, Hys, Hsw0; apply Nat.min_id).
  destruct (fit_inv _ _ _ _ _ _ n p' _ _ fit HXw Hn Hp' Hyw Em) as (X0 & y0 & B & Rw & T' & S1 & S2 & _).
  pose proof (coef_length _ _ _ _ _ _ n p' _ _ fit X0 y0 HXw Hn Hp' Hyw Em S1 S2) as Hcl.
  pose proof (coef_nth _ _ _ _ _ _ n p' _ _ fit X0 y0 HXw Hn Hp' Hyw Em S1 S2) as Hcn.
  assert (Hcz : forall j, (j < p')%nat -> (forall g, sn_colret fit = Some g -> ~ In j g) -> nth j (sn_coef_scaled fit) 0 = 0).
  { assert (Hrun : snipls_run (re_prep (se_rm env)) (se_inv env) (s_eta P') k CMean SNone n p' (row_scale (q_sw st0) Xs') (vmul ys (q_sw st0)) fit X0 y0).
    { split; [exact HXw|]. repeat split; auto; lia. }
    apply C33_l in Hrun as (_ & _ & _ & _ & Hrun). intros j Hj Hg. apply Hrun; auto. }
  assert (HlsX' : length sX' = p') by (rewrite HsX'; apply (wf_ncols n p'); auto; lia).
  assert (Hlc : length (sp_coef m) = p') by (rewrite Eco, map2_length, HlsX', Hcl; apply Nat.min_id).
  split; [rewrite Hlc, Ek; reflexivity|].
  assert (Hz : forall i, (i < p')%nat -> nth i (sn_coef_scaled fit) 0 = 0 -> nth i (sp_coef m) 0 = 0).
  { intros i Hi H0. rewrite Eco. rewrite (nth_map2 _ _ _ i 0 0) by lia. rewrite Hcn, H0 by auto. rnum. ring. }
  unfold sp_colret_of in Ecr. destruct (sn_colret fit) as [g|] eqn:Eg.
  - left. rewrite EP in Ecr. cbn [set_columns s_columns] in Ecr.
    assert (Hc2 : exists l2, c2 = ColNames l2 /\ forall i, (i < p')%nat -> nth_error l2 i = nth_error names (nth i keep 0%nat)).
    { unfold sp_drop in Hdr. destruct (zero_scale sX) as [|z zs] eqn:Ez.
      - injection Hdr as <-. exists names. split; auto. intros i Hi.
        assert (Hks : keep = seq 0 p).
        { unfold keep, vars_to_keep. rewrite Ez. cbn [existsb negb]. clear. induction (seq 0 p); cbn; congruence. }
        unfold p' in Hi. rewrite Hks in *. rewrite seq_length in Hi. rewrite seq_nth by auto. reflexivity.
      - apply bind_Ok in Hdr as (a0 & _ & Hdr). apply bind_Ok in Hdr as (l2 & El2 & Hdr). apply Ok_inj in Hdr as <-. exists l2. split; auto.
        intros i Hi. apply (take_names_nth keep names l2 i El2). auto. }
    destruct Hc2 as (l2 & -> & Hl2). apply bind_Ok in Ecr as (rn & Ern & Ecr). apply Ok_inj in Ecr as <-. exists rn. split; auto.
    intros i Hi Hne. rewrite Hlc in Hi.
    assert (Hin : In i g).
    { destruct (in_dec Nat.eq_dec i g) as [|Hni]; auto. exfalso. apply Hne, Hz; auto. apply Hcz; auto. intros g' Eg'. injection Eg' as <-. auto. }
    destruct (take_names_In g l2 rn i Ern Hin) as (s & Hs1 & Hs2). exists s. split; auto. rewrite Ek. rewrite <- Hl2 by auto. exact Hs1.
  - right. split; [congruence|]. intros i. destruct (Nat.lt_ge_cases i p') as [Hi|Hi]; [|apply nth_overflow; lia]. apply Hz; auto. apply Hcz; auto. discriminate.
Qed.

(* ------------------------------------------------------------------ *)
(** * C96: validation scores *)
Lemma cw_length : forall {A} `{Num A} (env : sp_env A) P df X y m, sprm_fit env P df X y = Ok m -> (2 <= length X)%nat -> svd_rows env -> length (sp_cw m) = length X.
Proof.
  intros A HA env P df X y m E Hn Hs. destruct (run_states env P df X y m E Hn Hs) as (P' & Xs' & ys & cuts & st & (_ & _ & Hl) & HX & _ & _ & _ & _ & _ & _ & k & _ & _ & _ & Ec).
  rewrite Ec, set_idx_length. lia.
Qed.
Lemma predict_length : forall {A} `{Num A} (m : sp_model A) Xn q, sp_p m = Some q -> ncols Xn = q -> exists yp, sprm_predict m (A2 Xn) = Ok yp /\ length yp = length Xn.
Proof.
  intros A HA m Xn q Ep Hq. unfold sprm_predict, predict_check_input. rewrite Ep, Hq, Nat.eqb_refl. cbn [negb]. eexists. split; [reflexivity|].
  rewrite map_length. unfold matvec. rewrite !map_length. reflexivity.
Qed.
Lemma C96_weighted_l : forall (env : sp_env R) P df X y m, sprm_fit env P df X y = Ok m -> (2 <= length X)%nat -> svd_rows env -> s_copy P = true ->
  forall Xn yn, ncols Xn = ncols X -> length yn = length Xn -> length Xn <> length X -> sprm_valscore m (A2 Xn) yn (Some true) = Err ValueError.
Proof.
  intros env P df X y m E Hn Hs Hc Xn yn Hp Hy Hd. pose proof (cw_length env P df X y m E Hn Hs) as Hl. apply fit_attrs_sp in E as (_ & Ep & _). rewrite Hc in Ep.
  destruct (predict_length m Xn _ Ep Hp) as (yp & E1 & H1).
  unfold sprm_valscore, predict_check_input. rewrite Ep, Hp, Nat.eqb_refl. cbn [negb]. rewrite E1. cbn [bind]. unfold r2_score.
  destruct (Nat.eqb_spec (length yn) (length yp)); cbn [andb negb]; auto. destruct (Nat.eqb_spec (length yn) (length (sp_cw m))); cbn [negb]; auto. lia.
Qed.
Lemma C96_normal_l : forall (env : sp_env R) P df X y m, sprm_fit env P df X y = Ok m -> s_copy P = true ->
  forall Xn yn, ncols Xn = ncols X -> length yn = length Xn -> (1 <= length yn)%nat ->
  exists yp, sprm_predict m (A2 Xn) = Ok yp /\ length yp = length yn /\
    sprm_valscore m (A2 Xn) yn (Some false) =
      Ok (1 - sum_of (map2 (fun a b => (a - b) * (a - b)) yn yp) / sum_of (map (fun a => (a - sum_of yn / INR (length yn)) * (a - sum_of yn / INR (length yn))) yn)).
Proof.
  intros env P df X y m E Hc Xn yn Hp Hy H1. apply fit_attrs_sp in E as (_ & Ep & _). rewrite Hc in Ep.
  destruct (predict_length m Xn _ Ep Hp) as (yp & E1 & Hl). exists yp. split; auto. split; [lia|].
  unfold sprm_valscore, predict_check_input. rewrite Ep, Hp, Nat.eqb_refl. cbn [negb]. rewrite E1. cbn [bind]. unfold r2_score.
  rewrite map_length, Nat.eqb_refl. destruct (Nat.eqb_spec (length yn) (length yp)); [|lia]. cbn [andb negb]. f_equal. rnum.
  assert (F1 : map2 Rmult (map (fun _ : R => 1) yn) yn = yn).
  { clear. induction yn as [|a l IH]; cbn; [auto|]. rewrite IH. f_equal. ring. }
  assert (F2 : vsum (map (fun _ : R => 1) yn) = INR (length yn)).
  { clear. change (@vsum R Num_R) with sum_of. induction yn as [|a l IH]; [reflexivity|]. cbn [map length]. rewrite S_INR. unfold sum_of in *. cbn. rewrite IH. ring. }
  rewrite F1, F2. change (@vsum R Num_R) with sum_of. f_equal. f_equal; f_equal.
  - clear -e. revert yp e. induction yn as [|a l IH]; intros [|b yp] e; cbn in *; try discriminate; auto. f_equal; [|apply IH; lia]. unfold nsqr; rnum. ring.
  - generalize (sum_of yn / INR (length yn)). intros t. clear. induction yn as [|a l IH]; [reflexivity|]. cbn [map map2]. f_equal; [|exact IH]. unfold nsqr; rnum. ring.
Qed.
