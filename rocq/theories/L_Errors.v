(** Lemmas on refused arguments. *)

From Coq Require Import String Reals List Arith ZArith Bool Lia Lra.
Import List. Import ListNotations.
From Verif Require Import Num Err Vec VecR S_Stats S_Errors M_Utils M_Preproc M_Robcent M_Dicomo M_Rm M_Snipls M_Sprm M_Ppdire M_SdrUtils M_Sudire M_Plot2
  L_Mat L_Lin L_Stats L_Scaling L_Preproc L_Rm L_Sprm3 S_Ppdire L_Pp L_Pp2 L_SdrMore L_SdrFit L_SdrFin S_Plot S_Sudire S_SdrDim.
Import List. Open Scope R_scope.

Lemma variables_ncols : forall {A} (x : arr A), variables x = ncols (match x with A1 v => [v] | A2 X => X end).
Proof. intros A [v|[|r X]]; reflexivity. Qed.

(** ** new data *)
Lemma snipls_p_any : forall {A} `{Num A} env inv eta k c s X (y : list A) f, snipls_fit env inv eta k c s X y = Ok f -> sn_p f = ncols X.
Proof.
  intros A HA env inv eta k c s X y f E. unfold snipls_fit in E. destruct (_ && _); [discriminate|]. destruct (negb _); [discriminate|].
  destruct (scaled env c s X) as [[[mX sX] X0]|]; [|discriminate]. cbn [bind] in E. destruct (scaled env c s (map _ y)) as [[[my sy] Y0]|]; [|discriminate]. cbn [bind] in E.
  cbv zeta in E. match type of E with bind ?b _ = _ => destruct b as [[[B Rt] T]|] eqn:EB; [|discriminate] end. cbn [bind] in E.
  destruct (negb _); [discriminate|]. injection E as <-. reflexivity.
Qed.
Lemma rm_p_any : forall {A} `{Num A} (env : rm_env A) P X y m, rm_fit env P X y = Ok m -> rm_p m = if r_copy P then Some (ncols X) else None.
Proof.
  intros A HA env P X y m E. apply rm_fit_inv in E as (f & st1 & Xs & st2 & Ys & mX & sX & my & sy & st & calls & _ & _ & _ & _ & _ & _ & _ & _ & _ & _ & E).
  apply rm_finish_inv in E as (b & _ & _ & E). cbv zeta in E. apply E.
Qed.
Lemma snipls_other : forall {A} `{Num A} env inv eta k c s X (y : list A) f x, snipls_fit env inv eta k c s X y = Ok f -> variables x <> ncols X ->
  snipls_predict f x = Err ValueError /\ snipls_transform f x = Err ValueError.
Proof.
  intros A HA env inv eta k c s X y f x E Hx. rewrite variables_ncols in Hx. unfold snipls_predict, snipls_transform, predict_check_input. rewrite (snipls_p_any _ _ _ _ _ _ _ _ _ E).
  destruct (Nat.eqb_spec (ncols match x with A1 v => [v] | A2 X => X end) (ncols X)); [congruence|]. split; reflexivity.
Qed.
Lemma rm_other : forall {A} `{Num A} (env : rm_env A) P X y m x, rm_fit env P X y = Ok m ->
  (r_copy P = true -> variables x <> ncols X -> rm_predict m x = Err ValueError) /\ (r_copy P = false -> rm_predict m x = Err AttributeError).
Proof.
  intros A HA env P X y m x E. unfold rm_predict, predict_check_input. rewrite (rm_p_any _ _ _ _ _ E), variables_ncols. split; intros ->; [|reflexivity]. intros Hx.
  destruct (Nat.eqb_spec (ncols match x with A1 v => [v] | A2 X => X end) (ncols X)); [congruence|reflexivity].
Qed.
Lemma sprm_other : forall {A} `{Num A} (env : sp_env A) P df X y m x yn sc, sprm_fit env P df X y = Ok m ->
  (s_copy P = true -> variables x <> ncols X ->
     sprm_predict m x = Err ValueError /\ sprm_transform m x = Err ValueError /\ sprm_weightnewx env m x = Err ValueError /\ sprm_valscore m x yn sc = Err ValueError) /\
  (s_copy P = false ->
     sprm_predict m x = Err AttributeError /\ sprm_transform m x = Err AttributeError /\ sprm_weightnewx env m x = Err AttributeError /\ sprm_valscore m x yn sc = Err AttributeError).
Proof.
  intros A HA env P df X y m x yn sc E. destruct (fit_attrs_sp _ _ _ _ _ _ E) as (_ & Ep & _).
  unfold sprm_weightnewx, sprm_valscore, sprm_predict, sprm_transform, predict_check_input. rewrite Ep, variables_ncols. split; intros ->.
  - intros Hx. destruct (Nat.eqb_spec (ncols match x with A1 v => [v] | A2 X => X end) (ncols X)); [congruence|]. repeat split.
  - repeat split.
Qed.
Lemma pp_p_direct : forall (env : pp_env R) prm d X f prm' d' m, pp_fit env prm d X f = (prm', d', Ok m) -> (pp_compress prm = false \/ pp_whiten prm = true \/ (ncols X <= length X)%nat) -> pm_p m = ncols X.
Proof.
  intros env prm d X f prm' d' m E HC. apply L_Pp2.fit_inv in E as (most & s & X1 & p & dims & mX & sX & Xs0 & Xs & K & yi & cs & yc & Rt & E1 & _ & _ & _ & E2 & _ & _ & _ & _ & _ & EE).
  destruct EE as (_ & mX' & sX' & Xs' & _ & ym & -> & _). cbn [pm_p].
  assert (EX : ((length X <? ncols X)%nat && pp_compress prm') = false).
  { subst prm'. unfold with_whitening, with_h. destruct (f_h f); cbn [pp_whiten]; destruct (pp_whiten prm) eqn:Ew; cbn [pp_compress]; try apply andb_false_r;
      (destruct HC as [->|[HC|HC]]; [apply andb_false_r|congruence|destruct (Nat.ltb_spec (length X) (ncols X)); [lia|reflexivity]]). }
  unfold st_compress in E2. rewrite EX in E2. injection E2 as <- <- <-. reflexivity.
Qed.
Lemma pp_other : forall (env : pp_env R) prm d X f prm' d' m Xn, pp_fit env prm d X f = (prm', d', Ok m) -> (pp_compress prm = false \/ pp_whiten prm = true \/ (ncols X <= length X)%nat) ->
  ncols Xn <> ncols X -> pp_transform m Xn = Err ValueError /\ (f_y f <> YNone -> pp_predict m Xn = Err ValueError) /\ (f_y f = YNone -> pp_predict m Xn = Err AttributeError).
Proof.
  intros env prm d X f prm' d' m Xn E HC Hx. pose proof (pp_p_direct _ _ _ _ _ _ _ _ E HC) as Hp.
  apply L_Pp2.fit_inv in E as (most & s & X1 & p & dims & mX & sX & Xs0 & Xs & K & yi & cs & yc & Rt & _ & _ & _ & _ & _ & _ & _ & EY & _ & _ & EE).
  destruct EE as (_ & mX' & sX' & Xs' & _ & ym & Em & Hy). unfold pp_transform, pp_predict. rewrite Hp. destruct (Nat.eqb_spec (ncols Xn) (ncols X)); [congruence|].
  split; [reflexivity|]. subst m. cbn [pm_y]. unfold st_y in EY. split; intros Hf.
  - destruct (f_y f) as [|y|y]; [congruence| |]; (destruct (response env prm' s (length X) _ y) as [[y1 my]|]; [|discriminate]); cbn [bind] in EY; injection EY as <-; destruct Hy as (ic & b0 & yf & r & _ & ->); reflexivity.
  - rewrite Hf in EY. injection EY as <-. subst ym. reflexivity.
Qed.

(** ** names beside the cases of a plot *)
Lemma notes_long : forall {A} `{Num A} names (xs ys : list A), (S (length xs) < length names)%nat \/ (S (length ys) < length names)%nat -> notes names xs ys = Err IndexError.
Proof.
  intros A HA names xs ys Hl. unfold notes.
  assert (HG : forall (l : list string) k, (k <= length xs)%nat -> (k <= length ys)%nat -> (length xs < k + length l)%nat \/ (length ys < k + length l)%nat ->
     mapM (fun ni => bind (item xs (snd ni)) (fun x => bind (item ys (snd ni)) (fun y => Ok (Note (fst ni) (x, y))))) (combine l (seq k (length l))) = Err IndexError).
  { induction l as [|s l IH]; intros k Hx Hy Hk; [cbn in Hk; lia|]. cbn [length seq combine mapM fst snd] in Hk |- *. unfold item at 1.
    destruct (nth_error xs k) as [x|] eqn:Ex; [|reflexivity]. cbn [bind]. unfold item at 1. destruct (nth_error ys k) as [v|] eqn:Ey; [|reflexivity]. cbn [bind].
    rewrite IH; [reflexivity| | |].
    - apply nth_error_Some. congruence.
    - apply nth_error_Some. congruence.
    - lia. }
  replace (length names - 1)%nat with (length (firstn (length names - 1) names)) at 2 by (rewrite firstn_length; lia).
  apply HG; [lia|lia|]. rewrite firstn_length. lia.
Qed.
Lemma too_many_names : forall {A} `{Num A} (env : sp_env A) t m ya yv Xn label names ms,
  sprm_plot_yyp env t m (Some ya) yv Xn label [] [] false = Ok ms -> (S (length (flat ya)) < length names)%nat ->
  sprm_plot_yyp env t m (Some ya) yv Xn label names [] false = Err IndexError.
Proof.
  intros A HA env t m ya yv Xn label names ms E Hl. unfold sprm_plot_yyp in *. cbv zeta in *.
  destruct (color t 0); [|discriminate]. cbn [bind] in *. destruct (color t 1); [|discriminate]. cbn [bind] in *.
  match type of E with bind ?b _ = _ => destruct b as [tr|]; [|discriminate] end. cbn [bind] in *.
  match type of E with bind ?b _ = _ => destruct b as [te|]; [|discriminate] end. cbn [bind] in *.
  destruct (color t 3); [|discriminate]. cbn [bind] in *. destruct names as [|s names]; [cbn in Hl; lia|]. rewrite notes_long by auto. reflexivity.
Qed.

(** ** products with missing entries; the tau scale about the median *)
Lemma nandot_lengths : forall {A} `{Num A} (X Y : list (list A)) y, (ncols X <> length y -> nandot X y = Err AssertionError) /\ (ncols X <> length Y -> nanmatdot X Y = Err AssertionError).
Proof.
  intros A HA X Y y. unfold nandot, nanmatdot. split; intros Hn.
  - destruct (Nat.eqb_spec (ncols X) (length y)); [congruence|reflexivity].
  - destruct (Nat.eqb_spec (ncols X) (length Y)); [congruence|reflexivity].
Qed.
Lemma tau_no_weighting : forall es2 c1 c2 co fi x, x <> [] -> c1 <= 0 -> 0 <= c2 ->
  exists s, scaleTau2 es2 c1 c2 co fi (map (fun y => [y]) x) = [s] /\
    tau_about_median (if co then (if fi then (INR (length x) - 2) * es2 else INR (length x) * es2) else INR (length x)) c2 x s.
Proof.
  intros es2 c1 c2 co fi x Hx Hc1 Hc2. unfold scaleTau2. cbv zeta. rewrite manynan_R, map_length, !nnat_R.
  rewrite (median_single x Hx). set (m := vmedian x).
  assert (E1 : rows_op nsub (map (fun y => [y]) x) [m] = map (fun y => [y - m]) x).
  { unfold rows_op. rewrite map_map. reflexivity. }
  rewrite E1.
  assert (E2 : map (map nabs) (map (fun y => [y - m]) x) = map (fun y => [y]) (map (fun y => Rabs (y - m)) x)).
  { rewrite !map_map. reflexivity. }
  rewrite E2. assert (Hx2 : map (fun y => Rabs (y - m)) x <> []) by (destruct x; [congruence|discriminate]).
  rewrite (median_single _ Hx2). set (s0 := vmedian (map (fun y => Rabs (y - m)) x)).
  replace (nltb n0 c1) with false by (symmetry; apply Rltb_false; exact Hc1). cbn [map].
  eexists. split; [reflexivity|]. exists m, s0. split; [apply is_median_vmedian; auto|]. split; [apply is_median_vmedian; auto|].
  rnum. f_equal. f_equal. f_equal.
  assert (E5 : map (fun r => if existsb (fun v => Rltb (nsqr c2) v) r then map (fun _ => nsqr c2) r else r)
     (map (map nsqr) (rows_op ndiv (map (fun y => [y - m]) x) [s0]))
     = map (fun y => [Rmin ((y - m) / s0 * ((y - m) / s0)) (c2 * c2)]) x).
  { unfold rows_op. rewrite !map_map. apply map_ext. intros y. cbn [map map2 existsb]. unfold nsqr. rnum. rewrite orb_false_r.
    destruct (Rltb (c2 * c2) ((y - m) / s0 * ((y - m) / s0))) eqn:E; rcmp_all.
    - rewrite Rmin_right by lra. reflexivity.
    - rewrite Rmin_left by lra. reflexivity. }
  unfold nsqr in E5 |- *. rnum. rewrite E5. rewrite msum_single. destruct co, fi; reflexivity.
Qed.

(** ** bcov-sdr *)
Lemma whitening_with : forall st mt, sd_whitening (ss_prm (with_method st mt)) = ss_prm (with_method (mk_ss (sd_whitening (ss_prm st)) (ss_X0 st) (ss_start st) (ss_cons st) (ss_args st) (ss_dict st)) mt).
Proof. intros st mt. unfold sd_whitening, with_method. cbn. destruct (sp_whiten (ss_prm st)) eqn:Ew; cbn; rewrite ?Ew; reflexivity. Qed.
Lemma bcov_name : forall (env : sd_env R) st X y metric bias st' m, sd_fit env (with_method st MDcov) X y metric bias = (st', Ok m) ->
  snd (sd_fit env (with_method st MBcov) X y metric bias) = Err NameError.
Proof.
  intros env st X y metric bias st' m E. unfold sd_fit in *. cbv zeta in *. rewrite !whitening_with in *.
  set (w := sd_whitening (ss_prm st)) in *. unfold with_method in *. cbn [ss_prm ss_X0 ss_start ss_cons ss_args ss_dict sp_ncomp sp_copy] in *.
  destruct (_ <? _)%nat; [discriminate|]. unfold sd_prepare, sd_direct in *. cbn [sp_meth sp_compress sp_center_data sp_center sp_scale_data sp_trim sp_whiten] in *.
  match type of E with match ?b with Ok _ => _ | Err _ => _ end = _ => destruct b as [[pd ys]|] end; [|discriminate].
  unfold sd_optimise in *. cbn [ss_prm ss_X0 ss_start ss_cons ss_args ss_dict sp_ncomp sp_scale_data sp_meth sp_trim sp_center] in *.
  unfold start_value in *. cbn [sp_ncomp sp_scale_data] in *.
  match type of E with context [match ?b with Ok _ => _ | Err _ => (_, Err _) end] => destruct b as [start|] end; [|discriminate].
  match type of E with context [match ?b with Ok _ => _ | Err _ => (_, Err _) end] => destruct b as [B|] end; [|discriminate].
  reflexivity.
Qed.

(** ** new data for sudire *)
Lemma prepare_V : forall (env : sd_env R) prm X pd, sd_prepare env prm X = Ok pd -> sp_compress prm = false \/ (ncols X <= length X)%nat -> pd_V pd = None.
Proof.
  intros env prm X pd E HC. unfold sd_prepare in E. cbv zeta in E. destruct (_ =? 1)%nat; [discriminate|]. destruct (se_isqrt env (npcov X)) as [N2|]; [|discriminate]. cbn [bind] in E.
  assert (EX : ((length X <? ncols X)%nat && sp_compress prm) = false) by (destruct HC as [->|HC]; [apply andb_false_r|destruct (Nat.ltb_spec (length X) (ncols X)); [lia|reflexivity]]).
  rewrite EX in E. cbn [bind] in E.
  match type of E with bind ?b _ = _ => destruct b as [[[[Xs1 m1] s1] o1]|]; [|discriminate] end. cbn [bind] in E.
  match type of E with bind ?b _ = _ => destruct b as [[[[Xs2 m2] s2] o2]|]; [|discriminate] end. cbn [bind] in E.
  match type of E with bind ?b _ = _ => destruct b as [[Xs K]|]; [|discriminate] end. cbn [bind] in E. injection E as <-. reflexivity.
Qed.
Lemma sd_P_length : forall (env : sd_env R) st X y metric bias st' m, sd_fit env st X y metric bias = (st', Ok m) -> sp_copy (ss_prm st) = true ->
  sp_compress (ss_prm st) = false \/ sp_whiten (ss_prm st) = true \/ (ncols X <= length X)%nat -> length (sm_P m) = ncols X.
Proof.
  intros env st X y metric bias st' m E Hc HC. unfold sd_fit in E. cbv zeta in E. rewrite Hc in E. destruct (_ <? _)%nat; [discriminate|].
  destruct (sd_prepare env (sd_whitening (ss_prm st)) X) as [pd|] eqn:EP; [|discriminate]. cbn [bind] in E. destruct (sd_response (length X) y) as [ys|]; [|discriminate]. cbn [bind] in E.
  assert (HV : pd_V pd = None). { apply (prepare_V env _ _ _ EP). unfold sd_whitening. destruct (sp_whiten (ss_prm st)) eqn:Ew; [left; reflexivity|]. destruct HC as [HC|[HC|HC]]; [left; exact HC|congruence|right; exact HC]. }
  assert (HF : exists P, sd_finish env (sd_whitening (ss_prm st)) (Some X) pd ys P = Ok m).
  { destruct (sd_direct env _ _ _) as [r|].
    - injection E as _ E. destruct r as [P0|]; [|discriminate]. cbn [bind] in E. destruct (n2_times _ _ P0) as [P|]; [|discriminate]. cbn [bind] in E. exists P; exact E.
    - destruct (sd_optimise env _ _ _ _ _ _) as [st2 [P|]]; cbn [bind] in E; [injection E as _ E; exists P; exact E|discriminate]. }
  destruct HF as [P EF]. apply L_SdrFit.finish_inv in EF as (X1 & EX1 & ET & _ & _ & _ & HP & _). injection EX1 as <-. rewrite (HP HV).
  unfold npmatmul in ET. destruct (Nat.eqb_spec (ncols X) (length P)); [congruence|discriminate].
Qed.
