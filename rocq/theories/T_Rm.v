(** Property theorems C39-C44, C90: the robust M-regression rm. *)

From Coq Require Import Reals QArith List Arith ZArith Bool Lia Lra Permutation.
Import ListNotations.
From Verif Require Import Num Err Vec VecR OrdR L_Mat S_Stats S_Weights S_Regress L_Stats M_Utils M_Preproc M_Robcent M_Msupport M_Rm S_Rm
  L_Scaling L_Scaling2 T_Scaling L_Snipls L_Snipls2 L_Snipls3 L_Missing L_Rm L_Rm2.
Open Scope R_scope.

(** concrete environments: the least-squares routine for one predictor (exact),
    constant quantiles *)
Definition ls1 (X : list (list Q)) (y : list Q) : res (list Q) :=
  let x := col 0 X in Ok [Qred (dot x y / dot x x)]%Q.
Definition rmQ (cut : Q) : rm_env Q := {| re_prep := envQ; re_normppf := fun _ => cut; re_chi2ppf := fun _ _ => cut; re_lstsq := ls1 |}.
Definition PQ (c : centre_opt Q) (s : scale_opt Q) : rm_par Q := mk_rm_par (Some MHuber) (95#100)%Q (97#100)%Q (99#100)%Q c s false 20 (1#100)%Q true.
Definition XQ : list (list Q) := [[0]; [1]; [3]]%Q.
Definition yQ : list Q := [0; 2; 1]%Q.

Definition rmR : rm_env R := {| re_prep := env0; re_normppf := fun q => 100 * q - 93; re_chi2ppf := fun q _ => 100 * q - 93;
                                re_lstsq := fun Xw _ => Ok (map (fun _ => 1) (hd [] Xw)) |}.
Definition PR (c : centre_opt R) (s : scale_opt R) : rm_par R := mk_rm_par (Some MHampel) (95/100) (975/1000) (999/1000) c s false 20 (1/100) true.
Lemma PR_valid : forall c s, ~ invalid_rm (PR c s).
Proof. intros c s [Hi|[Hi|[_ Hi]]]; cbn in Hi; [discriminate|apply Hi; lra|apply Hi; lra]. Qed.
Lemma rmR_total : solver_total rmR.
Proof. intros Xw yw. eexists. reflexivity. Qed.
Definition y3' : list R := [1; 0; 2].
Lemma rm_case : forall c s, plain_centre c -> plain_scale s -> ~ (s = SNone /\ c <> CMean) -> exists m, rm_fit rmR (PR c s) X3 y3' = Ok m.
Proof.
  intros c s Hc Hs Hx. apply (C42_supported_l rmR (PR c s) 3 2 X3 y3'); auto; try lia; try reflexivity.
  - apply PR_valid. - apply X3_matrix. - cbn; lia. - cbn; lra. - apply rmR_total.
Qed.

(* ------------------------------------------------------------------ *)
(** C39, for data with infinities and missing values *)
Theorem C39_caseweights : forall (env : rm_env XR) (P : rm_par XR) X y m,
  rm_fit env P X y = Ok m -> X <> [] ->
  (forall f, r_fun P = Some f -> finite_cutoffs f (cty env P) (cby env P) (cry env P) /\
                                 finite_cutoffs f (ctx env P (ncols X)) (cbx env P (ncols X)) (crx env P (ncols X))) ->
  length (rm_cw m) = length X /\ length (rm_xcw m) = length X /\ length (rm_ycw m) = length X /\
  forall i, (i < length X)%nat ->
    unit_or_nan (nth i (rm_xcw m) NaN) /\ unit_or_nan (nth i (rm_ycw m) NaN) /\ caseweight_ok (nth i (rm_cw m) NaN) /\
    nth i (rm_cw m) NaN = XRmul (nth i (rm_xcw m) NaN) (nth i (rm_ycw m) NaN).
Proof. exact C39_l. Qed.
Print Assumptions C39_caseweights.
(** every inner least-squares problem is the scaled data with its rows multiplied
    by square roots of weights in [1e-6, 1]: no case is lost or given the weight zero *)
Theorem C39_inner_fits : forall (env : rm_env XR) (P : rm_par XR) X y, X <> [] ->
  (forall f, r_fun P = Some f -> finite_cutoffs f (cty env P) (cby env P) (cry env P) /\
                                 finite_cutoffs f (ctx env P (ncols X)) (cbx env P (ncols X)) (crx env P (ncols X))) ->
  forall Xw yw, In (Xw, yw) (fst (rm_run env P X y)) -> exists Xs ys u,
    snd (sc_fit_transform (re_prep env) (new_scaler (r_centre P) (r_scale P) (Fin 0)) (A2 X)) = Ok Xs /\ length Xs = length X /\ length ys = length X /\
    length u = length X /\ Forall inner_weight u /\
    Xw = map2 (fun w r => map (XRmul w) r) u Xs /\ yw = map2 XRmul ys u.
Proof. exact C39_inner_l. Qed.
Print Assumptions C39_inner_fits.
(** with data in which one case is downweighted: second weight 100/148... *)
Example C39_caseQ : exists m, rm_fit (rmQ 1) (PQ CMedian SMad) XQ yQ = Ok m /\
  existsb (fun w => Qltb w 1) (rm_cw m) = true /\ forallb (fun w => Qle_bool 0 w && Qle_bool w 1)%bool (rm_cw m) = true.
Proof. vm_compute. eexists. split; [reflexivity|]. split; reflexivity. Qed.
(** a run over the extended reals that meets the hypotheses *)
Definition rmX : rm_env XR := {| re_prep := {| env_l1opt := fun _ x => x; env_es2 := Fin 1 |};
  re_normppf := fun _ => Fin 2; re_chi2ppf := fun _ _ => Fin 2; re_lstsq := fun _ _ => Ok [Fin 1] |}.
Definition PX : rm_par XR := mk_rm_par (Some MHuber) (Fin (1/2)) (Fin 0) (Fin 0)
  (CUser (fun _ _ => Ok [Fin 0])) (SUser (fun _ _ => Ok [Fin 1])) false 2 (Fin 0) true.
Definition XX : list (list XR) := [[Fin 1]; [NaN]].
Lemma tr0X : check_trimming (Fin 0) = Ok tt.
Proof.
  unfold check_trimming. xnum. rewrite ?XRleb_Fin. cbn [XRltb].
  repeat match goal with |- context [Rltb ?a ?b] => destruct (Rltb a b) eqn:?E end; rcmp_all; auto; exfalso; lra.
Qed.
Lemma scale_data_total : forall (Y : list (list XR)) s, length s = 1%nat \/ length s = ncols Y -> (1 <= length s)%nat ->
  exists Z, scale_data Y [Fin 0] s = Ok Z.
Proof.
  intros Y s Hs Hp. unfold scale_data. assert (Hh : length (handle_zeros s) = length s) by (unfold handle_zeros; destruct s as [|? [|? ?]]; cbn; rewrite ?map_length; auto).
  destruct (Nat.eqb_spec (ncols Y) 1) as [E|E].
  - destruct (handle_zeros s); [cbn in Hh; lia|]. eauto.
  - cbn [length]. destruct (Nat.eqb_spec 1 (ncols Y)); [lia|]. cbn [bind].
    destruct (Nat.eqb_spec (length (handle_zeros s)) (ncols Y)); [eauto|]. destruct (handle_zeros s) as [|v0 [|v1 q]]; cbn in *; try lia. eauto.
Qed.
Lemma ftX : forall (st : scaler XR) x, sc_trimming st = Fin 0 -> sc_center st = CUser (fun _ _ => Ok [Fin 0]) ->
  (sc_scale st = SUser (fun _ _ => Ok [Fin 1]) \/ (sc_scale st = SNone /\ (1 <= ncols (check_input x))%nat)) ->
  exists st' Z s, sc_fit_transform (re_prep rmX) st x = (st', Ok Z) /\ a_col_loc st' = Some [Fin 0] /\ a_col_sca st' = Some s /\
    (sc_scale st <> SNone -> s = [Fin 1]) /\ sc_center st' = sc_center st /\ sc_scale st' = sc_scale st /\ sc_trimming st' = Fin 0.
Proof.
  intros st x Ht Hc Hs.
  set (s := match sc_scale st with SNone => repeat (Fin 1) (ncols (check_input x)) | _ => [Fin 1] end).
  assert (Hsc : scale_est (re_prep rmX) (sc_scale st) (sc_trimming st) (check_input x) = Ok s).
  { unfold s. destruct Hs as [-> | [-> _]]; reflexivity. }
  destruct (scale_data_total (check_input x) s) as [Z Hd].
  { unfold s. destruct Hs as [-> | [-> _]]; [left; reflexivity|right; apply repeat_length]. }
  { unfold s. destruct Hs as [-> | [-> Hn]]; [cbn; lia|rewrite repeat_length; auto]. }
  destruct (ft_intro (re_prep rmX) st x Z [Fin 0] s) as [st' E]; auto.
  - rewrite Hc. reflexivity. - rewrite Ht. apply tr0X. - rewrite Hc. destruct Hs as [-> | [-> _]]; reflexivity.
  - apply ft_inv in E as F. destruct F as (m & s' & F1 & F2 & _ & _ & _ & F3 & F4 & F5 & F6 & F7).
    rewrite Hc in F1. cbn in F1. apply Ok_inj in F1 as <-. rewrite Hsc in F2. apply Ok_inj in F2 as <-.
    exists st', Z, s. repeat split; auto; try congruence. intros Hn. unfold s. destruct Hs as [-> | [E0 _]]; [reflexivity|congruence].
Qed.
(** row scaling by at least one weight keeps the number of columns *)
Lemma ncols_row_scale : forall (u : list XR) X, u <> [] -> ncols (row_scale u X) = ncols X.
Proof. intros [|a u] [|r X] Hu; try congruence; auto. cbn. unfold ncols, vscale. cbn. apply map_length. Qed.
Lemma ft_ncols : forall (st st' : scaler XR) v X Y m, sc_fit_transform (re_prep rmX) st (A2 ([v] :: X)) = (st', Ok Y) ->
  a_col_loc st' = Some [m] -> ncols Y = 1%nat.
Proof.
  intros st st' v X Y m E Hm. apply ft_inv in E as (m' & s & _ & _ & _ & _ & Ed & E1 & _).
  assert (Hci : check_input (A2 ([v] :: X)) = [v] :: X) by (unfold check_input; destruct (_ =? _)%nat; reflexivity).
  rewrite Hci in Ed. rewrite Hm in E1. injection E1 as <-. unfold scale_data in Ed. unfold ncols in Ed. cbn [hd length Nat.eqb] in Ed.
  destruct (handle_zeros s); [discriminate|]. apply Ok_inj in Ed as <-. reflexivity.
Qed.
Example C39_caseX : (exists m, rm_fit rmX PX XX [Fin 3; Fin 4] = Ok m) /\ XX <> [] /\
  forall f, r_fun PX = Some f -> finite_cutoffs f (cty rmX PX) (cby rmX PX) (cry rmX PX) /\
                                 finite_cutoffs f (ctx rmX PX 1) (cbx rmX PX 1) (crx rmX PX 1).
Proof.
  split; [|split; [discriminate|]].
  - destruct (ftX (new_scaler (r_centre PX) (r_scale PX) (Fin 0)) (A2 XX)) as (st1 & Xs & s1 & E1 & L1 & S1 & _ & C1 & D1 & T1); auto.
    destruct (ftX st1 (A1 [Fin 3; Fin 4])) as (st2 & Ys & s2 & E2 & L2 & S2 & _ & C2 & D2 & T2); auto.
    unfold rm_fit, rm_run. unfold rm_check. cbn [r_fun PX r_p1]. xnum. rewrite XRleb_Fin. cbn [XRltb].
    replace (Rltb 1 (1 / 2)) with false by (symmetry; apply Rltb_false; lra). replace (Rleb (1 / 2) 0) with false by (symmetry; apply Rleb_false; lra).
    cbn [orb length XX Nat.eqb negb andb].
    change [[Fin 1]; [NaN]] with XX. rewrite E1, E2, L1, S1, L2, S2. cbv zeta. cbn [r_maxit PX rm_loop l_diff l_loops r_tol].
    xnum. cbn [XRltb]. replace (Rltb 0 1) with true by (symmetry; apply Rltb_true; lra). cbn [Nat.ltb Nat.leb andb re_lstsq rmX].
    match goal with |- context [rm_body ?f ?a ?b ?c ?d ?e ?g ?h ?i] => set (S0 := h); destruct (rm_body f a b c d e g S0 i) as [st brk] eqn:Eb end.
    assert (HS0 : l_sw S0 <> []).
    { unfold S0. cbn [l_sw]. intros E0. apply (f_equal (@length XR)) in E0. rewrite map_length in E0. unfold floor_w in E0. rewrite set_idx_length in E0.
      unfold vmul in E0. rewrite map2_length, !mweights_length in E0. unfold start_dx in E0. rewrite !map_length in E0.
      rewrite (fit_transform_rows _ _ _ _ _ E1) in E0. cbn in E0. discriminate. }
    assert (Hst : l_b st = Some [Fin 1] /\ (brk = false -> l_loops st = 2%nat) /\ l_sw st <> []).
    { unfold rm_body in Eb. destruct (_ <=? _)%nat; injection Eb as <- <-; (split; [reflexivity|split; [intros; try discriminate; reflexivity|]]); [exact HS0|].
      cbn [l_sw]. intros E0. apply (f_equal (@length XR)) in E0. rewrite map_length in E0. unfold floor_w in E0. rewrite set_idx_length in E0.
      unfold vmul in E0. rewrite map2_length in E0. unfold Huber in E0. rewrite !upd_length, std_resid_length in E0. unfold start_dx, vsub, matvec in E0. rewrite map2_length, !map_length in E0.
      unfold col in E0. rewrite map_length in E0.
      rewrite (fit_transform_rows _ _ _ _ _ E1), (fit_transform_rows _ _ _ _ _ E2) in E0. cbn in E0. discriminate. }
    clear Eb. destruct Hst as (Hb & Hl & Hsw).
    assert (HXs : ncols Xs = 1%nat) by (eapply (ft_ncols (new_scaler (r_centre PX) (r_scale PX) (Fin 0)) st1 (Fin 1) [[NaN]]); eauto).
    assert (Hfin : forall wx, exists m, rm_finish rmX PX XX Xs [Fin 3; Fin 4] (col 0 Ys) wx [Fin 0] s1 [Fin 0] s2 st2 st = Ok m).
    { intros wx. unfold rm_finish. rewrite Hb.
      destruct (ftX (sc_set_params st2 None (Some SNone) None) (A2 (row_scale (map nsqrt (l_sw st)) Xs))) as (st4 & Z & s4 & E4 & _); auto.
      { cbn. rewrite C2, C1. reflexivity. }
      { right. split; [reflexivity|].
        assert (Hne : map (@nsqrt XR _) (l_sw st) <> []) by (destruct (l_sw st); [congruence|discriminate]).
        unfold check_input. rewrite ncols_row_scale, HXs by auto. rewrite andb_false_r. rewrite ncols_row_scale by auto. lia. }
      rewrite E4. cbn [snd]. cbv zeta.
      assert (Hs1 : s1 = [Fin 1]).
      { apply ft_inv in E1 as (m' & s' & _ & F & _ & _ & _ & _ & F2 & _). cbn in F. apply Ok_inj in F as <-. congruence. }
      rewrite Hs1. change (negb (length [Fin 1] =? ncols XX)%nat) with false. cbv iota. cbn [r_scale PX bind]. eauto. }
    destruct brk.
    + cbn [snd]. apply Hfin.
    + rewrite (Hl eq_refl). cbn [Nat.ltb Nat.leb]. rewrite andb_false_r. cbn [snd]. apply Hfin.
  - intros f E. injection E as <-. split; exists 2, 2, 2; repeat split; cbn; lra.
Qed.

(* ------------------------------------------------------------------ *)
(** C40 *)
Theorem C40_budget : forall (A : Type) (N : Num A) (env : rm_env A) P X y,
  (length (fst (rm_run env P X y)) <= r_maxit P - 1)%nat.
Proof. exact @C40_budget_l. Qed.
Print Assumptions C40_budget.
Theorem C40_terminates : forall (A : Type) (N : Num A) (env : rm_env A) P f Xs ys wx st, (1 <= l_loops st)%nat ->
  exists r calls, forall fuel, (S (r_maxit P) <= fuel)%nat -> rm_loop env fuel P f Xs ys wx st = (calls, Some r).
Proof. exact @C40_terminates_l. Qed.
Print Assumptions C40_terminates.
Theorem C40_small_budget : forall (A : Type) (N : Num A) (env : rm_env A) P X y m,
  (r_maxit P <= 1)%nat -> rm_fit env P X y <> Ok m.
Proof. exact @C40_small_l. Qed.
Print Assumptions C40_small_budget.
Example C40_case : exists m, rm_run (rmQ 100) (PQ CMedian SMad) XQ yQ = m /\ length (fst m) = 2%nat /\
  snd (rm_run (rmQ 100) (mk_rm_par (Some MHuber) (95#100)%Q (97#100)%Q (99#100)%Q CMedian SMad false 1 (1#100)%Q true) XQ yQ) = Err UnboundLocalError.
Proof. vm_compute. eexists. split; [reflexivity|]. split; reflexivity. Qed.

(* ------------------------------------------------------------------ *)
(** C41 *)
Theorem C41_validation_exact : forall (env : rm_env R) P n p X y, is_matrix n p X -> (2 <= n)%nat -> (1 <= p)%nat ->
  plain_centre (r_centre P) -> plain_scale (r_scale P) -> (forall Xw yw, re_lstsq env Xw yw <> Err MyException) ->
  (rm_fit env P X y = Err MyException <-> invalid_rm P \/ length y <> n).
Proof. exact C41_l. Qed.
Print Assumptions C41_validation_exact.
Example C41_case : is_matrix 3 2 X3 /\ plain_centre (r_centre (PR CMean SStd)) /\ plain_scale (r_scale (PR CMean SStd)) /\
  (forall Xw yw, re_lstsq rmR Xw yw <> Err MyException) /\ ~ invalid_rm (PR CMean SStd) /\
  invalid_rm (mk_rm_par (Some MHampel) (99/100) (975/1000) (999/1000) CMean SStd false 20 (1/100) true).
Proof.
  split; [apply X3_matrix|]. split; [left; reflexivity|]. split; [left; reflexivity|]. split; [discriminate|]. split; [apply PR_valid|].
  right; right. split; [reflexivity|]. cbn. lra.
Qed.

(* ------------------------------------------------------------------ *)
(** C42 *)
Theorem C42_supported : forall (env : rm_env R) P n p X y, ~ invalid_rm P -> is_matrix n p X -> (2 <= n)%nat -> (1 <= p)%nat -> length y = n ->
  plain_centre (r_centre P) -> plain_scale (r_scale P) -> ~ (r_scale P = SNone /\ r_centre P <> CMean) ->
  (2 <= r_maxit P)%nat -> r_tol P < 1 -> solver_total env -> exists m, rm_fit env P X y = Ok m.
Proof. exact C42_supported_l. Qed.
Print Assumptions C42_supported.
Theorem C42_scale_none_refuted : forall (env : rm_env R) P n p X y, ~ invalid_rm P -> is_matrix n p X -> (2 <= n)%nat -> (1 <= p)%nat -> length y = n ->
  plain_centre (r_centre P) -> r_scale P = SNone -> r_centre P <> CMean -> solver_total env ->
  rm_fit env P X y = Err UnboundLocalError.
Proof. exact C42_error_l. Qed.
Print Assumptions C42_scale_none_refuted.
Theorem C42_scale_none_never : forall (A : Type) (N : Num A) (env : rm_env A) P X y m, r_scale P = SNone -> r_centre P <> CMean -> rm_fit env P X y <> Ok m.
Proof. exact @C42_unusable_l. Qed.
Print Assumptions C42_scale_none_never.
Example C42_case : (exists m, rm_fit rmR (PR CMedian SMad) X3 y3' = Ok m) /\ (exists m, rm_fit rmR (PR CMean SNone) X3 y3' = Ok m) /\
  ~ invalid_rm (PR CMedian SNone) /\ solver_total rmR /\ rm_fit rmR (PR CMedian SNone) X3 y3' = Err UnboundLocalError.
Proof.
  split; [apply rm_case; [right; left; auto|right; left; auto|intros [E _]; discriminate]|].
  split; [apply rm_case; [left; auto|right; right; auto|intros [_ E]; auto]|].
  split; [apply PR_valid|]. split; [apply rmR_total|].
  apply (C42_error_l rmR (PR CMedian SNone) 3 2 X3 y3'); auto; try lia; try discriminate.
  - apply PR_valid. - apply X3_matrix. - right; left; auto. - apply rmR_total.
Qed.

(* ------------------------------------------------------------------ *)
(** C43 *)
Theorem C43_fitted_values : forall (env : rm_env R) P n p X y m, is_matrix n p X -> (2 <= n)%nat -> (1 <= p)%nat ->
  rm_fit env P X y = Ok m -> r_copy P = true ->
  rm_predict m (A2 X) = Ok (rm_fitted m) /\ length (rm_fitted m) = n /\ length (rm_resid m) = n /\
  (forall i, (i < n)%nat -> nth i (rm_fitted m) 0 + nth i (rm_resid m) 0 = nth i y 0) /\
  (r_centre P = CMean -> sum_of (rm_resid m) = 0) /\ (r_centre P <> CMean -> is_median (rm_resid m) 0).
Proof. exact C43_l. Qed.
Print Assumptions C43_fitted_values.
Example C43_case : exists m, rm_fit rmR (PR CMedian SMad) X3 y3' = Ok m.
Proof. apply rm_case; [right; left; auto|right; left; auto|intros [E _]; discriminate]. Qed.

(* ------------------------------------------------------------------ *)
(** C44 *)
Theorem C44_intercept_scaled_mean : forall (env : rm_env R) P n p X y m X0 y0, is_matrix n p X -> (2 <= n)%nat -> (1 <= p)%nat -> length y = n ->
  rm_scaled env P X y X0 y0 -> rm_fit env P X y = Ok m -> r_scale P <> SNone -> r_centre P = CMean ->
  rm_intercept_scaled m = mean_of (vdiff y0 (fitted_by X0 (rm_coef_scaled m))).
Proof. exact C44_mean_l. Qed.
Print Assumptions C44_intercept_scaled_mean.
Theorem C44_intercept_scaled_pairs : forall (env : rm_env R) P n p X y m X0 y0, is_matrix n p X -> (2 <= n)%nat -> (1 <= p)%nat -> length y = n ->
  rm_scaled env P X y X0 y0 -> rm_fit env P X y = Ok m -> r_scale P <> SNone -> r_centre P <> CMean ->
  is_median (all_differences y0 (fitted_by X0 (rm_coef_scaled m))) (rm_intercept_scaled m).
Proof. exact C44_median_l. Qed.
Print Assumptions C44_intercept_scaled_pairs.
Theorem C44_intercept_scaled_refuted : exists m X0 Y0,
  rm_fit (rmQ 100) (PQ CMedian SMad) XQ yQ = Ok m /\
  snd (sc_fit_transform envQ (new_scaler CMedian SMad 0%Q) (A2 XQ)) = Ok X0 /\
  snd (sc_fit_transform envQ (new_scaler CMedian SMad 0%Q) (A1 yQ)) = Ok Y0 /\
  Qeq_bool (rm_intercept_scaled m) (vmedian (vsub (col 0 Y0) (matvec X0 (rm_coef_scaled m)))) = false.
Proof. do 3 eexists. do 3 (split; [vm_compute; reflexivity|]). vm_compute. reflexivity. Qed.
Print Assumptions C44_intercept_scaled_refuted.
Example C44_case : (exists m, rm_fit rmR (PR CMean SStd) X3 y3' = Ok m) /\ (exists X0, scaled_by env0 CMean SStd X3 X0).
Proof.
  split; [apply rm_case; [left; auto|left; auto|intros [E _]; discriminate]|].
  destruct (ft_plain env0 (new_scaler CMean SStd 0) 3 2 (A2 X3) X3) as (st & Y & _ & _ & E & _); auto; try lia.
  - apply X3_matrix. - left; auto. - left; auto. - exists Y, st. exact E.
Qed.

(* ------------------------------------------------------------------ *)
(** C90: probp3 = 1 passes the parameter check; norm.ppf(1) and chi2.ppf(1) are
    infinite, and every case beyond the second cut-off then gets weight NaN *)
Theorem C90_infinite_cutoff_refuted :
  (forall P : rm_par R, r_fun P = Some MHampel -> 0 < r_p1 P < r_p2 P -> r_p2 P < 1 -> r_p3 P = 1 -> rm_check P = Ok MHampel) /\
  (forall c b x i v, 1 <= c -> c < b -> (i < length x)%nat -> nth i x NaN = Fin v -> b < v ->
    nth i (Hampel x (Fin c) (Fin b) PInf) NaN = NaN).
Proof. exact C90_full_l. Qed.
Print Assumptions C90_infinite_cutoff_refuted.
