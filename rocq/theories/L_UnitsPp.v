(** Projection pursuit of the same data in other units. *)

From Coq Require Import String Reals List Arith ZArith Bool Lia Lra.
Import List. Import ListNotations.
From Verif Require Import Num Err Vec VecR L_Mat L_Lin L_Matmul M_Utils M_Preproc M_Robcent L_Stats L_Scaling L_Scaling2 M_Dicomo M_Ipopt M_Snipls M_Ppdire
  S_Stats S_Regress S_Dicomo S_Units L_Snipls L_Snipls2 S_Ppdire L_Pp L_Pp2 L_Pp4 OrdR L_OrderSc L_OrderSn L_Units L_PpTot S_UnitsPp.
Import List. Open Scope R_scope.

Lemma pp_scaled_units : forall (env : pp_env R) ce s n p a b X, wf n p X -> (2 <= n)%nat -> (1 <= p)%nat -> unit_centre ce -> unit_scale s -> unit_change p a b ->
  (forall j, (j < p)%nat -> has_spread s (column j X)) ->
  exists m v Z, pp_scaled env ce s 0 X = Ok (m, v, Z) /\ pp_scaled env ce s 0 (units a b X) = Ok (unit_loc a b m, unit_sca a v, Z) /\
    length m = p /\ length v = p /\ wf n p Z /\ (forall j, (j < p)%nat -> 0 < nth j v 0) /\
    (ce = CMean -> forall j, (j < p)%nat -> vmean (col j Z) = 0).
Proof.
  intros env ce s n p a b X W Hn Hp Hc Hs Hu Hsp. destruct (ft_units (pe_prep env) ce s n p a b X W Hn Hp Hc Hs Hu Hsp) as (m & v & Z & E & E' & Lm & Lv & WZ & Hv).
  pose proof Hu as (La & Lb & _). assert (WU : wf n p (units a b X)) by (apply units_wf; auto).
  exists m, v, Z. change (pp_scaled env ce s 0 X) with (scaled (pe_prep env) ce s X). change (pp_scaled env ce s 0 (units a b X)) with (scaled (pe_prep env) ce s (units a b X)).
  rewrite !(scaled_ft (pe_prep env) ce s n p) by auto. repeat (split; [assumption|]). split; [intros j Hj; apply Hv; auto|].
  intros Hce j Hj. destruct (ft_columns (pe_prep env) ce s n p X W Hn Hp Hc Hs) as (m1 & v1 & Z1 & E1 & _ & _ & WZ1 & HC & HZ). rewrite E in E1. apply Ok_inj in E1. injection E1 as <- <- <-.
  destruct (HC j Hj) as [Hl _]. rewrite Hce in Hl. cbn [col_loc] in Hl. destruct (Req_EM_T 0 0); [|lra]. apply Ok_inj in Hl. destruct (Hv j Hj) as [Hpos _].
  assert (EC : col j Z = map (fun x => / nth j v 0 * x + - (nth j m 0 / nth j v 0)) (col j X)).
  { apply (list_ext _ _ 0); [rewrite map_length, !col_length, (wf_length _ _ _ WZ), (wf_length _ _ _ W); reflexivity|]. intros i Hi. rewrite col_length, (wf_length _ _ _ WZ) in Hi.
    rewrite (nth_map_lt _ _ _ 0) by (rewrite col_length, (wf_length _ _ _ W); auto).
    change (nth i (col j Z) 0) with (nth i (col j Z) n0). change (nth i (col j X) 0) with (nth i (col j X) n0). rewrite !nth_col by (rewrite ?(wf_length _ _ _ WZ), ?(wf_length _ _ _ W); auto).
    rewrite HZ by auto. destruct (Req_EM_T (nth j v 0) 0); [lra|]. field. lra. }
  assert (NE : col j X <> []) by (intros H; apply (f_equal (@length R)) in H; rewrite col_length, (wf_length _ _ _ W) in H; cbn in H; lia).
  pose proof (col_loc_affine CMean 0 (col j X) (nth j m 0) (/ nth j v 0) (- (nth j m 0 / nth j v 0)) NE (or_introl eq_refl)) as HA. cbn [col_loc] in HA.
  destruct (Req_EM_T 0 0); [|lra]. rewrite Hl in HA. rewrite EC.
  assert (HB : Ok (vmean (map (fun x => / nth j v 0 * x + - (nth j m 0 / nth j v 0)) (col j X))) = Ok (/ nth j v 0 * nth j m 0 + - (nth j m 0 / nth j v 0))) by (apply HA; auto; lra).
  apply Ok_inj in HB. rewrite HB. field. lra.
Qed.

(** one step: the coefficients *)
Definition uq (a : list R) (c : R) (q : R * list R * list R) : R * list R * list R := (fst (fst q), unit_coef a c (snd (fst q)), snd q).
Definition uy (c : R) (v : list R) (y : yinfo R) : yinfo R := mk_yi (yi_kw y) (yi_s y) v (c * yi_sca y).
Lemma inner_coef_units : forall (env : pp_env R) prm y c v t, pp_regopt prm <> "quantile"%string -> 
  inner_coef env prm (yi_kw (uy c v y)) (yi_s (uy c v y)) (yi_0 (uy c v y)) t = inner_coef env prm (yi_kw y) (yi_s y) (yi_0 y) t.
Proof.
  intros env prm y c v t Hq. unfold inner_coef. cbn [uy yi_kw yi_s yi_0]. destruct (pp_regopt prm =? "OLS")%string; [reflexivity|]. destruct (pp_regopt prm =? "robust")%string; [reflexivity|].
  destruct (pp_regopt prm =? "quantile")%string eqn:E; [apply String.eqb_eq in E; congruence|reflexivity].
Qed.
Lemma loop_units : forall (env : pp_env R) k prm most kw yi c v n p a b sX d E cs yc Rt, pp_regopt prm <> "quantile"%string -> unit_change p a b -> length sX = p -> (forall j, (j < p)%nat -> 0 < nth j sX 0) ->
  pp_loop env k prm most kw (option_map (uy c v) yi) None n p (unit_sca a sX) d E cs (map (uq a c) yc) Rt =
  (let '(d', r) := pp_loop env k prm most kw yi None n p sX d E cs yc Rt in (d', match r with Ok (cs', yc', R') => Ok (cs', map (uq a c) yc', R') | Err e => Err e end)).
Proof.
  intros env k prm most kw yi c v n p a b sX d E cs yc Rt Hq Hu Ls Hp. revert d E cs yc Rt. induction k as [|k IH]; intros d E cs yc Rt; cbn [pp_loop]; [reflexivity|].
  destruct (direction env prm most kw d p E) as [d' [wo|e]]; cbn [bind]; [|reflexivity].
  assert (ET : match option_map (uy c v) yi with Some _ => true | None => false end = match yi with Some _ => true | None => false end) by (destruct yi; reflexivity). rewrite ET.
  destruct (component prm most kw _ None n p E wo) as [cc|e]; cbn [bind]; [|reflexivity]. cbv zeta.
  destruct (rotations env p (cs ++ [cc])) as [R'|e]; cbn [bind]; [|reflexivity].
  destruct yi as [y|]; cbn [option_map].
  - rewrite (inner_coef_units env prm y c v) by auto. destruct (inner_coef env prm (yi_kw y) (yi_s y) (yi_0 y) (g_t cc)) as [ci|e]; cbn [bind]; [|reflexivity].
    pose proof Hu as (La & _ & _). assert (Lu : length (unit_sca a sX) = p) by (unfold unit_sca; rewrite map2_length; lia). rewrite Lu, Ls, Nat.eqb_refl. cbn [negb bind].
    rewrite map_map. cbn [uq fst snd].
    assert (EQ : map (uq a c) yc ++ [(ci, map2 (fun s b0 => (c * yi_sca y) / s * b0) (unit_sca a sX) (matvec R' (map (fun x => fst (fst x)) yc ++ [ci])), matvec R' (map (fun x => fst (fst x)) yc ++ [ci]))]
      = map (uq a c) (yc ++ [(ci, map2 (fun s b0 => yi_sca y / s * b0) sX (matvec R' (map (fun x => fst (fst x)) yc ++ [ci])), matvec R' (map (fun x => fst (fst x)) yc ++ [ci]))])).
    { rewrite map_app. cbn [map]. f_equal. f_equal. unfold uq. cbn [fst snd]. pose proof (unit_bres p a b c sX [yi_sca y] (matvec R' (map (fun x => fst (fst x)) yc ++ [ci])) Hu Ls eq_refl Hp) as HB. cbn [unit_sca map2 nth] in HB. rewrite <- HB. reflexivity. }
    cbn [uy yi_sca]. rnum. rewrite EQ. apply IH.
  - cbn [bind]. apply IH.
Qed.

(** intercepts, fitted values, residuals *)
Lemma vsub_affine : forall c e g (u v : list R), length u = length v -> vsub (affine c e u) (affine c g v) = affine c (e - g) (vsub u v).
Proof.
  intros c e g u. unfold vsub, affine. induction u as [|x u IH]; intros [|y v] Hl; cbn in Hl; try discriminate; [reflexivity|]. cbn [map map2]. f_equal; [rnum; ring|]. apply IH. lia.
Qed.
Lemma centre_affine : forall ce c e l, unit_centre ce -> 0 < c -> l <> [] ->
  exists m, (if is_mean ce then trim_mean1 0 l else Ok (vmedian l)) = Ok m /\ (if is_mean ce then trim_mean1 0 (affine c e l) else Ok (vmedian (affine c e l))) = Ok (c * m + e).
Proof.
  intros ce c e l [-> | ->] Hc Hl; cbn [is_mean].
  - exists (vmean l). rewrite !trim_mean_zero by (destruct l; [congruence|discriminate]). split; [reflexivity|]. f_equal. unfold affine.
    pose proof (col_loc_affine CMean 0 l (vmean l) c e Hl (or_introl eq_refl)) as HA. cbn [col_loc] in HA. destruct (Req_EM_T 0 0); [|lra]. apply Ok_inj, HA; auto; lra.
  - exists (vmedian l). split; [reflexivity|]. f_equal. unfold affine. apply vmedian_affine; auto.
Qed.
Lemma dot_ones : forall n (l : list R), length l = n -> dot (repeat 1 n) l = vsum l.
Proof. intros n l. revert n. induction l as [|x l IH]; intros [|n] Hl; cbn in Hl; try discriminate; [reflexivity|]. cbn [repeat]. rewrite dot_cons, IH by lia. rewrite vsum_cons. rnum. ring. Qed.
Lemma vsum_matvec0 : forall n p (Z : list (list R)) w, wf n p Z -> (0 < n)%nat -> length w = p -> (forall j, (j < p)%nat -> vmean (col j Z) = 0) -> vsum (matvec Z w) = 0.
Proof.
  intros n p Z w W Hn Lw HM. rewrite <- (dot_ones n) by (rewrite matvec_length; apply (wf_length _ _ _ W)). rewrite <- (adjoint n p) by (auto; apply repeat_length).
  apply dot_zero_l. apply Forall_forall. intros x Hx. apply (In_nth _ _ 0) in Hx as (j & Hj & <-). rewrite (tmatvec_length n p) in Hj by auto. rewrite (nth_tmatvec n p) by auto.
  rewrite dot_comm, dot_ones by (rewrite col_length; apply (wf_length _ _ _ W)). specialize (HM j Hj). rewrite vmean_R, col_length, (wf_length _ _ _ W) in HM.
  assert (0 < INR n) by (apply lt_0_INR; auto). apply (Rmult_eq_reg_r (/ INR n)); [|apply Rinv_neq_0_compat; lra]. rewrite Rmult_0_l. exact HM.
Qed.
Lemma vmean_resid0 : forall n p (Z : list (list R)) w u, wf n p Z -> (0 < n)%nat -> length w = p -> (forall j, (j < p)%nat -> vmean (col j Z) = 0) -> length u = n -> vmean u = 0 ->
  vmean (vsub u (matvec Z w)) = 0.
Proof.
  intros n p Z w u W Hn Lw HM Lu HU. pose proof (vsum_matvec0 n p Z w W Hn Lw HM) as HS.
  assert (Lm : length (matvec Z w) = n) by (rewrite matvec_length; apply (wf_length _ _ _ W)).
  assert (HV : vsum (vsub u (matvec Z w)) = vsum u - vsum (matvec Z w)).
  { revert Lm. revert Lu. clear. generalize (matvec Z w). revert n. induction u as [|x u IH]; intros n l Hu Hl; destruct l as [|y l]; cbn in Hu, Hl; try lia; [cbn; rnum; ring|].
    unfold vsub in *. cbn [map2]. rewrite !vsum_cons. rewrite (IH (length u)) by lia. rnum. ring. }
  rewrite vmean_R. rewrite HV, HS. rewrite vmean_R, Lu in HU. assert (Hs : vsum u = 0).
  { assert (0 < INR n) by (apply lt_0_INR; auto). apply (Rmult_eq_reg_r (/ INR n)); [|apply Rinv_neq_0_compat; lra]. rewrite Rmult_0_l. exact HU. }
  rewrite Hs. unfold Rdiv. ring.
Qed.

Lemma finish_units : forall prm s n p a b c e X Xs yi v y beta, unit_centre (pp_center prm) -> pp_trim prm = 0 -> unit_scale s -> unit_change p a b -> 0 < c -> wf n p X -> wf n p Xs -> (2 <= n)%nat ->
  yi_0 yi = y -> length y = n -> v = affine c e y -> length (yi_s yi) = n -> length beta = p ->
  (pp_center prm = CMean -> (forall j, (j < p)%nat -> vmean (col j Xs) = 0) /\ vmean (yi_s yi) = 0) ->
  exists i b0 b0' fit r, finish_y prm s false X Xs yi beta = Ok (IOne i, b0, fit, A1 r) /\
    finish_y prm s false (units a b X) Xs (uy c v yi) (unit_coef a c beta) = Ok (IOne (unit_icpt a b c e beta i), b0', affine c e fit, A1 (affine c 0 r)) /\
    (pp_center prm = CMean -> b0' = b0).
Proof.
  intros prm s n p a b c e X Xs yi v y beta Hce Ht Hs Hu Hc W WS Hn Ey Ly Ev Lys Lb HM. unfold finish_y. cbv zeta. cbn [uy yi_0 yi_s]. rewrite Ey, Ht, Ev.
  rewrite (unit_matvec n p a b c X beta Hu W). set (g := inner b (unit_coef a c beta)). set (f := matvec X beta).
  assert (Lf : length f = n) by (unfold f; rewrite matvec_length; apply (wf_length _ _ _ W)).
  rewrite vsub_affine by lia. assert (NE : vsub y f <> []). { intros H. apply (f_equal (@length R)) in H. unfold vsub in H. rewrite map2_length in H. cbn in H. lia. }
  destruct (centre_affine (pp_center prm) c (e - g) (vsub y f) Hce Hc NE) as (m & E1 & E2).
  assert (HN : is_none_scale s = false) by (destruct Hs as [-> | ->]; reflexivity). rewrite HN.
  assert (Lu : length (unit_coef a c beta) = p) by (unfold unit_coef; rewrite map2_length; destruct Hu; lia).
  assert (EF : map (fun x => (x + (c * m + (e - g)))) (affine c g f) = affine c e (map (fun x => x + m) f)) by (unfold affine; rewrite !map_map; apply map_ext; intros x; ring).
  assert (ER : vsub (affine c e y) (affine c e (map (fun x => x + m) f)) = affine c 0 (vsub y (map (fun x => x + m) f))) by (rewrite vsub_affine by (rewrite map_length; lia); f_equal; ring).
  destruct (is_mean (pp_center prm)) eqn:EM.
  - rewrite E1, E2. cbn [bind]. eexists m, _, _, _, _. split; [reflexivity|]. rnum. rewrite EF, ER. split.
    + unfold unit_icpt. fold g. replace (c * m + e - g) with (c * m + (e - g)) by ring. reflexivity.
    + intros HC. destruct (HM HC) as [M1 M2]. f_equal. rewrite !(vmean_resid0 n p) by (auto; lia). reflexivity.
  - apply Ok_inj in E1, E2. rewrite E1, E2. cbn [bind]. eexists m, _, _, _, _. split; [reflexivity|]. rnum. rewrite EF, ER. split.
    + unfold unit_icpt. fold g. replace (c * m + e - g) with (c * m + (e - g)) by ring. reflexivity.
    + intros HC. rewrite HC in EM. discriminate.
Qed.

Lemma coef_lengths : forall (env : pp_env R) k prm most kw y n p sX d E d' cs yc Rt, wf n p E -> (0 < n)%nat ->
  pp_loop env k prm most kw (Some y) None n p sX d E [] [] (of_cols p []) = (d', Ok (cs, yc, Rt)) ->
  length yc = k /\ forall i, (i < k)%nat -> length (snd (fst (nth i yc q0))) = p.
Proof.
  intros env k prm most kw y n p sX d E d' cs yc Rt W Hn EL. apply loop_inv in EL; [|exact (wf_rect n p E W)|exact Hn|reflexivity].
  destruct EL as (l & ly & E1 & Ll & E2 & _ & _ & _ & _ & Hl & Hy). cbn [app] in E1, E2. subst cs yc. split; [exact Hl|]. intros i Hi.
  destruct (Hy i Hi) as (Ls & _ & Ri & ER & E3 & E4). rewrite E4, map2_length, E3, matvec_length, Ls. unfold rotations in ER.
  cbv zeta in ER. repeat match type of ER with context [bind ?r _] => destruct r; cbn [bind] in ER; [|discriminate] end. apply Ok_inj in ER. rewrite <- ER.
  unfold matmul. rewrite map_length. unfold of_cols. rewrite map_length, seq_length. lia.
Qed.
Lemma nth_uq : forall a c yc i, (i < length yc)%nat -> snd (fst (nth i (map (uq a c) yc) q0)) = unit_coef a c (snd (fst (nth i yc q0))).
Proof. intros a c yc i Hi. rewrite (nth_map_lt _ _ _ q0) by auto. reflexivity. Qed.
Lemma coef_columns : forall p a b c yc h, unit_change p a b -> length yc = h -> (forall i, (i < h)%nat -> length (snd (fst (nth i yc q0))) = p) -> forall i, (i < h)%nat ->
  col i (of_cols p (map (fun q => snd (fst q)) (map (uq a c) yc))) = unit_coef a c (col i (of_cols p (map (fun q => snd (fst q)) yc))) /\
  length (col i (of_cols p (map (fun q : R * list R * list R => snd (fst q)) yc))) = p.
Proof.
  intros p a b c yc h (La & _ & _) Hl HC i Hi. assert (N : forall l, (i < length l)%nat -> nth i (map (fun q : R * list R * list R => snd (fst q)) l) [] = snd (fst (nth i l q0))).
  { intros l Hi'. rewrite (nth_map_lt _ _ _ q0) by auto. reflexivity. }
  assert (E1 : col i (of_cols p (map (fun q => snd (fst q)) yc)) = snd (fst (nth i yc q0))).
  { rewrite col_of_cols; [apply N; lia|rewrite map_length; lia|]. rewrite N by lia. apply HC; auto. }
  rewrite E1. split; [|apply HC; auto]. rewrite <- nth_uq by lia. rewrite col_of_cols; [apply N; rewrite map_length; lia|rewrite !map_length; lia|].
  rewrite N by (rewrite map_length; lia). rewrite nth_uq by lia. unfold unit_coef. rewrite map2_length, HC by auto. lia.
Qed.

Lemma response_units : forall (env : pp_env R) prm s n c e v y k, pp_center_data prm = true -> pp_trim prm = 0 -> unit_centre (pp_center prm) -> unit_scale s -> 0 < c -> (2 <= n)%nat ->
  length v = n -> has_spread s v -> y = A1 v \/ y = A2 (map (fun x => [x]) v) ->
  exists yi my, response env prm s n k y = Ok (yi, my) /\ response env prm s n k (unit_arr c e y) = Ok (uy c (affine c e v) yi, c * my + e) /\
    yi_0 yi = v /\ length (yi_s yi) = n /\ (pp_center prm = CMean -> vmean (yi_s yi) = 0) /\ yi_kw yi = k /\ 0 < yi_sca yi.
Proof.
  intros env prm s n c e v y k Hcd Ht Hc Hs Hpos Hn Lv Hsp Hy. unfold response. cbv zeta. rewrite Hcd, Ht.
  assert (R1 : match y with A1 v0 => map (fun a => [a]) v0 | A2 Y => Y end = map (fun x => [x]) v) by (destruct Hy as [-> | ->]; reflexivity).
  assert (R2 : match unit_arr c e y with A1 v0 => map (fun a => [a]) v0 | A2 Y => Y end = units [c] [e] (map (fun x => [x]) v)).
  { destruct Hy as [-> | ->]; cbn [unit_arr]; [apply column_units|]. rewrite <- column_units. unfold affine. rewrite !map_map. reflexivity. }
  rewrite R1, R2. set (rows := map (fun x => [x]) v).
  assert (WR : wf n 1 rows) by (split; [unfold rows; rewrite map_length; auto|]; apply Forall_forall; intros r Hr; apply in_map_iff in Hr as (x & <- & _); reflexivity).
  assert (WU : wf n 1 (units [c] [e] rows)) by (apply units_wf; auto).
  assert (Hf : forall M, wf n 1 M -> (length M =? n)%nat = true /\ forallb (fun r : list R => (length r =? 1)%nat) M = true).
  { intros M W. split; [apply Nat.eqb_eq, (wf_length _ _ _ W)|]. apply forallb_forall; intros r Hr; apply Nat.eqb_eq; apply (wf_row n 1 M); auto. }
  destruct (Hf _ WR) as [-> ->], (Hf _ WU) as [-> ->]. cbn [negb].
  destruct (pp_scaled_units env (pp_center prm) s n 1 [c] [e] rows WR Hn (le_n 1) Hc Hs (unit_change1 c e Hpos)) as (m & w & Z & -> & -> & Lm & Lw & WZ & Hw & HM).
  { intros j Hj. assert (j = 0%nat) by lia. subst j. unfold rows. rewrite column_single. exact Hsp. }
  cbn [bind]. destruct m as [|m0 [|? ?]]; try discriminate Lm. destruct w as [|w0 [|? ?]]; try discriminate Lw.
  assert (C0 : col 0 rows = v) by (apply column_single). assert (C1 : col 0 (units [c] [e] rows) = affine c e v).
  { unfold rows. rewrite <- column_units. apply column_single. }
  rewrite C0, C1. eexists _, _. split; [reflexivity|]. split; [reflexivity|]. cbn [yi_0 yi_s]. split; [reflexivity|]. split; [rewrite col_length; apply (wf_length _ _ _ WZ)|]. split; [intros HC; apply HM; auto|]. split; [reflexivity|]. apply (Hw 0%nat). lia.
Qed.

Lemma loop_none : forall (env : pp_env R) k prm most kw n p sX sX' d E cs yc Rt, pp_loop env k prm most kw None None n p sX d E cs yc Rt = pp_loop env k prm most kw None None n p sX' d E cs yc Rt.
Proof.
  intros env k. induction k as [|k IH]; intros prm most kw n p sX sX' d E cs yc Rt; cbn [pp_loop]; [reflexivity|].
  destruct (direction env prm most kw d p E) as [d' [wo|e]]; cbn [bind]; [|reflexivity]. destruct (component _ _ _ _ _ _ _ _ _) as [cc|e]; cbn [bind]; [|reflexivity]. cbv zeta.
  destruct (rotations env p (cs ++ [cc])) as [R'|e]; cbn [bind]; [|reflexivity]. apply IH.
Qed.

Lemma units_fit_l : forall (env : pp_env R) prm d n p a b c e X f, unit_centre (pp_center prm) -> pp_center_data prm = true -> pp_scale_data prm = true -> pp_trim prm = 0 -> direct_fit prm n p ->
  is_matrix n p X -> (2 <= n)%nat -> (1 <= p)%nat -> (1 <= pp_ncomp (with_h prm (f_h f)))%nat -> unit_change p a b -> 0 < c ->
  (forall j, (j < p)%nat -> has_spread (pscale (pp_center prm)) (column j X)) ->
  (f_y f = YNone \/ pp_regopt prm <> "quantile"%string /\ exists v, length v = n /\ has_response (f_y f) v /\ has_spread (pscale (pp_center prm)) v) ->
  let '(q, d2, r) := pp_fit env prm d X f in
  let '(q', d2', r') := pp_fit env prm d (units a b X) (unit_fkw c e f) in
  q' = q /\ d2' = d2 /\
  match r, r' with
  | Ok m, Ok m' => same_in_units a b c e (pp_ncomp (with_h prm (f_h f))) m m' /\ (pp_center prm = CMean -> scaled_icpt m' = scaled_icpt m)
  | Err e1, Err e2 => e1 = e2
  | _, _ => False
  end.
Proof.
  intros env prm d n p a b c e X f Hc Hcd Hsd Ht [Hw Hco] W Hn Hp Hh Hu Hpos HX HY.
  unfold pp_fit. cbn [unit_fkw f_y f_h f_bias]. cbn zeta. set (prm1 := with_h prm (f_h f)) in *.
  assert (Q : pp_idx prm1 = pp_idx prm /\ pp_trim prm1 = pp_trim prm /\ pp_regopt prm1 = pp_regopt prm /\ pp_center prm1 = pp_center prm /\
    pp_whiten prm1 = pp_whiten prm /\ pp_compress prm1 = pp_compress prm /\ pp_center_data prm1 = true /\ pp_scale_data prm1 = true) by (unfold prm1, with_h; destruct (f_h f); cbn; auto 10).
  destruct Q as (Q1 & Q2 & Q3 & Q4 & Q5 & Q6 & Q7 & Q8). rewrite Ht in Q2.
  assert (EW : with_whitening prm1 = prm1) by (unfold with_whitening; rewrite Q5, Hw; reflexivity). rewrite EW.
  destruct (ix_dicomo (pp_idx prm1) && _); [auto|]. destruct (ix_new (pp_idx prm1)) as [most|e1]; [|auto].
  pose proof Hu as (La & Lb & _). assert (WU : wf n p (units a b X)) by (apply units_wf; auto).
  rewrite (wf_length n p X W), (wf_ncols n p X), (wf_length n p _ WU), (wf_ncols n p _ WU) by (auto; lia).
  destruct (Nat.min n p <? pp_ncomp prm1)%nat eqn:EN; [auto|].
  assert (Hs : scale_name prm1 = Ok (pscale (pp_center prm)) /\ unit_scale (pscale (pp_center prm))).
  { unfold scale_name. rewrite Q4, Q8. destruct Hc as [-> | ->]; (split; [reflexivity|]); unfold unit_scale; cbn; auto. }
  destruct Hs as [-> Hs]. rewrite Q6.
  assert (EC : ((n <? p)%nat && pp_compress prm) = false). { destruct Hco as [-> |H']; [apply andb_false_r|]. destruct (Nat.ltb_spec n p); [lia|reflexivity]. }
  rewrite EC. rewrite Q5, Hw, Q7, Q4, Q2.
  destruct (pp_scaled_units env (pp_center prm) (pscale (pp_center prm)) n p a b X W Hn Hp Hc Hs Hu HX) as (m & v & Z & -> & -> & Lm & Lv & WZ & Hv & HM).
  assert (HYi : exists yi, (match (match f_y f with YNone => None | YPos y => Some (false, y) | YKw y => Some (true, y) end) with
      | None => Ok None | Some (kwy, y) => bind (response env prm1 (pscale (pp_center prm)) n kwy y) (fun yi => Ok (Some yi)) end) = Ok yi /\
    exists yi' : option (yinfo R * R), (match (match match f_y f with YNone => YNone | YPos y => YPos (unit_arr c e y) | YKw y => YKw (unit_arr c e y) end with YNone => None | YPos y => Some (false, y) | YKw y => Some (true, y) end) with
      | None => Ok None | Some (kwy, y) => bind (response env prm1 (pscale (pp_center prm)) n kwy y) (fun yi => Ok (Some yi)) end) = Ok yi' /\
    match yi, yi' with
    | None, None => True
    | Some (y, my), Some (y', my') => exists w, y' = uy c (affine c e w) y /\ my' = c * my + e /\ yi_0 y = w /\ length w = n /\ length (yi_s y) = n /\ (pp_center prm = CMean -> vmean (yi_s y) = 0) /\ pp_regopt prm <> "quantile"%string
    | _, _ => False
    end).
  { destruct HY as [-> |(HR & w & Lw & (y & Ha & Hav) & Hsw)]; [exists None; split; [reflexivity|]; exists None; split; [reflexivity|exact I]|].
    assert (HRs : forall k, exists yi my, response env prm1 (pscale (pp_center prm)) n k y = Ok (yi, my) /\ response env prm1 (pscale (pp_center prm)) n k (unit_arr c e y) = Ok (uy c (affine c e w) yi, c * my + e) /\
      yi_0 yi = w /\ length (yi_s yi) = n /\ (pp_center prm = CMean -> vmean (yi_s yi) = 0)).
    { intros k. destruct (response_units env prm1 (pscale (pp_center prm)) n c e w y k) as (yi & my & H1 & H2 & H3 & H4 & H5 & _); rewrite ?Q4; auto. rewrite Q4 in H5. exists yi, my. auto. }
    destruct Ha as [-> | ->]; [destruct (HRs false) as (yi & my & -> & -> & H3 & H4 & H5)|destruct (HRs true) as (yi & my & -> & -> & H3 & H4 & H5)]; cbn [bind]; eexists; (split; [reflexivity|]); eexists; (split; [reflexivity|]); cbn beta iota; exists w; auto 10. }
  destruct HYi as (yi & -> & yi' & -> & HYY).
  assert (EK : match yi' with Some (y, _) => Some (yi_s y) | None => None end = match yi with Some (y, _) => Some (yi_s y) | None => None end).
  { destruct yi as [[y my]|], yi' as [[y' my']|]; try contradiction; [|reflexivity]. destruct HYY as (w & -> & _). reflexivity. }
  rewrite EK. set (kw := index_kw prm1 (f_bias f) _). set (d1 := match pp_optim prm1 with OGrid => grid_options d | _ => d end).
  match goal with |- context [match ?chk with Ok _ => _ | Err _ => _ end] => destruct chk as [[]|e1]; [|auto] end.
  destruct yi as [[y my]|], yi' as [[y' my']|]; try contradiction.
  - destruct HYY as (w & -> & -> & Ew & Lw & Lys & Hm0 & Hq).
    pose proof (loop_units env (pp_ncomp prm1) prm1 most kw (Some y) c (affine c e w) n p a b v d1 Z [] [] (of_cols p []) ltac:(congruence) Hu Lv Hv) as HL. cbn [option_map map] in HL. rewrite HL. clear HL.
    destruct (pp_loop env (pp_ncomp prm1) prm1 most kw (Some y) None n p v d1 Z [] [] (of_cols p [])) as [d2 [[[cs yc] Rt]|e1]] eqn:EL; [|cbn [bind]; auto].
    destruct (coef_lengths _ _ _ _ _ _ _ _ _ _ _ _ _ _ _ WZ ltac:(lia) EL) as [Ly HC]. cbn [bind].
    pose proof (coef_columns p a b c yc (pp_ncomp prm1) Hu Ly HC) as HCC.
    assert (B1 : match yc with [] => vzeros p | _ :: _ => col (pp_ncomp prm1 - 1) (of_cols p (map (fun q => snd (fst q)) yc)) end = col (pp_ncomp prm1 - 1) (of_cols p (map (fun q => snd (fst q)) yc))) by (destruct yc; [cbn in Ly; lia|reflexivity]).
    assert (B2 : match map (uq a c) yc with [] => vzeros p | _ :: _ => col (pp_ncomp prm1 - 1) (of_cols p (map (fun q => snd (fst q)) (map (uq a c) yc))) end = col (pp_ncomp prm1 - 1) (of_cols p (map (fun q => snd (fst q)) (map (uq a c) yc)))) by (destruct yc; [cbn in Ly; lia|reflexivity]).
    rewrite B1, B2. clear B1 B2. destruct (HCC (pp_ncomp prm1 - 1)%nat ltac:(lia)) as [E1 E2]. rewrite E1.
    destruct (finish_units prm1 (pscale (pp_center prm)) n p a b c e X Z y (affine c e w) w (col (pp_ncomp prm1 - 1) (of_cols p (map (fun q => snd (fst q)) yc)))) as (i & b0 & b0' & fit & r & -> & -> & HB); rewrite ?Q4; auto.
    cbn [bind]. split; [reflexivity|]. split; [reflexivity|]. split.
    + split; [unfold same_components; cbn; auto 12|]. cbn [pm_y]. unfold same_response. cbn [ym_coef ym_coef_scaled ym_C ym_intercept ym_fitted ym_resid ym_loc ym_sca].
      assert (WC : forall l : list (R * list R * list R), length l = pp_ncomp prm1 -> is_matrix (length a) (pp_ncomp prm1) (of_cols p (map (fun q => snd (fst q)) l))).
      { intros l Hl. pose proof (wf_of_cols p (map (fun q : R * list R * list R => snd (fst q)) l)) as WO. rewrite map_length, Hl in WO. rewrite La. exact WO. }
      split; [apply WC, Ly|]. split; [apply WC; rewrite map_length; exact Ly|]. split; [intros i0 Hi0; rewrite !column_col; apply HCC; auto|]. rewrite !map_map. split; [reflexivity|]. split; [reflexivity|]. split; [exists i; split; reflexivity|]. split; [reflexivity|]. split; [exists r; split; reflexivity|]. split; reflexivity.
    + intros HCM. cbn. f_equal. apply HB. rewrite Q4. exact HCM.
  - rewrite (loop_none env (pp_ncomp prm1) prm1 most kw n p (unit_sca a v) v). destruct (pp_loop env (pp_ncomp prm1) prm1 most kw None None n p v d1 Z [] [] (of_cols p [])) as [d2 [[[cs yc] Rt]|e1]]; cbn [bind]; [|auto].
    split; [reflexivity|]. split; [reflexivity|]. split; [|reflexivity]. split; [unfold same_components; cbn; auto 12|exact I].
Qed.
